(** [Ratio::shrink]: canonical result, size limit, relative error. *)
From Coq Require Import Zquot.
From Verif Require Import Base USpec UFacts UBig UStr UEq UFun UPow BBig BSpec BEq RBig RSpec REq.
Local Open Scope Z_scope.

Notation M := 18446744073709551616 (only parsing).
Lemma relerr n d n' d' : 0 < d -> 0 < d' -> Z.abs (n' * d - n * d') * M <= Z.abs n * d' ->
  (Qabs (inject_Z n' / inject_Z d' - inject_Z n / inject_Z d) * inject_Z M <= Qabs (inject_Z n / inject_Z d))%Q.
Proof.
  intros Hd Hd' H. destruct d as [| d |]; try lia. destruct d' as [| d' |]; try lia.
  unfold Qdiv, Qinv, inject_Z. cbn [Qnum Qden]. unfold Qminus, Qplus, Qopp, Qmult, Qabs, Qle. cbn [Qnum Qden].
  rewrite !Z.mul_1_r, !Pos.mul_1_l, !Pos.mul_1_r. rewrite Pos2Z.inj_mul.
  replace (n' * Z.pos d + - n * Z.pos d') with (n' * Z.pos d - n * Z.pos d') by ring.
  assert (0 < Z.pos d) by lia. set (X := Z.abs _) in *. clearbody X. nia.
Qed.
Lemma shift_err_nonneg n d K : 0 <= n -> 0 < d -> 0 < K -> M <= n / K -> M <= d / K ->
  Z.abs (n / K * d - n * (d / K)) * M <= n * (d / K).
Proof.
  intros Hn Hd HK H1 H2. pose proof (Z.div_mod n K ltac:(lia)). pose proof (Z.div_mod d K ltac:(lia)).
  pose proof (Z.mod_pos_bound n K HK). pose proof (Z.mod_pos_bound d K HK).
  set (n' := n / K) in *. set (d' := d / K) in *. set (r := n mod K) in *. set (t := d mod K) in *.
  replace (n' * d - n * d') with (n' * t - r * d') by (rewrite H, H0; ring). clearbody n' d' r t.
  assert (P1 : n' * t * M <= n * d'). { subst n. assert (t * M <= K * d') by nia. assert (n' * (t * M) <= n' * (K * d')) by (apply Z.mul_le_mono_nonneg_l; lia). nia. }
  assert (P2 : r * d' * M <= n * d'). { subst n. assert (r * M <= K * n' + r) by nia. assert (d' * (r * M) <= d' * (K * n' + r)) by (apply Z.mul_le_mono_nonneg_l; lia). nia. }
  assert (0 <= n' * t) by nia. assert (0 <= r * d') by nia. lia.
Qed.
Lemma shift_err n d K : 0 < d -> 0 < K -> M <= Z.abs (n ÷ K) -> M <= d ÷ K ->
  Z.abs (n ÷ K * d - n * (d ÷ K)) * M <= Z.abs n * (d ÷ K).
Proof.
  intros Hd HK H1 H2. rewrite (Z.quot_div_nonneg d) in * by lia. destruct (Z.le_gt_cases 0 n).
  - rewrite (Z.quot_div_nonneg n) in * by lia. rewrite (Z.abs_eq n) by lia. apply shift_err_nonneg; auto.
    assert (0 <= n / K) by (apply Z.div_pos; lia). lia.
  - pose (m := - n). assert (E : n = - m) by (unfold m; lia). clearbody m. subst n. rewrite Z.quot_opp_l in * by lia.
    rewrite (Z.quot_div_nonneg m) in * by lia. rewrite !Z.abs_opp in *. rewrite (Z.abs_eq m) by lia.
    assert (0 <= m / K) by (apply Z.div_pos; lia).
    rewrite <- (Z.abs_opp (_ - _)). replace (- (- (m / K) * d - - m * (d / K))) with (m / K * d - m * (d / K)) by ring.
    apply shift_err_nonneg; auto; lia.
Qed.
Lemma inv_err n d : 0 < d -> n <> 0 -> M <= Z.abs (d ÷ n) -> Z.abs (Z.sgn n * d - n * Z.abs (d ÷ n)) * M <= Z.abs n * Z.abs (d ÷ n).
Proof.
  intros Hd Hn H. assert (E : Z.abs (d ÷ n) = d / Z.abs n).
  { rewrite <- Z.quot_abs by auto. rewrite (Z.abs_eq d), Z.quot_div_nonneg by lia. reflexivity. }
  rewrite E in *. pose proof (Z.div_mod d (Z.abs n) ltac:(lia)). pose proof (Z.mod_pos_bound d (Z.abs n) ltac:(lia)).
  replace (Z.sgn n * d - n * (d / Z.abs n)) with (Z.sgn n * (d mod Z.abs n)).
  - rewrite Z.abs_mul. replace (Z.abs (Z.sgn n)) with 1 by lia. set (q := d / Z.abs n) in *. set (t := d mod Z.abs n) in *. clearbody q t. nia.
  - set (t := d mod _) in *. set (q := d / _) in *. assert (S : n = Z.sgn n * Z.abs n) by lia. set (sg := Z.sgn n) in *. set (a := Z.abs n) in *.
    clearbody t q sg a. subst d n. ring.
Qed.
Lemma int_err n d : 0 < d -> M <= Z.abs (n ÷ d) -> Z.abs (n ÷ d * d - n * 1) * M <= Z.abs n * 1.
Proof.
  intros Hd H. pose proof (Z.quot_rem' n d). pose proof (Z.rem_bound_abs n d ltac:(lia)).
  replace (n ÷ d * d - n * 1) with (- Z.rem n d) by lia. rewrite Z.abs_opp, Z.mul_1_r.
  assert (Z.abs n = d * Z.abs (n ÷ d) + Z.abs (Z.rem n d)).
  { rewrite <- Z.quot_abs, <- Z.rem_abs by lia. rewrite (Z.abs_eq d) by lia. apply Z.quot_rem. lia. }
  set (q := Z.abs (n ÷ d)) in *. set (r := Z.abs (Z.rem n d)) in *. clearbody q r. nia.
Qed.
Lemma red_small q n d : 0 < d -> Qnum q * d = n * QDen q -> qd q <= d /\ Z.abs (qn q) <= Z.abs n.
Proof.
  intros Hd E. pose proof (rof_parts q) as P. pose proof (rof_gcd q) as G.
  assert (C : qn q * d = n * qd q). { apply (Z.mul_cancel_r _ _ (QDen q)); [lia |]. 
    transitivity (qn q * QDen q * d); [ring |]. rewrite <- P. transitivity (Qnum q * d * qd q); [ring |]. rewrite E. ring. }
  assert (D : (qd q | d)). { apply (Z.gauss _ (qn q)). rewrite C. apply Z.divide_factor_r. rewrite Z.gcd_comm. exact G. }
  destruct D as [k K]. assert (0 < qd q) by lia. assert (1 <= k) by nia.
  assert (n = k * qn q) by nia. split; [nia |]. rewrite H1, Z.abs_mul. nia.
Qed.
Lemma blen_bof z : blen (bof z) = length (uof (Z.abs z)). Proof. reflexivity. Qed.
Lemma quot_abs_div n K : 0 < K -> Z.abs (n ÷ K) = Z.abs n / K.
Proof. intros. rewrite <- Z.quot_abs by lia. rewrite (Z.abs_eq K), Z.quot_div_nonneg by lia. reflexivity. Qed.

Definition fits (r : rat) (limit : nat) : Prop := Z.abs (bval (rnum r)) < 2 ^ (32 * Z.of_nat limit) /\ bval (rden r) < 2 ^ (32 * Z.of_nat limit).
Lemma fits_len n d limit : 0 <= d -> (1 <= limit)%nat -> fits (mkR (bof d) (bof n)) limit <-> (blen (bof n) <= limit)%nat /\ (blen (bof d) <= limit)%nat.
Proof.
  intros Hd Hl. unfold fits. cbn [rnum rden]. rewrite !bof_val, !blen_bof, !nlimbs_iff by lia. rewrite BB_pow2. rewrite (Z.abs_eq d) by lia. reflexivity.
Qed.
Lemma BB_div x k j : (k <= j)%nat -> BB j <= x -> BB (j - k) <= x / BB k.
Proof.
  intros H1 H2. apply Z.div_le_lower_bound; [apply BB_pos |]. replace (BB k * BB (j - k)) with (BB j); auto.
  rewrite !BB_pow2, <- Z.pow_add_r by lia. f_equal. lia.
Qed.
Lemma BB_mono j k : (j <= k)%nat -> BB j <= BB k.
Proof. intros. rewrite !BB_pow2. apply Z.pow_le_mono_r; lia. Qed.
Lemma BB_shr x l k limit : (l <= k + limit)%nat -> 0 <= x -> x < BB l -> x / BB k < BB limit.
Proof.
  intros Hl Hx Hb. pose proof (BB_pos k). apply Z.div_lt_upper_bound; [lia |]. eapply Z.lt_le_trans; [exact Hb |].
  rewrite !BB_pow2, <- Z.pow_add_r by lia. apply Z.pow_le_mono_r; lia.
Qed.
Lemma qval q : (q == inject_Z (qn q) / inject_Z (qd q))%Q.
Proof. rewrite (qred_eta q) at 1. rewrite Qmake_Qdiv, Z2Pos.id by lia. reflexivity. Qed.

Ltac s4 := split; [| split; [| split]].
Lemma Rshrink q limit : exists q' o, rshrink (rof q) limit = Ok (rof q', o) /\
  ((limit < 3)%nat -> q' = q /\ o = RErr 0%nat) /\
  ((3 <= limit)%nat -> match o with ROk _ => fits (rof q') limit | RErr _ => ~ fits (rof q') limit end) /\
  ((3 <= limit)%nat -> fits (rof q) limit -> q' = q /\ o = ROk 0%nat) /\
  (Qabs (q' - q) * inject_Z M <= Qabs q)%Q.
Proof.
  assert (R0 : (Qabs (q - q) * inject_Z M <= Qabs q)%Q).
  { assert (E : (q - q == 0)%Q) by ring. rewrite E. change (Qabs 0) with 0%Q. rewrite Qmult_0_l. apply Qabs_nonneg. }
  unfold rshrink. destruct (Nat.ltb_spec limit 3) as [L | L].
  { exists q, (RErr 0%nat). split; [reflexivity |]; s4; auto; lia. }
  rewrite rden_rof, rnum_rof. set (n := qn q). set (d := qd q). assert (Hd : 0 < d) by (unfold d; lia).
  assert (RQ : rof q = mkR (bof d) (bof n)) by reflexivity.
  pose proof (qval q) as V. fold n d in V.
  destruct (len_uof_bounds (Z.abs n) ltac:(lia)) as (N1 & N2 & N3). destruct (len_uof_bounds (Z.abs d) ltac:(lia)) as (D1 & D2 & D3).
  rewrite <- !blen_bof in *. rewrite Z.abs_eq in D2, D3 by lia.
  assert (Fq := fits_len n d limit ltac:(lia) ltac:(lia)). rewrite <- RQ in Fq.
  set (nl := blen (bof n)) in *. set (dl := blen (bof d)) in *.
  unfold subn. destruct (Nat.leb_spec limit (Nat.max nl limit)); [| lia]. destruct (Nat.leb_spec limit (Nat.max dl limit)); [| lia]. cbn [bind].
  set (s := Nat.max (Nat.max nl limit - limit) (Nat.max dl limit - limit)).
  destruct (Nat.eqb_spec s 0).
  { exists q, (ROk 0%nat). split; [reflexivity |]; s4; auto; try lia. intros _. apply Fq. lia. }
  assert (NF : ~ fits (rof q) limit) by (rewrite Fq; lia).
  pose proof (BB_pos s) as BBs. assert (BB2 : BB 2 = M) by reflexivity.
  destruct (Nat.ltb_spec (s + 2) (Nat.min nl dl)) as [L1 | L1].
  { assert (Qn : M <= Z.abs (n ÷ BB s)).
    { rewrite quot_abs_div by lia. apply Z.le_trans with (BB (nl - 1 - s)); [rewrite <- BB2; apply BB_mono; lia | apply BB_div; [lia | apply N3; lia]]. }
    assert (Qd : M <= d ÷ BB s).
    { rewrite Z.quot_div_nonneg by lia. apply Z.le_trans with (BB (dl - 1 - s)); [rewrite <- BB2; apply BB_mono; lia | apply BB_div; [lia | apply D3; lia]]. }
    rewrite !Bshr_mut. rewrite from_dn_ok_fit by lia. cbn [bind]. eexists _, _. split; [reflexivity |]. s4; try (intros; lia); try (intros; tauto).
    - intros _. set (q' := (_ / _)%Q). destruct (red_small q' (n ÷ BB s) (d ÷ BB s) ltac:(lia) (div_cross (inject_Z (n ÷ BB s)) (inject_Z (d ÷ BB s)) (d ÷ BB s) (n ÷ BB s) ltac:(lia) (Qeq_refl _))) as [S1 S2].
      apply fits_len; [lia | lia |]. rewrite !blen_bof, !nlimbs_iff by lia. 
      split.
      + eapply Z.le_lt_trans; [exact S2 |]. rewrite quot_abs_div by lia. apply (BB_shr _ nl); [unfold s; clear; lia | clear; lia | exact N2].
      + rewrite (Z.abs_eq (qd q')) by lia. eapply Z.le_lt_trans; [exact S1 |]. rewrite Z.quot_div_nonneg by lia. apply (BB_shr _ dl); [unfold s; clear; lia | clear - Hd; lia | exact D2].
    - rewrite V. apply relerr; [lia | lia |]. apply shift_err; lia. }
  destruct (Nat.ltb_spec (nl + 4) dl) as [L2 | L2].
  { assert (Nz : n <> 0). { intros C. assert (G := rof_gcd q). fold n d in G. rewrite C in G. rewrite Z.gcd_0_l, Z.abs_eq in G by lia.
      unfold dl in L2. rewrite G in L2. cbv [blen bof bmag] in L2. cbn in L2. lia. }
    assert (Qd : BB 4 <= Z.abs (d ÷ n)).
    { rewrite <- Z.quot_abs by auto. rewrite (Z.abs_eq d), Z.quot_div_nonneg by lia. apply Z.div_le_lower_bound; [lia |].
      apply Z.le_trans with (BB (dl - 1)); [| apply D3; lia]. apply Z.le_trans with (BB nl * BB 4). apply Z.mul_le_mono_nonneg_r; [|lia]. pose proof (BB_pos 4); lia.
      rewrite !BB_pow2, <- Z.pow_add_r by lia. apply Z.pow_le_mono_r; lia. }
    assert (M <= Z.abs (d ÷ n)). { rewrite <- BB2. pose proof (BB_mono 2 4 ltac:(lia)). lia. }
    rewrite Bdiv_mut by auto. cbn [bind]. rewrite Bneg.
    pose (q' := (inject_Z (Z.sgn n) / inject_Z (Z.abs (d ÷ n)))%Q).
    assert (Rq : (if d ÷ n <? 0 then mkR (babs_mut (bof (d ÷ n))) (bopp bone) else mkR (bof (d ÷ n)) bone) = mkR (bof (Z.abs (d ÷ n))) (bof (Z.sgn n))).
    { destruct (Z.lt_ge_cases n 0).
      - assert (d ÷ n <= 0). { replace n with (- - n) by lia. rewrite Z.quot_opp_r by lia. assert (0 <= d ÷ - n) by (apply Z.quot_pos; lia). lia. }
        destruct (Z.ltb_spec (d ÷ n) 0); [| lia]. rewrite Babs_mut, Z.sgn_neg by lia. reflexivity.
      - assert (0 <= d ÷ n) by (apply Z.quot_pos; lia).
        destruct (Z.ltb_spec (d ÷ n) 0); [lia |]. rewrite Z.abs_eq, Z.sgn_pos by lia. reflexivity. }
    assert (Rq' : mkR (bof (Z.abs (d ÷ n))) (bof (Z.sgn n)) = rof q').
    { apply rof_eq. lia. rewrite Z.gcd_comm, Z.gcd_abs_l. destruct n; [lia | apply Z.gcd_1_r | apply Z.gcd_1_r]. unfold q'. apply div_cross. lia. reflexivity. }
    rewrite Rq. destruct (Nat.leb_spec 1 nl); [| lia]. cbn [bind rden]. 
    exists q', (if (limit <? blen (bof (Z.abs (d ÷ n))))%nat then RErr (nl - 1)%nat else ROk (nl - 1)%nat).
    split; [now rewrite Rq' |]. s4; try (intros; lia); try (intros; tauto).
    - intros _. rewrite <- Rq'. assert (blen (bof (Z.sgn n)) = 1%nat) by (destruct n; reflexivity).
      destruct (Nat.ltb_spec limit (blen (bof (Z.abs (d ÷ n))))); rewrite fits_len; try lia; try lia.
    - rewrite V. apply relerr; [lia | lia |]. apply inv_err; auto. }
  destruct (Nat.ltb_spec (dl + 4) nl) as [L3 | L3].
  { assert (Qn : BB 4 <= Z.abs (n ÷ d)).
    { rewrite quot_abs_div by lia. apply Z.div_le_lower_bound; [lia |].
      apply Z.le_trans with (BB (nl - 1)); [| apply N3; lia]. apply Z.le_trans with (BB dl * BB 4). apply Z.mul_le_mono_nonneg_r; [|lia]. pose proof (BB_pos 4); lia.
      rewrite !BB_pow2, <- Z.pow_add_r by lia. apply Z.pow_le_mono_r; lia. }
    assert (M <= Z.abs (n ÷ d)). { rewrite <- BB2. pose proof (BB_mono 2 4 ltac:(lia)). lia. }
    rewrite Bdiv_mut by lia. cbn [bind]. 
    pose (q' := (inject_Z (n ÷ d) / inject_Z 1)%Q).
    assert (Rq' : mkR bone (bof (n ÷ d)) = rof q').
    { change bone with (bof 1). apply rof_eq. lia. apply Z.gcd_1_r. apply div_cross. lia. reflexivity. }
    destruct (Nat.leb_spec 1 dl); [| lia]. cbn [bind rden]. 
    exists q', (if (limit <? blen (bof (n ÷ d)))%nat then RErr (dl - 1)%nat else ROk (dl - 1)%nat).
    split; [now rewrite Rq' |]. s4; try (intros; lia); try (intros; tauto).
    - intros _. rewrite <- Rq'. change bone with (bof 1). assert (blen (bof 1) = 1%nat) by reflexivity.
      destruct (Nat.ltb_spec limit (blen (bof (n ÷ d)))); rewrite fits_len; try lia; try lia.
    - rewrite V. apply relerr; [lia | lia |]. apply int_err; auto. }
  exists q, (RErr 0%nat). split; [reflexivity |]; s4; auto; try lia; tauto.
Qed.
