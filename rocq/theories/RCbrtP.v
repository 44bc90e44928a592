(** cbrt_iter: one round is a Newton step with a relative error of at most 2^-128 *)
From Coq Require Import Zquot.
From Verif Require Import Base USpec UFacts UBig UStr UEq UFun UPow BBig BSpec BEq RBig RSpec REq RShrink UDiv UPrime ULog UMore UMoreP RCbrt.
Local Open Scope Z_scope.

Section G.
Variable m : Z.
Hypothesis Hm : 0 < m.
Lemma grelerr n d n' d' : 0 < d -> 0 < d' -> Z.abs (n' * d - n * d') * m <= Z.abs n * d' ->
  (Qabs (inject_Z n' / inject_Z d' - inject_Z n / inject_Z d) * inject_Z m <= Qabs (inject_Z n / inject_Z d))%Q.
Proof.
  intros Hd Hd' H. destruct d as [| d |]; try lia. destruct d' as [| d' |]; try lia.
  unfold Qdiv, Qinv, inject_Z. cbn [Qnum Qden]. unfold Qminus, Qplus, Qopp, Qmult, Qabs, Qle. cbn [Qnum Qden].
  rewrite !Z.mul_1_r, !Pos.mul_1_l, !Pos.mul_1_r. rewrite Pos2Z.inj_mul.
  replace (n' * Z.pos d + - n * Z.pos d') with (n' * Z.pos d - n * Z.pos d') by ring.
  assert (0 < Z.pos d) by lia. set (X := Z.abs _) in *. clearbody X.
  assert (X * m * Z.pos d <= Z.abs n * Z.pos d' * Z.pos d) by (apply Z.mul_le_mono_nonneg_r; lia). lia.
Qed.
Lemma gshift_err_nonneg n d K : 0 <= n -> 0 < d -> 0 < K -> m <= n / K -> m <= d / K ->
  Z.abs (n / K * d - n * (d / K)) * m <= n * (d / K).
Proof.
  intros Hn Hd HK H1 H2. pose proof (Z.div_mod n K ltac:(lia)). pose proof (Z.div_mod d K ltac:(lia)).
  pose proof (Z.mod_pos_bound n K HK). pose proof (Z.mod_pos_bound d K HK).
  set (n' := n / K) in *. set (d' := d / K) in *. set (r := n mod K) in *. set (t := d mod K) in *.
  replace (n' * d - n * d') with (n' * t - r * d') by (rewrite H, H0; ring). clearbody n' d' r t.
  assert (P1 : n' * t * m <= n * d'). { subst n. assert (t * m <= K * d') by (apply Z.mul_le_mono_nonneg; lia).
    assert (n' * (t * m) <= n' * (K * d')) by (apply Z.mul_le_mono_nonneg_l; lia). assert (0 <= r * d') by (apply Z.mul_nonneg_nonneg; lia). lia. }
  assert (P2 : r * d' * m <= n * d'). { subst n. assert (r * m <= K * n') by (apply Z.mul_le_mono_nonneg; lia).
    assert (d' * (r * m) <= d' * (K * n')) by (apply Z.mul_le_mono_nonneg_l; lia). assert (0 <= r * d') by (apply Z.mul_nonneg_nonneg; lia). lia. }
  assert (0 <= n' * t) by (apply Z.mul_nonneg_nonneg; lia). assert (0 <= r * d') by (apply Z.mul_nonneg_nonneg; lia).
  destruct (Z.abs_spec (n' * t - r * d')) as [(_ & ->) | (_ & ->)].
  - rewrite Z.mul_sub_distr_r. assert (0 <= r * d' * m) by (apply Z.mul_nonneg_nonneg; lia). lia.
  - rewrite Z.mul_opp_l, Z.mul_sub_distr_r. assert (0 <= n' * t * m) by (apply Z.mul_nonneg_nonneg; lia). lia.
Qed.
Lemma gshift_err n d K : 0 < d -> 0 < K -> m <= Z.abs (n ÷ K) -> m <= d ÷ K ->
  Z.abs (n ÷ K * d - n * (d ÷ K)) * m <= Z.abs n * (d ÷ K).
Proof.
  intros Hd HK H1 H2. rewrite (Z.quot_div_nonneg d) in * by lia. destruct (Z.le_gt_cases 0 n).
  - rewrite (Z.quot_div_nonneg n) in * by lia. rewrite (Z.abs_eq n) by lia. apply gshift_err_nonneg; auto.
    assert (0 <= n / K) by (apply Z.div_pos; lia). lia.
  - pose (w := - n). assert (E : n = - w) by (unfold w; lia). clearbody w. subst n. rewrite Z.quot_opp_l in * by lia.
    rewrite (Z.quot_div_nonneg w) in * by lia. rewrite !Z.abs_opp in *. rewrite (Z.abs_eq w) by lia.
    assert (0 <= w / K) by (apply Z.div_pos; lia).
    rewrite <- (Z.abs_opp (_ - _)). replace (- (- (w / K) * d - - w * (d / K))) with (w / K * d - w * (d / K)) by ring.
    apply gshift_err_nonneg; auto; lia.
Qed.
End G.

Lemma shr_lower z k j : 0 <= z -> (j + 1 + k <= length (uof z))%nat -> (1 <= j)%nat -> BB j <= z / BB k.
Proof.
  intros Hz Hl Hj. destruct (len_uof_bounds z Hz) as (_ & _ & L). specialize (L ltac:(lia)). pose proof (BB_pos k).
  apply Z.div_le_lower_bound; [lia |]. rewrite <- BB_add. eapply Z.le_trans; [| exact L]. unfold BB. apply Z.pow_le_mono_r; [reflexivity | lia].
Qed.
Lemma BB4 j : (4 <= j)%nat -> 2 ^ 128 <= BB j.
Proof. intros. change (2 ^ 128) with (BB 4). unfold BB. apply Z.pow_le_mono_r; [reflexivity | lia]. Qed.

Definition newton3 (x q : Q) : Q := q * (2 # 3) + x / inject_Z 3 / q / q.
Lemma cbrt_step x q i : ~ (q == 0)%Q -> exists q', cbrt_body (rof (x / inject_Z 3)) (rof (2 # 3)) i (rof q) = Ok (rof q') /\
  (Qabs (q' - newton3 x q) * inject_Z (2 ^ 128) <= Qabs (newton3 x q))%Q.
Proof.
  intros Hq. unfold cbrt_body. set (lp := Nat.min (blen (rden (rof q))) (blen (rnum (rof q)))).
  assert (LP : (1 <= lp)%nat).
  { unfold lp. rewrite rden_rof, rnum_rof, !blen_bof. destruct (len_uof_bounds (Z.abs (qd q)) ltac:(lia)) as (A & _).
    destruct (len_uof_bounds (Z.abs (qn q)) ltac:(lia)) as (C & _). lia. }
  clearbody lp. rewrite Rmul. cbn [bind]. rewrite Rdiv by auto. cbn [bind]. rewrite Rdiv by auto. cbn [bind]. rewrite Radd. cbn [bind].
  fold (newton3 x q). set (s := newton3 x q). clearbody s. rewrite rden_rof, rnum_rof, !blen_bof.
  assert (Hd : 0 < qd s) by apply rof_den_pos. rewrite (Z.abs_eq (qd s)) by lia.
  destruct (Nat.ltb_spec (lp + 4) (Nat.min (length (uof (qd s))) (length (uof (Z.abs (qn s)))))) as [L | L].
  2: { exists s. split; auto. setoid_replace (s - s)%Q with 0%Q by ring. cbn [Qabs]. rewrite Qmult_0_l. apply Qabs_nonneg. }
  set (ls := Nat.min (length (uof (qd s))) (length (uof (Z.abs (qn s))))) in *.
  rewrite subn_ok by lia. cbn [bind]. rewrite subn_ok by lia. cbn [bind]. set (k := (ls - lp - 4)%nat).
  rewrite !Bshr_mut. pose proof (BB_pos k) as PK.
  assert (A1 : 2 ^ 128 <= qd s ÷ BB k).
  { rewrite Z.quot_div_nonneg by lia. eapply Z.le_trans; [apply (BB4 (lp + 3)); lia |]. apply shr_lower; lia. }
  assert (A2 : 2 ^ 128 <= Z.abs (qn s ÷ BB k)).
  { rewrite quot_abs_div by lia. eapply Z.le_trans; [apply (BB4 (lp + 3)); lia |]. apply shr_lower; lia. }
  pose proof (gshift_err (2 ^ 128) ltac:(lia) (qn s) (qd s) (BB k) Hd PK A2 A1) as G.
  set (d' := qd s ÷ BB k) in *. set (n' := qn s ÷ BB k) in *. clearbody d' n'.
  exists (inject_Z n' / inject_Z d')%Q. assert (D0 : 0 < d') by lia. split.
  - apply Rfit; [lia |]. apply qcross; auto. destruct d' as [| d' |]; try lia. unfold Qdiv, Qinv, inject_Z, Qeq, Qmult. cbn. lia.
  - apply (grelerr (2 ^ 128)) in G; auto.
    assert (ES : (s == inject_Z (qn s) / inject_Z (qd s))%Q).
    { rewrite (qred_eta s) at 1. destruct (qd s) as [| d |]; try lia. unfold Qdiv, Qinv, inject_Z, Qeq, Qmult. cbn. lia. }
    rewrite ES. exact G.
Qed.
