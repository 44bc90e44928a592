(** The text of a Ratio beyond 10^9990 or below 10^-9990: [exp10] and the branch [ta_extreme] of [to_approx_string] never panic. *)
From Coq Require Import Zquot Qpower Qfield.
From Coq Require Lqa.
From Verif Require Import Base USpec SSpec UFacts UBig UFun UStr UStrP UEq USqrt UPow UPrime USci ULog BBig BSpec BEq RBig RSpec REq RShrink RStr RStrP RIeee RIter RIterL XFun RFmt RFmtP RFmtT RFmtQ RFmtR RFmtS RFmtU.
Local Open Scope Z_scope.

Definition e10_inv (_ : Z) (s : bint * rat * bint * rat) : Prop :=
  let '(small, se, big, be) := s in exists S B p q, small = bof S /\ se = rof p /\ big = bof B /\ be = rof q /\ 4294967296 <= S <= B /\ B <= 42949672960.
Lemma top64_e10 m : 18446744073709551616 <= m <= 1844674407370955161600 -> top64 m < KSQ.
Proof.
  intros H. unfold top64. assert (L : length (uof m) = 3%nat).
  { pose proof (len_uof_mono 18446744073709551616 m ltac:(lia)) as L1. pose proof (len_uof_mono m 1844674407370955161600 ltac:(lia)) as L2.
    change (length (uof 18446744073709551616)) with 3%nat in L1. change (length (uof 1844674407370955161600)) with 3%nat in L2. lia. }
  rewrite L. change (BB (3 - 2)) with 4294967296. apply Z.div_lt_upper_bound; lia.
Qed.
Lemma exp10_ok f : exists x, exp10 (rof f) = Ok x /\ 4294967296 <= x <= 42949672960.
Proof.
  assert (L : returns (for_ 32 0 (exp10_body (rof f)) (mkB [0; 1] false, rzero, bshift_left (bof 10) 1, rone)) (e10_inv (0 + Z.of_nat 32))).
  { apply for_spec.
    - cbn [e10_inv]. exists 4294967296, 42949672960, 0%Q, 1%Q. split; [reflexivity |]. split; [reflexivity |]. split; [reflexivity |]. split; [reflexivity | lia].
    - intros j [[[sm se] bg] be] _ (S & B & p & q & -> & -> & -> & -> & H1 & H2). unfold exp10_body. rewrite Bmul. cbn [bind].
      assert (M0 : 4294967296 * 4294967296 <= S * B) by nia. assert (M1 : S * B <= 42949672960 * 42949672960) by nia.
      rewrite Bsqrt by (rewrite Z.abs_eq by lia; apply top64_e10; lia). cbn [bind]. rewrite Radd. cbn [bind]. rewrite Rdiv_i32 by (unfold i32r; lia). cbn [bind]. rewrite Rlt. cbn [bind].
      replace (Z.sgn (S * B) * Z.sqrt (Z.abs (S * B))) with (Z.sqrt (S * B)) by (rewrite Z.abs_eq, Z.sgn_pos by lia; lia).
      assert (G1 : S <= Z.sqrt (S * B)). { rewrite <- (Z.sqrt_square S) at 1 by lia. apply Z.sqrt_le_mono. nia. }
      assert (G2 : Z.sqrt (S * B) <= B). { rewrite <- (Z.sqrt_square B) at 2 by lia. apply Z.sqrt_le_mono. nia. }
      apply returns_ok. destruct (qltb _ f); cbn [e10_inv].
      + exists (Z.sqrt (S * B)), B. eexists _, _. repeat (split; [reflexivity |]). lia.
      + exists S, (Z.sqrt (S * B)). eexists _, _. repeat (split; [reflexivity |]). lia. }
  unfold exp10. change (bfrom_i32 10) with (Ok (bof 10)). cbn [bind]. destruct L as ([[[sm se] bg] be] & E & S & B & p & q & -> & -> & -> & -> & H1 & H2).
  rewrite E. cbn [bind]. rewrite unwrap_i64 by lia. exists S. split; [reflexivity | lia].
Qed.
Lemma exp10_0 : exp10 (rof 0) = Ok 4294967296. Proof. vm_compute. reflexivity. Qed.

(** the mantissa with up to three decimal places (convert.rs:279-287) *)
Definition mtext (D : Z) : list Z :=
  if Z.rem D 1000 =? 0 then fmt_sint (Z.quot D 1000)
  else if Z.rem D 100 =? 0 then fmt_sint (Z.quot D 1000) ++ [46] ++ fmt_sint (Z.rem (Z.quot D 100) 10)
  else if Z.rem D 10 =? 0 then fmt_sint (Z.quot D 1000) ++ [46] ++ zpad 2 (fmt_sint (Z.quot (Z.rem D 1000) 10))
  else fmt_sint (Z.quot D 1000) ++ [46] ++ zpad 3 (fmt_sint (Z.rem D 1000)).

Lemma to_dec z : Z.abs z < 2 ^ 66 -> bto_string_dec (bof z) = Ok (fmt_sint z).
Proof.
  intros H. unfold bto_string_dec, bsign. rewrite Bmag, Bneg. rewrite Eto_string_dec.
  2: lia. 2: { pose proof (len_uof_mono (Z.abs z) (2 ^ 66) ltac:(lia)) as L. change (length (uof (2 ^ 66))) with 3%nat in L. lia. }
  cbn [bind]. unfold fmt_sint. destruct (Z.ltb_spec z 0); cbn [app]; do 2 f_equal; try f_equal; lia.
Qed.

Lemma qtrunc_quot N D q : 0 < D -> (q == inject_Z N / inject_Z D)%Q -> qtrunc q = N ÷ D.
Proof.
  intros HD E. assert (C : Qnum q * D = N * QDen q).
  { assert (E' : (q * inject_Z D == inject_Z N)%Q) by (rewrite E; field; apply INJ0; lia). unfold Qeq, Qmult, inject_Z in E'. cbn [Qnum Qden] in E'. lia. }
  unfold qtrunc. rewrite <- (Z.quot_mul_cancel_r (Qnum q) (QDen q) D) by lia. rewrite C. rewrite (Z.mul_comm (QDen q)). apply Z.quot_mul_cancel_r; lia.
Qed.

(** convert.rs:269-290, from the fraction of the logarithm to the text *)
Lemma tail_ok sgn ex fr x : exp10 (rof fr) = Ok x -> 4294967296 <= x <= 42949672960 -> Z.abs ex < 2 ^ 66 ->
    exists D, (let* x := exp10 (rof fr) in
      let* d := bfrom_i64 (2 ^ 32) in let* n := bfrom_i64 x in let* r := from_dn d n in let* r := rmul_i32 r 1000000 in let* t := rtruncate_bi r in
      let* digits := unwrap (bto_i32 t) in
      let* digits := if 992 <? Z.rem digits 1000 then let* k := ssub 32 1000 (Z.rem digits 1000) in sadd 32 digits k else Ok digits in
      let digits := Z.quot digits 1000 in
      let text := mtext digits in
      let* e := bto_string_dec (bof ex) in Ok (sgn ++ text ++ [101] ++ e)) = Ok (sgn ++ mtext D ++ [101] ++ fmt_sint ex) /\ 1000 <= D <= 10000 /\ (x = 4294967296 -> D = 1000) /\
      1000 * D * 4294967296 <= x * 1000000 + 7 * 4294967296 /\ x * 1000000 < (1000 * D + 1000) * 4294967296.
Proof.
  intros X X1 X2. rewrite X. cbn [bind]. change (2 ^ 32) with 4294967296. rewrite Bfrom_i64 by lia. cbn [bind]. rewrite Bfrom_i64 by lia. cbn [bind].
    rewrite from_dn_ok by lia. cbn [bind]. rewrite Rmul_i32 by (unfold i32r; lia). cbn [bind]. rewrite Rtruncate_bi. cbn [bind].
    rewrite (qtrunc_frac (x * 1000000) 4294967296) by (try lia; rewrite inject_Z_mult; field; discriminate).
    assert (V : 1000000 <= x * 1000000 / 4294967296 <= 10000000). { split; [apply Z.div_le_lower_bound; lia |]. change 10000000 with (10000000 * 4294967296 / 4294967296). apply Z.div_le_mono; lia. }
    assert (V1 : x = 4294967296 -> x * 1000000 / 4294967296 = 1000000) by (intros ->; reflexivity).
    pose proof (Z.div_mod (x * 1000000) 4294967296 ltac:(lia)) as V2. pose proof (Z.mod_pos_bound (x * 1000000) 4294967296 ltac:(lia)) as V3.
    revert V V1 V2 V3. generalize (x * 1000000 / 4294967296) ((x * 1000000) mod 4294967296). intros v w V V1 V2 V3. rewrite unwrap_i32 by lia. cbn [bind].
    rewrite (Z.rem_mod_nonneg v 1000) by lia. pose proof (Z.mod_pos_bound v 1000 ltac:(lia)) as MB. pose proof (Z.div_mod v 1000 ltac:(lia)) as DM.
    set (dg := if 992 <? v mod 1000 then v + (1000 - v mod 1000) else v).
    assert (S : (if 992 <? v mod 1000 then let* k := ssub 32 1000 (v mod 1000) in sadd 32 v k else Ok v) = Ok dg).
    { unfold dg. destruct (992 <? v mod 1000); [| reflexivity]. unfold ssub. rewrite sres_ok by (change (2 ^ (32 - 1)) with 2147483648; lia). cbn [bind]. unfold sadd. apply sres_ok. change (2 ^ (32 - 1)) with 2147483648. lia. }
    rewrite S. cbn [bind]. cbv zeta. rewrite to_dec by auto. cbn [bind]. exists (dg ÷ 1000). split; [reflexivity |].
    assert (DB : 1000000 <= dg <= 10000000). { unfold dg. destruct (Z.ltb_spec 992 (v mod 1000)); [| lia]. assert (v / 1000 < 10000) by (apply Z.div_lt_upper_bound; lia). lia. }
    rewrite Z.quot_div_nonneg by lia. split; [split; [apply Z.div_le_lower_bound; lia | apply Z.div_le_upper_bound; lia] |].
    split; [intros Hx; specialize (V1 Hx); unfold dg; rewrite V1; reflexivity |].
    assert (DG : v <= dg <= v + 7) by (unfold dg; destruct (Z.ltb_spec 992 (v mod 1000)); lia).
    pose proof (Z.div_mod dg 1000 ltac:(lia)) as D1. pose proof (Z.mod_pos_bound dg 1000 ltac:(lia)) as D2. clear - V2 V3 DG D1 D2. lia.
Qed.
Lemma frac_flip q : (-1 < q <= 0)%Q -> ~ (q == 0)%Q -> (0 <= 1 - Qabs q < 1)%Q.
Proof.
  intros [H1 H2] N. rewrite (Qabs_neg q H2). apply Qle_lteq in H2 as [H2 | H2]; [split; Lqa.lra | contradiction].
Qed.
Lemma extreme_ok sgn l : Z.abs l < 2 ^ 64 -> let a := (l * 21306) ÷ (70777 * 4294967296) in 9990 < Z.abs a ->
  exists D e, ta_extreme sgn (bof l) = Ok (sgn ++ mtext D ++ [101] ++ fmt_sint e) /\ 1000 <= D <= 10000 /\ (0 <= l -> e = a) /\ (l < 0 -> e = a - 1 \/ e = a /\ D = 1000) /\
  exists f x, exp10 (rof f) = Ok x /\ (0 <= f < 1)%Q /\ (inject_Z e + f == inject_Z (l * 21306) / inject_Z (70777 * 4294967296))%Q /\
    1000 * D * 4294967296 <= x * 1000000 + 7 * 4294967296 /\ x * 1000000 < (1000 * D + 1000) * 4294967296.
Proof.
  intros Hl a Ha. change (2 ^ 64) with 18446744073709551616 in Hl.
  assert (A0 : 0 <= l -> 0 <= a) by (intros; apply Z.quot_pos; lia). assert (A1 : l < 0 -> a <= 0). { intros. unfold a. rewrite <- (Z.opp_involutive (l * 21306)), Z.quot_opp_l by lia. pose proof (Z.quot_pos (- (l * 21306)) (70777 * 4294967296)). lia. }
  assert (A2 : Z.abs a < 18446744073709551616). { unfold a. rewrite <- Z.quot_abs by lia. apply Z.quot_lt_upper_bound; lia. }
  set (L := (inject_Z (l * 21306) / inject_Z (70777 * 4294967296))%Q).
  assert (T : qtrunc L = a) by (apply qtrunc_quot; [lia | reflexivity]).
  unfold ta_extreme. change (70777 * 2 ^ 32) with (70777 * 4294967296). rewrite Bfrom_i64 by (split; reflexivity). cbn [bind]. rewrite Bmul_i32 by (unfold i32r; lia). cbn [bind].
  rewrite from_dn_ok by discriminate. cbn [bind]. fold L. rewrite Rtruncate_and_frac. cbn [bind]. rewrite T, Bneg, Ris_zero.
  set (fr := (L - inject_Z a)%Q).
  assert (FR : (fr == inject_Z (Z.rem (l * 21306) (70777 * 4294967296)) / inject_Z (70777 * 4294967296))%Q).
  { unfold fr, L, a. pose proof (Z.quot_rem' (l * 21306) (70777 * 4294967296)) as QR. rewrite QR at 1. rewrite inject_Z_plus, (inject_Z_mult _ ((l * 21306) ÷ _)). field. discriminate. }
  assert (FL : forall u : Z, - (70777 * 4294967296) < u -> (-1 < inject_Z u / inject_Z (70777 * 4294967296))%Q). { intros u Hu. apply Qlt_shift_div_l; [reflexivity |]. unfold Qlt, Qmult, Qopp, inject_Z. cbn [Qnum Qden]. lia. }
  assert (FU : forall u : Z, u < 70777 * 4294967296 -> (inject_Z u / inject_Z (70777 * 4294967296) < 1)%Q). { intros u Hu. apply Qlt_shift_div_r; [reflexivity |]. unfold Qlt, Qmult, inject_Z. cbn [Qnum Qden]. lia. }
  assert (FP : 0 <= l -> (0 <= fr < 1)%Q).
  { intros H. pose proof (Zrem_lt_pos_pos (l * 21306) (70777 * 4294967296) ltac:(lia) ltac:(lia)) as RB. rewrite FR. split; [| apply FU; lia]. apply Qle_shift_div_l; [reflexivity |]. unfold Qle, Qmult, inject_Z. cbn [Qnum Qden]. lia. }
  assert (FN : l < 0 -> (-1 < fr <= 0)%Q).
  { intros H. pose proof (Zrem_lt_neg_pos (l * 21306) (70777 * 4294967296) ltac:(lia) ltac:(lia)) as RB. rewrite FR. split; [apply FL; lia |]. apply Qle_shift_div_r; [reflexivity |]. unfold Qle, Qmult, inject_Z. cbn [Qnum Qden]. lia. }
  clear FR FL FU.
  destruct (Z.ltb_spec a 0) as [C | C]; [destruct (qeqb fr 0) eqn:Z0 |]; cbn [andb negb].
  - cbn [bind]. assert (F0 : (fr == 0)%Q) by now apply qeqb_eq. assert (F : rof fr = rof 0) by now apply rof_qeq. rewrite F.
    destruct (tail_ok sgn a 0%Q 4294967296 exp10_0 ltac:(lia) ltac:(lia)) as (D & E & HD & H1 & H2). exists D, a. split; [exact E |]. split; [exact HD |]. split; [reflexivity |]. split; [right; auto |].
    exists 0%Q, 4294967296. split; [exact exp10_0 |]. split; [split; [discriminate | reflexivity] |]. split; [| exact H2]. fold L. rewrite <- F0. unfold fr. ring.
  - rewrite Bsub_i32_mut by (unfold i32r; lia). cbn [bind]. rewrite Rabs_mut. change rone with (rof 1). rewrite Rsub. cbn [bind].
    destruct (exp10_ok (1 - Qabs fr)) as (x & X & X1). destruct (tail_ok sgn (a - 1) (1 - Qabs fr)%Q x X X1 ltac:(lia)) as (D & E & HD & H1 & H2). exists D, (a - 1). split; [exact E |]. split; [exact HD |]. split; [lia |]. split; [auto |].
    assert (NL : l < 0) by (clear - A0 C; lia). specialize (FN NL). assert (FA : (Qabs fr == - fr)%Q) by (apply Qabs_neg; apply FN).
    assert (NZ : ~ (fr == 0)%Q) by (intros NZ; apply qeqb_eq in NZ; congruence).
    exists (1 - Qabs fr)%Q, x. split; [exact X |]. split; [| split; [| exact H2]].
    + exact (frac_flip fr FN NZ).
    + fold L. rewrite FA. replace (a - 1) with (a + -1) by lia. rewrite inject_Z_plus. unfold fr. change (inject_Z (-1)) with (- (1))%Q. ring.
  - cbn [bind]. destruct (exp10_ok fr) as (x & X & X1). destruct (tail_ok sgn a fr x X X1 ltac:(lia)) as (D & E & HD & H1 & H2). exists D, a. split; [exact E |]. split; [exact HD |]. split; [reflexivity |]. split; [lia |].
    exists fr, x. split; [exact X |]. split; [apply FP; clear - A1 C Ha; lia |]. split; [| exact H2]. fold L. unfold fr. ring.
Qed.

Lemma fixdigs_spec k : forall r, 0 <= r < 10 ^ Z.of_nat k -> Forall digit (fixdigs k 10 r) /\ zval 10 0 (fixdigs k 10 r) = r /\ length (fixdigs k 10 r) = k.
Proof.
  induction k as [| k IH]; intros r Hr; [cbn in *; splits; auto; lia |].
  rewrite Nat2Z.inj_succ, Z.pow_succ_r in Hr by lia. cbn [fixdigs]. pose proof (Z.mod_pos_bound r 10 ltac:(lia)) as M. pose proof (Z.div_mod r 10 ltac:(lia)) as E.
  destruct (IH (r / 10)) as (F1 & F2 & F3). { split; [apply Z.div_pos; lia | apply Z.div_lt_upper_bound; lia]. } splits.
  - apply Forall_app. split; [exact F1 |]. constructor; [exact M | constructor].
  - rewrite zval_app, F2. cbn [zval]. lia.
  - rewrite app_length, F3. cbn. lia.
Qed.
(** the mantissa denotes its thousandths *)
Lemma mread z k r : 0 <= z -> (1 <= k)%nat -> 0 <= r < 10 ^ Z.of_nat k ->
  exists q, rread (fmt_uint 10 z ++ [46] ++ zpad k (fmt_uint 10 r)) = Some q /\ (q == inject_Z z + inject_Z r / inject_Z (10 ^ Z.of_nat k))%Q.
Proof.
  intros Hz Hk Hr. rewrite zpad_fix by (auto; lia). destruct (fixdigs_spec k r Hr) as (F1 & F2 & F3).
  destruct (rread_fixed false z (fixdigs k 10 r) Hz F1) as (q & R & V). exists q. split; [exact R |]. rewrite V, F2, F3. cbn [qsg]. ring.
Qed.
Lemma mtext_ok D : 1000 <= D <= 10000 -> exists q, rread (mtext D) = Some q /\ (q == inject_Z D / inject_Z 1000)%Q.
Proof.
  intros H. unfold mtext. rewrite !Z.rem_mod_nonneg, !Z.quot_div_nonneg by (try apply Z.mod_pos_bound; try (apply Z.quot_pos); lia).
  pose proof (Z.div_mod D 1000 ltac:(lia)) as E. pose proof (Z.mod_pos_bound D 1000 ltac:(lia)) as B.
  set (z := D / 1000) in *. set (r := D mod 1000) in *.
  assert (Z0 : 0 <= z) by (apply Z.div_pos; lia).
  assert (FS : forall n, 0 <= n -> fmt_sint n = fmt_uint 10 n) by (intros n Hn; unfold fmt_sint; destruct (Z.ltb_spec n 0); [lia | reflexivity]).
  assert (QD : forall k s (c : Z), 0 < c -> 0 < k -> k * c = 1000 -> r = s * c -> (inject_Z z + inject_Z s / inject_Z k == inject_Z D / inject_Z 1000)%Q).
  { intros k s c Hc Hk0 Ek Er. rewrite E, <- Ek, Er. rewrite inject_Z_plus, !inject_Z_mult. field. split; apply INJ0; lia. }
  destruct (Z.eqb_spec r 0) as [R0 | R0].
  { rewrite FS by auto. exists (inject_Z z). split; [exact (rread_int false z Z0) |]. rewrite E, R0, Z.add_0_r, inject_Z_mult. field. }
  destruct (Z.eqb_spec (D mod 100) 0) as [R1 | R1].
  { assert (S : (D / 100) mod 10 = r / 100 /\ r = (r / 100) * 100 /\ 0 <= r / 100 < 10).
    { clear FS QD. unfold r, z in *. clear r z. Z.to_euclidean_division_equations. lia. }
    destruct S as (S1 & S2 & S3). rewrite S1, !FS by lia. destruct (mread z 1 (r / 100) Z0 ltac:(lia) S3) as (q & Q1 & Q2).
    exists q. split; [| rewrite Q2; apply (QD 10 (r / 100) 100); lia]. rewrite <- Q1. do 3 f_equal. unfold zpad.
    destruct (fmt_uint 10 (r / 100)) as [| c u] eqn:F; [now apply fmt_nonnil in F | reflexivity]. }
  destruct (Z.eqb_spec (D mod 10) 0) as [R2 | R2].
  { assert (S : r = (r / 10) * 10 /\ 0 <= r / 10 < 100).
    { clear FS QD. unfold r, z in *. clear r z. Z.to_euclidean_division_equations. lia. }
    destruct S as (S2 & S3). rewrite !FS by lia. destruct (mread z 2 (r / 10) Z0 ltac:(lia) S3) as (q & Q1 & Q2).
    exists q. split; [exact Q1 | rewrite Q2; apply (QD 100 (r / 10) 10); lia]. }
  rewrite !FS by lia. destruct (mread z 3 r Z0 ltac:(lia) B) as (q & Q1 & Q2). exists q. split; [exact Q1 | rewrite Q2; apply (QD 1000 r 1); lia].
Qed.

Lemma mtext_head D : 1000 <= D <= 10000 -> exists c u, mtext D = c :: u /\ 48 <= c <= 57.
Proof.
  intros H. assert (Z0 : 0 <= D ÷ 1000) by (apply Z.quot_pos; lia).
  assert (F : forall w, exists c u, fmt_sint (D ÷ 1000) ++ w = c :: u /\ 48 <= c <= 57).
  { intros w. unfold fmt_sint. destruct (Z.ltb_spec (D ÷ 1000) 0); [lia |]. destruct (fmt_uint 10 (D ÷ 1000)) as [| c u] eqn:E; [now apply fmt_nonnil in E |].
    exists c, (u ++ w). split; [reflexivity |]. apply (dec_chars (D ÷ 1000)); auto. rewrite E. now left. }
  unfold mtext. destruct (_ =? 0); [rewrite <- (app_nil_r (fmt_sint _)); apply F |]. destruct (_ =? 0); [apply F |]. destruct (_ =? 0); apply F.
Qed.
Theorem approx_far x max_len : ~ (x == 0)%Q -> small_rat x ->
  ((forall l a, log2_diff (rof x) = Ok (bof l) -> log10_i64 (bof l) = Ok a -> -9990 <= a <= 9990) /\ (2 * inject_Z 10 ^ (- 9993) < Qabs x)%Q /\ (2 * Qabs x < inject_Z 10 ^ 9993)%Q \/
   exists m ex e q, rto_approx_string (rof x) max_len = Ok ((if qltb x 0 then [45] else []) ++ m ++ 101 :: ex) /\ rread m = Some q /\ (exists c u, m = c :: u /\ 48 <= c <= 57) /\ (1 <= q <= 10)%Q /\
     (exists D l f y, (q == inject_Z D / inject_Z 1000)%Q /\ log2_diff (rof x) = Ok (bof l) /\ exp10 (rof f) = Ok y /\ (0 <= f < 1)%Q /\
        (inject_Z e + f == inject_Z (l * 21306) / inject_Z (70777 * 4294967296))%Q /\
        1000 * D * 4294967296 <= y * 1000000 + 7 * 4294967296 /\ y * 1000000 < (1000 * D + 1000) * 4294967296) /\ snumeral 10 [] e ex /\
     (q * inject_Z 10 ^ e <= 20 * Qabs x)%Q /\ (Qabs x <= 20 * (q * inject_Z 10 ^ e))%Q).
Proof.
  intros Hx Hs. destruct (est_q x Hx Hs) as (l & a & E1 & E2 & Ra & Rl & A1 & A2).
  destruct (Z_le_gt_dec (Z.abs a) 9990) as [C | C]; [left |].
  { split; [| apply (near_range x l a A1 A2); lia]. intros l' a' F1 F2. assert (EL : bof l' = bof l) by congruence. rewrite EL in F2. assert (a' = a) by congruence. lia. }
  right.
  assert (Ea : (l * 21306) ÷ (70777 * 4294967296) = a).
  { pose proof E2 as F. unfold log10_i64 in F. rewrite Bmul_i32 in F by (unfold i32r; lia). cbn [bind] in F. rewrite Bdiv_i32 in F by (unfold i32r; lia). cbn [bind] in F. rewrite Bshr in F. change (BB 1) with 4294967296 in F.
    rewrite Z.quot_quot in F by lia. change (2 ^ 64) with 18446744073709551616 in Rl. rewrite unwrap_i64 in F; [congruence |].
    set (u := l * 21306) in *. assert (Z.abs (u ÷ (70777 * 4294967296)) < 9223372036854775808); [| lia]. rewrite <- Z.quot_abs by lia. apply Z.quot_lt_upper_bound; lia. }
  destruct (extreme_ok (if qltb x 0 then [45] else []) l Rl) as (D & e & T & HD & P1 & P2 & (f & y & P3)). { rewrite Ea. lia. }
  rewrite Ea in P1, P2. destruct (mtext_ok D HD) as (q & Q1 & Q2).
  assert (QB : (1 <= q <= 10)%Q). { rewrite Q2. split; [apply Qle_shift_div_l | apply Qle_shift_div_r]; try reflexivity; unfold Qle, Qmult, inject_Z; cbn [Qnum Qden]; lia. }
  exists (mtext D), (fmt_sint e), e, q. split.
  { unfold rto_approx_string. rewrite E1. cbn [bind]. rewrite E2. cbn [bind]. unfold sabs. rewrite s64 by lia. cbn [bind]. destruct (Z.ltb_spec 9990 (Z.abs a)); [| lia]. rewrite Ris_neg. exact T. }
  split; [exact Q1 |]. split; [now apply mtext_head |]. split; [exact QB |]. split; [exists D, l, f, y; split; [exact Q2 |]; split; [exact E1 | exact P3] |]. split; [apply fmt_sint_numeral |].
  assert (Pm : (inject_Z 10 ^ (a + 1) == 10 * inject_Z 10 ^ a)%Q) by (rewrite Qpower_plus by discriminate; change (inject_Z 10 ^ 1)%Q with (10 # 1); ring).
  assert (Pn : (inject_Z 10 ^ a == 10 * inject_Z 10 ^ (a - 1))%Q) by (replace a with (a - 1 + 1) at 1 by lia; rewrite Qpower_plus by discriminate; change (inject_Z 10 ^ 1)%Q with (10 # 1); ring).
  pose proof (pow10_pos e) as Pe. destruct QB as [QB1 QB2].
  assert (B1 : (inject_Z 10 ^ e <= q * inject_Z 10 ^ e)%Q). { rewrite <- (Qmult_1_l (inject_Z 10 ^ e)) at 1. apply Qmult_le_compat_r; [exact QB1 | now apply Qlt_le_weak]. }
  assert (B2 : (q * inject_Z 10 ^ e <= 10 * inject_Z 10 ^ e)%Q). { apply Qmult_le_compat_r; [exact QB2 | now apply Qlt_le_weak]. }
  assert (B3 : D = 1000 -> (q * inject_Z 10 ^ e == inject_Z 10 ^ e)%Q). { intros ->. rewrite Q2. field. }
  destruct (Z_lt_le_dec l 0) as [S | S].
  - destruct (A2 S) as (_ & _ & _ & H1 & H2). destruct (P2 S) as [-> | [-> HD1]].
    + revert B1 B2 Pn H1 H2. generalize (inject_Z 10 ^ a)%Q (inject_Z 10 ^ (a - 1))%Q. intros g h. generalize (q * h)%Q. intros; split; Lqa.lra.
    + specialize (B3 HD1). revert B3 Pn H1 H2. generalize (q * inject_Z 10 ^ a)%Q. generalize (inject_Z 10 ^ a)%Q (inject_Z 10 ^ (a - 1))%Q. intros; split; Lqa.lra.
  - destruct (A1 S) as (_ & _ & _ & H1 & H2). rewrite (P1 S) in *. revert B1 B2 Pm H1 H2. generalize (inject_Z 10 ^ a)%Q (inject_Z 10 ^ (a + 1))%Q. intros g h. generalize (q * g)%Q. intros; split; Lqa.lra.
Qed.
