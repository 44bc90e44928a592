(** The bisection [exp10] against the real power of ten, and the decimal logarithm of [to_approx_string] against the real logarithm. *)
From Verif Require Import Base USpec SSpec UFacts UBig UFun UEq USqrt BBig BSpec BEq RBig RSpec REq RIeee RIter XFun RFmt RFmtP RFmtT RFmtQ RFmtS RFmtU RFmtV.
From Coq Require Import Reals Lra Psatz Qreals.
Local Open Scope R_scope.

Lemma ln_le a b : 0 < a -> a <= b -> ln a <= ln b.
Proof. intros H [L | ->]; [left; now apply ln_increasing | lra]. Qed.
Lemma ln_le_sub t : 0 < t -> ln t <= t - 1.
Proof.
  intros H. rewrite <- (ln_exp (t - 1)). apply ln_le; auto. destruct (Req_dec (t - 1) 0) as [E | N]; [rewrite E, exp_0; lra | pose proof (exp_ineq1 (t - 1) N); lra].
Qed.
Lemma sqrtZ n : (0 <= n)%Z -> IZR (Z.sqrt n) <= sqrt (IZR n) < IZR (Z.sqrt n) + 1.
Proof.
  intros H. pose proof (Z.sqrt_spec n H) as [S1 S2]. pose proof (Z.sqrt_nonneg n) as S0. apply IZR_le in S0, S1. apply IZR_lt in S2. rewrite mult_IZR in S1. rewrite mult_IZR, succ_IZR in S2.
  split.
  - rewrite <- (sqrt_square (IZR (Z.sqrt n))) by auto. now apply sqrt_le_1_alt.
  - rewrite <- (sqrt_square (IZR (Z.sqrt n) + 1)) by lra. apply sqrt_lt_1_alt. split; [now apply IZR_le | exact S2].
Qed.
Lemma T10_pos y : 0 < Rpower 10 y. Proof. apply exp_pos. Qed.
Lemma T10_ge1 y : 0 <= y -> 1 <= Rpower 10 y.
Proof. intros. rewrite <- (Rpower_O 10) by lra. apply Rle_Rpower; lra. Qed.
Lemma mid10 d S B p q : (4294967296 <= S)%Z -> (4294967296 <= B)%Z -> 0 <= p -> 0 <= q -> 0 <= d < 1 ->
  (1 - d) * (4294967296 * Rpower 10 p) <= IZR S <= 4294967296 * Rpower 10 p -> (1 - d) * (4294967296 * Rpower 10 q) <= IZR B <= 4294967296 * Rpower 10 q ->
  (1 - (d + / 4294967296)) * (4294967296 * Rpower 10 ((p + q) / 2)) <= IZR (Z.sqrt (S * B)) <= 4294967296 * Rpower 10 ((p + q) / 2).
Proof.
  intros HS HB Hp Hq Hd H1 H2. pose proof (sqrtZ (S * B) ltac:(nia)) as [S1 S2]. rewrite mult_IZR in S1, S2.
  set (y := Rpower 10 ((p + q) / 2)) in *. assert (Y : y * y = Rpower 10 p * Rpower 10 q). { unfold y. rewrite <- !Rpower_plus. f_equal. field. }
  assert (Y1 : 1 <= y) by (apply T10_ge1; lra). pose proof (T10_pos p) as Pp. pose proof (T10_pos q) as Pq. apply IZR_le in HS, HB.
  set (u := Rpower 10 p) in *. set (v := Rpower 10 q) in *. clearbody u v y.
  split.
  - assert (L : (1 - d) * (4294967296 * y) <= sqrt (IZR S * IZR B)).
    { rewrite <- (sqrt_square ((1 - d) * (4294967296 * y))) by nra. apply sqrt_le_1_alt.
      replace ((1 - d) * (4294967296 * y) * ((1 - d) * (4294967296 * y))) with ((1 - d) * (4294967296 * u) * ((1 - d) * (4294967296 * v))) by (transitivity ((1 - d) * (1 - d) * 4294967296 * 4294967296 * (y * y)); [rewrite Y |]; ring).
      apply Rmult_le_compat; try apply H1; try apply H2; apply Rmult_le_pos; nra. }
    replace ((1 - (d + / 4294967296)) * (4294967296 * y)) with ((1 - d) * (4294967296 * y) - y) by field. lra.
  - eapply Rle_trans; [exact S1 |]. rewrite <- (sqrt_square (4294967296 * y)) by nra. apply sqrt_le_1_alt.
    replace (4294967296 * y * (4294967296 * y)) with (4294967296 * u * (4294967296 * v)) by (transitivity (4294967296 * 4294967296 * (y * y)); [rewrite Y |]; ring).
    apply Rmult_le_compat; try apply H1; try apply H2; lra.
Qed.

Definition e10r (f : R) (j : Z) (s : bint * rat * bint * rat) : Prop :=
  let '(small, se, big, be) := s in exists S B p q, small = bof S /\ se = rof p /\ big = bof B /\ be = rof q /\ (4294967296 <= S <= B)%Z /\ (B <= 42949672960)%Z /\
    0 <= Q2R p <= f /\ f <= Q2R q /\ Q2R q - Q2R p = / 2 ^ (Z.to_nat j) /\
    (1 - IZR j * / 4294967296) * (4294967296 * Rpower 10 (Q2R p)) <= IZR S <= 4294967296 * Rpower 10 (Q2R p) /\
    (1 - IZR j * / 4294967296) * (4294967296 * Rpower 10 (Q2R q)) <= IZR B <= 4294967296 * Rpower 10 (Q2R q).

Lemma weaken10 d y z : 0 <= y -> (1 - d) * y <= z -> (1 - (d + / 4294967296)) * y <= z.
Proof. intros H1 H2. assert (0 <= / 4294967296 * y) by (apply Rmult_le_pos; lra). lra. Qed.

Lemma exp10_real f x : (0 <= f < 1)%Q -> exp10 (rof f) = Ok x -> (4294967296 <= x)%Z /\ (1 - / 10000000) * Rpower 10 (Q2R f) <= IZR x / 4294967296 <= Rpower 10 (Q2R f).
Proof.
  intros [F0 F1] HX. apply Qle_Rle in F0. apply Qlt_Rlt in F1. replace (Q2R 0) with 0 in F0 by (unfold Q2R; cbn; lra). replace (Q2R 1) with 1 in F1 by (unfold Q2R; cbn; lra).
  assert (L : returns (for_ 32 0 (exp10_body (rof f)) (mkB [0; 1]%Z false, rzero, bshift_left (bof 10) 1, rone)) (e10r (Q2R f) (0 + Z.of_nat 32))).
  { apply for_spec.
    - cbn [e10r]. exists 4294967296%Z, 42949672960%Z, 0%Q, 1%Q. split; [reflexivity |]. split; [reflexivity |]. split; [reflexivity |]. split; [reflexivity |].
      replace (Q2R 0) with 0 by (unfold Q2R; cbn; lra). replace (Q2R 1) with 1 by (unfold Q2R; cbn; lra). rewrite Rpower_O, Rpower_1 by lra. cbn [Z.to_nat pow].
      split; [lia |]. split; [lia |]. split; [lra |]. split; [lra |]. split; [lra |]. split; lra.
    - intros j [[[sm se] bg] be] Hj (S & B & p & q & -> & -> & -> & -> & H1 & H2 & H3 & H4 & H5 & H6 & H7). unfold exp10_body. rewrite Bmul. cbn [bind].
      assert (M0 : (4294967296 * 4294967296 <= S * B)%Z) by nia. assert (M1 : (S * B <= 42949672960 * 42949672960)%Z) by nia.
      rewrite Bsqrt by (rewrite Z.abs_eq by lia; apply top64_e10; lia). cbn [bind]. rewrite Radd. cbn [bind]. rewrite Rdiv_i32 by (unfold i32r; lia). cbn [bind]. rewrite REq.Rlt. cbn [bind].
      replace (Z.sgn (S * B) * Z.sqrt (Z.abs (S * B)))%Z with (Z.sqrt (S * B)) by (rewrite Z.abs_eq, Z.sgn_pos by lia; lia).
      assert (G1 : (S <= Z.sqrt (S * B))%Z). { rewrite <- (Z.sqrt_square S) at 1 by lia. apply Z.sqrt_le_mono. nia. }
      assert (G2 : (Z.sqrt (S * B) <= B)%Z). { rewrite <- (Z.sqrt_square B) at 2 by lia. apply Z.sqrt_le_mono. nia. }
      assert (QM : Q2R ((p + q) / inject_Z 2) = (Q2R p + Q2R q) / 2). { rewrite Q2R_div by discriminate. rewrite Q2R_plus. f_equal. f_equal. unfold Q2R, inject_Z. cbn. lra. }
      assert (J : 0 <= IZR j <= 31). { split; apply IZR_le; lia. }
      assert (J1 : 0 <= IZR j * / 4294967296 < 1) by (split; [apply Rmult_le_pos; lra | lra]).
      pose proof (mid10 (IZR j * / 4294967296) S B (Q2R p) (Q2R q) ltac:(lia) ltac:(lia) ltac:(lra) ltac:(lra) J1 H6 H7) as M. rewrite <- QM in M.
      assert (JE : IZR (j + 1) * / 4294967296 = IZR j * / 4294967296 + / 4294967296) by (rewrite plus_IZR; ring). rewrite <- JE in M.
      assert (P2 : / 2 ^ Z.to_nat (j + 1) = / 2 ^ Z.to_nat j / 2). { replace (Z.to_nat (j + 1)) with (Datatypes.S (Z.to_nat j)) by lia. cbn [pow]. field. apply pow_nonzero. lra. }
      pose proof (T10_pos (Q2R p)) as Pp. pose proof (T10_pos (Q2R q)) as Pq.
      assert (WS : (1 - IZR (j + 1) * / 4294967296) * (4294967296 * Rpower 10 (Q2R p)) <= IZR S) by (rewrite JE; apply weaken10; lra).
      assert (WB : (1 - IZR (j + 1) * / 4294967296) * (4294967296 * Rpower 10 (Q2R q)) <= IZR B) by (rewrite JE; apply weaken10; lra).
      apply returns_ok. destruct (qltb _ f) eqn:C; cbn [e10r].
      + apply qltb_lt, Qlt_Rlt in C. exists (Z.sqrt (S * B)), B, ((p + q) / inject_Z 2)%Q, q. repeat (split; [reflexivity |]). split; [lia |]. split; [lia |].
        split; [lra |]. split; [lra |]. split; [rewrite P2, <- H5, QM; field |]. split; [exact M |]. split; [exact WB | apply H7].
      + apply qltb_false, Qle_Rle in C. exists S, (Z.sqrt (S * B)), p, ((p + q) / inject_Z 2)%Q. repeat (split; [reflexivity |]). split; [lia |]. split; [lia |].
        split; [lra |]. split; [lra |]. split; [rewrite P2, <- H5, QM; field |]. split; [split; [exact WS | apply H6] | exact M]. }
  unfold exp10 in HX. change (bfrom_i32 10) with (Ok (bof 10)) in HX. cbn [bind] in HX. destruct L as ([[[sm se] bg] be] & E & S & B & p & q & -> & -> & -> & -> & H1 & H2 & H3 & H4 & H5 & H6 & _).
  rewrite E in HX. cbn [bind] in HX. rewrite unwrap_i64 in HX by lia. assert (S = x) by congruence. subst S. clear HX E.
  split; [lia |]. change (0 + Z.of_nat 32)%Z with 32%Z in *. change (Z.to_nat 32) with 32%nat in H5.
  assert (H5' : Q2R q - Q2R p = / 4294967296) by (rewrite H5; f_equal; cbn [pow]; lra). clear H5.
  assert (L10 : 0 < ln 10 <= 4).
  { split; [rewrite <- ln_1; apply ln_increasing; lra |]. rewrite <- (ln_exp 4). apply ln_le; [lra |]. pose proof (exp_ineq1 1 ltac:(lra)) as E1. replace 4 with ((1 + 1) + (1 + 1)) by lra. rewrite !exp_plus. set (g := exp 1) in *. assert (4 <= g * g) by nra. nra. }
  assert (LO : (1 - 4 / 4294967296) * Rpower 10 (Q2R f) <= Rpower 10 (Q2R p)).
  { replace (Q2R p) with (Q2R f + (Q2R p - Q2R f)) by lra. rewrite Rpower_plus. rewrite Rmult_comm. apply Rmult_le_compat_l; [left; apply T10_pos |].
    unfold Rpower. set (t := Q2R p - Q2R f) in *. assert (T : - / 4294967296 <= t <= 0) by (unfold t; lra).
    assert (X : 1 + t * ln 10 <= exp (t * ln 10)) by (destruct (Req_dec (t * ln 10) 0) as [-> | N]; [rewrite exp_0; lra | left; now apply exp_ineq1]). nra. }
  pose proof (T10_pos (Q2R f)) as Pf. pose proof (T10_pos (Q2R p)) as Pp. assert (HI : Rpower 10 (Q2R p) <= Rpower 10 (Q2R f)) by (apply Rle_Rpower; lra).
  set (g := Rpower 10 (Q2R f)) in *. set (h := Rpower 10 (Q2R p)) in *. clearbody g h. split; lra.
Qed.

Lemma ln_pow_Z n k : (0 < n)%Z -> (0 <= k)%Z -> ln (IZR (n ^ k)) = IZR k * ln (IZR n).
Proof.
  intros Hn. revert k. apply natlike_ind; [cbn; rewrite ln_1; lra |]. intros k Hk IH. rewrite Z.pow_succ_r, mult_IZR by auto.
  rewrite ln_mult; [| now apply IZR_lt | apply IZR_lt; apply Z.pow_pos_nonneg; lia]. rewrite IH, succ_IZR. ring.
Qed.
(** 2^70777 = 10^21306 + small *)
Lemma ln10_bounds : 70777 * ln 2 - / 131072 <= 21306 * ln 10 <= 70777 * ln 2.
Proof.
  destruct gap as (A & T & ET & EA & A0 & G1 & G2).
  assert (LT : ln (IZR T) = 70777 * ln 2). { rewrite <- ET. apply ln_pow_Z; [reflexivity | discriminate]. }
  assert (LA : ln (IZR A) = 21306 * ln 10). { rewrite <- EA. apply ln_pow_Z; [reflexivity | discriminate]. }
  clear ET EA. apply IZR_lt in A0. apply IZR_le in G1, G2. rewrite !mult_IZR in G2. rewrite <- LT, <- LA. split; [| now apply ln_le].
  assert (R : IZR T <= IZR A * (1 + / 131072)) by lra. apply ln_le in R; [| lra]. rewrite ln_mult in R by lra. pose proof (ln_le_sub (1 + / 131072) ltac:(lra)). lra.
Qed.
Lemma ln2_bounds : / 2 <= ln 2 <= 1.
Proof.
  split; [| pose proof (ln_le_sub 2 ltac:(lra)); lra]. pose proof (ln_le_sub (/ 2) ltac:(lra)) as H. rewrite ln_Rinv in H by lra. lra.
Qed.

Lemma ln_between n r k : (0 < n)%Z -> (0 <= k)%Z -> (0 <= r)%Z -> (2 ^ r <= n ^ k)%Z -> (n ^ k < 2 ^ (r + 2))%Z -> IZR r * ln 2 <= IZR k * ln (IZR n) <= (IZR r + 2) * ln 2.
Proof.
  intros Hn Hk Hr H1 H2. rewrite <- (ln_pow_Z n k) by auto. rewrite <- (ln_pow_Z 2 r) by (auto; reflexivity). replace (IZR r + 2) with (IZR (r + 2)) by (rewrite plus_IZR; lra). rewrite <- (ln_pow_Z 2 (r + 2)) by (try reflexivity; clear - Hr; lia).
  assert (P : (0 < 2 ^ r)%Z) by (apply Z.pow_pos_nonneg; lia). split; (apply ln_le; [apply IZR_lt; lia | apply IZR_le; lia]).
Qed.
Lemma log2_real x l : ~ (x == 0)%Q -> small_rat x -> log2_diff (rof x) = Ok (bof l) -> 
  0 < Rabs (Q2R x) /\ - (2 * ln 2) <= 4294967296 * ln (Rabs (Q2R x)) - IZR l * ln 2 <= 2 * ln 2.
Proof.
  intros Hx [Ln Ld] HL. pose proof (qn_nz x Hx) as Nz. pose proof (rof_den_pos x) as Dp. change (QDen (Qred x)) with (qd x) in Dp.
  remember (2 ^ 32)%Z as W eqn:EW. assert (W0 : IZR W = 4294967296) by (rewrite EW; reflexivity). assert (WP : (0 <= W)%Z) by (rewrite EW; discriminate).
  destruct (Blog2_acc_abs (qn x) W EW Nz Ln) as (rn & E1 & R1 & R2 & R3).
  destruct (Blog2_acc_abs (qd x) W EW ltac:(clear - Dp; lia)) as (rd & E2 & S1 & S2 & S3). { rewrite Z.abs_eq by (clear - Dp; lia). exact Ld. }
  rewrite (Z.abs_eq (qd x)) in S2, S3 by (clear - Dp; lia).
  assert (EL : l = (rn - rd)%Z).
  { unfold log2_diff in HL. rewrite rnum_rof, rden_rof, E1 in HL. cbn [bind] in HL. rewrite E2 in HL. cbn [bind] in HL. rewrite Bsub in HL. assert (Q : bof (rn - rd) = bof l) by congruence. apply (f_equal bval) in Q. rewrite !bof_val in Q. auto. }
  clear HL E1 E2 Ln Ld EW. assert (AN : (0 < Z.abs (qn x))%Z) by (clear - Nz; lia).
  pose proof (ln_between (Z.abs (qn x)) rn W AN WP (proj1 R1) R2 R3) as B1. pose proof (ln_between (qd x) rd W Dp WP (proj1 S1) S2 S3) as B2. clear R1 R2 R3 S1 S2 S3.
  assert (AB : Rabs (Q2R x) = IZR (Z.abs (qn x)) / IZR (qd x)).
  { assert (Q : (x == inject_Z (qn x) / inject_Z (qd x))%Q). { rewrite <- (Qred_correct x) at 1. generalize (Qred x). intros g. destruct g as [a b]. cbn [Qnum Qden]. unfold Qeq, Qdiv, Qmult, Qinv, inject_Z. cbn. lia. }
    rewrite (Qeq_eqR _ _ Q), Q2R_div by (intros Z0; unfold Qeq, inject_Z in Z0; cbn [Qnum Qden] in Z0; clear - Z0 Dp; lia).
    unfold Q2R, inject_Z. cbn [Qnum Qden]. rewrite Rinv_1, !Rmult_1_r. unfold Rdiv. rewrite Rabs_mult, abs_IZR. f_equal. apply Rabs_pos_eq. left. apply Rinv_0_lt_compat. now apply IZR_lt. }
  assert (PN : 0 < IZR (Z.abs (qn x))) by now apply IZR_lt. assert (PD : 0 < IZR (qd x)) by now apply IZR_lt.
  rewrite AB. split; [now apply Rdiv_lt_0_compat |]. unfold Rdiv. rewrite ln_mult, ln_Rinv by (auto; now apply Rinv_0_lt_compat). rewrite EL, minus_IZR. rewrite W0 in B1, B2. lra.
Qed.

Theorem far_real x D l f y e : ~ (x == 0)%Q -> small_rat x -> (1000 <= D)%Z -> log2_diff (rof x) = Ok (bof l) -> exp10 (rof f) = Ok y -> (0 <= f < 1)%Q ->
  (inject_Z e + f == inject_Z (l * 21306) / inject_Z (70777 * 4294967296))%Q ->
  (1000 * D * 4294967296 <= y * 1000000 + 7 * 4294967296)%Z -> (y * 1000000 < (1000 * D + 1000) * 4294967296)%Z ->
  Rabs (ln (IZR D / 1000) + IZR e * ln 10 - ln (Rabs (Q2R x))) <= / 400 + Rabs (ln (Rabs (Q2R x))) / 4000000000.
Proof.
  intros Hx Hs HD HL HY Hf He D1 D2. destruct (log2_real x l Hx Hs HL) as [X0 XL]. destruct (exp10_real f y Hf HY) as (Y0 & Y1 & Y2). clear HL HY.
  set (z := ln (Rabs (Q2R x))) in *. clearbody z. pose proof ln10_bounds as [C1 C2]. pose proof ln2_bounds as [L1 L2].
  assert (ER : IZR e + Q2R f = IZR l * 21306 / (70777 * 4294967296)).
  { apply Qeq_eqR in He. rewrite Q2R_plus, Q2R_div in He by discriminate. unfold Q2R at 1 3 4 in He. cbn [inject_Z Qnum Qden] in He. rewrite Rinv_1, !Rmult_1_r, !mult_IZR in He. exact He. }
  apply IZR_le in D1, Y0, HD. apply IZR_lt in D2. rewrite ?mult_IZR, ?plus_IZR, ?mult_IZR in D1, D2. change (IZR (7 * 4294967296)) with 30064771072 in D1.
  set (w := IZR y / 4294967296) in *. assert (W1 : 1 <= w) by (unfold w; lra). set (m := IZR D / 1000).
  assert (M1 : m <= w * (1 + 7 / 1000000)) by (unfold m; assert (IZR D / 1000 <= w + 7 / 1000000) by (unfold w; lra); lra).
  assert (M2 : w * (1 - / 1000) <= m) by (unfold m; assert (w - / 1000 <= IZR D / 1000) by (unfold w; lra); lra).
  assert (M0 : 1 <= m) by (unfold m; lra). clearbody m w.
  assert (LM1 : ln m <= ln w + 7 / 1000000). { apply ln_le in M1; [| lra]. rewrite ln_mult in M1 by lra. pose proof (ln_le_sub (1 + 7 / 1000000) ltac:(lra)). lra. }
  assert (LM2 : ln w - / 999 <= ln m). { apply ln_le in M2; [| lra]. rewrite ln_mult in M2 by lra. pose proof (ln_le_sub (/ (1 - / 1000)) ltac:(lra)) as K. rewrite ln_Rinv in K by lra. lra. }
  assert (LW1 : ln w <= Q2R f * ln 10). { apply ln_le in Y2; [| lra]. unfold Rpower in Y2. rewrite ln_exp in Y2. exact Y2. }
  assert (LW2 : Q2R f * ln 10 - / 9999999 <= ln w).
  { pose proof (T10_pos (Q2R f)) as P. apply ln_le in Y1; [| apply Rmult_lt_0_compat; lra]. rewrite ln_mult in Y1 by lra. unfold Rpower in Y1. rewrite ln_exp in Y1. pose proof (ln_le_sub (/ (1 - / 10000000)) ltac:(lra)) as K. rewrite ln_Rinv in K by lra. lra. }
  set (K := 21306 * ln 10) in *. assert (EK : (IZR e + Q2R f) * ln 10 = IZR l * K / (70777 * 4294967296)) by (rewrite ER; unfold K; field).
  assert (LB : Rabs (IZR l) <= 4294967296 * 2 * Rabs z + 2). { assert (LZ : Rabs (IZR l) * ln 2 <= 4294967296 * Rabs z + 2 * ln 2).
    { rewrite <- (Rabs_pos_eq (ln 2)) at 1 by lra. rewrite <- Rabs_mult. pose proof (Rle_abs z). pose proof (Rle_abs (- z)) as N. rewrite Rabs_Ropp in N. apply Rabs_le. lra. }
    clear - LZ L1. pose proof (Rabs_pos z). destruct (Rle_dec (Rabs (IZR l)) 2); [lra |]. assert ((Rabs (IZR l) - 2) * / 2 <= (Rabs (IZR l) - 2) * ln 2) by (apply Rmult_le_compat_l; lra). lra. }
  assert (KB : Rabs (IZR l * K - IZR l * (70777 * ln 2)) <= Rabs (IZR l) * / 131072). { replace (IZR l * K - IZR l * (70777 * ln 2)) with (IZR l * (K - 70777 * ln 2)) by ring. rewrite Rabs_mult. apply Rmult_le_compat_l; [apply Rabs_pos |]. apply Rabs_le. lra. }
  replace (IZR e * ln 10) with (IZR l * K / (70777 * 4294967296) - Q2R f * ln 10) by lra.
  pose proof (Rabs_pos z) as Pz. set (u := IZR l * K) in *. set (v := IZR l * ln 2) in *. replace (IZR l * (70777 * ln 2)) with (70777 * v) in KB by (unfold v; ring).
  pose proof (Rle_abs (u - 70777 * v)) as K1. pose proof (Rle_abs (- (u - 70777 * v))) as K2. rewrite Rabs_Ropp in K2. set (t := Q2R f * ln 10) in *. apply Rabs_le. clearbody u v t. lra.
Qed.
