(** Property theorems against the real numbers: the iteration functions and constants of Ratio, and the constants of F192, approximate e, pi, ln 2, exp, ln, sin, cos, asin, acos, atan. *)
From Verif Require Import Base BBig BSpec RBig RSpec REq ISpec RIter RIterP Props_R4 RReal RReal2 RReal3 RReal4 XNum XSpec XP1 XReal.
From Coq Require Import Reals Lra Lia Qreals Factorial Arith ZArith QArith.
From Coquelicot Require Import Coquelicot.
Local Open Scope R_scope.

(** ** C35 e_iter: below e, by at most 1/((19+k)! (19+k)) *)
Theorem C35_e_error : forall k, (Z.of_nat k < 2 ^ 31 - 20)%Z -> exists r, e_iter k = Ok r /\ rwf r /\
  0 < exp 1 - Q2R (rval r) <= 1 / (INR (fact (19 + k)) * INR (19 + k)).
Proof.
  intros k Hk. destruct (C35_e_iter k Hk) as (r & E & W & V). exists r. split; [exact E |]. split; [exact W |]. apply Qeq_eqR in V. rewrite V. exact (E_bound k).
Qed.

(** ** C36 pi_iter and ln2_iter: below the limit, each iteration divides the error bound by more than 256 (64) *)
Theorem C36_pi_error : forall k, (k <= 255)%nat -> exists r, pi_iter k = Ok r /\ rwf r /\
  0 < PI - Q2R (rval r) <= 64 / 15 / (16 ^ (2 * k + 2) * INR (16 * k + 17)).
Proof.
  intros k Hk. destruct (proj1 (C36_pi_iter k) Hk) as (r & E & W & V). exists r. split; [exact E |]. split; [exact W |]. apply Qeq_eqR in V. rewrite V.
  pose proof (pi_bound (2 * k + 2)) as B. unfold pi_err in B. replace (16 * k + 17)%nat with (8 * (2 * k + 2) + 1)%nat by lia. exact B.
Qed.
Theorem C36_ln2_error : forall k, (k <= 205)%nat -> exists r, ln2_iter k = Ok r /\ rwf r /\
  0 < ln 2 - Q2R (rval r) <= 1 / (2 ^ (6 * k + 12) * INR (6 * k + 13)).
Proof.
  intros k Hk. destruct (proj1 (C36_ln2_iter k) Hk) as (r & E & W & V). exists r. split; [exact E |]. split; [exact W |]. apply Qeq_eqR in V. rewrite V.
  pose proof (ln2_bound (6 * k + 12)) as B. unfold ln2_err in B. replace (6 * k + 13)%nat with (6 * k + 12 + 1)%nat by lia. exact B.
Qed.

Theorem C36_increasing : forall k r s, (pi_iter k = Ok r -> pi_iter (S k) = Ok s -> (rval r < rval s)%Q) /\ (ln2_iter k = Ok r -> ln2_iter (S k) = Ok s -> (rval r < rval s)%Q).
Proof.
  assert (A : forall f n d, (forall i, (0 < f i)%Q) -> (qsum f n < qsum f (n + S d))%Q).
  { intros f n d H. induction d. replace (n + 1)%nat with (S n) by lia. cbn [qsum]. specialize (H n). Lqa.lra. rewrite Nat.add_succ_r. cbn [qsum]. specialize (H (n + S d)%nat). Lqa.lra. }
  intros k r s. split; intros E F.
  - destruct (le_lt_dec k 254) as [H | H]. 2:{ rewrite (proj2 (C36_pi_iter (S k))) in F by lia. discriminate. }
    destruct (proj1 (C36_pi_iter k) ltac:(lia)) as (r' & E' & _ & V). destruct (proj1 (C36_pi_iter (S k)) ltac:(lia)) as (s' & F' & _ & W). assert (r' = r) as -> by congruence. assert (s' = s) as -> by congruence. rewrite V, W.
    replace (2 * S k + 2)%nat with (2 * k + 2 + 2)%nat by lia. apply A. intros i. apply Rlt_Qlt. rewrite RMicromega.Q2R_0.
    assert (B : Q2R (bbp_term i) = IZR (bnum_z i) / IZR (bden_z i)). { rewrite <- bbp_frac. pose proof (bbp_sum_R (S i)) as U. pose proof (bbp_sum_R i) as L. unfold bbp_sum in U, L. cbn [qsum] in U. rewrite Q2R_plus, L in U. unfold bbp_rsum in U. cbn [rsum] in U. lra. }
    rewrite B. apply Rdiv_lt_0_compat; apply IZR_lt; [unfold bnum_z; lia | apply bden_pos].
  - destruct (le_lt_dec k 204) as [H | H]. 2:{ rewrite (proj2 (C36_ln2_iter (S k))) in F by lia. discriminate. }
    destruct (proj1 (C36_ln2_iter k) ltac:(lia)) as (r' & E' & _ & V). destruct (proj1 (C36_ln2_iter (S k)) ltac:(lia)) as (s' & F' & _ & W). assert (r' = r) as -> by congruence. assert (s' = s) as -> by congruence. rewrite V, W.
    replace (6 * S k + 12)%nat with (6 * k + 12 + 6)%nat by lia. apply A. intros i. unfold ln2_term. apply Qlt_shift_div_l. 2:{ reflexivity || (rewrite Qmult_0_l; reflexivity). }
    assert (0 < qnat (i + 1))%Q by (unfold qnat; change 0%Q with (inject_Z 0); rewrite <- Zlt_Qlt; lia). assert (0 < qpw 2 (i + 1))%Q by (apply qpw_pos; reflexivity). Lqa.nra.
Qed.

(** ** C54 the constants of consts.rs *)
Theorem C54_constants_error : 0 < PI - Q2R (rval pi_const) <= 1 / 10 ^ 20 /\ 0 < exp 1 - Q2R (rval e_const) <= 1 / 10 ^ 39 /\ 0 < ln 2 - Q2R (rval ln2_const) <= 1 / 10 ^ 25.
Proof.
  destruct C54_constants as (E1 & E2 & E3 & _).
  destruct (C36_pi_error 7 ltac:(lia)) as (p & F1 & _ & P1 & P2). destruct (C35_e_error 15 ltac:(lia)) as (e & F2 & _ & P3 & P4). destruct (C36_ln2_error 11 ltac:(lia)) as (l & F3 & _ & P5 & P6).
  assert (p = pi_const) as -> by congruence. assert (e = e_const) as -> by congruence. assert (l = ln2_const) as -> by congruence.
  rewrite zf_fact in P4. rewrite INR_IZR_INZ in P2, P4, P6. change (Z.of_nat (16 * 7 + 17)) with 129%Z in P2. change (Z.of_nat (19 + 15)) with 34%Z in P4. change (Z.of_nat (6 * 11 + 13)) with 79%Z in P6.
  change (2 * 7 + 2)%nat with 16%nat in P2. change (19 + 15)%nat with 34%nat in P4. change (6 * 11 + 12)%nat with 78%nat in P6.
  assert (Z : zf 34 = 295232799039604140847618609643520000000%Z) by (vm_compute; reflexivity). rewrite Z in P4.
  replace (16 ^ 16) with 18446744073709551616 in P2 by ring. replace (2 ^ 78) with 302231454903657293676544 in P6 by ring.
  replace (10 ^ 20) with 100000000000000000000 by ring. replace (10 ^ 39) with 1000000000000000000000000000000000000000 by ring. replace (10 ^ 25) with 10000000000000000000000000 by ring.
  lra.
Qed.

(** ** C37 exp_iter and ln_iter *)
(** relative error 3/(k+1)! from the series and one factor 1 - 1/((19+k)! (19+k)) for each power of e *)
Theorem C37_exp_error : forall r k, rwf r -> (2 <= k)%nat -> (Z.of_nat k < 2 ^ 31 - 20)%Z -> (- 2 ^ 31 < qtrunc (rval r) < 2 ^ 31)%Z ->
  exists s, exp_iter r k = Ok s /\ rwf s /\
    let x := Q2R (rval r) in let d := 3 / INR (fact (k + 1)) in let c := (1 - 1 / (INR (fact (19 + k)) * INR (19 + k))) ^ S (Z.abs_nat (qtrunc (rval r))) in
    exp x * (1 - d) * c <= Q2R (rval s) <= exp x * (1 + d) / c.
Proof.
  intros r k W Hk Hk2 HT. destruct (proj1 (C37_exp_iter r k W Hk2) HT) as (s & E & Ws & V). exists s. split; [exact E |]. split; [exact Ws |]. apply Qeq_eqR in V. rewrite V. exact (exp_value_R (rval r) k Hk).
Qed.
(** with a = x/2^L, between about 1/2 and 2: the error of the series plus |L| times the error of ln 2 *)
Theorem C37_ln_error : forall r k, rwf r -> (0 < rval r)%Q -> (Z.of_nat (length (bmag (rnum r))) < 2 ^ 27)%Z -> (Z.of_nat (length (bmag (rden r))) < 2 ^ 27)%Z -> (k <= 205)%nat ->
  exists s L, ln_iter r k = Ok s /\ rwf s /\
    let a := Q2R (rval r) / powerRZ 2 L in 1 / 2 <= a * (1 + 1 / 2 ^ 28) /\ a <= 2 * (1 + 1 / 2 ^ 28) /\
    Rabs (Q2R (rval s) - ln (Q2R (rval r))) <= 3 * Rabs (a - 1) ^ (2 * k + 2) / INR (2 * k + 2) + Rabs (IZR L) / (2 ^ (6 * k + 12) * INR (6 * k + 13)).
Proof.
  intros r k W Hr L1 L2 Hk. destruct (C37_ln_iter r k W Hr L1 L2 Hk) as (s & L & E & Ws & A & B & V). exists s, L. split; [exact E |]. split; [exact Ws |].
  assert (R2 : Q2R 2 = 2) by (unfold Q2R; cbn; lra). assert (N2 : ~ (2 == 0)%Q) by discriminate. assert (Ea : Q2R (rval r / 2 ^ L) = Q2R (rval r) / powerRZ 2 L). { rewrite Q2R_div by now apply Qpower_not_0. rewrite Q2R_power, R2 by auto. reflexivity. }
  cbv zeta in *. rewrite <- Ea. pose proof (ln_value_R (rval r) L (2 * k + 1) (6 * k + 12) Hr A) as K. apply Qeq_eqR in V. rewrite V.
  assert (T : Q2R (1 # 2 ^ 28) = 1 / 2 ^ 28). { unfold Q2R. cbn [Qnum Qden]. change (2 ^ 28)%positive with 268435456%positive. replace (2 ^ 28) with 268435456 by ring. reflexivity. }
  apply Qle_Rle in A, B. rewrite Q2R_mult, Q2R_plus, Q2R_1, T in A. rewrite !Q2R_mult, Q2R_plus, Q2R_1, T, R2 in B. replace (Q2R (1 # 2)) with (1 / 2) in A by (unfold Q2R; cbn; lra).
  split; [exact A |]. split; [exact B |]. unfold ln2_err in K. replace (2 * k + 1 + 1)%nat with (2 * k + 2)%nat in K by lia. replace (6 * k + 12 + 1)%nat with (6 * k + 13)%nat in K by lia.
  unfold Rdiv in K |- *. rewrite (Rmult_1_l (/ (2 ^ _ * _))) in K. exact K.
Qed.
(** so ln_iter converges to ln x unless the reduced argument reaches 2: inside [1/2, 3/2] every iteration gains a factor of four *)

(** ** C58 sin_iter and cos_iter *)
Theorem C58_sin_cos_error : forall r k, rwf r -> (k <= 255)%nat -> exists s c, sin_iter r k = Ok s /\ cos_iter r k = Ok c /\ rwf s /\ rwf c /\
  let x := Q2R (rval r) in let err := / INR (fact (4 * k + 4)) + (Rabs x + 1) * (64 / 45 / (16 ^ (2 * k + 2) * INR (16 * k + 17))) in
  Rabs (Q2R (rval s) - sin x) <= err /\ Rabs (Q2R (rval c) - cos x) <= err.
Proof.
  intros r k W Hk. destruct (C58_sin_cos_iter r k W Hk) as (p & s & c & E1 & Wp & E2 & E3 & Ws & Wc & S & C). exists s, c. split; [exact E2 |]. split; [exact E3 |]. split; [exact Ws |]. split; [exact Wc |].
  destruct (proj1 (C36_pi_iter k) Hk) as (p' & F1 & _ & VP). assert (p' = p) as -> by congruence.
  set (N := (2 * k + 2)%nat) in *. assert (HN : (2 <= N)%nat) by (unfold N; lia).
  assert (ERR : forall x, trig_err N x = / INR (fact (4 * k + 4)) + (Rabs x + 1) * (64 / 45 / (16 ^ N * INR (16 * k + 17)))).
  { intros x. unfold trig_err, pi_err. replace (2 * N)%nat with (4 * k + 4)%nat by (unfold N; lia). replace (8 * N + 1)%nat with (16 * k + 17)%nat by (unfold N; lia). f_equal. f_equal. field. split. apply not_0_INR. lia. apply pow_nonzero. lra. }
  cbv zeta. rewrite <- ERR. assert (PN : ~ (rval p == 0)%Q). { intros Z. rewrite VP in Z. apply Qeq_eqR in Z. pose proof (pi_bound N). pose proof (pi_err_small N HN). pose proof PI_gt3. rewrite RMicromega.Q2R_0 in Z. lra. }
  assert (T : forall j y, (rval r / rval p * rval p == inject_Z j * (rval p / 2) + y)%Q -> (- (rval p / 4) <= y <= rval p / 4)%Q ->
    Rabs (Q2R (turn_sin j y N) - sin (Q2R (rval r))) <= trig_err N (Q2R (rval r)) /\ Rabs (Q2R (turn_cos j y N) - cos (Q2R (rval r))) <= trig_err N (Q2R (rval r))).
  { intros j y X Y. apply trig_at; auto. - rewrite <- VP, <- X. field. auto. - rewrite <- VP. exact Y. }
  destruct S as (j & y & S1 & S2 & S3). destruct C as (j' & y' & C1 & C2 & C3). apply Qeq_eqR in S3, C3. rewrite S3, C3. split; [apply (T j y S1 S2) | apply (T j' y' C1 C2)].
Qed.

(** ** C59 asin_iter, acos_iter, atan_iter; (2n)!/(4^n n!^2) is the central binomial coefficient over 4^n *)
Theorem C59_asin_error : forall r k, rwf r -> (Z.of_nat k <= 643)%Z -> (- (1) <= rval r <= 1)%Q ->
  exists s, asin_iter r k = Ok s /\ rwf s /\ let n := (k + 2)%nat in
    Rabs (Q2R (rval s) - asin (Q2R (rval r))) <= INR (2 * n + 2) / INR (2 * n + 1) * (INR (fact (2 * n)) / (4 ^ n * INR (fact n) * INR (fact n))) * Rabs (Q2R (rval r)) ^ (2 * n + 1).
Proof.
  intros r k W Hk H. destruct (proj1 (C59_asin_iter_partial r k W Hk) H) as (s & E & Ws & V). exists s. split; [exact E |]. split; [exact Ws |]. apply Qeq_eqR in V. rewrite V. exact (asin_value_R (rval r) (k + 2) H).
Qed.
Theorem C59_acos_error : forall r k, rwf r -> (k <= 255)%nat -> (- (1) <= rval r <= 1)%Q ->
  exists s, acos_iter r k = Ok s /\ rwf s /\ let n := (k + 2)%nat in
    Rabs (Q2R (rval s) - acos (Q2R (rval r))) <= INR (2 * n + 2) / INR (2 * n + 1) * (INR (fact (2 * n)) / (4 ^ n * INR (fact n) * INR (fact n))) * Rabs (Q2R (rval r)) ^ (2 * n + 1)
      + 32 / 15 / (16 ^ (2 * k + 2) * INR (16 * k + 17)).
Proof.
  intros r k W Hk H. destruct (C59_acos_iter r k W Hk H) as (s & E & Ws & V). exists s. split; [exact E |]. split; [exact Ws |]. apply Qeq_eqR in V. rewrite V.
  pose proof (asin_value_R (rval r) (k + 2) H) as A. unfold asin_bnd, cb in A. pose proof (pi_bound (2 * k + 2)) as B. unfold pi_err in B. replace (8 * (2 * k + 2) + 1)%nat with (16 * k + 17)%nat in B by lia.
  cbv zeta. set (bound := (_ * _ * Rabs (Q2R (rval r)) ^ _)%R) in A |- *. clearbody bound. rewrite Q2R_minus, Q2R_div by discriminate. replace (Q2R 2) with 2 by (unfold Q2R; cbn; lra).
  assert (AC : acos (Q2R (rval r)) = PI / 2 - asin (Q2R (rval r))). { rewrite acos_asin; [reflexivity |]. destruct H as [H1 H2]. apply Qle_Rle in H1, H2. rewrite Q2R_opp, Q2R_1 in H1. rewrite Q2R_1 in H2. lra. } rewrite AC.
  replace (32 / 15 / (16 ^ (2 * k + 2) * INR (16 * k + 17))) with (64 / 15 / (16 ^ (2 * k + 2) * INR (16 * k + 17)) / 2). 2:{ field. split. apply not_0_INR. lia. apply pow_nonzero. lra. }
  apply Rabs_le_between in A. apply Rabs_le. lra.
Qed.
Theorem C59_atan_error : forall r k, rwf r -> (Z.of_nat k < 2 ^ 28)%Z -> ((k <= 255)%nat \/ (- (1) <= rval r <= 1)%Q) ->
  exists s, atan_iter r k = Ok s /\ rwf s /\ let x := Q2R (rval r) in
    Rabs (Q2R (rval s) - atan x) <= Rmin (Rabs x) (/ Rabs x) ^ (4 * k + 5) / INR (4 * k + 5) + (if Rle_dec (Rabs x) 1 then 0 else 32 / 15 / (16 ^ (2 * k + 2) * INR (16 * k + 17))).
Proof.
  intros r k W Hk H. destruct (C59_atan_iter r k W Hk H) as (s & E & Ws & V). exists s. split; [exact E |]. split; [exact Ws |]. apply Qeq_eqR in V. rewrite V.
  pose proof (atan_value_R (rval r) k) as A. unfold pi_err in A. replace (8 * (2 * k + 2) + 1)%nat with (16 * k + 17)%nat in A by lia.
  replace (64 / 15 / (16 ^ (2 * k + 2) * INR (16 * k + 17)) / 2) with (32 / 15 / (16 ^ (2 * k + 2) * INR (16 * k + 17))) in A. exact A. field. split. apply not_0_INR. lia. apply pow_nonzero. lra.
Qed.

(** ** C64 the constants of F192: nothing representable is nearer to the real constant *)
Theorem C64_pi : xnearest_R PI xPI /\ xnearest_R (PI / 2) xPI_OVER_2 /\ xnearest_R (PI / 3) xPI_OVER_3 /\ xnearest_R (PI / 4) xPI_OVER_4 /\ xnearest_R (PI / 6) xPI_OVER_6.
Proof.
  split. { eapply near_enc; [split; reflexivity | split; [discriminate | reflexivity] | exact PI_enc | vm_compute; reflexivity]. }
  split. { eapply near_enc; [split; reflexivity | split; [discriminate | reflexivity] | exact (enc_div _ _ _ 2 PI_enc) | vm_compute; reflexivity]. }
  split. { eapply near_enc; [split; reflexivity | split; [discriminate | reflexivity] | exact (enc_div _ _ _ 3 PI_enc) | vm_compute; reflexivity]. }
  split. { eapply near_enc; [split; reflexivity | split; [discriminate | reflexivity] | exact (enc_div _ _ _ 4 PI_enc) | vm_compute; reflexivity]. }
  eapply near_enc; [split; reflexivity | split; [discriminate | reflexivity] | exact (enc_div _ _ _ 6 PI_enc) | vm_compute; reflexivity].
Qed.
Theorem C64_e : xnearest_R (exp 1) xE.
Proof. eapply near_enc; [split; reflexivity | split; [discriminate | reflexivity] | exact E_enc | vm_compute; reflexivity]. Qed.
Theorem C64_ln : xnearest_R (ln 2) xLN_2 /\ xnearest_R (ln 3) xLN_3 /\ xnearest_R (ln 10) xLN_10.
Proof.
  split. { eapply near_enc; [split; reflexivity | split; [discriminate | reflexivity] | exact LN2_enc | vm_compute; reflexivity]. }
  split. { eapply near_enc; [split; reflexivity | split; [discriminate | reflexivity] | exact LN3_enc | vm_compute; reflexivity]. }
  eapply near_enc; [split; reflexivity | split; [discriminate | reflexivity] | exact LN10_enc | vm_compute; reflexivity].
Qed.
Theorem C64_sqrt : xnearest_R (sqrt 2) xSQRT_2 /\ xnearest_R (sqrt 3) xSQRT_3 /\ xnearest_R (sqrt 10) xSQRT_10 /\ xnearest_R (1 / sqrt 2) xONE_OVER_SQRT_2.
Proof.
  assert (forall z, Q2R (z # 1) = IZR z) as Z by apply Q2R_int.
  split. { rewrite <- (Z 2%Z). apply near_sqrt; [split; reflexivity | split; [discriminate | reflexivity] | discriminate | vm_compute; reflexivity]. }
  split. { rewrite <- (Z 3%Z). apply near_sqrt; [split; reflexivity | split; [discriminate | reflexivity] | discriminate | vm_compute; reflexivity]. }
  split. { rewrite <- (Z 10%Z). apply near_sqrt; [split; reflexivity | split; [discriminate | reflexivity] | discriminate | vm_compute; reflexivity]. }
  replace (1 / sqrt 2) with (sqrt (Q2R (1 # 2))). apply near_sqrt; [split; reflexivity | split; [discriminate | reflexivity] | discriminate | vm_compute; reflexivity].
  unfold Q2R. cbn [Qnum Qden]. rewrite Rmult_1_l, sqrt_inv. lra.
Qed.

(** ** the hypotheses of the theorems above are met *)
Example C37_error_case : rwf (rof (5 # 2)) /\ (- 2 ^ 31 < qtrunc (rval (rof (5 # 2))) < 2 ^ 31)%Z /\ (0 < rval (rof (5 # 2)))%Q /\ (length (bmag (rnum (rof (5 # 2)))) = 1)%nat /\ (length (bmag (rden (rof (5 # 2)))) = 1)%nat.
Proof. split; [apply rof_wf |]. repeat split; vm_compute; reflexivity. Qed.
Example C59_error_case : rwf (rof (- (1 # 2))) /\ (- (1) <= rval (rof (- (1 # 2))) <= 1)%Q.
Proof. split; [apply rof_wf |]. split; vm_compute; discriminate. Qed.

Print Assumptions C35_e_error.
Print Assumptions C36_pi_error.
Print Assumptions C36_ln2_error.
Print Assumptions C36_increasing.
Print Assumptions C54_constants_error.
Print Assumptions C37_exp_error.
Print Assumptions C37_ln_error.
Print Assumptions C58_sin_cos_error.
Print Assumptions C59_asin_error.
Print Assumptions C59_acos_error.
Print Assumptions C59_atan_error.
Print Assumptions C64_pi.
Print Assumptions C64_e.
Print Assumptions C64_ln.
Print Assumptions C64_sqrt.
