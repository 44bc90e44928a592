(** Property theorems for the distance of [sqrt_iter], [tan_iter], [log_iter] and [pow_iter] to the real functions. *)
From Verif Require Import Base USpec UFacts UBig UFun UEq USqrt BBig BSpec BEq RBig RSpec REq ISpec RIter RIterP RIterL RReal RReal2 RReal3 RReal4 Props_R4 Props_R5.
From Coq Require Import Reals Lra Lia ZArith QArith Qabs Qreals.
Local Open Scope R_scope.

(** ** C84 *)
Theorem C84_sqrt_error : forall r k, rwf r -> (0 <= rval r)%Q ->
  (top64 (bval (rnum r) * 2 ^ (32 * (Z.of_nat k + 1))) < KSQ)%Z -> (top64 (bval (rden r) * 2 ^ (32 * (Z.of_nat k + 1))) < KSQ)%Z ->
  exists s, sqrt_iter r k = Ok s /\ rwf s /\ Rabs (Q2R (rval s) - sqrt (Q2R (rval r))) <= sqrt (Q2R (rval r)) * (3 / 2 / 2 ^ (16 * (k + 1))).
Proof.
  intros r k W Hr T1 T2. destruct (C34_sqrt_iter_partial r k W Hr T1 T2) as (s & E & Ws & S0 & S1 & S2). exists s. split; auto. split; auto.
  apply Qle_Rle in Hr, S0, S1, S2. rewrite RMicromega.Q2R_0 in Hr, S0. rewrite !Q2R_mult, Q2R_plus, Q2R_1 in S1, S2.
  assert (EP : Q2R (3 / qpw 2 (16 * (k + 1))) = 3 / 2 ^ (16 * (k + 1))).
  { rewrite Q2R_div, Q2R_pw. { replace (Q2R 3) with 3 by (unfold Q2R; cbn; lra). replace (Q2R 2) with 2 by (unfold Q2R; cbn; lra). reflexivity. }
    intros H. apply Qeq_eqR in H. rewrite Q2R_pw, RMicromega.Q2R_0 in H. revert H. apply pow_nonzero. unfold Q2R. cbn. lra. }
  rewrite EP in S1, S2. set (p := 2 ^ (16 * (k + 1))) in *. assert (Pp : 0 < p) by (apply pow_lt; lra). replace (3 / 2 / p) with (3 / p / 2) by (field; lra). set (e := 3 / p) in *.
  assert (He : 0 < e) by (unfold e; apply Rdiv_lt_0_compat; lra). clearbody e p.
  set (x := Q2R (rval r)) in *. set (y := Q2R (rval s)) in *. pose proof (sqrt_sqrt x Hr) as Q. pose proof (sqrt_pos x) as Q0. set (z := sqrt x) in *. rewrite <- Q in S1, S2. clearbody x y z.
  assert (U : y <= z * (1 + e / 2)). { apply Rsqr_incr_0; unfold Rsqr; nra. }
  assert (V : z <= y * (1 + e / 2)). { apply Rsqr_incr_0; unfold Rsqr; nra. }
  apply Rabs_le. split; [| lra]. destruct (Rle_or_lt y z); nra.
Qed.

Lemma quot_err s c S C d : C <> 0 -> Rabs (s - S) <= d -> Rabs (c - C) <= d -> Rabs S <= 1 -> Rabs C <= 1 -> d < Rabs C -> c <> 0 /\ Rabs (s / c - S / C) <= 2 * d / ((Rabs C - d) * Rabs C).
Proof.
  intros HC Hs Hc S1 C1 Hd. assert (PC : 0 < Rabs C) by now apply Rabs_pos_lt. assert (D0 : 0 <= d) by (eapply Rle_trans; [apply Rabs_pos | exact Hs]).
  assert (Lc : Rabs C - d <= Rabs c). { pose proof (Rabs_triang (C - c) c) as T. replace (C - c + c) with C in T by ring. rewrite Rabs_minus_sym in T. lra. }
  assert (Nc : c <> 0) by (intros ->; rewrite Rabs_R0 in Lc; lra). split; auto.
  replace (s / c - S / C) with (((s - S) * C - S * (c - C)) / (c * C)) by (field; auto). unfold Rdiv at 1. rewrite Rabs_mult, Rabs_inv, Rabs_mult.
  assert (N : Rabs ((s - S) * C - S * (c - C)) <= 2 * d).
  { eapply Rle_trans; [apply Rabs_triang |]. rewrite Rabs_Ropp, !Rabs_mult. pose proof (Rabs_pos (s - S)). pose proof (Rabs_pos S). pose proof (Rabs_pos (c - C)). nra. }
  unfold Rdiv. apply Rmult_le_compat; auto using Rabs_pos. { left. apply Rinv_0_lt_compat. apply Rmult_lt_0_compat; lra. }
  apply Rinv_le_contravar; [apply Rmult_lt_0_compat; lra |]. apply Rmult_le_compat_r; lra.
Qed.
(** as long as the error of the cosine is below the cosine itself *)
Theorem C84_tan_error : forall r k, rwf r -> (k <= 255)%nat ->
  let x := Q2R (rval r) in let err := / INR (fact (4 * k + 4)) + (Rabs x + 1) * (64 / 45 / (16 ^ (2 * k + 2) * INR (16 * k + 17))) in
  err < Rabs (cos x) -> exists t, tan_iter r k = Ok t /\ rwf t /\ Rabs (Q2R (rval t) - tan x) <= 2 * err / ((Rabs (cos x) - err) * Rabs (cos x)).
Proof.
  intros r k W Hk x err He. destruct (C58_sin_cos_error r k W Hk) as (s & c & E1 & E2 & Ws & Wc & H1 & H2). fold x in H1, H2. fold err in H1, H2. clearbody err.
  assert (Cx : cos x <> 0). { intros H. rewrite H, Rabs_R0 in He. pose proof (Rabs_pos (Q2R (rval s) - sin x)). lra. }
  assert (B : Rabs (sin x) <= 1 /\ Rabs (cos x) <= 1) by (split; apply Rabs_le; [apply SIN_bound | apply COS_bound]).
  destruct (quot_err _ _ _ _ _ Cx H1 H2 (proj1 B) (proj2 B) He) as (Nc & Q).
  assert (Nc' : ~ (rval c == 0)%Q) by (intros H; apply Nc; apply Qeq_eqR in H; rewrite H; apply RMicromega.Q2R_0).
  destruct (C58_tan_iter r k s c E1 E2 Ws Wc Nc') as (t & E & Wt & V). exists t. split; auto. split; auto.
  apply Qeq_eqR in V. rewrite Q2R_mult in V. replace (Q2R (rval t)) with (Q2R (rval s) / Q2R (rval c)) by (rewrite <- V; field; auto). exact Q.
Qed.

(** what C37 says of ln_iter: the argument of the series and the error *)
Definition reduced (x : R) (L : Z) : Prop := 1 / 2 <= x / powerRZ 2 L * (1 + 1 / 2 ^ 28) /\ x / powerRZ 2 L <= 2 * (1 + 1 / 2 ^ 28).
Definition ln_err (x : R) (L : Z) (k : nat) : R := 3 * Rabs (x / powerRZ 2 L - 1) ^ (2 * k + 2) / INR (2 * k + 2) + Rabs (IZR L) / (2 ^ (6 * k + 12) * INR (6 * k + 13)).
Definition lnable (r : rat) : Prop := rwf r /\ (0 < rval r)%Q /\ (Z.of_nat (length (bmag (rnum r))) < 2 ^ 27)%Z /\ (Z.of_nat (length (bmag (rden r))) < 2 ^ 27)%Z.
Lemma ln_ok r k : lnable r -> (k <= 205)%nat -> exists s L, ln_iter r k = Ok s /\ rwf s /\ reduced (Q2R (rval r)) L /\ Rabs (Q2R (rval s) - ln (Q2R (rval r))) <= ln_err (Q2R (rval r)) L k.
Proof. intros (W & P & L1 & L2) Hk. destruct (C37_ln_error r k W P L1 L2 Hk) as (s & L & E & Ws & A & B & C). exists s, L. split; auto. split; auto. split; [split; auto | exact C]. Qed.
Theorem C84_log_error : forall b x k, lnable b -> lnable x -> (k <= 205)%nat ->
  exists L M, let X := Q2R (rval x) in let B := Q2R (rval b) in reduced X L /\ reduced B M /\
    (ln_err B M k < Rabs (ln B) -> exists u, log_iter b x k = Ok u /\ rwf u /\
       Rabs (Q2R (rval u) - ln X / ln B) <= (ln_err X L k + Rabs (ln X / ln B) * ln_err B M k) / (Rabs (ln B) - ln_err B M k)).
Proof.
  intros b x k Hb Hx Hk. destruct (ln_ok x k Hx Hk) as (s & L & E1 & Ws & R1 & D1). destruct (ln_ok b k Hb Hk) as (t & M & E2 & Wt & R2 & D2).
  exists L, M. cbv zeta. split; auto. split; auto. set (X := ln (Q2R (rval x))) in *. set (B := ln (Q2R (rval b))) in *. set (d1 := ln_err _ L k) in *. set (d2 := ln_err _ M k) in *. clearbody X B d1 d2. intros H.
  assert (D0 : 0 <= d2) by (eapply Rle_trans; [apply Rabs_pos | exact D2]). assert (NB : B <> 0) by (intros ->; rewrite Rabs_R0 in H; lra).
  set (T := Q2R (rval t)) in *. set (S := Q2R (rval s)) in *.
  assert (LT : Rabs B - d2 <= Rabs T). { pose proof (Rabs_triang (B - T) T) as Y. replace (B - T + T) with B in Y by ring. rewrite Rabs_minus_sym in Y. lra. }
  assert (NT : T <> 0) by (intros Z; rewrite Z, Rabs_R0 in LT; lra).
  assert (NT' : ~ (rval t == 0)%Q) by (intros Z; apply NT; unfold T; apply Qeq_eqR in Z; rewrite Z; apply RMicromega.Q2R_0).
  destruct (C37_log_iter b x k s t E1 E2 Ws Wt NT') as (u & E & Wu & V). exists u. split; auto. split; auto.
  apply Qeq_eqR in V. rewrite Q2R_mult in V. fold T S in V. replace (Q2R (rval u)) with (S / T) by (rewrite <- V; field; auto).
  replace (S / T - X / B) with (((S - X) - X / B * (T - B)) / T) by (field; auto). unfold Rdiv at 1. rewrite Rabs_mult, Rabs_inv.
  assert (N : Rabs (S - X - X / B * (T - B)) <= d1 + Rabs (X / B) * d2).
  { eapply Rle_trans; [apply Rabs_triang |]. rewrite Rabs_Ropp, Rabs_mult. apply Rplus_le_compat; auto. apply Rmult_le_compat_l; auto using Rabs_pos. }
  unfold Rdiv at 2. apply Rmult_le_compat; auto using Rabs_pos. { left. apply Rinv_0_lt_compat. lra. } apply Rinv_le_contravar; lra.
Qed.
(** the error of the logarithm, multiplied by the exponent, enters as a factor; d and c are those of exp_iter *)
Theorem C84_pow_error : forall a b k, lnable a -> rwf b -> (2 <= k <= 205)%nat ->
  exists l L, ln_iter a k = Ok l /\ rwf l /\ reduced (Q2R (rval a)) L /\ let n := qtrunc (rval b * rval l) in
    ((- 2 ^ 31 < n < 2 ^ 31)%Z -> exists s, pow_iter a b k = Ok s /\ rwf s /\
      let y := Rpower (Q2R (rval a)) (Q2R (rval b)) in let d := 3 / INR (fact (k + 1)) in let c := (1 - 1 / (INR (fact (19 + k)) * INR (19 + k))) ^ S (Z.abs_nat n) in
      let w := exp (Rabs (Q2R (rval b)) * ln_err (Q2R (rval a)) L k) in
      y / w * (1 - d) * c <= Q2R (rval s) <= y * w * (1 + d) / c).
Proof.
  intros a b k Ha Wb (Hk & Hk2). destruct (ln_ok a k Ha Hk2) as (l & L & E & Wl & Rd & D). exists l, L. split; auto. split; auto. split; auto. intros n Hn.
  destruct Ha as (Wa & Pa & _). assert (Na : ~ (rval a == 0)%Q) by (intros H; rewrite H in Pa; now apply Qlt_irrefl in Pa).
  destruct (proj2 (proj2 (C37_pow_iter a b k Wa Wb)) l Na E Wl Hn ltac:(lia)) as (s & Es & Ws & V). exists s. split; auto. split; auto. intros y d c w.
  pose proof (exp_value_R (rval b * rval l) k Hk) as X. apply Qeq_eqR in V. rewrite <- V in X. change (3 / INR (fact (k + 1))) with d in X. change ((1 - eps_e k) ^ exp_M (rval b * rval l)) with c in X. rewrite Q2R_mult in X.
  assert (Pc : 0 < c). { change c with ((1 - eps_e k) ^ exp_M (rval b * rval l)). apply pow_lt. pose proof (eps_e_bound k). lra. }
  assert (Pd : 0 <= d <= 1). { unfold d. assert (F : (6 <= fact (k + 1))%nat) by (change 6%nat with (fact 3); apply fact_le; lia). apply le_INR in F. cbn [INR] in F. replace (1 + 1 + 1 + 1 + 1 + 1) with 6 in F by lra. split; [left; apply Rdiv_lt_0_compat; lra |]. apply Rmult_le_reg_r with (INR (fact (k + 1))); [lra |]. unfold Rdiv. rewrite Rmult_assoc, Rinv_l by lra. lra. }
  set (bb := Q2R (rval b)) in *. set (la := Q2R (rval l)) in *. set (e := ln_err (Q2R (rval a)) L k) in *.
  assert (Y : y = exp (bb * ln (Q2R (rval a)))) by reflexivity. set (A := ln (Q2R (rval a))) in *.
  assert (M : Rabs (bb * (la - A)) <= Rabs bb * e) by (rewrite Rabs_mult; apply Rmult_le_compat_l; auto using Rabs_pos).
  assert (EX : exp (bb * la) = y * exp (bb * (la - A))) by (rewrite Y, <- exp_plus; f_equal; ring). rewrite EX in X.
  assert (Py : 0 < y) by (rewrite Y; apply exp_pos). assert (Pw : 0 < w) by apply exp_pos.
  assert (U : exp (bb * (la - A)) <= w). { unfold w. destruct (Rle_lt_or_eq_dec (bb * (la - A)) (Rabs bb * e)) as [G | G]; [eapply Rle_trans; [apply Rle_abs | exact M] | left; now apply exp_increasing | rewrite G; lra]. }
  assert (U2 : / w <= exp (bb * (la - A))). { unfold w. rewrite <- exp_Ropp. rewrite <- Rabs_Ropp in M. pose proof (Rle_abs (- (bb * (la - A)))) as G0. destruct (Rle_lt_or_eq_dec (- (Rabs bb * e)) (bb * (la - A))) as [G | G]; [lra | left; now apply exp_increasing | rewrite G; lra]. }
  set (v := exp (bb * (la - A))) in *. clearbody v c d w y. destruct X as (X1 & X2). split.
  - eapply Rle_trans; [| exact X1]. apply Rmult_le_compat_r; [lra |]. apply Rmult_le_compat_r; [lra |]. apply Rmult_le_compat_l; lra.
  - eapply Rle_trans; [exact X2 |]. apply Rmult_le_compat_r; [left; now apply Rinv_0_lt_compat |]. apply Rmult_le_compat_r; [lra |]. apply Rmult_le_compat_l; lra.
Qed.
Example C84_case : lnable (rof (5 # 2)) /\ reduced (5 / 2) 1.
Proof.
  split; [split; [apply rof_wf | split; [reflexivity | split; reflexivity]] |]. unfold reduced. change (powerRZ 2 1) with (2 * 1). split; lra.
Qed.
(** tan(1) with one round *)
Example C84_tan_case : exists t, tan_iter (rof 1) 1 = Ok t /\ Rabs (Q2R (rval t) - tan 1) <= 1 / 1000.
Proof.
  assert (V : Q2R (rval (rof 1)) = 1) by (rewrite (Qeq_eqR _ _ (rof_val 1)); apply Q2R_1).
  assert (C : 1 / 2 <= cos 1). { rewrite <- cos_PI3. left. apply cos_decreasing_1; pose proof PI_RGT_0; pose proof PI_4; pose proof PI2_3_2; lra. }
  pose proof (C84_tan_error (rof 1) 1 (rof_wf 1) ltac:(lia)) as T. cbv zeta in T. rewrite V in T. rewrite (Rabs_pos_eq 1), (Rabs_pos_eq (cos 1)) in T by lra.
  set (err := / INR (fact (4 * 1 + 4)) + (1 + 1) * (64 / 45 / (16 ^ (2 * 1 + 2) * INR (16 * 1 + 17)))) in T.
  assert (Er : 0 < err <= 1 / 20000).
  { unfold err. rewrite !INR_IZR_INZ. change (Z.of_nat (fact (4 * 1 + 4))) with 40320%Z. change (Z.of_nat (16 * 1 + 17)) with 33%Z. cbn [pow Nat.mul Nat.add]. lra. }
  clearbody err. destruct (T ltac:(lra)) as (t & E & _ & H). exists t. split; auto. eapply Rle_trans; [exact H |].
  assert (P : 1 / 5 <= (cos 1 - err) * cos 1) by nra. apply Rmult_le_reg_r with ((cos 1 - err) * cos 1); [lra |]. unfold Rdiv at 1. rewrite Rmult_assoc, Rinv_l by lra. lra.
Qed.
(** the base 2 meets the condition of C84_log_error after two rounds, whatever the reduction *)
Lemma p2_mono a b : (a <= b)%Z -> powerRZ 2 a <= powerRZ 2 b.
Proof. intros H. rewrite !powerRZ_Rpower by lra. apply Rle_Rpower; [lra | now apply IZR_le]. Qed.
Lemma red2 M : reduced 2 M -> (0 <= M <= 2)%Z.
Proof.
  intros [A B]. assert (P : 0 < powerRZ 2 M) by (apply powerRZ_lt; lra). assert (E : 2 / powerRZ 2 M * powerRZ 2 M = 2) by (field; lra). set (q := 2 / powerRZ 2 M) in *. clearbody q. split.
  - destruct (Z_le_gt_dec 0 M) as [H | H]; auto. exfalso. pose proof (p2_mono M (-1) ltac:(lia)) as K. change (powerRZ 2 (-1)) with (/ (2 * 1)) in K. nra.
  - destruct (Z_le_gt_dec M 2) as [H | H]; auto. exfalso. pose proof (p2_mono 3 M ltac:(lia)) as K. change (powerRZ 2 3) with (2 * (2 * (2 * 1))) in K. nra.
Qed.
Example C84_log_case : exists u, log_iter (rof 2) (rof (5 # 2)) 2 = Ok u /\ rwf u.
Proof.
  assert (N : lnable (rof 2)) by (split; [apply rof_wf | split; [reflexivity | split; reflexivity]]). destruct (C84_log_error (rof 2) (rof (5 # 2)) 2 N (proj1 C84_case) ltac:(lia)) as (L & M & _ & R2 & H).
  assert (V : Q2R (rval (rof 2)) = 2) by (rewrite (Qeq_eqR _ _ (rof_val 2)); unfold Q2R; cbn; lra). rewrite V in R2, H. apply red2 in R2. pose proof ln_lt_2 as L2.
  destruct H as (u & E & W & _); [| eauto]. rewrite (Rabs_pos_eq (ln 2)) by lra. eapply Rle_lt_trans; [| exact L2]. unfold ln_err. rewrite !INR_IZR_INZ. cbn [Nat.mul Nat.add Z.of_nat Pos.of_succ_nat Pos.succ].
  assert (M = 0 \/ M = 1 \/ M = 2)%Z as [-> | [-> | ->]] by lia.
  - change (powerRZ 2 0) with 1. replace (2 / 1 - 1) with 1 by lra. rewrite Rabs_R1, Rabs_R0, pow1. lra.
  - change (powerRZ 2 1) with (2 * 1). replace (2 / (2 * 1) - 1) with 0 by lra. rewrite Rabs_R0, Rabs_R1. cbn [pow]. lra.
  - change (powerRZ 2 2) with (2 * (2 * 1)). replace (2 / (2 * (2 * 1)) - 1) with (- / 2) by lra. rewrite Rabs_Ropp, !Rabs_pos_eq by lra. cbn [pow]. lra.
Qed.
Print Assumptions C84_sqrt_error.
Print Assumptions C84_tan_error.
Print Assumptions C84_log_error.
Print Assumptions C84_pow_error.
