(** Error bounds against the real functions for the values the iteration functions compute. *)
From Coq Require Import Reals Lra Lia Qreals Factorial Arith ZArith QArith.
From Coquelicot Require Import Coquelicot.
From Verif Require Import RSpec ISpec RReal RReal2 RReal3.
Local Open Scope R_scope.

Lemma Q2R_power x z : ~ (x == 0)%Q -> Q2R (x ^ z) = powerRZ (Q2R x) z.
Proof.
  intros H. destruct z as [| p | p].
  - cbn. apply Q2R_1.
  - replace (Zpos p) with (Z.of_nat (Pos.to_nat p)) by apply positive_nat_Z. fold (qpw x (Pos.to_nat p)). rewrite Q2R_pw. now rewrite <- pow_powerRZ.
  - change (x ^ Zneg p)%Q with (/ (x ^ Zpos p))%Q. rewrite Q2R_inv by now apply Qpower_not_0.
    change (powerRZ (Q2R x) (Zneg p)) with (/ Q2R x ^ Pos.to_nat p). f_equal.
    replace (Zpos p) with (Z.of_nat (Pos.to_nat p)) by apply positive_nat_Z. fold (qpw x (Pos.to_nat p)). now rewrite Q2R_pw.
Qed.
Lemma exp_int t : exp (IZR t) = powerRZ (exp 1) t.
Proof. rewrite powerRZ_Rpower by apply exp_pos. unfold Rpower. now rewrite ln_exp, Rmult_1_r. Qed.
Lemma Q2R_inj z : Q2R (inject_Z z) = IZR z. Proof. apply Q2R_Z. Qed.

(** ** e^t against E^t *)
Lemma abs_nat_pos p : Z.abs_nat (Zpos p) = Pos.to_nat p. Proof. reflexivity. Qed.
Lemma pw_le1 c n : 0 <= c <= 1 -> 0 <= c ^ n <= 1.
Proof. intros H. split. apply pow_le; lra. rewrite <- (pow1 n). apply pow_incr. lra. Qed.
Lemma epow_bound e0 E c t : 0 < c <= 1 -> 0 < e0 -> e0 * c <= E <= e0 ->
  powerRZ e0 t * c ^ Z.abs_nat t <= powerRZ E t <= powerRZ e0 t / c ^ Z.abs_nat t.
Proof.
  intros Hc He HE. assert (E0 : 0 < E) by nra. destruct t as [| p | p].
  - cbn. lra.
  - cbn [powerRZ]. rewrite abs_nat_pos. set (n := Pos.to_nat p). assert (P : 0 < c ^ n) by (apply pow_lt; lra). pose proof (pw_le1 c n). assert (0 < e0 ^ n) by now apply pow_lt. split.
    + rewrite <- Rpow_mult_distr. apply pow_incr. nra.
    + apply Rle_trans with (e0 ^ n). apply pow_incr. lra. apply Rle_div_r; [lra |]. nra.
  - cbn [powerRZ]. change (Z.abs_nat (Zneg p)) with (Pos.to_nat p). set (n := Pos.to_nat p). assert (P : 0 < c ^ n) by (apply pow_lt; lra). pose proof (pw_le1 c n) as P1. assert (0 < e0 ^ n) by now apply pow_lt. assert (0 < E ^ n) by now apply pow_lt.
    assert (U : E ^ n <= e0 ^ n) by (apply pow_incr; lra). assert (L : e0 ^ n * c ^ n <= E ^ n) by (rewrite <- Rpow_mult_distr; apply pow_incr; nra). split.
    + apply Rle_trans with (/ e0 ^ n). assert (0 < / e0 ^ n) by now apply Rinv_0_lt_compat. assert (c ^ n <= 1) by (apply P1; lra). nra. apply Rinv_le_contravar; lra.
    + unfold Rdiv. rewrite <- Rinv_mult. apply Rinv_le_contravar; nra.
Qed.

(** the approximate exponential: relative error 3/(k+1)! from the series and |t|+1 factors 1-eps from e *)
Definition exp_M (x : Q) : nat := S (Z.abs_nat (qtrunc x)).
Lemma qtrunc_frac x : (- (1) < x - inject_Z (qtrunc x) < 1)%Q.
Proof.
  unfold qtrunc. destruct x as [n d]. cbn [Qnum Qden]. pose proof (Z.quot_rem' n (Zpos d)) as E. pose proof (Z.rem_bound_abs n (Zpos d)) as B.
  set (q := Z.quot n (Zpos d)) in *. set (r := Z.rem n (Zpos d)) in *. unfold Qlt, Qminus, Qplus, Qopp, inject_Z. cbn. split; nia.
Qed.
Lemma exp_value_R x k : (2 <= k)%nat ->
  exp (Q2R x) * (1 - 3 / INR (fact (k + 1))) * (1 - eps_e k) ^ exp_M x <= Q2R (exp_value x k) <= exp (Q2R x) * (1 + 3 / INR (fact (k + 1))) / (1 - eps_e k) ^ exp_M x.
Proof.
  intros Hk. unfold exp_value, exp_M. pose proof (qtrunc_frac x) as F. set (t := qtrunc x) in *. set (f := (x - inject_Z t)%Q) in *. cbv zeta.
  assert (Ex : Q2R x = Q2R f + IZR t) by (unfold f; rewrite Q2R_minus, Q2R_inj; ring).
  assert (Fr : -1 < Q2R f < 1). { destruct F as [F1 F2]. apply Qlt_Rlt in F1, F2. rewrite Q2R_1 in F2. rewrite Q2R_opp, Q2R_1 in F1. lra. }
  pose proof (eps_e_bound k) as EB. pose proof (E_bound k) as KE. set (e := eps_e k) in *. pose proof exp_ineq1_le 1 as E2.
  assert (E0 : 0 < Q2R (E_ k)) by lra. assert (EN : ~ (E_ k == 0)%Q). { intros Z. apply Qeq_eqR in Z. lra. }
  assert (KE2 : exp 1 * (1 - e) <= Q2R (E_ k) <= exp 1) by nra.
  pose proof (epow_bound (exp 1) (Q2R (E_ k)) (1 - e) t ltac:(lra) ltac:(lra) KE2) as PB. rewrite <- exp_int in PB. rewrite <- Q2R_power in PB by auto.
  set (Et := Q2R (E_ k ^ t)) in *. set (m := Z.abs_nat t) in *. rewrite Q2R_mult. fold Et. set (c := 1 - e) in *.
  assert (CM : 0 < c ^ m) by (apply pow_lt; unfold c; lra). assert (CS : 0 < c ^ S m) by (apply pow_lt; unfold c; lra). assert (CLE : c ^ S m <= c ^ m) by (cbn; nra).
  set (D := 3 / INR (fact (k + 1))) in *. assert (HD : 0 < D <= 1 / 2).
  { unfold D. assert (6 <= INR (fact (k + 1))). { replace 6 with (INR 6) by (cbn; ring). apply le_INR. change 6%nat with (fact 3). apply fact_le. lia. } split. apply Rdiv_lt_0_compat; lra. apply Rle_div_l; lra. }
  rewrite Ex, exp_plus. pose proof (exp_pos (Q2R f)) as PF. pose proof (exp_pos (IZR t)) as PT. set (xf := exp (Q2R f)) in *. set (xt := exp (IZR t)) in *.
  assert (V : exists v, (Q2R (if Qle_bool (9 # 10) f then E_ k / exp_sum (1 - f) (k + 1) else exp_sum f (k + 1)) = v) /\ xf * (1 - D) * c <= v <= xf * (1 + D)).
  { eexists. split; [reflexivity |]. destruct (Qle_bool (9 # 10) f) eqn:Hf.
    - apply Qle_bool_imp_le in Hf. apply Qle_Rle in Hf. assert (H9 : 9 / 10 <= Q2R f) by (replace (9 / 10) with (Q2R (9 # 10)); [auto | unfold Q2R; cbn; lra]).
      assert (Eg : Q2R (1 - f) = 1 - Q2R f) by (rewrite Q2R_minus, Q2R_1; reflexivity). pose proof (exp_rem_pos (k + 1) (Q2R (1 - f)) ltac:(lra)) as [L U]. rewrite <- exp_sum_R in L, U. set (S := Q2R (exp_sum (1 - f) (k + 1))) in *.
      rewrite Eg in L, U. pose proof (fact_pos (k + 1)) as PFA. assert (IF : 0 < / INR (fact (k + 1))) by now apply Rinv_0_lt_compat.
      assert (G : 0 <= (1 - Q2R f) ^ (k + 1) <= 1) by (apply pw_le1; lra).
      assert (G2 : 0 <= (1 - Q2R f) ^ (k + 1) / INR (fact (k + 1)) <= D / 3). { unfold D, Rdiv. split. apply Rmult_le_pos; lra. replace (3 * / INR (fact (k + 1)) * / 3) with (1 * / INR (fact (k + 1))) by (field; lra). apply Rmult_le_compat_r; lra. }
      set (d := (1 - Q2R f) ^ (k + 1) / INR (fact (k + 1))) in *. assert (Xg : exp (1 - Q2R f) = exp 1 / xf). { unfold Rminus. rewrite exp_plus, exp_Ropp. reflexivity. } rewrite Xg in L, U.
      assert (U' : exp 1 / xf - S <= d * (exp 1 / xf)) by exact U. assert (L' : 0 <= exp 1 / xf - S) by (destruct G2; eapply Rle_trans; [exact H | exact L]).
      assert (S1 : exp 1 / xf * (1 - d) <= S <= exp 1 / xf) by lra. assert (PQ : 0 < exp 1 / xf) by (apply Rdiv_lt_0_compat; lra). assert (S0 : 0 < S) by nra.
      rewrite Q2R_div. 2:{ intros Z. apply Qeq_eqR in Z. unfold S in S0. lra. } fold S. unfold c in *. clear - KE2 S1 S0 HD G2 PF PQ EB E2 E0. set (w := exp 1) in *. set (E := Q2R (E_ k)) in *. clearbody w E xf S D d.
      assert (W : w = w / xf * xf) by (field; lra). set (g := w / xf) in *. clearbody g. split.
      + apply (Rle_div_r _ E S); [lra |]. apply Rle_trans with (w * (1 - e)); [| lra]. apply Rle_trans with (xf * (1 - D) * (1 - e) * g). { apply Rmult_le_compat_l; [| lra]. repeat apply Rmult_le_pos; lra. } rewrite W. assert (0 < g * xf) by nra. replace (xf * (1 - D) * (1 - e) * g) with (g * xf * (1 - e) * (1 - D)) by ring. assert (0 < g * xf * (1 - e)) by (apply Rmult_lt_0_compat; lra). nra.
      + apply Rle_div_l; [lra |]. apply Rle_trans with w; [lra |]. apply Rle_trans with (xf * (1 + D) * (g * (1 - d))). { rewrite W. assert (0 < g * xf) by nra. replace (xf * (1 + D) * (g * (1 - d))) with (g * xf * ((1 + D) * (1 - d))) by ring. assert (1 <= (1 + D) * (1 - d)) by nra. nra. } apply Rmult_le_compat_l; [| lra]. apply Rmult_le_pos; lra.
    - rewrite exp_sum_R. destruct (exp_frac (Q2R f) (k + 1) Fr ltac:(lia)) as [L U]. fold xf D in L, U. split; [| auto]. eapply Rle_trans; [| exact L]. unfold c. assert (0 <= xf * (1 - D)) by (apply Rmult_le_pos; lra). nra. }
  destruct V as (v & -> & VL & VU). destruct PB as [PL PU]. assert (Pc : 0 < c) by (unfold c; lra). assert (V0 : 0 <= xf * (1 - D) * c) by (repeat apply Rmult_le_pos; lra). split.
  - replace (xf * xt * (1 - D) * c ^ S m) with ((xf * (1 - D) * c) * (xt * c ^ m)) by (cbn; ring). apply Rmult_le_compat; auto. apply Rmult_le_pos; lra.
  - apply Rle_trans with ((xf * (1 + D)) * (xt / c ^ m)). { apply Rmult_le_compat; auto; try lra. apply Rle_trans with (xt * c ^ m); [| lra]. apply Rmult_le_pos; lra. }
    replace (xf * xt * (1 + D) / c ^ S m) with ((xf * (1 + D)) * (xt / c ^ S m)) by (field; lra). apply Rmult_le_compat_l. apply Rmult_le_pos; lra. unfold Rdiv. apply Rmult_le_compat_l; [lra |]. apply Rinv_le_contravar; lra.
Qed.

(** ** pi *)
Definition pi_err (N : nat) : R := 64 / 15 / (16 ^ N * INR (8 * N + 1)).
Lemma pi_bound N : 0 < PI - Q2R (bbp_sum N) <= pi_err N.
Proof. rewrite bbp_sum_R. apply pi_tail. Qed.
Lemma pi_err_small N : (2 <= N)%nat -> pi_err N <= 1 / 1000.
Proof.
  intros H. unfold pi_err. assert (16 ^ 2 <= 16 ^ N) by (apply Rle_pow; [lra | lia]). assert (17 <= INR (8 * N + 1)). { replace 17 with (INR 17) by (cbn; ring). apply le_INR. lia. }
  assert (4352 <= 16 ^ N * INR (8 * N + 1)). { replace 4352 with (16 ^ 2 * 17) by ring. apply Rmult_le_compat; lra. }
  apply Rle_div_l; lra.
Qed.
Lemma PI_gt3 : 31 / 10 < PI.
Proof. pose proof (pi_bound 2) as [L _]. assert (31 / 10 < Q2R (bbp_sum 2)); [| lra]. replace (31 / 10) with (Q2R (31 # 10)) by (unfold Q2R; cbn; lra). apply Qlt_Rlt. vm_compute. reflexivity. Qed.

(** ** ln *)
Definition ln2_err (N : nat) : R := 1 / (2 ^ N * INR (N + 1)).
Lemma ln2_bound N : 0 < ln 2 - Q2R (ln2_sum N) <= ln2_err N.
Proof.
  rewrite ln2_sum_R. destruct (ln_rem_neg N (1 / 2)) as [L U]; [lra |]. replace (1 - 1 / 2) with (/ 2) in L, U by lra. rewrite ln_Rinv in L, U by lra. unfold ln2_err.
  assert (0 < INR (N + 1)) by (apply lt_0_INR; lia). assert (P : 0 < 2 ^ N) by (apply pow_lt; lra).
  assert (E : (1 / 2) ^ (N + 1) = / (2 * 2 ^ N)). { unfold Rdiv. rewrite Rmult_1_l, pow_inv, pow_add. f_equal. cbn. ring. } rewrite E in L, U. split.
  - assert (0 < / (2 * 2 ^ N) / INR (N + 1)) by (apply Rdiv_lt_0_compat; [apply Rinv_0_lt_compat; lra | lra]). lra.
  - replace (1 / (2 ^ N * INR (N + 1))) with (/ (2 * 2 ^ N) / INR (N + 1) / / 2) by (field; lra). lra.
Qed.
Lemma ln_value_R x L N M : (0 < x)%Q -> let a := (x / 2 ^ L)%Q in ((1 # 2) <= a * (1 + (1 # 2 ^ 28)))%Q ->
  Rabs (Q2R (ln_sum (a - 1) N + inject_Z L * ln2_sum M) - ln (Q2R x)) <= 3 * Rabs (Q2R a - 1) ^ (N + 1) / INR (N + 1) + Rabs (IZR L) * ln2_err M.
Proof.
  intros Hx a Ha. assert (P2 : 0 < powerRZ 2 L) by (apply powerRZ_lt; lra). assert (R2 : Q2R 2 = 2) by (unfold Q2R; cbn; lra). assert (N2 : ~ (2 == 0)%Q) by discriminate.
  assert (Ea : Q2R a = Q2R x / powerRZ 2 L). { unfold a. rewrite Q2R_div by now apply Qpower_not_0. rewrite Q2R_power, R2 by auto. reflexivity. }
  assert (X0 : 0 < Q2R x). { apply Qlt_Rlt in Hx. unfold Q2R at 1 in Hx. cbn in Hx. lra. }
  assert (A0 : 0 < Q2R a) by (rewrite Ea; now apply Rdiv_lt_0_compat).
  assert (LX : ln (Q2R x) = ln (Q2R a) + IZR L * ln 2). { replace (Q2R x) with (Q2R a * powerRZ 2 L) by (rewrite Ea; field; lra). rewrite ln_mult by auto. f_equal. rewrite powerRZ_Rpower by lra. unfold Rpower. now rewrite ln_exp. }
  rewrite Q2R_plus, Q2R_mult, Q2R_inj, ln_sum_R, Q2R_minus, Q2R_1, LX. pose proof (ln2_bound M) as B2. set (l2 := Q2R (ln2_sum M)) in *. set (b := Q2R a - 1). set (S := ln_rsum b N).
  assert (E1 : Rabs (S - ln (Q2R a)) <= 3 * Rabs b ^ (N + 1) / INR (N + 1)).
  { assert (IN : 0 < INR (N + 1)) by (apply lt_0_INR; lia). destruct (Rle_dec 0 b) as [P | P].
    - pose proof (ln_rem_pos N b P) as B. fold S in B. replace (1 + b) with (Q2R a) in B by (unfold b; ring). rewrite (Rabs_pos_eq b) by auto. assert (0 <= b ^ (N + 1) / INR (N + 1)) by (apply Rdiv_le_0_compat; auto; now apply pow_le).
      rewrite Rabs_minus_sym. rewrite <- (Rabs_m1 N). rewrite Rabs_pos_eq by apply B. unfold Rdiv in *. lra.
    - assert (AL : Q2R a * (1 + 1 / 268435456) >= 1 / 2). { apply Qle_Rle in Ha. rewrite Q2R_mult, Q2R_plus, Q2R_1 in Ha. unfold Q2R at 1 in Ha. unfold Q2R at 2 in Ha. cbn in Ha. lra. }
      destruct (ln_rem_neg N (- b)) as [L1 U1]; [split; unfold b in *; lra |]. rewrite Ropp_involutive in L1, U1. fold S in L1, U1. replace (1 - - b) with (Q2R a) in L1, U1 by (unfold b; ring). rewrite (Rabs_left1 b) by lra.
      assert (PW : 0 <= (- b) ^ (N + 1) / INR (N + 1)) by (apply Rdiv_le_0_compat; auto; apply pow_le; lra). rewrite Rabs_pos_eq by lra. eapply Rle_trans; [exact U1 |]. replace (3 * (- b) ^ (N + 1) / INR (N + 1)) with ((- b) ^ (N + 1) / INR (N + 1) * 3) by (unfold Rdiv; ring).
      unfold Rdiv at 1. apply Rmult_le_compat_l; [auto |]. replace 3 with (/ / 3) by field. apply Rinv_le_contravar; lra. }
  replace (S + IZR L * l2 - (ln (Q2R a) + IZR L * ln 2)) with ((S - ln (Q2R a)) + IZR L * (l2 - ln 2)) by ring. eapply Rle_trans; [apply Rabs_triang |]. apply Rplus_le_compat; [exact E1 |]. rewrite Rabs_mult. apply Rmult_le_compat_l; [apply Rabs_pos |]. rewrite Rabs_minus_sym, Rabs_pos_eq; lra.
Qed.

(** ** sine and cosine *)
Lemma sin_shift j y : sin (IZR j * (PI / 2) + y) = match (j mod 4)%Z with 0%Z => sin y | 1%Z => cos y | 2%Z => - sin y | _ => - cos y end
  /\ cos (IZR j * (PI / 2) + y) = match (j mod 4)%Z with 0%Z => cos y | 1%Z => - sin y | 2%Z => - cos y | _ => sin y end.
Proof.
  pose proof (Z.div_mod j 4 ltac:(lia)) as E. pose proof (Z.mod_pos_bound j 4 ltac:(lia)) as B. set (q := (j / 4)%Z) in *. set (r := (j mod 4)%Z) in *. clearbody q r. subst j.
  assert (P : forall z w, sin (w + 2 * IZR z * PI) = sin w /\ cos (w + 2 * IZR z * PI) = cos w).
  { intros z w. destruct (Z_le_dec 0 z) as [H | H].
    - rewrite <- (Z2Nat.id z H), <- INR_IZR_INZ. split. apply sin_period. apply cos_period.
    - replace w with ((w + 2 * IZR z * PI) + 2 * INR (Z.to_nat (- z)) * PI) at 2 4. rewrite sin_period, cos_period; auto. rewrite INR_IZR_INZ, Z2Nat.id, opp_IZR by lia. ring. }
  rewrite plus_IZR, mult_IZR. replace ((4 * IZR q + IZR r) * (PI / 2) + y) with ((y + IZR r * (PI / 2)) + 2 * IZR q * PI) by field. destruct (P q (y + IZR r * (PI / 2))) as [-> ->].
  assert (r = 0 \/ r = 1 \/ r = 2 \/ r = 3)%Z as D by lia. destruct D as [-> | [-> | [-> | ->]]]; cbn match.
  - split; f_equal; ring.
  - replace (y + 1 * (PI / 2)) with (PI / 2 + y) by ring. split. symmetry. apply cos_sin. rewrite (sin_cos y). rewrite Ropp_involutive. reflexivity.
  - replace (y + 2 * (PI / 2)) with (y + PI) by field. split. apply neg_sin. apply neg_cos.
  - replace (y + 3 * (PI / 2)) with ((PI / 2 + y) + PI) by field. rewrite neg_sin, neg_cos. rewrite <- cos_sin. split; auto. rewrite (sin_cos y). reflexivity.
Qed.
Lemma sin_lip a b : Rabs (sin a - sin b) <= Rabs (a - b) /\ Rabs (cos a - cos b) <= Rabs (a - b).
Proof.
  assert (S1 : forall z, Rabs (sin z) <= Rabs z).
  { intros z. pose proof (sin_rem 0 z) as H. replace (sin_rsum z 0) with 0 in H by reflexivity. rewrite Rminus_0_r in H. change (2 * 0 + 1)%nat with 1%nat in H. rewrite pow_1 in H. change (INR (fact 1)) with 1 in H. lra. }
  assert (H2 : Rabs (sin ((a - b) / 2)) <= Rabs (a - b) / 2). { eapply Rle_trans; [apply S1 |]. unfold Rdiv. rewrite Rabs_mult. rewrite (Rabs_pos_eq (/ 2)) by lra. lra. }
  assert (C1 : Rabs (cos ((a + b) / 2)) <= 1). { apply Rabs_le. pose proof (COS_bound ((a + b) / 2)). lra. }
  assert (C2 : Rabs (sin ((a + b) / 2)) <= 1). { apply Rabs_le. pose proof (SIN_bound ((a + b) / 2)). lra. }
  pose proof (Rabs_pos (sin ((a - b) / 2))). rewrite form4, form2. rewrite !Rabs_mult. rewrite Rabs_Ropp || idtac. rewrite (Rabs_pos_eq 2) by lra. split.
  - pose proof (Rabs_pos (cos ((a + b) / 2))). nra.
  - assert (Rabs (-2) = 2) as -> by (rewrite Rabs_left; lra). pose proof (Rabs_pos (sin ((a + b) / 2))). nra.
Qed.
Definition trig_err (N : nat) (x : R) : R := / INR (fact (2 * N)) + (Rabs x + 1) * (pi_err N / 3).
Lemma turn_err N j y : Rabs (Q2R y) <= 1 ->
  Rabs (Q2R (turn_sin j y N) - sin (IZR j * (PI / 2) + Q2R y)) <= / INR (fact (2 * N)) /\ Rabs (Q2R (turn_cos j y N) - cos (IZR j * (PI / 2) + Q2R y)) <= / INR (fact (2 * N)).
Proof.
  intros Hy. destruct (sin_shift j (Q2R y)) as [-> ->]. pose proof (sin_rem N (Q2R y)) as S. pose proof (cos_rem N (Q2R y)) as C. rewrite <- sin_sum_R in S. rewrite <- cos_sum_R in C.
  pose proof (Rabs_pos (Q2R y)). assert (S' : Rabs (sin (Q2R y) - Q2R (sin_sum y N)) <= / INR (fact (2 * N))).
  { eapply Rle_trans; [exact S |]. pose proof (pw_le1 (Rabs (Q2R y)) (2 * N + 1) ltac:(lra)). pose proof (fact_pos (2 * N)). pose proof (fact_pos (2 * N + 1)).
    assert (INR (fact (2 * N)) <= INR (fact (2 * N + 1))) by (apply le_INR, fact_le; lia). apply Rle_trans with (1 * / INR (fact (2 * N + 1))). apply Rmult_le_compat_r; [| lra]. left. now apply Rinv_0_lt_compat. rewrite Rmult_1_l. now apply Rinv_le_contravar. }
  assert (C' : Rabs (cos (Q2R y) - Q2R (cos_sum y N)) <= / INR (fact (2 * N))).
  { eapply Rle_trans; [exact C |]. pose proof (pw_le1 (Rabs (Q2R y)) (2 * N) ltac:(lra)). pose proof (fact_pos (2 * N)). rewrite <- (Rmult_1_l (/ _)). apply Rmult_le_compat_r; [| lra]. left. now apply Rinv_0_lt_compat. }
  unfold turn_sin, turn_cos. pose proof (Z.mod_pos_bound j 4 ltac:(lia)) as B.
  assert (O : forall u v d, Rabs (u - v) <= d -> Rabs (v - u) <= d /\ Rabs (- v - - u) <= d). { intros u v d U. split. now rewrite Rabs_minus_sym. replace (- v - - u) with (u - v) by ring. auto. }
  destruct (O _ _ _ S') as [Sa Sb]. destruct (O _ _ _ C') as [Ca Cb].
  assert (j mod 4 = 0 \/ j mod 4 = 1 \/ j mod 4 = 2 \/ j mod 4 = 3)%Z as D by lia. destruct D as [-> | [-> | [-> | ->]]]; cbn match; rewrite ?Q2R_opp; auto.
Qed.
Lemma trig_at x N j y : (2 <= N)%nat -> let P := bbp_sum N in (x == inject_Z j * (P / 2) + y)%Q -> (- (P / 4) <= y <= P / 4)%Q ->
  Rabs (Q2R (turn_sin j y N) - sin (Q2R x)) <= trig_err N (Q2R x) /\ Rabs (Q2R (turn_cos j y N) - cos (Q2R x)) <= trig_err N (Q2R x).
Proof.
  intros HN P Ex [Y1 Y2]. pose proof (pi_bound N) as B. fold P in B. pose proof (pi_err_small N HN) as BS. pose proof PI_gt3 as P3. pose proof PI_4 as P4.
  assert (EP2 : Q2R (P / 2) = Q2R P / 2). { rewrite Q2R_div by discriminate. unfold Q2R at 2. cbn. lra. } assert (EP4 : Q2R (P / 4) = Q2R P / 4). { rewrite Q2R_div by discriminate. unfold Q2R at 2. cbn. lra. }
  apply Qle_Rle in Y1, Y2. rewrite Q2R_opp, EP4 in Y1. rewrite EP4 in Y2. apply Qeq_eqR in Ex. rewrite Q2R_plus, Q2R_mult, Q2R_inj, EP2 in Ex.
  assert (Ya : Rabs (Q2R y) <= 1) by (apply Rabs_le; lra). destruct (turn_err N j y Ya) as [TS TC].
  set (w := IZR j * (PI / 2) + Q2R y) in *. assert (D : Rabs (w - Q2R x) <= (Rabs (Q2R x) + 1) * (pi_err N / 3)).
  { replace (w - Q2R x) with (IZR j * ((PI - Q2R P) / 2)) by (unfold w; lra). rewrite Rabs_mult. rewrite (Rabs_pos_eq ((PI - Q2R P) / 2)) by lra.
    assert (J : Rabs (IZR j) * (Q2R P / 2) <= Rabs (Q2R x) + 1). { replace (Rabs (IZR j) * (Q2R P / 2)) with (Rabs (Q2R x - Q2R y)). eapply Rle_trans; [apply Rabs_triang |]. rewrite Rabs_Ropp. lra. replace (Q2R x - Q2R y) with (IZR j * (Q2R P / 2)) by lra. rewrite Rabs_mult, (Rabs_pos_eq (Q2R P / 2)); lra. }
    pose proof (Rabs_pos (IZR j)). set (aj := Rabs (IZR j)) in *. set (ax := Rabs (Q2R x) + 1) in *. assert (3 <= Q2R P) by lra.
    assert (aj * 3 <= 2 * ax) by nra. nra. }
  destruct (sin_lip w (Q2R x)) as [L1 L2]. unfold trig_err. split.
  - replace (Q2R (turn_sin j y N) - sin (Q2R x)) with ((Q2R (turn_sin j y N) - sin w) + (sin w - sin (Q2R x))) by ring. eapply Rle_trans; [apply Rabs_triang |]. lra.
  - replace (Q2R (turn_cos j y N) - cos (Q2R x)) with ((Q2R (turn_cos j y N) - cos w) + (cos w - cos (Q2R x))) by ring. eapply Rle_trans; [apply Rabs_triang |]. lra.
Qed.

(** ** asin, acos, atan *)
Lemma asin_value_R x N : (- (1) <= x <= 1)%Q -> Rabs (Q2R (asin_sum x N) - asin (Q2R x)) <= asin_bnd N * Rabs (Q2R x) ^ (2 * N + 1).
Proof.
  intros [H1 H2]. apply Qle_Rle in H1, H2. rewrite Q2R_opp, Q2R_1 in H1. rewrite Q2R_1 in H2. rewrite asin_sum_R, Rabs_minus_sym. apply asin_rem. lra.
Qed.
Lemma atan_value_R x k : Rabs (Q2R (atan_value x k) - atan (Q2R x)) <= Rmin (Rabs (Q2R x)) (/ Rabs (Q2R x)) ^ (4 * k + 5) / INR (4 * k + 5) + (if Rle_dec (Rabs (Q2R x)) 1 then 0 else pi_err (2 * k + 2) / 2).
Proof.
  unfold atan_value. set (X := Q2R x). assert (K : (4 * k + 5 = 2 * (2 * k + 2) + 1)%nat) by lia. rewrite K. set (N := (2 * k + 2)%nat) in *. pose proof (pi_bound N) as B.
  assert (I : 0 < INR (2 * N + 1)) by (apply lt_0_INR; lia).
  assert (EP2 : Q2R (bbp_sum N / 2) = Q2R (bbp_sum N) / 2). { rewrite Q2R_div by discriminate. unfold Q2R at 2. cbn. lra. }
  assert (mono : forall u v, 0 <= u <= v -> u ^ (2 * N + 1) / INR (2 * N + 1) <= v ^ (2 * N + 1) / INR (2 * N + 1)). { intros u v Huv. unfold Rdiv. apply Rmult_le_compat_r. left. now apply Rinv_0_lt_compat. now apply pow_incr. }
  destruct (Qle_bool x 1) eqn:E1; [destruct (Qle_bool (- (1)) x) eqn:E2 |].
  - apply Qle_bool_imp_le, Qle_Rle in E1, E2. rewrite Q2R_opp, Q2R_1 in E2. rewrite Q2R_1 in E1. fold X in E1, E2. destruct (Rle_dec (Rabs X) 1) as [_ | C]; [| exfalso; apply C; apply Rabs_le; lra].
    pose proof (atan_rem N (Q2R x)) as A. rewrite <- atan_sum_R in A. fold X in A. rewrite Rabs_minus_sym. assert (AX : Rabs X <= 1) by (apply Rabs_le; lra). destruct (Req_dec X 0) as [-> | NZ].
    + rewrite Rabs_R0 in A. rewrite pow_i in A by lia. unfold Rdiv in A. rewrite Rmult_0_l in A. eapply Rle_trans; [exact A |]. rewrite Rplus_0_r. apply Rdiv_le_0_compat; auto. apply pow_le. rewrite Rabs_R0. apply Rmin_glb; [lra |]. rewrite Rinv_0. lra.
    + pose proof (Rabs_pos_lt X NZ). assert (1 <= / Rabs X). { rewrite <- Rinv_1 at 1. apply Rinv_le_contravar; lra. } rewrite Rmin_left by lra. lra.
  - assert (X < -1). { assert (NE : ~ (- (1) <= x)%Q). { intros Z. apply Qle_bool_iff in Z. congruence. } apply Qnot_le_lt, Qlt_Rlt in NE. rewrite Q2R_opp, Q2R_1 in NE. exact NE. }
    destruct (Rle_dec (Rabs X) 1) as [C | _]; [exfalso; rewrite Rabs_left in C by lra; lra |]. rewrite Q2R_minus, Q2R_opp, EP2. assert (NX : ~ (x == 0)%Q). { intros Z. apply Qeq_eqR in Z. rewrite RMicromega.Q2R_0 in Z. unfold X in H. lra. }
    pose proof (atan_rem N (Q2R (/ x))) as A. rewrite <- atan_sum_R in A. rewrite Q2R_inv in A by auto. fold X in A.
    assert (AT : atan X = - (PI / 2) - atan (/ X)). { pose proof (atan_inv (- X) ltac:(lra)) as T. rewrite Rinv_opp in T. rewrite !atan_opp in T. lra. }
    rewrite AT. rewrite Rabs_inv in A. assert (/ Rabs X <= 1). { rewrite Rabs_left by lra. rewrite <- Rinv_1. apply Rinv_le_contravar; lra. } rewrite Rmin_right by (rewrite (Rabs_left X) in * by lra; lra).
    apply Rabs_le_between in A. apply Rabs_le. lra.
  - assert (1 < X). { assert (NE : ~ (x <= 1)%Q). { intros Z. apply Qle_bool_iff in Z. congruence. } apply Qnot_le_lt, Qlt_Rlt in NE. rewrite Q2R_1 in NE. exact NE. }
    destruct (Rle_dec (Rabs X) 1) as [C | _]; [exfalso; rewrite Rabs_right in C by lra; lra |]. rewrite Q2R_minus, EP2. assert (NX : ~ (x == 0)%Q). { intros Z. apply Qeq_eqR in Z. rewrite RMicromega.Q2R_0 in Z. unfold X in H. lra. }
    pose proof (atan_rem N (Q2R (/ x))) as A. rewrite <- atan_sum_R in A. rewrite Q2R_inv in A by auto. fold X in A.
    assert (AT : atan X = PI / 2 - atan (/ X)). { pose proof (atan_inv X ltac:(lra)) as T. lra. }
    rewrite AT. rewrite Rabs_inv in A. assert (/ Rabs X <= 1). { rewrite Rabs_right by lra. rewrite <- Rinv_1. apply Rinv_le_contravar; lra. } rewrite Rmin_right by (rewrite (Rabs_right X) in * by lra; lra).
    apply Rabs_le_between in A. apply Rabs_le. lra.
Qed.
