(** The rational sums of [ISpec] are the real sums of [RReal], and error bounds for the values the iteration functions compute. *)
From Coq Require Import Reals Lra Lia Qreals Factorial Arith ZArith QArith.
From Coquelicot Require Import Coquelicot.
From Verif Require Import RSpec ISpec RReal RReal2.
Local Open Scope R_scope.

Lemma qnat_nz n : (0 < n)%nat -> ~ (qnat n == 0)%Q.
Proof. intros H E. unfold qnat, Qeq, inject_Z in E. cbn in E. lia. Qed.
Lemma qfact_nz' n : ~ (qnat (fact n) == 0)%Q.
Proof. apply qnat_nz. apply lt_O_fact. Qed.
Lemma Q2R_sgn n : Q2R (sgn n) = (-1) ^ n.
Proof.
  unfold sgn. destruct (Nat.even n) eqn:E.
  - apply Nat.even_spec in E. destruct E as (m & ->). rewrite pow_mult. replace ((-1) ^ 2) with 1 by ring. rewrite pow1. unfold Q2R. cbn. field.
  - assert (O : Nat.odd n = true) by (unfold Nat.odd; now rewrite E). apply Nat.odd_spec in O. destruct O as (m & ->). rewrite pow_add, pow_mult. replace ((-1) ^ 2) with 1 by ring. rewrite pow1. unfold Q2R. cbn. field.
Qed.
Lemma Q2R_1 : Q2R 1 = 1. Proof. unfold Q2R. cbn. field. Qed.
Lemma exp_sum_R x N : Q2R (exp_sum x N) = exp_rsum (Q2R x) N.
Proof. unfold exp_sum. rewrite rsum_Q. apply rsum_ext. intros n _. unfold exp_term. rewrite Q2R_divn by apply qfact_nz'. now rewrite Q2R_pw, Q2R_nat. Qed.
Lemma Q2R_int z : Q2R (z # 1) = IZR z. Proof. unfold Q2R. cbn. field. Qed.
Lemma bbp_sum_R N : Q2R (bbp_sum N) = bbp_rsum N.
Proof.
  unfold bbp_sum. rewrite rsum_Q. apply rsum_ext. intros n _. unfold bbp_term.
  rewrite Q2R_divn. 2:{ unfold qpw. apply Qpower_not_0. discriminate. }
  rewrite !Q2R_minus, !Q2R_divn by (apply qnat_nz; lia). rewrite Q2R_pw, !Q2R_nat, !Q2R_int. reflexivity.
Qed.
Lemma ln2_sum_R N : Q2R (ln2_sum N) = - ln_rsum (- (1 / 2)) N.
Proof.
  unfold ln2_sum. rewrite rsum_Q. replace (- ln_rsum (- (1 / 2)) N) with (-1 * ln_rsum (- (1 / 2)) N) by ring. unfold ln_rsum. rewrite rsum_scal. apply rsum_ext. intros n _. unfold ln2_term.
  rewrite Q2R_divn. 2:{ intros E. apply Qmult_integral in E. destruct E as [E | E]. revert E. apply qnat_nz. lia. revert E. unfold qpw. apply Qpower_not_0. discriminate. }
  rewrite Q2R_mult, Q2R_pw, Q2R_nat, !Q2R_int. rewrite (pow_opp (n + 1)). assert (0 < INR (n + 1)) by (apply lt_0_INR; lia). assert (0 < 2 ^ (n + 1)) by (apply pow_lt; lra).
  unfold Rdiv. rewrite Rpow_mult_distr, pow1, pow_inv. rewrite (pow_add (-1) n 1). pose proof (m1_sq n) as M. set (m := (-1) ^ n) in *.
  replace (-1 * (m * (m * (-1) ^ 1 * (1 * / 2 ^ (n + 1)) * / INR (n + 1)))) with ((m * m) * / 2 ^ (n + 1) * / INR (n + 1)) by (cbn; ring). rewrite M. field. lra.
Qed.
Lemma ln_sum_R a N : Q2R (ln_sum a N) = ln_rsum (Q2R a) N.
Proof.
  unfold ln_sum. rewrite rsum_Q. apply rsum_ext. intros n _. unfold ln_term. rewrite Q2R_divn by (apply qnat_nz; lia). rewrite Q2R_mult, Q2R_sgn, Q2R_pw, Q2R_nat. unfold Rdiv. ring.
Qed.
Lemma sin_sum_R a N : Q2R (sin_sum a N) = sin_rsum (Q2R a) N.
Proof.
  unfold sin_sum. rewrite rsum_Q. apply rsum_ext. intros n _. unfold sin_term. rewrite Q2R_divn by apply qfact_nz'. rewrite Q2R_mult, Q2R_sgn, Q2R_pw, Q2R_nat. unfold Rdiv. ring.
Qed.
Lemma cos_sum_R a N : Q2R (cos_sum a N) = cos_rsum (Q2R a) N.
Proof.
  unfold cos_sum. rewrite rsum_Q. apply rsum_ext. intros n _. unfold cos_term. rewrite Q2R_divn by apply qfact_nz'. rewrite Q2R_mult, Q2R_sgn, Q2R_pw, Q2R_nat. unfold Rdiv. ring.
Qed.
Lemma atan_sum_R a N : Q2R (atan_sum a N) = atan_rsum (Q2R a) N.
Proof.
  unfold atan_sum. rewrite rsum_Q. apply rsum_ext. intros n _. unfold atan_term. rewrite Q2R_divn by (apply qnat_nz; lia). rewrite Q2R_mult, Q2R_sgn, Q2R_pw, Q2R_nat. unfold Rdiv. ring.
Qed.
Lemma asin_sum_R a N : Q2R (asin_sum a N) = asin_rsum (Q2R a) N.
Proof.
  unfold asin_sum. rewrite rsum_Q. apply rsum_ext. intros n _. unfold asin_coeff.
  assert (P : ~ (qpw 4 n == 0)%Q) by (unfold qpw; apply Qpower_not_0; discriminate).
  rewrite Q2R_mult, Q2R_divn. 2:{ intros E. repeat (apply Qmult_integral in E; destruct E as [E | E]); revert E; auto; try apply qfact_nz'. apply qnat_nz. lia. }
  rewrite !Q2R_mult, !Q2R_pw, !Q2R_nat, Q2R_int. unfold cb. pose proof (fact_pos n). pose proof (p4 n). assert (0 < INR (2 * n + 1)) by (apply lt_0_INR; lia). field. lra.
Qed.

(** ** exp *)
Lemma exp_frac f N : -1 < f < 1 -> (1 <= N)%nat -> exp f * (1 - 3 / INR (fact N)) <= exp_rsum f N <= exp f * (1 + 3 / INR (fact N)).
Proof.
  intros Hf HN. pose proof (fact_pos N) as F. pose proof (exp_pos f). assert (I : 0 < / INR (fact N)) by now apply Rinv_0_lt_compat.
  assert (A : Rabs (exp f - exp_rsum f N) <= exp f * (3 / INR (fact N))).
  { destruct (Rle_dec 0 f) as [P | P].
    - destruct (exp_rem_pos N f P) as [L U]. assert (0 <= f ^ N <= 1). { split. now apply pow_le. rewrite <- (pow1 N). apply pow_incr. lra. }
      assert (0 <= f ^ N / INR (fact N)) by (apply Rdiv_le_0_compat; lra). rewrite Rabs_pos_eq by lra. eapply Rle_trans; [exact U |]. rewrite Rmult_comm. apply Rmult_le_compat_l; [lra |]. unfold Rdiv. apply Rmult_le_compat_r; lra.
    - destruct (exp_rem_neg N (- f)) as [L U]; [lra |]. rewrite Ropp_involutive in L, U. rewrite <- (Rabs_m1 N), Rabs_pos_eq by auto. eapply Rle_trans; [exact U |].
      assert (0 <= (- f) ^ N <= 1). { split. apply pow_le; lra. rewrite <- (pow1 N). apply pow_incr. lra. }
      assert (1 <= exp f * 3). { assert (exp (- f) <= 3). { apply Rle_trans with (exp 1). left. apply exp_increasing. lra. apply exp_le_3. } rewrite exp_Ropp in H1. apply (Rmult_le_compat_l (exp f)) in H1; [| lra]. rewrite Rinv_r in H1 by lra. lra. }
      replace (exp f * (3 / INR (fact N))) with (exp f * 3 * / INR (fact N)) by (unfold Rdiv; ring). unfold Rdiv. apply Rmult_le_compat_r; lra. }
  apply Rabs_le_between in A. lra.
Qed.
(** the approximation of e relative to e *)
Definition eps_n (n : nat) : R := 1 / (INR (fact n) * INR n).
Definition eps_e (k : nat) : R := eps_n (19 + k).
Lemma eps_n_bound n : (3 <= n)%nat -> 0 < eps_n n < 1 / 2.
Proof.
  intros H. unfold eps_n. assert (A : (3 <= fact n * n)%nat). { pose proof (lt_O_fact n). nia. } apply le_INR in A. rewrite mult_INR in A. change (INR 3) with (1 + 1 + 1) in A.
  split. apply Rdiv_lt_0_compat; lra. unfold Rdiv. rewrite Rmult_1_l. rewrite Rmult_1_l. apply Rinv_lt_contravar; lra.
Qed.
Lemma eps_e_bound k : 0 < eps_e k < 1 / 2.
Proof. apply eps_n_bound. lia. Qed.
Lemma En_bound n : (1 <= n)%nat -> 0 < exp 1 - exp_rsum 1 (S n) <= eps_n n.
Proof.
  intros H. unfold eps_n. destruct (e_tail (S n)) as [L U]; [lia |]. split; [exact L |]. eapply Rle_trans; [exact U |]. rewrite plus_INR, (S_INR n). change (INR 1) with 1. change (fact (S n)) with ((S n) * fact n)%nat. rewrite mult_INR, S_INR. apply le_INR in H. change (INR 1) with 1 in H.
  pose proof (fact_pos n). set (x := INR n) in *. set (g := INR (fact n)) in *. clearbody x g.
  assert (0 <= 1 / (g * x) - (x + 1 + 1) / ((x + 1) * ((x + 1) * g))); [| lra].
  replace (1 / (g * x) - (x + 1 + 1) / ((x + 1) * ((x + 1) * g))) with (1 / (g * x * (x + 1) * (x + 1))) by (field; lra). apply Rdiv_le_0_compat; [lra |]. repeat apply Rmult_lt_0_compat; lra.
Qed.
Lemma E_bound k : 0 < exp 1 - Q2R (E_ k) <= eps_e k.
Proof.
  assert (H : Q2R (E_ k) = exp_rsum 1 (S (19 + k))) by (rewrite <- Q2R_1; apply exp_sum_R). rewrite H. apply En_bound. lia.
Qed.
