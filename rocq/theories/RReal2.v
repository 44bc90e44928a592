(** The series of pi (Bailey, Borwein, Plouffe) and of asin; the tail of e. *)
From Coq Require Import Reals Lra Lia Qreals Factorial Arith ZArith QArith.
From Coquelicot Require Import Coquelicot.
From Verif Require Import ISpec RReal.
Local Open Scope R_scope.

(** ** pi *)
Definition bbp_rsum (N : nat) : R :=
  rsum (fun n => (4 / INR (8 * n + 1) - 2 / INR (8 * n + 4) - 1 / INR (8 * n + 5) - 1 / INR (8 * n + 6)) / 16 ^ n) N.
(** the antiderivative of (4 - 2y^3 - y^4 - y^5) / (1 - y^8/16) and the same for its partial sums *)
Definition Gf (y : R) : R := 2 * ln (2 - y * y) - 2 * ln (y * y - 2 * y + 2) + 4 * atan (y - 1).
Definition bterm (n : nat) (y : R) : R :=
  / 16 ^ n * (4 * (y ^ (8 * n + 0 + 1) / INR (8 * n + 0 + 1)) - 2 * (y ^ (8 * n + 3 + 1) / INR (8 * n + 3 + 1)) - y ^ (8 * n + 4 + 1) / INR (8 * n + 4 + 1) - y ^ (8 * n + 5 + 1) / INR (8 * n + 5 + 1)).
Definition bnum (y : R) : R := 4 - 2 * y ^ 3 - y ^ 4 - y ^ 5.
Lemma p16 n : 0 < 16 ^ n.
Proof. apply pow_lt. lra. Qed.
Lemma Gf_derive y : 0 <= y <= 1 -> is_derive Gf y (bnum y / (1 - y ^ 8 / 16)).
Proof.
  intros [H0 H1]. assert (A : 0 < 2 - y * y) by nra. assert (B : 0 < y * y - 2 * y + 2) by nra. assert (C : 0 <= y ^ 8 <= 1). { split. apply pow_le; lra. rewrite <- (pow1 8). apply pow_incr; lra. }
  unfold Gf. auto_derive. repeat split; auto; lra. unfold bnum. assert (1 + (y + - (1)) ^ 2 = y * y - 2 * y + 2) as E by ring. unfold Rsqr. field. repeat split; nra.
Qed.
Lemma bterm_derive n y : is_derive (bterm n) y (bnum y * (y ^ 8 / 16) ^ n).
Proof.
  evar_last. unfold bterm. apply (is_derive_scal (fun y => 4 * (y ^ (8 * n + 0 + 1) / INR (8 * n + 0 + 1)) - 2 * (y ^ (8 * n + 3 + 1) / INR (8 * n + 3 + 1)) - y ^ (8 * n + 4 + 1) / INR (8 * n + 4 + 1) - y ^ (8 * n + 5 + 1) / INR (8 * n + 5 + 1))).
  apply (is_derive_minus (fun y => 4 * (y ^ (8 * n + 0 + 1) / INR (8 * n + 0 + 1)) - 2 * (y ^ (8 * n + 3 + 1) / INR (8 * n + 3 + 1)) - y ^ (8 * n + 4 + 1) / INR (8 * n + 4 + 1)) (fun y => y ^ (8 * n + 5 + 1) / INR (8 * n + 5 + 1))); [| apply derive_pw].
  apply (is_derive_minus (fun y => 4 * (y ^ (8 * n + 0 + 1) / INR (8 * n + 0 + 1)) - 2 * (y ^ (8 * n + 3 + 1) / INR (8 * n + 3 + 1))) (fun y => y ^ (8 * n + 4 + 1) / INR (8 * n + 4 + 1))); [| apply derive_pw].
  apply (is_derive_minus (fun y => 4 * (y ^ (8 * n + 0 + 1) / INR (8 * n + 0 + 1))) (fun y => 2 * (y ^ (8 * n + 3 + 1) / INR (8 * n + 3 + 1)))).
  apply (is_derive_scal (fun y => y ^ (8 * n + 0 + 1) / INR (8 * n + 0 + 1))). apply derive_pw. apply (is_derive_scal (fun y => y ^ (8 * n + 3 + 1) / INR (8 * n + 3 + 1))). apply derive_pw.
  unfold minus, plus, opp, scal; cbn -[Nat.mul pow Nat.add]. unfold mult; cbn -[Nat.mul pow Nat.add]. unfold Rdiv. rewrite Rpow_mult_distr, <- pow_mult, pow_inv.
  rewrite (pow_add y (8 * n) 0), (pow_add y (8 * n) 3), (pow_add y (8 * n) 4), (pow_add y (8 * n) 5). unfold bnum. cbn [pow]. ring.
Qed.
Lemma bterm_0 n : bterm n 0 = 0.
Proof. unfold bterm. rewrite !pw0. unfold Rdiv. ring. Qed.
Lemma bterm_1 n : bterm n 1 = (4 / INR (8 * n + 1) - 2 / INR (8 * n + 4) - 1 / INR (8 * n + 5) - 1 / INR (8 * n + 6)) / 16 ^ n.
Proof.
  unfold bterm. rewrite !pow1. replace (8 * n + 0 + 1)%nat with (8 * n + 1)%nat by lia. replace (8 * n + 3 + 1)%nat with (8 * n + 4)%nat by lia.
  replace (8 * n + 4 + 1)%nat with (8 * n + 5)%nat by lia. replace (8 * n + 5 + 1)%nat with (8 * n + 6)%nat by lia. unfold Rdiv. ring.
Qed.
Definition bdiff (N : nat) (y : R) : R := Gf y - Gf 0 - rsum (fun n => bterm n y) N.
Lemma bdiff_derive N y : 0 <= y <= 1 -> is_derive (bdiff N) y (bnum y * (y ^ 8 / 16) ^ N / (1 - y ^ 8 / 16)).
Proof.
  intros H. assert (C : 0 <= y ^ 8 <= 1). { split. apply pow_le; lra. rewrite <- (pow1 8). apply pow_incr; lra. }
  evar_last. apply (is_derive_minus (fun y => Gf y - Gf 0) (fun y => rsum (fun n => bterm n y) N)).
  apply (is_derive_minus Gf (fun _ => Gf 0)). now apply Gf_derive. apply @is_derive_const. apply (rsum_derive bterm (fun n y => bnum y * (y ^ 8 / 16) ^ n)). intros. apply bterm_derive.
  unfold minus, plus, opp, zero; cbn -[pow bnum]. rewrite <- (rsum_scal (bnum y) (fun n => (y ^ 8 / 16) ^ n)). pose proof (geo_sum (y ^ 8 / 16) N) as G.
  assert (1 - y ^ 8 / 16 <> 0) by lra. set (q := y ^ 8 / 16) in *. clearbody q. apply (Rmult_eq_reg_l (1 - q)); auto.
  replace ((1 - q) * (bnum y * q ^ N / (1 - q))) with (bnum y * q ^ N) by (field; auto).
  replace ((1 - q) * (bnum y / (1 - q) + - 0 + - (bnum y * rsum (fun n => q ^ n) N))) with (bnum y - bnum y * ((1 - q) * rsum (fun n => q ^ n) N)) by (field; auto). rewrite G. ring.
Qed.
Lemma bdiff_0 N : bdiff N 0 = 0.
Proof. unfold bdiff. rewrite (rsum_ext _ (fun n => 0 * 0)). rewrite <- rsum_scal. ring. intros. rewrite bterm_0. ring. Qed.
Lemma bdiff_1 N : bdiff N 1 = PI - bbp_rsum N.
Proof.
  unfold bdiff, bbp_rsum. f_equal. 2:{ apply rsum_ext. intros. apply bterm_1. } unfold Gf.
  replace (2 - 1 * 1) with 1 by ring. replace (1 * 1 - 2 * 1 + 2) with 1 by ring. replace (2 - 0 * 0) with 2 by ring. replace (0 * 0 - 2 * 0 + 2) with 2 by ring.
  replace (1 - 1) with 0 by ring. replace (0 - 1) with (- (1)) by ring. rewrite ln_1, atan_0, atan_opp, atan_1. field.
Qed.
Lemma bnum_bound y : 0 <= y <= 1 -> 0 <= bnum y <= 4.
Proof.
  intros H. unfold bnum. assert (P : forall n, 0 <= y ^ n <= 1). { intros n. split. apply pow_le; lra. rewrite <- (pow1 n). apply pow_incr; lra. }
  pose proof (P 3%nat). pose proof (P 4%nat). pose proof (P 5%nat). lra.
Qed.
Lemma bnum_pos y : 0 <= y < 1 -> 0 < bnum y.
Proof.
  intros H. unfold bnum. assert (P : forall n, 0 <= y ^ n <= 1). { intros n. split. apply pow_le; lra. rewrite <- (pow1 n). apply pow_incr; lra. }
  pose proof (P 3%nat). pose proof (P 4%nat). pose proof (P 5%nat). pose proof (P 2%nat). assert (y ^ 3 < 1). { cbn [pow] in *. nra. } lra.
Qed.
Theorem pi_tail N : 0 < PI - bbp_rsum N <= 64 / 15 / (16 ^ N * INR (8 * N + 1)).
Proof.
  rewrite <- bdiff_1. pose proof (p16 N) as P.
  assert (Y : forall y, 0 <= y <= 1 -> 0 <= y ^ 8 <= 1). { intros y H. split. apply pow_le; lra. rewrite <- (pow1 8). apply pow_incr; lra. }
  assert (QN : forall y, (y ^ 8 / 16) ^ N = y ^ (8 * N) / 16 ^ N). { intros y. unfold Rdiv. rewrite Rpow_mult_distr, <- pow_mult, pow_inv. reflexivity. }
  split.
  - rewrite <- (bdiff_0 N). apply (mono_lt _ (fun y => bnum y * (y ^ 8 / 16) ^ N / (1 - y ^ 8 / 16))). lra. intros; now apply bdiff_derive.
    intros y H. specialize (Y y ltac:(lra)). apply Rdiv_lt_0_compat; [| lra]. apply Rmult_lt_0_compat. apply bnum_pos; lra. apply pow_lt. apply Rdiv_lt_0_compat; [| lra]. apply pow_lt. lra.
  - replace (64 / 15 / (16 ^ N * INR (8 * N + 1))) with ((fun y => 64 / 15 / 16 ^ N * (y ^ (8 * N + 1) / INR (8 * N + 1))) 1).
    2:{ cbn beta. rewrite pow1. assert (0 < INR (8 * N + 1)) by (apply lt_0_INR; lia). field. split; [lra |]. lra. }
    pose proof (deriv_between (fun _ => 0) (fun _ => 0) (bdiff N) (fun y => bnum y * (y ^ 8 / 16) ^ N / (1 - y ^ 8 / 16)) (fun y => 64 / 15 / 16 ^ N * (y ^ (8 * N + 1) / INR (8 * N + 1))) (fun y => 64 / 15 / 16 ^ N * y ^ (8 * N)) 1) as K.
    apply K; clear K; auto; try lra.
    + apply bdiff_0.
    + rewrite pw0. unfold Rdiv. ring.
    + intros. apply @is_derive_const.
    + intros. now apply bdiff_derive.
    + intros t _. apply (is_derive_scal (fun y => y ^ (8 * N + 1) / INR (8 * N + 1))). apply derive_pw.
    + intros t Ht. specialize (Y t Ht). pose proof (bnum_bound t Ht) as B. rewrite QN. assert (A : 0 <= t ^ (8 * N) / 16 ^ N). { apply Rdiv_le_0_compat; auto. apply pow_le. lra. }
      split. apply Rdiv_le_0_compat; [| lra]. apply Rmult_le_pos; lra.
      apply (Rmult_le_reg_r (1 - t ^ 8 / 16)); [lra |]. replace (bnum t * (t ^ (8 * N) / 16 ^ N) / (1 - t ^ 8 / 16) * (1 - t ^ 8 / 16)) with (bnum t * (t ^ (8 * N) / 16 ^ N)) by (field; lra).
      replace (64 / 15 / 16 ^ N * t ^ (8 * N) * (1 - t ^ 8 / 16)) with ((64 / 15 * (1 - t ^ 8 / 16)) * (t ^ (8 * N) / 16 ^ N)) by (field; lra). apply Rmult_le_compat_r; auto. lra.
Qed.

(** ** e *)
Lemma exp_rsum_S x N : exp_rsum x (S N) = exp_rsum x N + x ^ N / INR (fact N).
Proof. reflexivity. Qed.
Lemma e_upper N M : (1 <= N)%nat -> exp_rsum 1 (N + M) + INR (N + M + 1) / (INR (N + M) * INR (fact (N + M))) <= exp_rsum 1 N + INR (N + 1) / (INR N * INR (fact N)).
Proof.
  intros HN. induction M. { rewrite Nat.add_0_r. lra. }
  eapply Rle_trans; [| exact IHM]. clear IHM. set (n := (N + M)%nat). replace (N + S M)%nat with (S n) by (unfold n; lia). assert (Hn : (1 <= n)%nat) by (unfold n; lia). clearbody n. clear N M HN.
  rewrite exp_rsum_S, pow1. change (fact (S n)) with ((S n) * fact n)%nat. rewrite mult_INR. pose proof (fact_pos n). assert (1 <= INR n) by (apply (le_INR 1); auto).
  rewrite !plus_INR, !S_INR. cbn [INR]. set (x := INR n) in *. set (f := INR (fact n)) in *. clearbody x f.
  assert (0 <= (x + 1) / (x * f) - (1 / f + (x + 1 + 1) / ((x + 1) * ((x + 1) * f)))).
  { replace ((x + 1) / (x * f) - (1 / f + (x + 1 + 1) / ((x + 1) * ((x + 1) * f)))) with (1 / (x * (x + 1) * (x + 1) * f)) by (field; lra).
    apply Rdiv_le_0_compat; [lra |]. repeat apply Rmult_lt_0_compat; lra. }
  lra.
Qed.
Lemma fact_ge n : (n <= fact n)%nat.
Proof. induction n; cbn. lia. pose proof (lt_O_fact n). nia. Qed.
Theorem e_tail N : (1 <= N)%nat -> 0 < exp 1 - exp_rsum 1 N <= INR (N + 1) / (INR N * INR (fact N)).
Proof.
  intros HN. pose proof (exp_rem_pos N 1 ltac:(lra)) as [L _]. rewrite pow1 in L. pose proof (fact_pos N). assert (0 < 1 / INR (fact N)) by (apply Rdiv_lt_0_compat; lra).
  split; [lra |]. assert (exp 1 <= exp_rsum 1 N + INR (N + 1) / (INR N * INR (fact N))); [| lra].
  apply le_epsilon. intros eps He. destruct (archimed_cor1 (eps / 3) ltac:(lra)) as (M & E & HM).
  destruct (exp_rem_pos (N + M) 1 ltac:(lra)) as [_ U]. rewrite pow1 in U. pose proof (e_upper N M HN) as V. pose proof exp_le_3.
  assert (F : INR M <= INR (fact (N + M))). { apply le_INR. pose proof (fact_ge (N + M)). lia. } assert (0 < INR M) by (apply lt_0_INR; auto).
  assert (1 / INR (fact (N + M)) <= / INR M). { unfold Rdiv. rewrite Rmult_1_l. apply Rinv_le_contravar; auto. }
  pose proof (fact_pos (N + M)). assert (0 < 1 / INR (fact (N + M))) by (apply Rdiv_lt_0_compat; lra).
  assert (0 <= INR (N + M + 1) / (INR (N + M) * INR (fact (N + M)))). { apply Rdiv_le_0_compat. apply pos_INR. apply Rmult_lt_0_compat; auto. apply lt_0_INR. lia. }
  pose proof (exp_pos 1). assert (1 / INR (fact (N + M)) * exp 1 <= eps). { apply Rle_trans with (eps / 3 * 3); [| lra]. apply Rmult_le_compat; lra. } lra.
Qed.

(** ** asin *)
(** the coefficient (2n)! / (4^n n!^2) *)
Definition cb (n : nat) : R := INR (fact (2 * n)) / (4 ^ n * INR (fact n) * INR (fact n)).
Lemma p4 n : 0 < 4 ^ n.
Proof. apply pow_lt. lra. Qed.
Lemma cb_pos n : 0 < cb n.
Proof. unfold cb. pose proof (fact_pos n). pose proof (fact_pos (2 * n)). pose proof (p4 n). apply Rdiv_lt_0_compat; auto. repeat apply Rmult_lt_0_compat; auto. Qed.
Lemma cb_S n : (2 * INR n + 1) * cb n = 2 * INR (S n) * cb (S n).
Proof.
  unfold cb. replace (2 * S n)%nat with (S (S (2 * n))) by lia. change (fact (S (S (2 * n)))) with ((S (S (2 * n))) * ((S (2 * n)) * fact (2 * n)))%nat. change (fact (S n)) with ((S n) * fact n)%nat.
  rewrite !mult_INR, !S_INR, !mult_INR. cbn [INR pow]. pose proof (fact_pos n). pose proof (p4 n). pose proof (pos_INR n). field. lra.
Qed.
Lemma cb_0 : cb 0 = 1.
Proof. unfold cb. cbn. field. Qed.
Lemma cb_le1 n : cb n <= 1.
Proof.
  induction n. { rewrite cb_0. lra. } pose proof (cb_S n) as E. rewrite S_INR in E. pose proof (pos_INR n). pose proof (cb_pos n). pose proof (cb_pos (S n)).
  assert ((2 * INR n + 1) * cb n <= (2 * INR n + 1) * 1) by (apply Rmult_le_compat_l; lra). nra.
Qed.
Definition asin_rsum (x : R) (N : nat) : R := rsum (fun n => cb n * (x ^ (2 * n + 1) / INR (2 * n + 1))) N.
Definition asin_d (x : R) (N : nat) : R := rsum (fun n => cb n * x ^ (2 * n)) N.
Lemma asin_rsum_derive N x : is_derive (fun t => asin_rsum t N) x (asin_d x N).
Proof.
  apply (rsum_derive (fun n t => cb n * (t ^ (2 * n + 1) / INR (2 * n + 1))) (fun n t => cb n * t ^ (2 * n))). intros n _. apply (is_derive_scal (fun t => t ^ (2 * n + 1) / INR (2 * n + 1))). apply derive_pw.
Qed.
Definition asin_dd (x : R) (N : nat) : R := rsum (fun n => cb n * (INR (2 * n) * x ^ pred (2 * n))) N.
Lemma asin_d_derive N x : is_derive (fun t => asin_d t N) x (asin_dd x N).
Proof.
  apply (rsum_derive (fun n t => cb n * t ^ (2 * n)) (fun n t => cb n * (INR (2 * n) * t ^ pred (2 * n)))). intros n _. apply (is_derive_scal (fun t => t ^ (2 * n))).
  apply is_derive_Reals. apply derivable_pt_lim_pow.
Qed.
(** the differential equation of the partial sums *)
Lemma asin_ode N x : (1 - x * x) * asin_dd x N - x * asin_d x N = - (cb N * (INR (2 * N) * x ^ pred (2 * N))).
Proof.
  induction N. { cbn. ring. }
  change (asin_dd x (S N)) with (asin_dd x N + cb N * (INR (2 * N) * x ^ pred (2 * N))). change (asin_d x (S N)) with (asin_d x N + cb N * x ^ (2 * N)).
  replace (pred (2 * S N)) with (2 * N + 1)%nat by lia.
  assert (E : cb (S N) * (INR (2 * S N) * x ^ (2 * N + 1)) = (INR (2 * N) + 1) * cb N * x ^ (2 * N + 1)). { pose proof (cb_S N) as C. rewrite (mult_INR 2 (S N)), (mult_INR 2 N). change (INR 2) with (1 + 1).
    transitivity (2 * INR (S N) * cb (S N) * x ^ (2 * N + 1)). ring. rewrite <- C. ring. }
  rewrite E. assert (F : INR (2 * N) * (x * x * x ^ pred (2 * N)) = INR (2 * N) * x ^ (2 * N + 1)).
  { destruct N. { cbn. ring. } replace (2 * S N + 1)%nat with (S (S (pred (2 * S N)))) by lia. cbn [pow]. ring. }
  rewrite Rmult_plus_distr_l, Rmult_plus_distr_l. replace (x * (cb N * x ^ (2 * N))) with (cb N * x ^ (2 * N + 1)) by (rewrite pow_add; cbn [pow]; ring).
  replace ((1 - x * x) * (cb N * (INR (2 * N) * x ^ pred (2 * N)))) with (cb N * (INR (2 * N) * x ^ pred (2 * N)) - cb N * (INR (2 * N) * (x * x * x ^ pred (2 * N)))) by ring. rewrite F. lra.
Qed.
Lemma asin_h_derive N x : -1 < x < 1 -> is_derive (fun t => 1 - asin_d t N * sqrt (1 - t * t)) x (cb N * (INR (2 * N) * x ^ pred (2 * N)) / sqrt (1 - x * x)).
Proof.
  intros H. assert (P : 0 < 1 - x * x) by nra. pose proof (sqrt_lt_R0 _ P) as S0. pose proof (sqrt_sqrt _ (Rlt_le _ _ P)) as SS.
  evar_last. apply (is_derive_minus (fun _ => 1) (fun t => asin_d t N * sqrt (1 - t * t))). apply @is_derive_const.
  apply (is_derive_mult (fun t => asin_d t N) (fun t => sqrt (1 - t * t)) x (asin_dd x N) (- x / sqrt (1 - x * x))). apply asin_d_derive. auto_derive. auto. replace (1 + - (x * x)) with (1 - x * x) by ring. field. lra. intros; apply Rmult_comm.
  unfold minus, plus, opp, zero; cbn -[pow INR Nat.mul pred]. unfold mult; cbn -[pow INR Nat.mul pred].
  pose proof (asin_ode N x) as O. set (s := sqrt (1 - x * x)) in *. clearbody s. apply (Rmult_eq_reg_r s); [| lra].
  replace (cb N * (INR (2 * N) * x ^ pred (2 * N)) / s * s) with (cb N * (INR (2 * N) * x ^ pred (2 * N))) by (field; lra).
  replace ((0 + - (asin_dd x N * s + asin_d x N * (- x / s))) * s) with (- (s * s * asin_dd x N - x * asin_d x N)) by (field; lra). rewrite SS, O. ring.
Qed.
Lemma sqrt_le1 y : y <= 1 -> sqrt y <= 1.
Proof. intros H. rewrite <- sqrt_1. now apply sqrt_le_1_alt. Qed.
Lemma asin_d_0 N : asin_d 0 (S N) = 1.
Proof.
  induction N. { unfold asin_d. cbn [rsum]. rewrite cb_0. cbn. ring. }
  change (asin_d 0 (S (S N))) with (asin_d 0 (S N) + cb (S N) * 0 ^ (2 * S N)). rewrite IHN. replace (2 * S N)%nat with (2 * N + 1 + 1)%nat by lia. rewrite pw0. ring.
Qed.
Lemma derive_even N c x : is_derive (fun t => c * t ^ (2 * N)) x (c * (INR (2 * N) * x ^ pred (2 * N))).
Proof. apply (is_derive_scal (fun t => t ^ (2 * N))). apply is_derive_Reals. apply derivable_pt_lim_pow. Qed.
(** the remainder of (1 - x^2)^(-1/2) *)
Lemma asin_d_rem N x : 0 <= x < 1 -> cb N * x ^ (2 * N) <= / sqrt (1 - x * x) - asin_d x N <= cb N * x ^ (2 * N) / (1 - x * x).
Proof.
  intros [H0 H1]. assert (P : 0 < 1 - x * x) by nra. pose proof (sqrt_lt_R0 _ P) as S0. pose proof (sqrt_sqrt _ (Rlt_le _ _ P)) as SS.
  assert (S1 : sqrt (1 - x * x) <= 1). { apply sqrt_le1. nra. }
  assert (X : 0 <= cb N * x ^ (2 * N)). { pose proof (cb_pos N). apply Rmult_le_pos; [lra | apply pow_le; lra]. }
  assert (K : cb N * x ^ (2 * N) <= 1 - asin_d x N * sqrt (1 - x * x) <= cb N / sqrt (1 - x * x) * x ^ (2 * N)).
  { destruct N.
    - unfold asin_d. cbn [rsum]. rewrite cb_0. change (x ^ (2 * 0)) with 1. rewrite Rmult_0_l. split; [lra |]. replace (1 / sqrt (1 - x * x) * 1) with (/ sqrt (1 - x * x)) by (field; lra).
      rewrite Rminus_0_r, <- Rinv_1 at 1. apply Rinv_le_contravar; lra.
    - set (n := S N) in *.
      apply (deriv_between (fun t => cb n * t ^ (2 * n)) (fun t => cb n * (INR (2 * n) * t ^ pred (2 * n)))
               (fun t => 1 - asin_d t n * sqrt (1 - t * t)) (fun t => cb n * (INR (2 * n) * t ^ pred (2 * n)) / sqrt (1 - t * t))
               (fun t => cb n / sqrt (1 - x * x) * t ^ (2 * n)) (fun t => cb n / sqrt (1 - x * x) * (INR (2 * n) * t ^ pred (2 * n)))); auto.
      + unfold n. replace (2 * S N)%nat with (2 * N + 1 + 1)%nat by lia. rewrite pw0. ring.
      + unfold n. rewrite asin_d_0. replace (1 - 0 * 0) with 1 by ring. rewrite sqrt_1. ring.
      + unfold n. replace (2 * S N)%nat with (2 * N + 1 + 1)%nat by lia. rewrite pw0. ring.
      + intros t _. apply derive_even.
      + intros t Ht. apply asin_h_derive. lra.
      + intros t _. apply derive_even.
      + intros t Ht. assert (A : 0 <= cb n * (INR (2 * n) * t ^ pred (2 * n))). { pose proof (cb_pos n). apply Rmult_le_pos; [lra |]. apply Rmult_le_pos. apply pos_INR. apply pow_le; lra. }
        assert (PT : 0 < 1 - t * t) by nra. pose proof (sqrt_lt_R0 _ PT) as S0t. assert (S1t : sqrt (1 - t * t) <= 1). { apply sqrt_le1. nra. }
        assert (Sx : sqrt (1 - x * x) <= sqrt (1 - t * t)). { apply sqrt_le_1_alt. nra. } split.
        * unfold Rdiv. rewrite <- (Rmult_1_r (cb n * (INR (2 * n) * t ^ pred (2 * n)))) at 1. apply Rmult_le_compat_l; auto. rewrite <- Rinv_1 at 1. apply Rinv_le_contravar; lra.
        * replace (cb n / sqrt (1 - x * x) * (INR (2 * n) * t ^ pred (2 * n))) with (cb n * (INR (2 * n) * t ^ pred (2 * n)) / sqrt (1 - x * x)) by (field; lra).
          unfold Rdiv. apply Rmult_le_compat_l; auto. apply Rinv_le_contravar; lra. }
  destruct K as [K1 K2]. set (s := sqrt (1 - x * x)) in *.
  assert (E : / s - asin_d x N = (1 - asin_d x N * s) / s) by (field; lra). rewrite E. split.
  - apply Rle_trans with (cb N * x ^ (2 * N) / s). { unfold Rdiv. rewrite <- (Rmult_1_r (cb N * x ^ (2 * N))) at 1. apply Rmult_le_compat_l; auto. rewrite <- Rinv_1 at 1. apply Rinv_le_contravar; lra. }
    unfold Rdiv. apply Rmult_le_compat_r; [| lra]. left. now apply Rinv_0_lt_compat.
  - rewrite <- SS. replace (cb N * x ^ (2 * N) / (s * s)) with (cb N / s * x ^ (2 * N) / s) by (field; lra).
    unfold Rdiv at 1 3. apply Rmult_le_compat_r; [| lra]. left. now apply Rinv_0_lt_compat.
Qed.
Lemma is_derive_asin x : -1 < x < 1 -> is_derive asin x (/ sqrt (1 - x * x)).
Proof.
  intros H. apply is_derive_Reals. pose proof (derive_pt_asin x H) as E. unfold Rsqr in E. replace (/ sqrt (1 - x * x)) with (1 / sqrt (1 - x * x)) by (unfold Rdiv; ring). rewrite <- E.
  destruct (derivable_pt_asin x H) as (l & D). cbn. exact D.
Qed.
Lemma asin_rsum_0 N : asin_rsum 0 N = 0.
Proof. unfold asin_rsum. induction N; cbn [rsum]. reflexivity. rewrite IHN, pw0. unfold Rdiv. ring. Qed.
Lemma asin_rem_lt1 N x : 0 <= x < 1 -> 0 <= asin x - asin_rsum x N <= cb N / (1 - x * x) * (x ^ (2 * N + 1) / INR (2 * N + 1)).
Proof.
  intros [H0 H1]. apply (deriv_between (fun _ => 0) (fun _ => 0) (fun t => asin t - asin_rsum t N) (fun t => / sqrt (1 - t * t) - asin_d t N)
    (fun t => cb N / (1 - x * x) * (t ^ (2 * N + 1) / INR (2 * N + 1))) (fun t => cb N / (1 - x * x) * t ^ (2 * N))); auto.
  - rewrite asin_0, asin_rsum_0. ring.
  - rewrite pw0. unfold Rdiv. ring.
  - intros. apply @is_derive_const.
  - intros t Ht. apply (is_derive_minus asin). apply is_derive_asin. lra. apply asin_rsum_derive.
  - intros t _. apply (is_derive_scal (fun t => t ^ (2 * N + 1) / INR (2 * N + 1))). apply derive_pw.
  - intros t Ht. assert (P : 0 < 1 - x * x) by nra. assert (PT : 0 < 1 - t * t) by nra. destruct (asin_d_rem N t) as [A B]; [lra |]. pose proof (cb_pos N).
    assert (X : 0 <= cb N * t ^ (2 * N)). { apply Rmult_le_pos; [lra | apply pow_le; lra]. } split; [lra |]. eapply Rle_trans; [exact B |].
    replace (cb N / (1 - x * x) * t ^ (2 * N)) with (cb N * t ^ (2 * N) / (1 - x * x)) by (field; lra). unfold Rdiv. apply Rmult_le_compat_l; auto. apply Rinv_le_contravar; nra.
Qed.
(** the sum of the next M coefficients telescopes *)
Lemma cb_tail N M : rsum (fun i => cb (N + i) / INR (2 * (N + i) + 1)) M <= INR (2 * N + 2) / INR (2 * N + 1) * (cb N - cb (N + M)).
Proof.
  induction M; cbn [rsum]. { rewrite Nat.add_0_r. lra. }
  pose proof (cb_S (N + M)) as E. replace (N + S M)%nat with (S (N + M)) by lia. set (k := (N + M)%nat) in *. assert (N <= k)%nat by (unfold k; lia). apply le_INR in H. clearbody k.
  rewrite S_INR in E. rewrite !plus_INR, !mult_INR in *. cbn [INR] in *. pose proof (pos_INR N). pose proof (cb_pos k). pose proof (cb_pos (S k)).
  set (a := INR N) in *. set (b := INR k) in *. set (c := cb k) in *. set (d := cb (S k)) in *. clearbody a b c d.
  assert (D : d = (2 * b + 1) * c / (2 * (b + 1))) by (rewrite E; field; lra).
  assert (F : c / ((1 + 1) * b + 1) <= ((1 + 1) * a + (1 + 1)) / ((1 + 1) * a + 1) * (c - d)).
  { rewrite D. replace (c - (2 * b + 1) * c / (2 * (b + 1))) with (c / (2 * b + 2)) by (field; lra).
    apply Rle_trans with (((1 + 1) * b + (1 + 1)) / ((1 + 1) * b + 1) * (c / (2 * b + 2))). { right. field. lra. }
    apply Rmult_le_compat_r. { apply Rdiv_le_0_compat; lra. }
    apply (Rmult_le_reg_r (((1 + 1) * b + 1) * ((1 + 1) * a + 1))). { apply Rmult_lt_0_compat; lra. }
    replace (((1 + 1) * b + (1 + 1)) / ((1 + 1) * b + 1) * (((1 + 1) * b + 1) * ((1 + 1) * a + 1))) with (((1 + 1) * b + (1 + 1)) * ((1 + 1) * a + 1)) by (field; lra).
    replace (((1 + 1) * a + (1 + 1)) / ((1 + 1) * a + 1) * (((1 + 1) * b + 1) * ((1 + 1) * a + 1))) with (((1 + 1) * a + (1 + 1)) * ((1 + 1) * b + 1)) by (field; lra). nra. }
  lra.
Qed.
Lemma asin_rsum_split x N M : asin_rsum x (N + M) = asin_rsum x N + rsum (fun i => cb (N + i) * (x ^ (2 * (N + i) + 1) / INR (2 * (N + i) + 1))) M.
Proof. induction M; cbn [rsum]. { rewrite Nat.add_0_r. ring. } rewrite Nat.add_succ_r. unfold asin_rsum in *. cbn [rsum]. rewrite IHM. ring. Qed.
Lemma rsum_le f g n : (forall i, f i <= g i) -> rsum f n <= rsum g n.
Proof. intros H. induction n; cbn. lra. specialize (H n). lra. Qed.
Definition asin_bnd (N : nat) : R := INR (2 * N + 2) / INR (2 * N + 1) * cb N.
Lemma asin_rem_pos_lt1 N x : 0 <= x < 1 -> 0 <= asin x - asin_rsum x N <= asin_bnd N * x ^ (2 * N + 1).
Proof.
  intros H. destruct (asin_rem_lt1 N x H) as [L _]. split; [exact L |].
  assert (P : 0 < 1 - x * x) by nra. assert (asin x <= asin_rsum x N + asin_bnd N * x ^ (2 * N + 1)); [| lra].
  apply le_epsilon. intros eps He. destruct (archimed_cor1 (eps * (1 - x * x))) as (M & E & HM). { apply Rmult_lt_0_compat; auto. }
  destruct (asin_rem_lt1 (N + M) x H) as [_ U].
  assert (XP : forall n, 0 <= x ^ n <= 1). { intros n. split. apply pow_le; lra. rewrite <- (pow1 n). apply pow_incr; lra. }
  assert (T : rsum (fun i => cb (N + i) * (x ^ (2 * (N + i) + 1) / INR (2 * (N + i) + 1))) M <= asin_bnd N * x ^ (2 * N + 1)).
  { apply Rle_trans with (x ^ (2 * N + 1) * rsum (fun i => cb (N + i) / INR (2 * (N + i) + 1)) M).
    - rewrite rsum_scal. apply rsum_le. intros i. assert (0 < INR (2 * (N + i) + 1)) by (apply lt_0_INR; lia). pose proof (cb_pos (N + i)).
      replace (2 * (N + i) + 1)%nat with (2 * N + 1 + 2 * i)%nat at 1 by lia. rewrite pow_add.
      replace (cb (N + i) * (x ^ (2 * N + 1) * x ^ (2 * i) / INR (2 * (N + i) + 1))) with (x ^ (2 * N + 1) * (cb (N + i) / INR (2 * (N + i) + 1)) * x ^ (2 * i)) by (field; lra).
      rewrite <- (Rmult_1_r (x ^ (2 * N + 1) * (cb (N + i) / INR (2 * (N + i) + 1)))) at 2. apply Rmult_le_compat_l; [| apply XP]. apply Rmult_le_pos; [apply XP |]. apply Rdiv_le_0_compat; lra.
    - rewrite Rmult_comm. apply Rmult_le_compat_r; [apply XP |]. eapply Rle_trans; [apply cb_tail |]. unfold asin_bnd. apply Rmult_le_compat_l. apply Rdiv_le_0_compat. apply pos_INR. apply lt_0_INR; lia.
      pose proof (cb_pos (N + M)). lra. }
  assert (S : cb (N + M) / (1 - x * x) * (x ^ (2 * (N + M) + 1) / INR (2 * (N + M) + 1)) <= eps).
  { assert (0 < INR M) by (apply lt_0_INR; auto). assert (Q : 0 < INR (2 * (N + M) + 1)) by (apply lt_0_INR; lia). assert (INR M <= INR (2 * (N + M) + 1)) by (apply le_INR; lia).
    pose proof (cb_pos (N + M)). pose proof (cb_le1 (N + M)). pose proof (XP (2 * (N + M) + 1)%nat).
    replace (cb (N + M) / (1 - x * x) * (x ^ (2 * (N + M) + 1) / INR (2 * (N + M) + 1))) with (/ (1 - x * x) * (cb (N + M) * x ^ (2 * (N + M) + 1) / INR (2 * (N + M) + 1))) by (field; lra).
    replace eps with (/ (1 - x * x) * (eps * (1 - x * x))) by (field; lra). apply Rmult_le_compat_l. { left. now apply Rinv_0_lt_compat. }
    apply Rle_trans with (/ INR M); [| lra]. apply Rle_trans with (/ INR (2 * (N + M) + 1)).
    - unfold Rdiv. rewrite <- (Rmult_1_l (/ INR (2 * (N + M) + 1))) at 2. apply Rmult_le_compat_r. { left. now apply Rinv_0_lt_compat. } rewrite <- (Rmult_1_r 1). apply Rmult_le_compat; lra.
    - apply Rinv_le_contravar; auto. }
  rewrite asin_rsum_split in U. lra.
Qed.
Lemma asin_rsum_mono N x y : 0 <= x <= y -> asin_rsum x N <= asin_rsum y N.
Proof.
  intros H. apply rsum_le. intros n. pose proof (cb_pos n). apply Rmult_le_compat_l; [lra |]. apply Rmult_le_compat_r. { left. apply Rinv_0_lt_compat. apply lt_0_INR. lia. } apply pow_incr. lra.
Qed.
Lemma asin_rem_pos N x : 0 <= x <= 1 -> 0 <= asin x - asin_rsum x N <= asin_bnd N * x ^ (2 * N + 1).
Proof.
  intros H. destruct (Req_dec x 1) as [-> | Hx]; [| apply asin_rem_pos_lt1; lra]. rewrite pow1, Rmult_1_r, asin_1.
  assert (A : forall th, 0 < th < PI / 2 -> 0 <= sin th < 1). { intros th Ht. pose proof PI_RGT_0. split. apply sin_ge_0; lra. rewrite <- sin_PI2. apply sin_increasing_1; lra. }
  assert (B0 : 0 < asin_bnd N). { unfold asin_bnd. apply Rmult_lt_0_compat. apply Rdiv_lt_0_compat; apply lt_0_INR; lia. apply cb_pos. } split.
  - assert (asin_rsum 1 N <= PI / 2); [| lra]. apply Rnot_lt_le. intros C.
    assert (K : continuity_pt (fun t => asin_rsum t N) 1). { apply derivable_continuous_pt. exists (asin_d 1 N). apply is_derive_Reals. apply asin_rsum_derive. }
    destruct (K (asin_rsum 1 N - PI / 2)) as (del & Dp & D); [lra |].
    set (x := 1 - Rmin (del / 2) (1 / 2)). assert (X : 1 / 2 <= x < 1 /\ Rabs (x - 1) < del). { unfold x. unfold Rmin. destruct (Rle_dec (del / 2) (1 / 2)); rewrite Rabs_left; lra. }
    destruct X as [X1 X2]. specialize (D x). cbn in D. unfold R_dist in D. assert (R : D_x no_cond 1 x /\ Rabs (x - 1) < del). { split; auto. split. exact I. lra. } specialize (D R).
    destruct (asin_rem_pos_lt1 N x) as [L _]; [lra |]. destruct (asin_bound x) as [_ U]. apply Rabs_def2 in D. lra.
  - assert (PI / 2 <= asin_rsum 1 N + asin_bnd N); [| lra]. apply le_epsilon. intros eps He. pose proof PI_RGT_0.
    set (th := Rmax (PI / 4) (PI / 2 - eps)). assert (Ht : 0 < th < PI / 2 /\ PI / 2 - eps <= th). { unfold th, Rmax. destruct (Rle_dec (PI / 4) (PI / 2 - eps)); lra. } destruct Ht as [Ht Ht2]. specialize (A th Ht).
    destruct (asin_rem_pos_lt1 N (sin th) A) as [_ U]. rewrite asin_sin in U by lra. pose proof (asin_rsum_mono N (sin th) 1 ltac:(lra)).
    assert (sin th ^ (2 * N + 1) <= 1). { rewrite <- (pow1 (2 * N + 1)). apply pow_incr. lra. } assert (asin_bnd N * sin th ^ (2 * N + 1) <= asin_bnd N * 1) by (apply Rmult_le_compat_l; lra). lra.
Qed.
Lemma asin_rsum_opp x N : asin_rsum (- x) N = - asin_rsum x N.
Proof. unfold asin_rsum. induction N; cbn [rsum]. ring. rewrite IHN, pow_odd_opp. unfold Rdiv. ring. Qed.
Theorem asin_rem N x : -1 <= x <= 1 -> Rabs (asin x - asin_rsum x N) <= asin_bnd N * Rabs x ^ (2 * N + 1).
Proof.
  intros Hx. destruct (Rle_dec 0 x) as [H | H].
  - rewrite (Rabs_pos_eq x) by auto. destruct (asin_rem_pos N x); [lra |]. rewrite Rabs_pos_eq; auto.
  - rewrite (Rabs_left x) by lra. destruct (asin_rem_pos N (- x)) as [A B]; [lra |]. rewrite asin_opp, asin_rsum_opp in A, B. rewrite Rabs_left1; lra.
Qed.
