(** The real functions behind the series of [ISpec]: remainder bounds of their partial sums, proved by the mean value theorem. *)
From Coq Require Import Reals Lra Lia Qreals Factorial Arith ZArith QArith.
From Coquelicot Require Import Coquelicot.
From Verif Require Import ISpec.
Local Open Scope R_scope.

(** ** finite sums *)
Fixpoint rsum (f : nat -> R) (n : nat) : R := match n with O => 0 | S m => rsum f m + f m end.
Lemma rsum_ext f g n : (forall i, (i < n)%nat -> f i = g i) -> rsum f n = rsum g n.
Proof. induction n; intros H; cbn. { reflexivity. } rewrite IHn, (H n) by (intros; auto with arith). reflexivity. Qed.
Lemma rsum_scal c f n : c * rsum f n = rsum (fun i => c * f i) n.
Proof. induction n; cbn. ring. rewrite <- IHn. ring. Qed.
Lemma rsum_derive (f g : nat -> R -> R) x n : (forall i, (i < n)%nat -> is_derive (f i) x (g i x)) ->
  is_derive (fun t => rsum (fun i => f i t) n) x (rsum (fun i => g i x) n).
Proof.
  induction n; intros H; cbn. { apply @is_derive_const. }
  apply (is_derive_plus (fun t => rsum (fun i => f i t) n) (f n)). apply IHn. intros. apply H. lia. apply H. lia.
Qed.
Lemma rsum_Q f n : Q2R (qsum f n) = rsum (fun i => Q2R (f i)) n.
Proof. induction n; cbn. { unfold Q2R. cbn. lra. } rewrite Q2R_plus, IHn. reflexivity. Qed.
Lemma Q2R_Z z : Q2R (inject_Z z) = IZR z.
Proof. unfold Q2R. cbn. field. Qed.
Lemma Q2R_nat n : Q2R (qnat n) = INR n.
Proof. unfold qnat. now rewrite Q2R_Z, INR_IZR_INZ. Qed.
Lemma Q2R_pw x n : Q2R (qpw x n) = Q2R x ^ n.
Proof.
  induction n. { unfold qpw. cbn. unfold Q2R. cbn. lra. }
  cbn [pow]. rewrite <- IHn, <- Q2R_mult. apply Qeq_eqR. unfold qpw. rewrite Nat2Z.inj_succ, <- Z.add_1_l.
  destruct (Qeq_dec x 0) as [E | E].
  - rewrite E, Qmult_0_l. rewrite Qpower_0. reflexivity. lia.
  - rewrite Qpower_plus by auto. reflexivity.
Qed.
Lemma Q2R_divn x n : ~ (n == 0)%Q -> Q2R (x / n) = Q2R x / Q2R n.
Proof. intros. now apply Q2R_div. Qed.

(** ** the mean value theorem as an ordering principle *)
Lemma mono_le (f f' : R -> R) a b : a <= b -> (forall x, a <= x <= b -> is_derive f x (f' x)) -> (forall x, a <= x <= b -> 0 <= f' x) -> f a <= f b.
Proof.
  intros Hab D P. destruct (Req_dec a b) as [-> | N]. { lra. }
  destruct (MVT_cor2 f f' a b) as (c & E & C). lra. intros c C. apply is_derive_Reals. now apply D.
  assert (0 <= f' c) by (apply P; lra). assert (0 <= f' c * (b - a)) by (apply Rmult_le_pos; lra). lra.
Qed.
Lemma mono_lt (f f' : R -> R) a b : a < b -> (forall x, a <= x <= b -> is_derive f x (f' x)) -> (forall x, a < x < b -> 0 < f' x) -> f a < f b.
Proof.
  intros Hab D P. destruct (MVT_cor2 f f' a b) as (c & E & C). lra. intros c C. apply is_derive_Reals. now apply D.
  assert (0 < f' c) by (apply P; lra). assert (0 < f' c * (b - a)) by (apply Rmult_lt_0_compat; lra). lra.
Qed.
Lemma deriv_bound (f f' g g' : R -> R) x : 0 <= x -> f 0 = 0 -> g 0 = 0 ->
  (forall t, 0 <= t <= x -> is_derive f t (f' t)) -> (forall t, 0 <= t <= x -> is_derive g t (g' t)) ->
  (forall t, 0 <= t <= x -> Rabs (f' t) <= g' t) -> Rabs (f x) <= g x.
Proof.
  intros Hx F0 G0 DF DG B. apply Rabs_le. split.
  - assert (H : g 0 + f 0 <= g x + f x).
    { apply (mono_le (fun t => g t + f t) (fun t => g' t + f' t)); auto. intros t Ht. apply (is_derive_plus g f); auto.
      intros t Ht. specialize (B t Ht). apply Rabs_le_between in B. lra. }
    lra.
  - assert (H : g 0 - f 0 <= g x - f x).
    { apply (mono_le (fun t => g t - f t) (fun t => g' t - f' t)); auto. intros t Ht. apply (is_derive_minus g f); auto.
      intros t Ht. specialize (B t Ht). apply Rabs_le_between in B. lra. }
    lra.
Qed.
(** the two sided form *)
Lemma deriv_between (l l' f f' g g' : R -> R) x : 0 <= x -> l 0 = 0 -> f 0 = 0 -> g 0 = 0 ->
  (forall t, 0 <= t <= x -> is_derive l t (l' t)) -> (forall t, 0 <= t <= x -> is_derive f t (f' t)) -> (forall t, 0 <= t <= x -> is_derive g t (g' t)) ->
  (forall t, 0 <= t <= x -> l' t <= f' t <= g' t) -> l x <= f x <= g x.
Proof.
  intros Hx L0 F0 G0 DL DF DG B. split.
  - assert (H : f 0 - l 0 <= f x - l x).
    { apply (mono_le (fun t => f t - l t) (fun t => f' t - l' t)); auto. intros t Ht. apply (is_derive_minus f l); auto.
      intros t Ht. specialize (B t Ht). lra. }
    lra.
  - assert (H : g 0 - f 0 <= g x - f x).
    { apply (mono_le (fun t => g t - f t) (fun t => g' t - f' t)); auto. intros t Ht. apply (is_derive_minus g f); auto.
      intros t Ht. specialize (B t Ht). lra. }
    lra.
Qed.
(** [x^(n+1) / (n+1)] *)
Lemma derive_pw n x : is_derive (fun t => t ^ (n + 1) / INR (n + 1)) x (x ^ n).
Proof.
  auto_derive. auto. replace (n + 1)%nat with (S n) by lia. rewrite S_INR. cbn [pred]. pose proof (pos_INR n). field. lra.
Qed.
Lemma derive_fact n x : is_derive (fun t => t ^ (S n) / INR (fact (S n))) x (x ^ n / INR (fact n)).
Proof.
  assert (E : INR (fact (S n)) = (INR n + 1) * INR (fact n)) by (rewrite <- S_INR, <- mult_INR; reflexivity). rewrite E.
  pose proof (INR_fact_neq_0 n). pose proof (pos_INR n). auto_derive. auto. change (match n with 0%nat => 1 | S _ => INR n + 1 end) with (INR (S n)). rewrite ?S_INR. cbn [pred]. field. split; [auto | lra].
Qed.
Lemma derive_neg (f : R -> R) x d : is_derive f (- x) d -> is_derive (fun t => f (- t)) x (- d).
Proof.
  intros D. evar_last. apply (is_derive_comp f (fun t => - t) x d (- (1))). exact D. auto_derive. auto. ring. unfold scal; cbn. unfold mult; cbn. ring.
Qed.
Lemma fact_pos n : 0 < INR (fact n).
Proof. apply lt_0_INR. apply lt_O_fact. Qed.
Lemma pw0 n : 0 ^ (n + 1) = 0.
Proof. replace (n + 1)%nat with (S n) by lia. cbn. ring. Qed.
Lemma geo_sum q n : (1 - q) * rsum (fun i => q ^ i) n = 1 - q ^ n.
Proof. induction n; cbn. ring. rewrite Rmult_plus_distr_l, IHn. ring. Qed.

(** ** exp *)
Definition exp_rsum (x : R) (N : nat) : R := rsum (fun n => x ^ n / INR (fact n)) N.
Lemma exp_rsum_derive N x : is_derive (fun t => exp_rsum t (S N)) x (exp_rsum x N).
Proof.
  induction N.
  - apply (is_derive_ext (fun _ => 1)); [| apply @is_derive_const]. intros t. change (@eq R 1 (0 + 1 / 1)). field.
  - change (is_derive (fun t => exp_rsum t (S N) + t ^ S N / INR (fact (S N))) x (exp_rsum x N + x ^ N / INR (fact N))).
    apply (is_derive_plus (fun t => exp_rsum t (S N))). exact IHN. apply derive_fact.
Qed.
Lemma exp_rsum_0 N : exp_rsum 0 (S N) = 1.
Proof.
  induction N. { unfold exp_rsum. cbn. field. }
  change (exp_rsum 0 (S (S N))) with (exp_rsum 0 (S N) + 0 ^ S N / INR (fact (S N))). rewrite IHN. cbn [pow]. rewrite Rmult_0_l. unfold Rdiv. ring.
Qed.
Lemma exp_rem_pos N : forall x, 0 <= x -> x ^ N / INR (fact N) <= exp x - exp_rsum x N <= x ^ N / INR (fact N) * exp x.
Proof.
  induction N; intros x Hx.
  - cbn [pow fact INR]. unfold exp_rsum. cbn [rsum]. pose proof (exp_ineq1_le x). lra.
  - apply (deriv_between (fun t => t ^ S N / INR (fact (S N))) (fun t => t ^ N / INR (fact N))
             (fun t => exp t - exp_rsum t (S N)) (fun t => exp t - exp_rsum t N)
             (fun t => t ^ S N / INR (fact (S N)) * exp t) (fun t => t ^ N / INR (fact N) * exp t + t ^ S N / INR (fact (S N)) * exp t)); auto.
    + cbn [pow]. unfold Rdiv. ring.
    + rewrite exp_0, exp_rsum_0. ring.
    + cbn [pow]. unfold Rdiv. ring.
    + intros. apply derive_fact.
    + intros t _. apply (is_derive_minus exp). apply is_derive_exp. apply exp_rsum_derive.
    + intros t _. apply (is_derive_mult (fun t => t ^ S N / INR (fact (S N))) exp). apply derive_fact. apply is_derive_exp. intros; apply Rmult_comm.
    + intros t Ht. destruct (IHN t ltac:(lra)). split; [lra |].
      assert (0 <= t ^ S N / INR (fact (S N)) * exp t). { apply Rmult_le_pos. apply Rdiv_le_0_compat. apply pow_le; lra. apply fact_pos. left. apply exp_pos. }
      lra.
Qed.
Lemma exp_rem_neg N : forall u, 0 <= u -> 0 <= (-1) ^ N * (exp (- u) - exp_rsum (- u) N) <= u ^ N / INR (fact N).
Proof.
  induction N; intros u Hu.
  - cbn [pow fact INR]. unfold exp_rsum. cbn [rsum]. pose proof (exp_pos (- u)). assert (exp (- u) <= 1). { rewrite <- exp_0. destruct Hu as [Hu | <-]. left. apply exp_increasing. lra. right. f_equal. ring. } lra.
  - apply (deriv_between (fun _ => 0) (fun _ => 0)
             (fun t => (-1) ^ S N * (exp (- t) - exp_rsum (- t) (S N))) (fun t => (-1) ^ N * (exp (- t) - exp_rsum (- t) N))
             (fun t => t ^ S N / INR (fact (S N))) (fun t => t ^ N / INR (fact N))); auto.
    + rewrite Ropp_0, exp_0, exp_rsum_0. ring.
    + cbn [pow]. unfold Rdiv. ring.
    + intros. apply @is_derive_const.
    + intros t _. evar_last. apply (is_derive_scal (fun t => exp (- t) - exp_rsum (- t) (S N)) t ((-1) ^ S N) (- (exp (- t) - exp_rsum (- t) N))).
      apply (derive_neg (fun v => exp v - exp_rsum v (S N))). apply (is_derive_minus exp). apply is_derive_exp. apply exp_rsum_derive. unfold scal; cbn. unfold mult; cbn. ring.
    + intros. apply derive_fact.
    + intros t Ht. apply IHN. lra.
Qed.

(** ** ln *)
Definition ln_rsum (a : R) (N : nat) : R := rsum (fun n => (-1) ^ n * (a ^ (n + 1) / INR (n + 1))) N.
Lemma ln_rsum_0 N : ln_rsum 0 N = 0.
Proof. unfold ln_rsum. induction N; cbn [rsum]. reflexivity. rewrite IHN, pw0. unfold Rdiv. ring. Qed.
Lemma ln_rem_derive N a : -1 < a -> is_derive (fun t => ln (1 + t) - ln_rsum t N) a ((- a) ^ N / (1 + a)).
Proof.
  intros Ha. evar_last. apply (is_derive_minus (fun t => ln (1 + t)) (fun t => ln_rsum t N) a (/ (1 + a)) (rsum (fun n => (-1) ^ n * a ^ n) N)).
  - auto_derive. lra. field. lra.
  - apply (rsum_derive (fun n t => (-1) ^ n * (t ^ (n + 1) / INR (n + 1))) (fun n t => (-1) ^ n * t ^ n)). intros n _. apply (is_derive_scal (fun t => t ^ (n + 1) / INR (n + 1))). apply derive_pw.
  - unfold minus, plus, opp; cbn. rewrite (rsum_ext _ (fun n => (- a) ^ n)). 2:{ intros. rewrite <- Rpow_mult_distr. f_equal. ring. }
    pose proof (geo_sum (- a) N) as G. replace (1 - - a) with (1 + a) in G by ring.
    apply (Rmult_eq_reg_l (1 + a)); [| lra]. rewrite Rmult_plus_distr_l, Rinv_r by lra. replace ((1 + a) * ((- a) ^ N / (1 + a))) with ((- a) ^ N) by (field; lra). lra.
Qed.
Lemma m1_sq n : (-1) ^ n * (-1) ^ n = 1.
Proof. rewrite <- Rpow_mult_distr. replace (-1 * -1) with 1 by ring. apply pow1. Qed.
Lemma pow_opp n x : (- x) ^ n = (-1) ^ n * x ^ n.
Proof. rewrite <- Rpow_mult_distr. f_equal. ring. Qed.
Lemma ln_rem_pos N a : 0 <= a -> 0 <= (-1) ^ N * (ln (1 + a) - ln_rsum a N) <= a ^ (N + 1) / INR (N + 1).
Proof.
  intros Ha. apply (deriv_between (fun _ => 0) (fun _ => 0) (fun t => (-1) ^ N * (ln (1 + t) - ln_rsum t N)) (fun t => t ^ N / (1 + t)) (fun t => t ^ (N + 1) / INR (N + 1)) (fun t => t ^ N)); auto.
  - rewrite Rplus_0_r, ln_1, ln_rsum_0. ring.
  - rewrite pw0. unfold Rdiv. ring.
  - intros. apply @is_derive_const.
  - intros t Ht. evar_last. apply (is_derive_scal (fun t => ln (1 + t) - ln_rsum t N)). apply ln_rem_derive. lra. unfold scal; cbn. unfold mult; cbn. rewrite pow_opp.
    replace ((-1) ^ N * ((-1) ^ N * t ^ N / (1 + t))) with (((-1) ^ N * (-1) ^ N) * t ^ N / (1 + t)) by (field; lra). rewrite m1_sq. field. lra.
  - intros. apply derive_pw.
  - intros t Ht. assert (0 <= t ^ N) by (apply pow_le; lra). split. apply Rdiv_le_0_compat; lra.
    apply (Rmult_le_reg_r (1 + t)); [lra |]. replace (t ^ N / (1 + t) * (1 + t)) with (t ^ N) by (field; lra).
    assert (0 <= t ^ N * t) by (apply Rmult_le_pos; lra). lra.
Qed.
Lemma ln_rem_neg N u : 0 <= u < 1 -> u ^ (N + 1) / INR (N + 1) <= ln_rsum (- u) N - ln (1 - u) <= u ^ (N + 1) / INR (N + 1) / (1 - u).
Proof.
  intros [Hu Hu1]. apply (deriv_between (fun t => t ^ (N + 1) / INR (N + 1)) (fun t => t ^ N) (fun t => ln_rsum (- t) N - ln (1 - t)) (fun t => t ^ N / (1 - t)) (fun t => t ^ (N + 1) / INR (N + 1) / (1 - u)) (fun t => t ^ N / (1 - u))); auto.
  - rewrite pw0. unfold Rdiv. ring.
  - rewrite Ropp_0, Rminus_0_r, ln_1, ln_rsum_0. ring.
  - rewrite pw0. unfold Rdiv. ring.
  - intros. apply derive_pw.
  - intros t Ht. apply (is_derive_ext (fun t => - (ln (1 + - t) - ln_rsum (- t) N))). { intros s. change (@eq R (- (ln (1 + - s) - ln_rsum (- s) N)) (ln_rsum (- s) N - ln (1 - s))). replace (1 + - s) with (1 - s) by ring. ring. }
    evar_last. apply (is_derive_opp (fun t => ln (1 + - t) - ln_rsum (- t) N)). apply (derive_neg (fun v => ln (1 + v) - ln_rsum v N)). apply ln_rem_derive. lra.
    cbn. unfold opp; cbn. rewrite !Ropp_involutive. field. lra.
  - intros t Ht. apply (is_derive_ext (fun t => / (1 - u) * (t ^ (N + 1) / INR (N + 1)))). { intros s. change (@eq R (/ (1 - u) * (s ^ (N + 1) / INR (N + 1))) (s ^ (N + 1) / INR (N + 1) / (1 - u))). unfold Rdiv. ring. }
    evar_last. apply (is_derive_scal (fun t => t ^ (N + 1) / INR (N + 1))). apply derive_pw. unfold scal; cbn. unfold mult; cbn. unfold Rdiv. ring.
  - intros t Ht. assert (0 <= t ^ N) by (apply pow_le; lra). split.
    + apply (Rmult_le_reg_r (1 - t)); [lra |]. replace (t ^ N / (1 - t) * (1 - t)) with (t ^ N) by (field; lra). assert (0 <= t ^ N * t) by (apply Rmult_le_pos; lra). lra.
    + apply Rmult_le_compat_l; auto. apply Rinv_le_contravar; lra.
Qed.

(** ** atan *)
Definition atan_rsum (x : R) (N : nat) : R := rsum (fun n => (-1) ^ n * (x ^ (2 * n + 1) / INR (2 * n + 1))) N.
Lemma atan_rsum_0 N : atan_rsum 0 N = 0.
Proof. unfold atan_rsum. induction N; cbn [rsum]. reflexivity. rewrite IHN, pw0. unfold Rdiv. ring. Qed.
Lemma pow_2n x n : x ^ (2 * n) = (x * x) ^ n.
Proof. rewrite pow_mult. f_equal. ring. Qed.
Lemma atan_rem_derive N x : is_derive (fun t => atan t - atan_rsum t N) x ((- (x * x)) ^ N / (1 + x * x)).
Proof.
  assert (0 <= x * x) by (apply Rle_0_sqr).
  evar_last. apply (is_derive_minus atan (fun t => atan_rsum t N) x (/ (1 + x * x)) (rsum (fun n => (-1) ^ n * x ^ (2 * n)) N)).
  - apply is_derive_atan.
  - apply (rsum_derive (fun n t => (-1) ^ n * (t ^ (2 * n + 1) / INR (2 * n + 1))) (fun n t => (-1) ^ n * t ^ (2 * n))). intros n _. apply (is_derive_scal (fun t => t ^ (2 * n + 1) / INR (2 * n + 1))). apply derive_pw.
  - unfold minus, plus, opp; cbn. rewrite (rsum_ext _ (fun n => (- (x * x)) ^ n)). 2:{ intros i _. change (i + (i + 0))%nat with (2 * i)%nat. now rewrite pow_2n, (pow_opp i (x * x)). }
    pose proof (geo_sum (- (x * x)) N) as G. replace (1 - - (x * x)) with (1 + x * x) in G by ring.
    apply (Rmult_eq_reg_l (1 + x * x)); [| lra]. rewrite Rmult_plus_distr_l, Rinv_r by lra. replace ((1 + x * x) * ((- (x * x)) ^ N / (1 + x * x))) with ((- (x * x)) ^ N) by (field; lra). lra.
Qed.
Lemma atan_rem_pos N x : 0 <= x -> 0 <= (-1) ^ N * (atan x - atan_rsum x N) <= x ^ (2 * N + 1) / INR (2 * N + 1).
Proof.
  intros Hx. apply (deriv_between (fun _ => 0) (fun _ => 0) (fun t => (-1) ^ N * (atan t - atan_rsum t N)) (fun t => t ^ (2 * N) / (1 + t * t)) (fun t => t ^ (2 * N + 1) / INR (2 * N + 1)) (fun t => t ^ (2 * N))); auto.
  - rewrite atan_0, atan_rsum_0. ring.
  - rewrite pw0. unfold Rdiv. ring.
  - intros. apply @is_derive_const.
  - intros t Ht. assert (0 <= t * t) by (apply Rle_0_sqr). evar_last. apply (is_derive_scal (fun t => atan t - atan_rsum t N)). apply atan_rem_derive. unfold scal; cbn -[Nat.mul]. unfold mult; cbn -[Nat.mul]. rewrite pow_opp, pow_2n.
    replace ((-1) ^ N * ((-1) ^ N * (t * t) ^ N / (1 + t * t))) with (((-1) ^ N * (-1) ^ N) * (t * t) ^ N / (1 + t * t)) by (field; lra). rewrite m1_sq. field. lra.
  - intros. apply derive_pw.
  - intros t Ht. assert (0 <= t * t) by (apply Rle_0_sqr). assert (0 <= t ^ (2 * N)) by (apply pow_le; lra). split. apply Rdiv_le_0_compat; lra.
    apply (Rmult_le_reg_r (1 + t * t)); [lra |]. replace (t ^ (2 * N) / (1 + t * t) * (1 + t * t)) with (t ^ (2 * N)) by (field; lra).
    assert (0 <= t ^ (2 * N) * (t * t)) by (apply Rmult_le_pos; lra). lra.
Qed.
Lemma pow_odd_opp x n : (- x) ^ (2 * n + 1) = - x ^ (2 * n + 1).
Proof. rewrite !pow_add, !pow_2n. cbn [pow]. replace (- x * - x) with (x * x) by ring. ring. Qed.
Lemma atan_rsum_opp x N : atan_rsum (- x) N = - atan_rsum x N.
Proof. unfold atan_rsum. induction N; cbn [rsum]. ring. rewrite IHN, pow_odd_opp. unfold Rdiv. ring. Qed.
Lemma Rabs_m1 n x : Rabs ((-1) ^ n * x) = Rabs x.
Proof. rewrite Rabs_mult, pow_1_abs. ring. Qed.
Lemma atan_rem N x : Rabs (atan x - atan_rsum x N) <= Rabs x ^ (2 * N + 1) / INR (2 * N + 1).
Proof.
  destruct (Rle_dec 0 x) as [H | H].
  - rewrite (Rabs_pos_eq x) by auto. destruct (atan_rem_pos N x H). rewrite <- (Rabs_m1 N), Rabs_pos_eq; auto.
  - rewrite (Rabs_left x) by lra. destruct (atan_rem_pos N (- x)) as [A B]; [lra |]. rewrite <- (Rabs_m1 N), Rabs_left1; rewrite atan_opp, atan_rsum_opp in A, B; lra.
Qed.

(** ** sin and cos *)
Definition sin_rsum (x : R) (N : nat) : R := rsum (fun n => (-1) ^ n * (x ^ (2 * n + 1) / INR (fact (2 * n + 1)))) N.
Definition cos_rsum (x : R) (N : nat) : R := rsum (fun n => (-1) ^ n * (x ^ (2 * n) / INR (fact (2 * n)))) N.
Lemma derive_fact' n m x : m = S n -> is_derive (fun t => t ^ m / INR (fact m)) x (x ^ n / INR (fact n)).
Proof. intros ->. apply derive_fact. Qed.
Lemma sin_rsum_derive N x : is_derive (fun t => sin_rsum t N) x (cos_rsum x N).
Proof.
  apply (rsum_derive (fun n t => (-1) ^ n * (t ^ (2 * n + 1) / INR (fact (2 * n + 1)))) (fun n t => (-1) ^ n * (t ^ (2 * n) / INR (fact (2 * n))))).
  intros n _. apply (is_derive_scal (fun t => t ^ (2 * n + 1) / INR (fact (2 * n + 1)))). apply derive_fact'. lia.
Qed.
Lemma cos_rsum_derive N x : is_derive (fun t => cos_rsum t (S N)) x (- sin_rsum x N).
Proof.
  induction N.
  - apply (is_derive_ext (fun _ => 1)). { intros t. change (@eq R 1 (0 + 1 * (1 / 1))). field. } change (- sin_rsum x 0) with (- 0). rewrite Ropp_0. apply @is_derive_const.
  - apply (is_derive_ext (fun t => cos_rsum t (S N) + (-1) ^ (S N) * (t ^ (2 * S N) / INR (fact (2 * S N))))). reflexivity.
    evar_last. apply (is_derive_plus (fun t => cos_rsum t (S N))). exact IHN. apply (is_derive_scal (fun t => t ^ (2 * S N) / INR (fact (2 * S N)))). apply (derive_fact' (2 * N + 1)). lia.
    change (sin_rsum x (S N)) with (sin_rsum x N + (-1) ^ N * (x ^ (2 * N + 1) / INR (fact (2 * N + 1)))). unfold plus, scal; cbn -[Nat.mul pow fact]. unfold mult; cbn -[Nat.mul pow fact]. cbn [pow]. ring.
Qed.
Lemma sin_rsum_0 N : sin_rsum 0 N = 0.
Proof. unfold sin_rsum. induction N; cbn [rsum]. reflexivity. rewrite IHN, pw0. unfold Rdiv. ring. Qed.
Lemma cos_rsum_0 N : cos_rsum 0 (S N) = 1.
Proof.
  induction N. { unfold cos_rsum. cbn. field. }
  change (cos_rsum 0 (S (S N))) with (cos_rsum 0 (S N) + (-1) ^ (S N) * (0 ^ (2 * S N) / INR (fact (2 * S N)))). rewrite IHN. replace (2 * S N)%nat with (2 * N + 1 + 1)%nat by lia. rewrite pw0. unfold Rdiv. ring.
Qed.
Lemma sc_rem_pos N : forall x, 0 <= x -> Rabs (cos x - cos_rsum x N) <= x ^ (2 * N) / INR (fact (2 * N)) /\ Rabs (sin x - sin_rsum x N) <= x ^ (2 * N + 1) / INR (fact (2 * N + 1)).
Proof.
  assert (SC : forall n, (forall x, 0 <= x -> Rabs (cos x - cos_rsum x n) <= x ^ (2 * n) / INR (fact (2 * n))) -> forall x, 0 <= x -> Rabs (sin x - sin_rsum x n) <= x ^ (2 * n + 1) / INR (fact (2 * n + 1))).
  { intros n H x Hx. apply (deriv_bound (fun t => sin t - sin_rsum t n) (fun t => cos t - cos_rsum t n) (fun t => t ^ (2 * n + 1) / INR (fact (2 * n + 1))) (fun t => t ^ (2 * n) / INR (fact (2 * n)))); auto.
    - rewrite sin_0, sin_rsum_0. ring.
    - rewrite pw0. unfold Rdiv. ring.
    - intros t _. apply (is_derive_minus sin). apply is_derive_sin. apply sin_rsum_derive.
    - intros t _. apply derive_fact'. lia.
    - intros t Ht. apply H. lra. }
  induction N; intros x Hx.
  - assert (C : forall x, 0 <= x -> Rabs (cos x - cos_rsum x 0) <= x ^ (2 * 0) / INR (fact (2 * 0))).
    { intros y _. unfold cos_rsum. cbn. rewrite Rminus_0_r. replace (1 / 1) with 1 by field. apply Rabs_le. apply COS_bound. }
    split; [now apply C | now apply SC].
  - assert (C : forall x, 0 <= x -> Rabs (cos x - cos_rsum x (S N)) <= x ^ (2 * S N) / INR (fact (2 * S N))).
    { intros y Hy. apply (deriv_bound (fun t => cos t - cos_rsum t (S N)) (fun t => - (sin t - sin_rsum t N)) (fun t => t ^ (2 * S N) / INR (fact (2 * S N))) (fun t => t ^ (2 * N + 1) / INR (fact (2 * N + 1)))); auto.
      - rewrite cos_0, cos_rsum_0. ring.
      - replace (2 * S N)%nat with (2 * N + 1 + 1)%nat by lia. rewrite pw0. unfold Rdiv. ring.
      - intros t _. evar_last. apply (is_derive_minus cos). apply is_derive_cos. apply cos_rsum_derive. unfold minus, plus, opp; cbn. ring.
      - intros t _. apply derive_fact'. lia.
      - intros t Ht. rewrite Rabs_Ropp. apply IHN. lra. }
    split; [now apply C | now apply SC].
Qed.
Lemma sin_rsum_opp x N : sin_rsum (- x) N = - sin_rsum x N.
Proof. unfold sin_rsum. induction N; cbn [rsum]. ring. rewrite IHN, pow_odd_opp. unfold Rdiv. ring. Qed.
Lemma cos_rsum_opp x N : cos_rsum (- x) N = cos_rsum x N.
Proof. unfold cos_rsum. apply rsum_ext. intros i _. rewrite !pow_2n. replace (- x * - x) with (x * x) by ring. reflexivity. Qed.
Lemma sin_rem N x : Rabs (sin x - sin_rsum x N) <= Rabs x ^ (2 * N + 1) / INR (fact (2 * N + 1)).
Proof.
  destruct (Rle_dec 0 x) as [H | H].
  - rewrite (Rabs_pos_eq x) by auto. now apply sc_rem_pos.
  - rewrite (Rabs_left x) by lra. destruct (sc_rem_pos N (- x)) as [_ A]; [lra |]. rewrite sin_neg, sin_rsum_opp in A. replace (- sin x - - sin_rsum x N) with (- (sin x - sin_rsum x N)) in A by ring. now rewrite Rabs_Ropp in A.
Qed.
Lemma cos_rem N x : Rabs (cos x - cos_rsum x N) <= Rabs x ^ (2 * N) / INR (fact (2 * N)).
Proof.
  destruct (Rle_dec 0 x) as [H | H].
  - rewrite (Rabs_pos_eq x) by auto. now apply sc_rem_pos.
  - rewrite (Rabs_left x) by lra. destruct (sc_rem_pos N (- x)) as [A _]; [lra |]. now rewrite cos_neg, cos_rsum_opp in A.
Qed.
