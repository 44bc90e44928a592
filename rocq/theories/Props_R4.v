(** Properties C34-C37, C54, C58, C59: the iteration functions. *)
From Coq Require Import Zquot Qpower Lqa.
From Verif Require Import Base USpec SSpec UFacts UBig UFun UStr UEq UPow USqrt ULog BBig BSpec BEq RBig RSpec REq RIeee RTab RIter ISpec RIterP RIterX RIterL RIterT.
Local Open Scope Z_scope.

(** ** C34 sqrt_iter *)
(** The domain: the two leading limbs of numerator and denominator (times 2^32) stay below the limit of UBigInt::sqrt's seed (C14).  Missing: the rest of the domain. *)
Theorem C34_sqrt_iter_partial : forall r k, rwf r -> (0 <= rval r)%Q ->
  top64 (bval (rnum r) * 2 ^ (32 * (Z.of_nat k + 1))) < KSQ -> top64 (bval (rden r) * 2 ^ (32 * (Z.of_nat k + 1))) < KSQ ->
  exists s, sqrt_iter r k = Ok s /\ rwf s /\ (0 <= rval s)%Q /\ let eps := (3 / qpw 2 (16 * (k + 1)))%Q in
    (rval s * rval s <= rval r * (1 + eps))%Q /\ (rval r <= rval s * rval s * (1 + eps))%Q.
Proof.
  intros r k W Hr T1 T2. rewrite <- (rof_rval r W) in T1, T2 |- *. rewrite rnum_rof, rden_rof, !bof_val in *.
  replace (32 * (Z.of_nat k + 1)) with (32 * Z.of_nat (1 + k)) in * by lia. rewrite <- BB_pow2 in *.
  destruct (sqrt_iter_ok (rval r) k Hr T1 T2) as (s & E & S1 & S2 & S3). exists (rof s). split; [auto |]. split; [apply rof_wf |].
  cbv zeta. rewrite !rof_val. auto.
Qed.
(** the documented sqrt(abs(x)) is not what is returned for negative x *)
Theorem C34_negative_refuted : exists r s, rwf r /\ (rval r < 0)%Q /\ sqrt_iter r 1 = Ok s /\ (rval s < 0)%Q.
Proof.
  exists (rof (- (4))), (rof (- (2))). split; [apply rof_wf |]. rewrite !rof_val. splits; vm_compute; reflexivity.
Qed.
Example C34_case : let r := rof 2 in rwf r /\ top64 (bval (rnum r) * 2 ^ (32 * (Z.of_nat 3 + 1))) < KSQ /\ top64 (bval (rden r) * 2 ^ (32 * (Z.of_nat 3 + 1))) < KSQ.
Proof. cbv zeta. split; [apply rof_wf |]. split; vm_compute; reflexivity. Qed.

(** ** C35 e_iter *)
Theorem C35_e_iter : forall k, Z.of_nat k < 2 ^ 31 - 20 -> exists r, e_iter k = Ok r /\ rwf r /\ (rval r == exp_sum 1 (20 + k))%Q.
Proof. intros k Hk. exists (rof (exp_sum 1 (20 + k))). split; [now apply e_iter_ok |]. split; [apply rof_wf | apply rof_val]. Qed.
Theorem C35_increasing : forall k r s, Z.of_nat k < 2 ^ 31 - 21 -> e_iter k = Ok r -> e_iter (S k) = Ok s -> (rval s == rval r + 1 / qnat (fact (20 + k)))%Q.
Proof.
  intros k r s Hk. rewrite !e_iter_ok by lia. replace (20 + S k)%nat with (S (20 + k)) by lia. generalize (20 + k)%nat. intros m E F.
  assert (r = rof (exp_sum 1 m)) as -> by congruence. assert (s = rof (exp_sum 1 (S m))) as -> by congruence. rewrite !rof_val.
  unfold exp_sum. cbn [qsum]. rewrite exp1_term. reflexivity.
Qed.
Example C35_case : e_iter 0 = Ok (rof (330665665962404000 # 121645100408832000)).
Proof. vm_compute. reflexivity. Qed.

(** ** C36 pi_iter and ln2_iter *)
Theorem C36_pi_iter : forall k, ((k <= 255)%nat -> exists r, pi_iter k = Ok r /\ rwf r /\ (rval r == bbp_sum (2 * k + 2))%Q) /\ ((255 < k)%nat -> pi_iter k = Panic).
Proof.
  intros k. split; intros; [| now apply pi_iter_panic]. exists (rof (bbp_sum (2 * k + 2))). split; [now apply pi_iter_ok |]. split; [apply rof_wf | apply rof_val].
Qed.
Theorem C36_ln2_iter : forall k, ((k <= 205)%nat -> exists r, ln2_iter k = Ok r /\ rwf r /\ (rval r == ln2_sum (6 * k + 12))%Q) /\ ((205 < k)%nat -> ln2_iter k = Panic).
Proof.
  intros k. split; intros; [| now apply ln2_iter_panic]. exists (rof (ln2_sum (6 * k + 12))). split; [now apply ln2_iter_ok |]. split; [apply rof_wf | apply rof_val].
Qed.
Example C36_case : pi_iter 1 = Ok (rof (bbp_sum 4)) /\ ln2_iter 1 = Ok (rof (ln2_sum 18)) /\ (3141592 # 1000000 < bbp_sum 4 < 3141593 # 1000000)%Q.
Proof. splits; vm_compute; reflexivity. Qed.

(** ** C37 exp_iter, ln_iter, log_iter, pow_iter *)
Theorem C37_exp_iter : forall r k, rwf r -> Z.of_nat k < 2 ^ 31 - 20 ->
  (- 2 ^ 31 < qtrunc (rval r) < 2 ^ 31 -> exists s, exp_iter r k = Ok s /\ rwf s /\ (rval s == exp_value (rval r) k)%Q) /\
  (~ - 2 ^ 31 < qtrunc (rval r) < 2 ^ 31 -> exp_iter r k = Panic).
Proof.
  intros r k W Hk. pose proof (exp_iter_ok (rval r) k Hk) as H1. pose proof (exp_iter_panic (rval r) k Hk) as H2. rewrite (rof_rval r W) in H1, H2.
  split; intros H; [| now apply H2]. exists (rof (exp_value (rval r) k)). split; [now apply H1 |]. split; [apply rof_wf | apply rof_val].
Qed.
Theorem C37_exp_zero : forall k, Z.of_nat k < 2 ^ 31 - 20 -> exp_iter rzero k = Ok rone.
Proof.
  intros k Hk. rewrite Rzero, Rone, exp_iter_ok by (auto; unfold i32r; cbn; lia). apply rofE. unfold exp_value.
  change (qtrunc 0) with 0. change (Qle_bool (9 # 10) (0 - inject_Z 0)) with false. cbn iota. change (E_ k ^ 0)%Q with 1%Q.
  assert (H : forall n, (exp_sum (0 - inject_Z 0) (S n) == 1)%Q).
  { induction n; unfold exp_sum in *; cbn [qsum] in *. { vm_compute. reflexivity. }
    rewrite IHn. unfold exp_term. rewrite qpw_S. change (inject_Z 0) with 0%Q. field. apply qfact_nz. }
  replace (k + 1)%nat with (S k) by lia. rewrite H. reflexivity.
Qed.
(** [L] is the power of two taken out of the argument; what is left lies between 1/2 and 2 up to 2^-28 *)
Theorem C37_ln_iter : forall r k, rwf r -> (0 < rval r)%Q -> Z.of_nat (length (bmag (rnum r))) < 2 ^ 27 -> Z.of_nat (length (bmag (rden r))) < 2 ^ 27 -> (k <= 205)%nat ->
  exists s L, ln_iter r k = Ok s /\ rwf s /\
    let a := (rval r / 2 ^ L)%Q in ((1 # 2) <= a * (1 + (1 # 2 ^ 28)))%Q /\ (a <= 2 * (1 + (1 # 2 ^ 28)))%Q /\
    (rval s == ln_sum (a - 1) (2 * k + 1) + inject_Z L * ln2_sum (6 * k + 12))%Q.
Proof.
  intros r k W Hr L1 L2 Hk. pose proof (qn_pos _ Hr). pose proof (ln_iter_ok (rval r) k Hr) as K. rewrite (rof_rval r W) in K.
  assert (bmag (rnum r) = uof (qn (rval r))) as E1. { rewrite <- (rof_rval r W) at 1. now rewrite rnum_rof, Bmag, Z.abs_eq by lia. }
  assert (bmag (rden r) = uof (qd (rval r))) as E2. { rewrite <- (rof_rval r W) at 1. now rewrite rden_rof, Bmag, Z.abs_eq by lia. }
  rewrite E1 in L1. rewrite E2 in L2. destruct (K L1 L2 Hk) as (L & _ & A & B & E). eexists. exists L. split; [exact E |]. split; [apply rof_wf |]. cbv zeta.
  split; [exact A |]. split; [exact B |]. apply rof_val.
Qed.
Theorem C37_ln_domain : forall r k, rwf r -> (rval r <= 0)%Q -> ln_iter r k = Panic.
Proof. intros r k W H. rewrite <- (rof_rval r W). now apply ln_iter_nonpos. Qed.
Theorem C37_log_iter : forall b x k s t, ln_iter x k = Ok s -> ln_iter b k = Ok t -> rwf s -> rwf t -> ~ (rval t == 0)%Q ->
  exists u, log_iter b x k = Ok u /\ rwf u /\ (rval u * rval t == rval s)%Q.
Proof.
  intros b x k s t E F Ws Wt H. unfold log_iter. rewrite E. cbn [bind]. rewrite F. cbn [bind]. rewrite <- (rof_rval s Ws), <- (rof_rval t Wt), Rdiv by auto.
  eexists. split; [reflexivity |]. split; [apply rof_wf |]. rewrite !rof_val. field. auto.
Qed.
(** logarithm to base one: a value with denominator zero comes back instead of a panic *)
Theorem C37_log_base_one_refuted : exists s, log_iter rone (rof 2) 1 = Ok s /\ ~ rwf s.
Proof. eexists. split. vm_compute. reflexivity. intros (_ & _ & H & _). vm_compute in H. discriminate. Qed.
Theorem C37_pow_iter : forall a b k, rwf a -> rwf b ->
  ((rval a == 0)%Q -> pow_iter a b k = Ok rzero) /\ ((rval a < 0)%Q -> pow_iter a b k = Panic) /\
  (forall l, ~ (rval a == 0)%Q -> ln_iter a k = Ok l -> rwf l -> - 2 ^ 31 < qtrunc (rval b * rval l) < 2 ^ 31 -> Z.of_nat k < 2 ^ 31 - 20 ->
     exists s, pow_iter a b k = Ok s /\ rwf s /\ (rval s == exp_value (rval b * rval l) k)%Q).
Proof.
  intros a b k Wa Wb. unfold pow_iter. assert (Z0 : ris_zero a = qeqb (rval a) 0) by (rewrite <- (rof_rval a Wa) at 1; apply Ris_zero). rewrite Z0.
  splits.
  - intros H. destruct (qeqb_qeq (rval a) 0); [reflexivity | contradiction].
  - intros H. destruct (qeqb_qeq (rval a) 0); [exfalso; lra |]. rewrite <- (rof_rval a Wa), ln_iter_nonpos by (apply Qlt_le_weak; exact H). reflexivity.
  - intros l H E Wl HT Hk. destruct (qeqb_qeq (rval a) 0); [contradiction |]. rewrite E. cbn [bind].
    pose proof (Rmul (rval b) (rval l)) as M. rewrite (rof_rval b Wb), (rof_rval l Wl) in M. rewrite M. cbn [bind]. rewrite exp_iter_ok by auto.
    eexists. split; [reflexivity |]. split; [apply rof_wf | apply rof_val].
Qed.
Example C37_cases : exp_iter (rof (3 # 2)) 1 = Ok (rof ((330665665962404000 * 20 + 1 # 2432902008176640000) * (1 + (1 # 2)))) /\ (ln_iter (rof (3 # 4)) 1 = Ok (rof (- (1 # 4) - (1 # 32) - (1 # 192)))) /\
  pow_iter rzero rzero 3 = Ok rzero /\ (qtrunc (3 # 2) = 1).
Proof. splits; vm_compute; reflexivity. Qed.

(** ** C54 the constants *)
Theorem C54_constants : pi_iter 7 = Ok pi_const /\ e_iter 15 = Ok e_const /\ ln2_iter 11 = Ok ln2_const /\ rwf pi_const /\ rwf e_const /\ rwf ln2_const.
Proof.
  destruct consts_ok as (E1 & E2 & E3). rewrite E1, E2, E3. splits; try apply rof_wf.
  - rewrite pi_iter_ok by lia. reflexivity.
  - exact (e_iter_ok 15 ltac:(lia)).
  - rewrite ln2_iter_ok by lia. reflexivity.
Qed.

(** ** C58 sin_iter, cos_iter, tan_iter: reduction by exact quarter turns of pi_iter(k), then 2k+2 terms of the series *)
Theorem C58_sin_cos_iter : forall r k, rwf r -> (k <= 255)%nat -> exists p s c, pi_iter k = Ok p /\ rwf p /\ sin_iter r k = Ok s /\ cos_iter r k = Ok c /\ rwf s /\ rwf c /\
  sin_at (rval p) (2 * k + 2) (rval r / rval p) (rval s) /\ cos_at (rval p) (2 * k + 2) (rval r / rval p) (rval c).
Proof.
  intros r k W Hk. destruct (sin_iter_ok (rval r) k Hk) as (s & E & S). destruct (cos_iter_ok (rval r) k Hk) as (c & F & C). rewrite (rof_rval r W) in E, F.
  exists (rof (bbp_sum (2 * k + 2))), (rof s), (rof c). split; [now apply pi_iter_ok |]. split; [apply rof_wf |]. split; [auto |]. split; [auto |].
  split; [apply rof_wf |]. split; [apply rof_wf |].
  pose proof (rof_val (bbp_sum (2 * k + 2))) as EP. split.
  - destruct S as (j & y & S1 & S2 & S3). exists j, y. rewrite EP. split; [exact S1 |]. split; [| rewrite rof_val; exact S3]. exact S2.
  - destruct C as (j & y & S1 & S2 & S3). exists j, y. rewrite EP. split; [exact S1 |]. split; [| rewrite rof_val; exact S3]. exact S2.
Qed.
Theorem C58_tan_iter : forall r k s c, sin_iter r k = Ok s -> cos_iter r k = Ok c -> rwf s -> rwf c -> ~ (rval c == 0)%Q ->
  exists t, tan_iter r k = Ok t /\ rwf t /\ (rval t * rval c == rval s)%Q.
Proof.
  intros r k s c E F Ws Wc H. unfold tan_iter. rewrite E. cbn [bind]. rewrite F. cbn [bind]. rewrite <- (rof_rval s Ws), <- (rof_rval c Wc), Rdiv by auto.
  eexists. split; [reflexivity |]. split; [apply rof_wf |]. rewrite !rof_val. field. auto.
Qed.
Theorem C58_beyond_table : forall r k, (255 < k)%nat -> sin_iter r k = Panic /\ cos_iter r k = Panic /\ tan_iter r k = Panic.
Proof.
  intros r k H. assert (S : sin_iter r k = Panic) by (unfold sin_iter; now rewrite pi_iter_panic). split; [exact S |].
  split. unfold cos_iter; now rewrite pi_iter_panic. unfold tan_iter. now rewrite S.
Qed.
Example C58_cases : sin_iter rzero 2 = Ok rzero /\ cos_iter rzero 2 = Ok rone /\ sin_iter (rof (1 # 2)) 1 = Ok (rof (sin_sum (1 # 2) 4)) /\ cos_iter (rof (- (1 # 2))) 1 = Ok (rof (cos_sum (1 # 2) 4)).
Proof. splits; vm_compute; reflexivity. Qed.

(** ** C59 asin_iter, acos_iter, atan_iter *)
Theorem C59_asin_iter_partial : forall r k, rwf r -> Z.of_nat k <= 643 ->
  ((- (1) <= rval r <= 1)%Q -> exists s, asin_iter r k = Ok s /\ rwf s /\ (rval s == asin_sum (rval r) (k + 2))%Q) /\
  (~ (- (1) <= rval r <= 1)%Q -> asin_iter r k = Panic).
Proof.
  intros r k W Hk. split; intros H; [| rewrite <- (rof_rval r W); now apply asin_iter_panic].
  exists (rof (asin_sum (rval r) (k + 2))). pose proof (asin_iter_ok (rval r) k H Hk) as K. rewrite (rof_rval r W) in K. split; [exact K |]. split; [apply rof_wf | apply rof_val].
Qed.
(** with 644 iterations the i32 casts of the coefficient wrap: for every x in (0,1] the result is below the shorter partial sum of positive terms *)
Theorem C59_asin_iter_wraps_refuted : forall r n, Z.of_nat n = 643 -> rwf r -> (0 < rval r <= 1)%Q ->
  exists s, asin_iter r (n + 1) = Ok s /\ rwf s /\ (rval s < asin_sum (rval r) (n + 2))%Q /\ (asin_sum (rval r) (n + 2) < asin_sum (rval r) (n + 3))%Q.
Proof.
  intros r n Hn W H. destruct (asin_wrap (rval r) n Hn H) as (s & E & L). rewrite (rof_rval r W) in E. exists (rof s). rewrite rof_val. splits; auto. apply rof_wf.
  replace (n + 3)%nat with (S (n + 2)) by lia. unfold asin_sum. cbn [qsum]. assert (0 < asin_coeff (n + 2) * qpw (rval r) (2 * (n + 2) + 1))%Q.
  { apply Qmul_pos. apply asin_coeff_pos. apply qpw_pos. apply H. }
  setoid_replace (qsum (fun n0 : nat => (asin_coeff n0 * qpw (rval r) (2 * n0 + 1))%Q) (n + 2)) with (qsum (fun n0 : nat => (asin_coeff n0 * qpw (rval r) (2 * n0 + 1))%Q) (n + 2) + 0)%Q at 1 by ring.
  now apply Qplus_lt_r.
Qed.
Theorem C59_acos_iter : forall r k, rwf r -> (k <= 255)%nat -> (- (1) <= rval r <= 1)%Q ->
  exists s, acos_iter r k = Ok s /\ rwf s /\ (rval s == bbp_sum (2 * k + 2) / 2 - asin_sum (rval r) (k + 2))%Q.
Proof.
  intros r k W Hk H. eexists. pose proof (acos_iter_ok (rval r) k H Hk) as K. rewrite (rof_rval r W) in K. split; [exact K |]. split; [apply rof_wf | apply rof_val].
Qed.
Theorem C59_atan_iter : forall r k, rwf r -> Z.of_nat k < 2 ^ 28 -> ((k <= 255)%nat \/ (- (1) <= rval r <= 1)%Q) ->
  exists s, atan_iter r k = Ok s /\ rwf s /\ (rval s == atan_value (rval r) k)%Q.
Proof.
  intros r k W Hk H. eexists. pose proof (atan_iter_ok (rval r) k Hk H) as K. rewrite (rof_rval r W) in K. split; [exact K |]. split; [apply rof_wf | apply rof_val].
Qed.
Example C59_cases : asin_iter (rof (1 # 2)) 3 = Ok (rof (asin_sum (1 # 2) 5)) /\ atan_iter (rof (- (2))) 1 = Ok (rof (- (bbp_sum 4 / 2) + atan_sum (1 # 2) 4)) /\ asin_iter (rof 2) 1 = Panic.
Proof. splits; vm_compute; reflexivity. Qed.

Print Assumptions C34_sqrt_iter_partial.
Print Assumptions C34_negative_refuted.
Print Assumptions C35_e_iter.
Print Assumptions C35_increasing.
Print Assumptions C36_pi_iter.
Print Assumptions C36_ln2_iter.
Print Assumptions C37_exp_iter.
Print Assumptions C37_exp_zero.
Print Assumptions C37_ln_iter.
Print Assumptions C37_ln_domain.
Print Assumptions C37_log_iter.
Print Assumptions C37_log_base_one_refuted.
Print Assumptions C37_pow_iter.
Print Assumptions C54_constants.
Print Assumptions C58_sin_cos_iter.
Print Assumptions C58_tan_iter.
Print Assumptions C58_beyond_table.
Print Assumptions C59_asin_iter_partial.
Print Assumptions C59_asin_iter_wraps_refuted.
Print Assumptions C59_acos_iter.
Print Assumptions C59_atan_iter.
