(** sin_iter, cos_iter, tan_iter, asin_iter, acos_iter, atan_iter. *)
From Coq Require Import Zquot Qpower Lqa.
From Verif Require Import Base USpec SSpec UFacts UBig UFun UStr UEq UPow USqrt ULog BBig BSpec BEq RBig RSpec REq RIeee RTab RIter ISpec RIterP RIterX.
Local Open Scope Z_scope.

Lemma bfact z : inject_Z (zfact z) = qnat (fact z). Proof. unfold qnat. now rewrite fact_z. Qed.
Definition gterm (p : nat) (y : Q) (n : nat) : Q := (sgn n * qpw y (2 * n + p) / qnat (fact (2 * n + p)))%Q.
Lemma gterm_eq p y n : gterm p y n = (sgn n * qpw y (2 * n + p) / qnat (fact (2 * n + p)))%Q. Proof. reflexivity. Qed.
Lemma gterm_sin y N : sin_sum y N = qsum (gterm 1 y) N. Proof. reflexivity. Qed.
Lemma cos_ext y N : (cos_sum y N == qsum (gterm 0 y) N)%Q.
Proof. apply qsum_ext. intros. unfold cos_term, gterm. now rewrite Nat.add_0_r. Qed.
Lemma zfact_SS n a b : a = Z.of_nat n + 1 -> b = Z.of_nat n + 2 -> zfact n * a * b = zfact (S (S n)).
Proof. intros -> ->. cbn [zfact]. rewrite !Nat2Z.inj_succ. ring_simplify. lia. Qed.
Lemma sgn_even i : sgn (2 * i) = 1%Q. Proof. unfold sgn. now rewrite Nat.even_mul. Qed.
Lemma sgn_odd i : sgn (2 * i + 1) = (- (1))%Q. Proof. unfold sgn. now rewrite Nat.add_1_r, Nat.even_succ, Nat.odd_mul. Qed.
Lemma trig_loop_ok p y k : (p <= 1)%nat -> Z.of_nat k < 2 ^ 28 ->
  trig_loop (Z.of_nat p + 3) (rof (y * y)) k (rof (qsum (gterm p y) 1), rof (qpw y (p + 2)), bof (zfact (p + 2))) =
  Ok (rof (qsum (gterm p y) (2 * k + 1)), rof (qpw y (4 * k + (p + 2))), bof (zfact (4 * k + (p + 2)))).
Proof.
  intros Hp Hk. apply returns_eq'. unfold trig_loop.
  eapply returns_weaken; [eapply (for_spec _ (fun i st => st = (rof (qsum (gterm p y) (2 * Z.to_nat i + 1)), rof (qpw y (4 * Z.to_nat i + (p + 2))), bof (zfact (4 * Z.to_nat i + (p + 2)))))) |].
  - reflexivity.
  - intros j s Hj ->. assert (Ei : exists i, j = Z.of_nat i) by (exists (Z.to_nat j); lia). destruct Ei as (i & ->). rewrite Nat2Z.id.
    replace (Z.to_nat (Z.of_nat i + 1)) with (S i) by lia.
    unfold rdiv_bi. pose proof (zfact_pos (4 * i + (p + 2))). rewrite Rdiv_bi by lia. cbn [bind]. rewrite Rsub_mut. cbn [bind].
    rewrite !casts_small by (change (2 ^ (32 - 1)) with 2147483648; lia).
    rewrite Bmul_i32_mut by (unfold i32r; lia). cbn [bind]. rewrite Bmul_i32_mut by (unfold i32r; lia). cbn [bind].
    rewrite (zfact_SS (4 * i + (p + 2))) by lia. rewrite Rmul_mut. cbn [bind].
    set (m := (4 * i + (p + 2))%nat) in *. pose proof (zfact_pos (S (S m))).
    rewrite Rdiv_bi by lia. cbn [bind]. rewrite Radd_mut. cbn [bind].
    rewrite Bmul_i32_mut by (unfold i32r; lia). cbn [bind]. rewrite Bmul_i32_mut by (unfold i32r; lia). cbn [bind].
    rewrite (zfact_SS (S (S m))) by lia. rewrite Rmul_mut. cbn [bind]. apply returns_ok.
    replace (4 * S i + (p + 2))%nat with (S (S (S (S m)))) by lia. replace (2 * S i + 1)%nat with (S (S (2 * i + 1))) by lia.
    apply pair3; [apply rofF | apply rofF | reflexivity].
    + cbn [qsum]. rewrite !bfact. rewrite !gterm_eq, sgn_S, sgn_odd.
      replace (2 * (2 * i + 1) + p)%nat with m by lia. replace (2 * S (2 * i + 1) + p)%nat with (S (S m)) by lia.
      rewrite !qpw_S. field. split; apply qfact_nz.
    + rewrite !qpw_S. ring.
  - intros s ->. replace (Z.to_nat (0 + Z.of_nat k)) with k by lia. reflexivity.
Qed.
Lemma trig_last p y k : (qsum (gterm p y) (2 * k + 1) - qpw y (4 * k + (p + 2)) / inject_Z (zfact (4 * k + (p + 2))) == qsum (gterm p y) (2 * k + 2))%Q.
Proof.
  replace (2 * k + 2)%nat with (S (2 * k + 1)) by lia. cbn [qsum]. rewrite bfact. rewrite gterm_eq, sgn_odd.
  replace (2 * (2 * k + 1) + p)%nat with (4 * k + (p + 2))%nat by lia. field. apply qfact_nz.
Qed.
Lemma Rpow3 y : rpow_i32 (rof y) 3 = Ok (rof (qpw y 3)).
Proof. rewrite Rpow; [reflexivity | unfold i32r; lia | right; lia]. Qed.
Lemma sin_worker_ok y k : Z.of_nat k < 2 ^ 28 -> sin_iter_worker (rof y) k = Ok (rof (sin_sum y (2 * k + 2))).
Proof.
  intros Hk. unfold sin_iter_worker. rewrite Rpow3. cbn [bind]. rewrite Rmul. cbn [bind]. rewrite Bfrom_i32 by lia. cbn [bind].
  pose proof (trig_loop_ok 1 y k ltac:(lia) Hk) as T. change (Z.of_nat 1 + 3) with 4 in T. change (zfact (1 + 2)) with 6 in T. change (1 + 2)%nat with 3%nat in T.
  rewrite (rofF (qsum (gterm 1 y) 1) y) in T.
  2:{ unfold gterm. cbn [qsum]. change (sgn 0) with 1%Q. change (2 * 0 + 1)%nat with 1%nat. rewrite qpw_1. change (qnat (fact 1)) with 1%Q. field. }
  rewrite T. cbn [bind]. unfold rdiv_bi. pose proof (zfact_pos (4 * k + 3)). rewrite Rdiv_bi by lia. cbn [bind]. rewrite Rsub_mut. apply rofE.
  rewrite gterm_sin. apply (trig_last 1).
Qed.
Lemma cos_worker_ok y k : Z.of_nat k < 2 ^ 28 -> cos_iter_worker (rof y) k = Ok (rof (cos_sum y (2 * k + 2))).
Proof.
  intros Hk. unfold cos_iter_worker. rewrite Rmul. cbn [bind]. rewrite Bfrom_i32 by lia. cbn [bind].
  pose proof (trig_loop_ok 0 y k ltac:(lia) Hk) as T. change (Z.of_nat 0 + 3) with 3 in T. change (zfact (0 + 2)) with 2 in T. change (0 + 2)%nat with 2%nat in T.
  rewrite (rofF (qsum (gterm 0 y) 1) 1) in T.
  2:{ unfold gterm. cbn [qsum]. change (sgn 0) with 1%Q. change (2 * 0 + 0)%nat with 0%nat. rewrite qpw_0. change (qnat (fact 0)) with 1%Q. field. }
  rewrite (rofF (qpw y 2) (y * y)) in T by (rewrite !qpw_S, qpw_0; ring). rewrite <- Rone in T.
  rewrite T. cbn [bind]. unfold rdiv_bi. pose proof (zfact_pos (4 * k + 2)). rewrite Rdiv_bi by lia. cbn [bind]. rewrite Rsub_mut. apply rofE.
  rewrite cos_ext. apply (trig_last 0).
Qed.

(** symmetries of the truncated series and of quarter turns *)
Lemma qpw_opp y n : (qpw (- y) n == sgn n * qpw y n)%Q.
Proof. induction n; [reflexivity |]. rewrite !qpw_S, IHn, sgn_S. ring. Qed.
Lemma qsum_opp f n : (qsum (fun i => - f i) n == - qsum f n)%Q.
Proof. induction n; cbn [qsum]; [reflexivity |]. rewrite IHn. ring. Qed.
Lemma sin_sum_opp y N : (sin_sum (- y) N == - sin_sum y N)%Q.
Proof.
  unfold sin_sum. rewrite <- qsum_opp. apply qsum_ext. intros i _. unfold sin_term. rewrite qpw_opp, sgn_odd. field. apply qfact_nz.
Qed.
Lemma cos_sum_opp y N : (cos_sum (- y) N == cos_sum y N)%Q.
Proof. apply qsum_ext. intros i _. unfold cos_term. rewrite qpw_opp, sgn_even. field. apply qfact_nz. Qed.
Lemma sin_sum_m x y N : (x == y)%Q -> (sin_sum x N == sin_sum y N)%Q.
Proof. intros H. apply qsum_ext. intros. unfold sin_term. now rewrite H. Qed.
Lemma cos_sum_m x y N : (x == y)%Q -> (cos_sum x N == cos_sum y N)%Q.
Proof. intros H. apply qsum_ext. intros. unfold cos_term. now rewrite H. Qed.
Lemma mod4 j : exists q, j = 4 * q \/ j = 4 * q + 1 \/ j = 4 * q + 2 \/ j = 4 * q + 3.
Proof. exists (j / 4). pose proof (Z.div_mod j 4 ltac:(lia)). pose proof (Z.mod_pos_bound j 4 ltac:(lia)). lia. Qed.
Lemma turn_at j m q y N : j = 4 * q + m -> 0 <= m < 4 -> turn_sin j y N = turn_sin m y N /\ turn_cos j y N = turn_cos m y N.
Proof.
  intros -> H. unfold turn_sin, turn_cos. replace ((4 * q + m) mod 4) with (m mod 4); auto.
  rewrite Z.add_comm, Z.mul_comm, Z.mod_add; lia.
Qed.
Lemma turn_opp j y N : (turn_sin (- j) (- y) N == - turn_sin j y N)%Q /\ (turn_cos (- j) (- y) N == turn_cos j y N)%Q.
Proof.
  destruct (mod4 j) as (q & [-> | [-> | [-> | ->]]]).
  - destruct (turn_at (- (4 * q)) 0 (- q) (- y) N ltac:(lia) ltac:(lia)) as (-> & ->). destruct (turn_at (4 * q) 0 q y N ltac:(lia) ltac:(lia)) as (-> & ->).
    unfold turn_sin, turn_cos. cbn [Z.modulo Z.div_eucl]. now rewrite sin_sum_opp, cos_sum_opp.
  - destruct (turn_at (- (4 * q + 1)) 3 (- q - 1) (- y) N ltac:(lia) ltac:(lia)) as (-> & ->). destruct (turn_at (4 * q + 1) 1 q y N ltac:(lia) ltac:(lia)) as (-> & ->).
    change (turn_sin 3 (- y) N) with (- cos_sum (- y) N)%Q. change (turn_cos 3 (- y) N) with (sin_sum (- y) N)%Q.
    change (turn_sin 1 y N) with (cos_sum y N)%Q. change (turn_cos 1 y N) with (- sin_sum y N)%Q. now rewrite sin_sum_opp, cos_sum_opp.
  - destruct (turn_at (- (4 * q + 2)) 2 (- q - 1) (- y) N ltac:(lia) ltac:(lia)) as (-> & ->). destruct (turn_at (4 * q + 2) 2 q y N ltac:(lia) ltac:(lia)) as (-> & ->).
    change (turn_sin 2 (- y) N) with (- sin_sum (- y) N)%Q. change (turn_cos 2 (- y) N) with (- cos_sum (- y) N)%Q.
    change (turn_sin 2 y N) with (- sin_sum y N)%Q. change (turn_cos 2 y N) with (- cos_sum y N)%Q. now rewrite sin_sum_opp, cos_sum_opp.
  - destruct (turn_at (- (4 * q + 3)) 1 (- q - 1) (- y) N ltac:(lia) ltac:(lia)) as (-> & ->). destruct (turn_at (4 * q + 3) 3 q y N ltac:(lia) ltac:(lia)) as (-> & ->).
    change (turn_sin 1 (- y) N) with (cos_sum (- y) N)%Q. change (turn_cos 1 (- y) N) with (- sin_sum (- y) N)%Q.
    change (turn_sin 3 y N) with (- cos_sum y N)%Q. change (turn_cos 3 y N) with (sin_sum y N)%Q. rewrite sin_sum_opp, cos_sum_opp. split; ring.
Qed.
Lemma turn_half j y N : (turn_sin (j + 2) y N == - turn_sin j y N)%Q /\ (turn_cos (j + 2) y N == - turn_cos j y N)%Q.
Proof.
  destruct (mod4 j) as (q & [-> | [-> | [-> | ->]]]).
  - destruct (turn_at (4 * q + 2) 2 q y N ltac:(lia) ltac:(lia)) as (-> & ->). destruct (turn_at (4 * q) 0 q y N ltac:(lia) ltac:(lia)) as (-> & ->). split; reflexivity.
  - destruct (turn_at (4 * q + 1 + 2) 3 q y N ltac:(lia) ltac:(lia)) as (-> & ->). destruct (turn_at (4 * q + 1) 1 q y N ltac:(lia) ltac:(lia)) as (-> & ->).
    split; [reflexivity |]. change (turn_cos 3 y N) with (sin_sum y N)%Q. change (turn_cos 1 y N) with (- sin_sum y N)%Q. ring.
  - destruct (turn_at (4 * q + 2 + 2) 0 (q + 1) y N ltac:(lia) ltac:(lia)) as (-> & ->). destruct (turn_at (4 * q + 2) 2 q y N ltac:(lia) ltac:(lia)) as (-> & ->).
    change (turn_sin 2 y N) with (- sin_sum y N)%Q. change (turn_cos 2 y N) with (- cos_sum y N)%Q.
    change (turn_sin 0 y N) with (sin_sum y N)%Q. change (turn_cos 0 y N) with (cos_sum y N)%Q. split; ring.
  - destruct (turn_at (4 * q + 3 + 2) 1 (q + 1) y N ltac:(lia) ltac:(lia)) as (-> & ->). destruct (turn_at (4 * q + 3) 3 q y N ltac:(lia) ltac:(lia)) as (-> & ->).
    change (turn_sin 3 y N) with (- cos_sum y N)%Q. change (turn_cos 3 y N) with (sin_sum y N)%Q.
    change (turn_sin 1 y N) with (cos_sum y N)%Q. change (turn_cos 1 y N) with (- sin_sum y N)%Q. split; ring.
Qed.
Lemma turn_full j m y N : turn_sin (j + 4 * m) y N = turn_sin j y N /\ turn_cos (j + 4 * m) y N = turn_cos j y N.
Proof.
  unfold turn_sin, turn_cos. replace ((j + 4 * m) mod 4) with (j mod 4); auto. rewrite Z.mul_comm, Z.mod_add; lia.
Qed.

Section At.
Variables (P : Q) (N : nat).
Lemma at_eq p p' r r' : (p == p')%Q -> (r == r')%Q -> (sin_at P N p r -> sin_at P N p' r') /\ (cos_at P N p r -> cos_at P N p' r').
Proof.
  intros E F. split; intros (j & y & A & B & C); exists j, y; split; [now rewrite <- E | split; [auto | now rewrite <- F] | now rewrite <- E | split; [auto | now rewrite <- F]].
Qed.
Lemma at_opp p r : (sin_at P N p r -> sin_at P N (- p) (- r)) /\ (cos_at P N p r -> cos_at P N (- p) r).
Proof.
  split; intros (j & y & A & B & C); exists (- j), (- y)%Q; (split; [rewrite inject_Z_opp; lra | split; [lra |]]).
  - now rewrite C, (proj1 (turn_opp j y N)).
  - now rewrite C, (proj2 (turn_opp j y N)).
Qed.
Lemma at_one p r : (sin_at P N p r -> sin_at P N (p + 1) (- r)) /\ (cos_at P N p r -> cos_at P N (p + 1) (- r)).
Proof.
  split; intros (j & y & A & B & C); exists (j + 2), y; (split; [rewrite inject_Z_plus; change (inject_Z 2) with 2%Q; rewrite Qmult_plus_distr_l, A; field | split; [lra |]]).
  - now rewrite C, (proj1 (turn_half j y N)).
  - now rewrite C, (proj2 (turn_half j y N)).
Qed.
Lemma at_even m p r : (sin_at P N p r -> sin_at P N (p + inject_Z (2 * m)) r) /\ (cos_at P N p r -> cos_at P N (p + inject_Z (2 * m)) r).
Proof.
  split; intros (j & y & A & B & C); exists (j + 4 * m), y;
    (split; [rewrite inject_Z_plus, !inject_Z_mult; change (inject_Z 2) with 2%Q; change (inject_Z 4) with 4%Q; rewrite Qmult_plus_distr_l, A; field | split; [lra |]]).
  - now rewrite C, (proj1 (turn_full j m y N)).
  - now rewrite C, (proj2 (turn_full j m y N)).
Qed.
Lemma at_flip p r : (sin_at P N p r -> sin_at P N (1 - p) r) /\ (cos_at P N p r -> cos_at P N (1 - p) (- r)).
Proof.
  destruct (at_opp p r) as (O1 & O2). split; intros H.
  - apply O1 in H. apply at_one in H. revert H. apply at_eq; ring.
  - apply O2 in H. apply at_one in H. revert H. apply at_eq; ring.
Qed.
Lemma at_two_minus p r : cos_at P N p r -> cos_at P N (2 - p) r.
Proof. intros H. apply at_opp in H. apply (at_even 1) in H. revert H. apply at_eq. change (inject_Z (2 * 1)) with 2%Q. ring. reflexivity. Qed.
End At.

Lemma P4 P : (P / 4 == P * (1 # 4))%Q. Proof. field. Qed.
Lemma pi_pos_start k : (3 < bbp_sum (2 * k + 2))%Q.
Proof.
  induction k. { vm_compute. reflexivity. }
  replace (2 * S k + 2)%nat with (S (S (2 * k + 2))) by lia. unfold bbp_sum in *. cbn [qsum].
  assert (T : forall n, (0 < bbp_term n)%Q).
  { intros n. unfold bbp_term. apply Qlt_shift_div_l. { apply qpw_pos. reflexivity. } rewrite Qmult_0_l.
    assert (H1 : (4 / qnat (8 * n + 4) <= 4 / qnat (8 * n + 1))%Q).
    { apply Qle_shift_div_l. apply qnat_pos; lia. setoid_replace (4 / qnat (8 * n + 4) * qnat (8 * n + 1))%Q with (4 * qnat (8 * n + 1) / qnat (8 * n + 4))%Q by (field; apply qnat_nz; lia).
      apply Qle_shift_div_r. apply qnat_pos; lia. unfold qnat. apply Qmult_le_l; [reflexivity |]. rewrite <- Zle_Qle. lia. }
    assert (H2 : forall c, (4 < c)%nat -> (1 / qnat (8 * n + c) < 1 / qnat (8 * n + 4))%Q).
    { intros c Hc. apply Qlt_shift_div_l. apply qnat_pos; lia. setoid_replace (1 / qnat (8 * n + c) * qnat (8 * n + 4))%Q with (qnat (8 * n + 4) / qnat (8 * n + c))%Q by (field; apply qnat_nz; lia).
      apply Qlt_shift_div_r. apply qnat_pos; lia. rewrite Qmult_1_l. unfold qnat. rewrite <- Zlt_Qlt. lia. }
    pose proof (H2 5%nat ltac:(lia)). pose proof (H2 6%nat ltac:(lia)).
    setoid_replace (4 / qnat (8 * n + 4))%Q with (4 * (1 / qnat (8 * n + 4)))%Q in H1 by (field; apply qnat_nz; lia).
    setoid_replace (2 / qnat (8 * n + 4))%Q with (2 * (1 / qnat (8 * n + 4)))%Q by (field; apply qnat_nz; lia). lra. }
  pose proof (T (2 * k + 2)%nat). pose proof (T (S (2 * k + 2))). lra.
Qed.
Lemma qtrunc_nonneg_bounds p : (0 <= p)%Q -> (inject_Z (qtrunc p) <= p < inject_Z (qtrunc p) + 1)%Q /\ 0 <= qtrunc p.
Proof.
  destruct p as [n d]. unfold qtrunc, Qle, Qlt, Qplus, inject_Z; cbn [Qnum Qden]. intros H.
  pose proof (Z.quot_rem' n (Z.pos d)). pose proof (Z.rem_bound_pos n (Z.pos d) ltac:(lia) ltac:(lia)).
  pose proof (Z.quot_pos n (Z.pos d) ltac:(lia) ltac:(lia)). lia.
Qed.
Lemma mod2_ok p : (0 <= p)%Q -> exists m p', mod2 (rof p) = Ok (rof p') /\ (p == p' + inject_Z (2 * m))%Q /\ (0 <= p' <= 2)%Q.
Proof.
  intros Hp. unfold mod2. rewrite Rgt_i32 by (unfold i32r; lia). cbn [bind]. change (inject_Z 2) with 2%Q.
  destruct (qltb_qlt 2 p).
  - rewrite Rtruncate_bi. cbn [bind]. rewrite Bdiv_i32 by (unfold i32r; lia). cbn [bind]. rewrite Bmul_i32 by (unfold i32r; lia). cbn [bind].
    rewrite Rsub_bi_mut. exists (qtrunc p ÷ 2). eexists. split; [reflexivity |].
    destruct (qtrunc_nonneg_bounds p Hp) as (B1 & B2). set (t := qtrunc p) in *. split. { rewrite Z.mul_comm. ring. }
    rewrite Z.quot_div_nonneg by lia. pose proof (Z.div_mod t 2 ltac:(lia)). pose proof (Z.mod_pos_bound t 2 ltac:(lia)).
    assert (C : t / 2 * 2 <= t <= t / 2 * 2 + 1) by lia. destruct C as (C1 & C2). rewrite Zle_Qle in C1, C2. rewrite inject_Z_plus in C2. change (inject_Z 1) with 1%Q in C2. lra.
  - exists 0, p. split; [reflexivity |]. split; [cbn; ring | lra].
Qed.
Lemma sin_iter_ok x k : (k <= 255)%nat ->
  let P := bbp_sum (2 * k + 2) in exists r, sin_iter (rof x) k = Ok (rof r) /\ sin_at P (2 * k + 2) (x / P) r.
Proof.
  intros Hk P. pose proof (pi_pos_start k) as P3. fold P in P3. unfold sin_iter. rewrite pi_iter_ok by auto. fold P. cbn [bind].
  rewrite Rdiv by lra. cbn [bind]. rewrite Ris_neg. set (p0 := (x / P)%Q). set (N := (2 * k + 2)%nat).
  assert (HS : forall p neg, (0 <= p)%Q -> exists r,
    (let* pi_div := mod2 (rof p) in
     let* '(pi_div, negate) := if rgt_one pi_div then let* p := rsub_i32_mut pi_div 1 in Ok (p, negb neg) else Ok (pi_div, neg) in
     let* dbl := rmul_i32 pi_div 2 in
     let* pi_div := if rgt_one dbl then rsub rone pi_div else Ok pi_div in
     let* q := rmul_i32 pi_div 4 in
     let* result := if rlt_one q then let* a := rmul pi_div (rof P) in sin_iter_worker a k
       else let* h := from_dn_i32 2 1 in let* a := rsub h pi_div in let* a := rmul a (rof P) in cos_iter_worker a k in
     Ok (if (negate : bool) then ropp_mut result else result)) = Ok (rof r) /\ sin_at P N p (if (neg : bool) then - r else r)%Q).
  { intros p neg Hp. destruct (mod2_ok p Hp) as (m & p1 & -> & Ep & H1). cbn [bind]. rewrite Rgt_one.
    assert (H4 : forall p, (0 <= p <= 1 # 2)%Q -> exists r, (let* q := rmul_i32 (rof p) 4 in
       if rlt_one q then let* a := rmul (rof p) (rof P) in sin_iter_worker a k
       else let* h := from_dn_i32 2 1 in let* a := rsub h (rof p) in let* a := rmul a (rof P) in cos_iter_worker a k) = Ok (rof r) /\ sin_at P N p r).
    { clear -P3 Hk. intros p Hp. rewrite Rmul_i32 by (unfold i32r; lia). cbn [bind]. change (inject_Z 4) with 4%Q. rewrite Rlt_one. destruct (qltb_qlt (p * 4) 1).
      - rewrite Rmul. cbn [bind]. rewrite sin_worker_ok by lia. eexists. split; [reflexivity |]. exists 0, (p * P)%Q. split; [change (inject_Z 0) with 0%Q; ring |].
        assert (0 <= p * P)%Q by (apply Qmult_le_0_compat; lra). assert (p * 4 * P < 1 * P)%Q by (apply Qmult_lt_r; lra). split; [| reflexivity]. rewrite P4. lra.
      - rewrite from_dn_i32_ok by (unfold i32r; lia). cbn [bind]. rewrite Rsub. cbn [bind]. rewrite Rmul. cbn [bind]. rewrite cos_worker_ok by lia.
        eexists. split; [reflexivity |]. exists 1, (- ((inject_Z 1 / inject_Z 2 - p) * P))%Q. change (inject_Z 1 / inject_Z 2)%Q with (1 # 2)%Q. change (inject_Z 1) with 1%Q.
        split; [field |]. assert (0 <= ((1 # 2) - p) * P)%Q by (apply Qmult_le_0_compat; lra).
        assert (1 * P <= p * 4 * P)%Q by (apply Qmult_le_r; lra). split; [rewrite P4; lra |].
        change (turn_sin 1 ?z ?n) with (cos_sum z n). now rewrite cos_sum_opp. }
    assert (H3 : forall p, (0 <= p <= 1)%Q -> exists r, (let* dbl := rmul_i32 (rof p) 2 in
       let* pi_div := if rgt_one dbl then rsub rone (rof p) else Ok (rof p) in
       let* q := rmul_i32 pi_div 4 in
       if rlt_one q then let* a := rmul pi_div (rof P) in sin_iter_worker a k
       else let* h := from_dn_i32 2 1 in let* a := rsub h pi_div in let* a := rmul a (rof P) in cos_iter_worker a k) = Ok (rof r) /\ sin_at P N p r).
    { clear -H4. intros p Hp. rewrite Rmul_i32 by (unfold i32r; lia). cbn [bind]. change (inject_Z 2) with 2%Q. rewrite Rgt_one. destruct (qltb_qlt 1 (p * 2)).
      - rewrite Rone, Rsub. cbn [bind]. destruct (H4 (1 - p)%Q ltac:(lra)) as (r & E & S). exists r. split; auto. apply at_flip in S. revert S. apply at_eq; [ring | reflexivity].
      - cbn [bind]. apply H4. lra. }
    assert (RE : forall pd (ng : bool), (let* dbl := rmul_i32 pd 2 in let* pi_div := if rgt_one dbl then rsub rone pd else Ok pd in
       let* q := rmul_i32 pi_div 4 in
       let* result := if rlt_one q then let* a := rmul pi_div (rof P) in sin_iter_worker a k
         else let* h := from_dn_i32 2 1 in let* a := rsub h pi_div in let* a := rmul a (rof P) in cos_iter_worker a k in
       Ok (if ng then ropp_mut result else result)) =
       (let* result := (let* dbl := rmul_i32 pd 2 in let* pi_div := if rgt_one dbl then rsub rone pd else Ok pd in
       let* q := rmul_i32 pi_div 4 in
       if rlt_one q then let* a := rmul pi_div (rof P) in sin_iter_worker a k
         else let* h := from_dn_i32 2 1 in let* a := rsub h pi_div in let* a := rmul a (rof P) in cos_iter_worker a k) in Ok (if ng then ropp_mut result else result))).
    { clear. intros. destruct (rmul_i32 pd 2); cbn [bind]; auto. destruct (if rgt_one a then _ else _); cbn [bind]; auto. destruct (rmul_i32 a0 4); cbn [bind]; auto. }
    destruct (qltb_qlt 1 p1).
    - rewrite Rsub_i32_mut by (unfold i32r; lia). cbn [bind]. rewrite RE. change (inject_Z 1) with 1%Q. destruct (H3 (p1 - 1)%Q ltac:(lra)) as (r & -> & S). cbn [bind].
      apply at_one in S. apply (at_even _ _ m) in S. destruct neg; cbn [negb].
      + exists r. split; auto. revert S. apply at_eq; [lra | reflexivity].
      + exists (- r)%Q. rewrite Ropp_mut. split; auto. revert S. apply at_eq; [lra | reflexivity].
    - cbn [bind]. rewrite RE. destruct (H3 p1 ltac:(lra)) as (r & -> & S). cbn [bind]. apply (at_even _ _ m) in S. destruct neg.
      + exists (- r)%Q. rewrite Ropp_mut. split; auto. revert S. apply at_eq; lra.
      + exists r. split; auto. revert S. apply at_eq; lra. }
  destruct (qltb_qlt p0 0).
  - rewrite Ropp_mut. destruct (HS (- p0)%Q true ltac:(lra)) as (r & E & S). exists r. split; auto. apply at_opp in S. revert S. apply at_eq; ring.
  - destruct (HS p0 false ltac:(lra)) as (r & E & S). exists r. split; auto.
Qed.
Lemma cos_iter_ok x k : (k <= 255)%nat ->
  let P := bbp_sum (2 * k + 2) in exists r, cos_iter (rof x) k = Ok (rof r) /\ cos_at P (2 * k + 2) (x / P) r.
Proof.
  intros Hk P. pose proof (pi_pos_start k) as P3. fold P in P3. unfold cos_iter. rewrite pi_iter_ok by auto. fold P. cbn [bind].
  rewrite Rdiv by lra. cbn [bind]. rewrite Ris_neg. set (p0 := (x / P)%Q). set (N := (2 * k + 2)%nat).
  assert (HS : forall p, (0 <= p)%Q -> exists r,
    (let* pi_div := mod2 (rof p) in
     let* pi_div := if rgt_one pi_div then let* two := rfrom_i32 2 in rsub two pi_div else Ok pi_div in
     let* dbl := rmul_i32 pi_div 2 in
     let* '(pi_div, negate) := if rgt_one dbl then let* p := rsub rone pi_div in Ok (p, true) else Ok (pi_div, false) in
     let* q := rmul_i32 pi_div 4 in
     let* result := if rlt_one q then let* a := rmul pi_div (rof P) in cos_iter_worker a k
       else let* h := from_dn_i32 2 1 in let* a := rsub h pi_div in let* a := rmul a (rof P) in sin_iter_worker a k in
     Ok (if (negate : bool) then ropp_mut result else result)) = Ok (rof r) /\ cos_at P N p r).
  { intros p Hp. destruct (mod2_ok p Hp) as (m & p1 & -> & Ep & H1). cbn [bind]. rewrite Rgt_one.
    assert (H4 : forall p, (0 <= p <= 1 # 2)%Q -> exists r, (let* q := rmul_i32 (rof p) 4 in
       if rlt_one q then let* a := rmul (rof p) (rof P) in cos_iter_worker a k
       else let* h := from_dn_i32 2 1 in let* a := rsub h (rof p) in let* a := rmul a (rof P) in sin_iter_worker a k) = Ok (rof r) /\ cos_at P N p r).
    { clear -P3 Hk. intros p Hp. rewrite Rmul_i32 by (unfold i32r; lia). cbn [bind]. change (inject_Z 4) with 4%Q. rewrite Rlt_one. destruct (qltb_qlt (p * 4) 1).
      - rewrite Rmul. cbn [bind]. rewrite cos_worker_ok by lia. eexists. split; [reflexivity |]. exists 0, (p * P)%Q. split; [change (inject_Z 0) with 0%Q; ring |].
        assert (0 <= p * P)%Q by (apply Qmult_le_0_compat; lra). assert (p * 4 * P < 1 * P)%Q by (apply Qmult_lt_r; lra). split; [| reflexivity]. rewrite P4. lra.
      - rewrite from_dn_i32_ok by (unfold i32r; lia). cbn [bind]. rewrite Rsub. cbn [bind]. rewrite Rmul. cbn [bind]. rewrite sin_worker_ok by lia.
        eexists. split; [reflexivity |]. exists 1, (- ((inject_Z 1 / inject_Z 2 - p) * P))%Q. change (inject_Z 1 / inject_Z 2)%Q with (1 # 2)%Q. change (inject_Z 1) with 1%Q.
        split; [field |]. assert (0 <= ((1 # 2) - p) * P)%Q by (apply Qmult_le_0_compat; lra).
        assert (1 * P <= p * 4 * P)%Q by (apply Qmult_le_r; lra). split; [rewrite P4; lra |].
        change (turn_cos 1 ?z ?n) with (- sin_sum z n)%Q. rewrite sin_sum_opp, Qopp_involutive. reflexivity. }
    assert (H3 : forall p, (0 <= p <= 1)%Q -> exists r, (let* dbl := rmul_i32 (rof p) 2 in
       let* '(pi_div, negate) := if rgt_one dbl then let* p := rsub rone (rof p) in Ok (p, true) else Ok (rof p, false) in
       let* q := rmul_i32 pi_div 4 in
       let* result := if rlt_one q then let* a := rmul pi_div (rof P) in cos_iter_worker a k
         else let* h := from_dn_i32 2 1 in let* a := rsub h pi_div in let* a := rmul a (rof P) in sin_iter_worker a k in
       Ok (if (negate : bool) then ropp_mut result else result)) = Ok (rof r) /\ cos_at P N p r).
    { assert (RE : forall pd (ng : bool), (let* q := rmul_i32 pd 4 in
         let* result := if rlt_one q then let* a := rmul pd (rof P) in cos_iter_worker a k
           else let* h := from_dn_i32 2 1 in let* a := rsub h pd in let* a := rmul a (rof P) in sin_iter_worker a k in
         Ok (if ng then ropp_mut result else result)) =
         (let* result := (let* q := rmul_i32 pd 4 in if rlt_one q then let* a := rmul pd (rof P) in cos_iter_worker a k
           else let* h := from_dn_i32 2 1 in let* a := rsub h pd in let* a := rmul a (rof P) in sin_iter_worker a k) in Ok (if ng then ropp_mut result else result))).
      { clear. intros. destruct (rmul_i32 pd 4); cbn [bind]; auto. }
      clear -H4 RE. intros p Hp. rewrite Rmul_i32 by (unfold i32r; lia). cbn [bind]. change (inject_Z 2) with 2%Q. rewrite Rgt_one. destruct (qltb_qlt 1 (p * 2)).
      - rewrite Rone, Rsub. cbn [bind]. destruct (H4 (1 - p)%Q ltac:(lra)) as (r & E & S). exists (- r)%Q. split.
        { etransitivity; [apply (RE (rof (1 - p)) true) | rewrite E; cbn [bind]; now rewrite Ropp_mut]. }
        apply at_flip in S. revert S. apply at_eq; [ring | reflexivity].
      - cbn [bind]. destruct (H4 p ltac:(lra)) as (r & E & S). exists r. split; auto.
        etransitivity; [apply (RE (rof p) false) | now rewrite E]. }
    destruct (qltb_qlt 1 p1).
    - rewrite Rfrom_i32 by lia. cbn [bind]. rewrite Rsub. cbn [bind]. change (inject_Z 2) with 2%Q. destruct (H3 (2 - p1)%Q ltac:(lra)) as (r & E & S). exists r. split; auto.
      apply at_two_minus in S. apply (at_even _ _ m) in S. revert S. apply at_eq; lra.
    - cbn [bind]. destruct (H3 p1 ltac:(lra)) as (r & E & S). exists r. split; auto. apply (at_even _ _ m) in S. revert S. apply at_eq; lra. }
  destruct (qltb_qlt p0 0).
  - rewrite Ropp_mut. destruct (HS (- p0)%Q ltac:(lra)) as (r & E & S). exists r. split; auto. apply at_opp in S. revert S. apply at_eq; ring.
  - destruct (HS p0 ltac:(lra)) as (r & E & S). exists r. split; auto.
Qed.

(** ** inverse functions *)
Definition asin_body (x_sqr : rat) (i : Z) (st : rat * rat * rat) : res (rat * rat * rat) :=
  let '(result, coeff, x_coeff) := st in
    let* t := rmul coeff x_coeff in
    let* result := radd_mut result t in
    let* p := mulw 64 (2 * i + 3) (2 * i + 3) in
    let* p := mulw 64 p (2 * i + 4) in
    let* coeff := rmul_i32_mut coeff (casts 32 p) in
    let* q := mulw 64 (i + 2) (i + 2) in
    let* q := mulw 64 q (2 * i + 5) in
    let* q := mulw 64 q 4 in
    let* coeff := rdiv_i32_mut coeff (casts 32 q) in
    let* x_coeff := rmul_mut x_coeff x_sqr in
    Ok (result, coeff, x_coeff).
Lemma asin_coeff_S n : (asin_coeff (S n) == asin_coeff n * (qnat (2 * n + 1) * qnat (2 * n + 1)) / (qnat (2 * n + 2) * qnat (2 * n + 3)))%Q.
Proof.
  unfold asin_coeff. replace (2 * S n)%nat with (S (S (2 * n))) by lia. rewrite !qfact_S, qpw_S.
  replace (S (S (2 * n)) + 1)%nat with (2 * n + 3)%nat by lia. replace (S (2 * n)) with (2 * n + 1)%nat by lia. replace (S (2 * n + 1)) with (2 * n + 2)%nat by lia.
  assert (qnat (2 * n + 2) == 2 * qnat (S n))%Q as E. { unfold qnat. rewrite <- (inject_Z_mult 2). replace (Z.of_nat (2 * n + 2)) with (2 * Z.of_nat (S n)) by lia. reflexivity. }
  rewrite E. field. repeat split; try apply qfact_nz; try (apply qnat_nz; lia). apply qpw_nz. discriminate.
Qed.
Lemma asin_step_ok x i : Z.of_nat i <= 642 ->
  asin_body (rof (x * x)) (Z.of_nat i) (rof (asin_sum x (i + 1)), rof (asin_coeff (i + 1)), rof (qpw x (2 * i + 3))) =
  Ok (rof (asin_sum x (S i + 1)), rof (asin_coeff (S i + 1)), rof (qpw x (2 * S i + 3))).
Proof.
  intros Hi. unfold asin_body. rewrite Rmul. cbn [bind]. rewrite Radd_mut. cbn [bind].
  set (z := Z.of_nat i) in *. assert (0 <= z) by lia.
  assert (U1 : 0 < (2 * z + 3) * (2 * z + 3) <= 1287 * 1287) by nia.
  assert (U2 : 0 < (2 * z + 3) * (2 * z + 3) * (2 * z + 4) <= 1287 * 1287 * 1288) by nia.
  assert (V1 : 0 < (z + 2) * (z + 2) <= 644 * 644) by nia.
  assert (V2 : 0 < (z + 2) * (z + 2) * (2 * z + 5) <= 644 * 644 * 1289) by nia.
  rewrite (mulw_ok 64 (2 * z + 3)) by lia. cbn [bind]. rewrite mulw_ok by lia. cbn [bind].
  rewrite casts_small by (change (2 ^ (32 - 1)) with 2147483648; lia). rewrite Rmul_i32_mut by (unfold i32r; lia). cbn [bind].
  rewrite (mulw_ok 64 (z + 2)) by lia. cbn [bind]. rewrite (mulw_ok 64 ((z + 2) * (z + 2))) by lia. cbn [bind]. rewrite mulw_ok by lia. cbn [bind].
  rewrite casts_small by (change (2 ^ (32 - 1)) with 2147483648; lia). rewrite Rdiv_i32_mut by (unfold i32r; lia). cbn [bind].
  rewrite Rmul_mut. cbn [bind]. f_equal. apply pair3; apply rofF.
  - change (S i + 1)%nat with (S (i + 1)). unfold asin_sum. cbn [qsum]. replace (2 * (i + 1) + 1)%nat with (2 * i + 3)%nat by lia. reflexivity.
  - change (S i + 1)%nat with (S (i + 1)). rewrite (asin_coeff_S (i + 1)).
    replace (2 * (i + 1) + 1)%nat with (2 * i + 3)%nat by lia. replace (2 * (i + 1) + 2)%nat with (2 * i + 4)%nat by lia. replace (2 * (i + 1) + 3)%nat with (2 * i + 5)%nat by lia.
    rewrite !inject_Z_mult.
    assert (E3 : inject_Z (2 * z + 3) = qnat (2 * i + 3)) by (unfold qnat, z; f_equal; lia).
    assert (E4 : inject_Z (2 * z + 4) = qnat (2 * i + 4)) by (unfold qnat, z; f_equal; lia).
    assert (E5 : inject_Z (2 * z + 5) = qnat (2 * i + 5)) by (unfold qnat, z; f_equal; lia).
    assert (E2 : (qnat (2 * i + 4) == 2 * inject_Z (z + 2))%Q). { unfold qnat. rewrite <- (inject_Z_mult 2). replace (Z.of_nat (2 * i + 4)) with (2 * (z + 2)) by lia. reflexivity. }
    rewrite E3, E4, E5. change (inject_Z 4) with 4%Q. rewrite E2.
    assert (~ inject_Z (z + 2) == 0)%Q. { change 0%Q with (inject_Z 0). rewrite inject_Z_injective. lia. }
    field. repeat split; auto; apply qnat_nz; lia.
  - replace (2 * S i + 3)%nat with (S (S (2 * i + 3))) by lia. rewrite !qpw_S. ring.
Qed.
Lemma asin_loop x k : Z.of_nat k <= 643 ->
  for_ k 0 (asin_body (rof (x * x))) (rof x, rof (1 # 6), rof (x * x * x)) = Ok (rof (asin_sum x (k + 1)), rof (asin_coeff (k + 1)), rof (qpw x (2 * k + 3))).
Proof.
  intros Hk. apply returns_eq'.
  eapply returns_weaken; [eapply (for_spec _ (fun i st => st = (rof (asin_sum x (Z.to_nat i + 1)), rof (asin_coeff (Z.to_nat i + 1)), rof (qpw x (2 * Z.to_nat i + 3))))) |].
  - change (Z.to_nat 0) with 0%nat. cbn [Nat.add Nat.mul]. apply pair3; apply rofF.
    + unfold asin_sum. cbn [qsum]. change (2 * 0 + 1)%nat with 1%nat. rewrite qpw_1. change (asin_coeff 0) with (1 / (1 * 1 * 1 * 1))%Q. field.
    + reflexivity.
    + rewrite !qpw_S, qpw_0. ring.
  - intros j s Hj ->. assert (Ei : exists i, j = Z.of_nat i) by (exists (Z.to_nat j); lia). destruct Ei as (i & ->). rewrite Nat2Z.id.
    replace (Z.to_nat (Z.of_nat i + 1)) with (S i) by lia. rewrite asin_step_ok by lia. now apply returns_ok.
  - intros s ->. replace (Z.to_nat (0 + Z.of_nat k)) with k by lia. reflexivity.
Qed.
Lemma asin_unf x k : (-(1) <= x <= 1)%Q -> asin_iter (rof x) k =
  let* '(result, coeff, x_coeff) := for_ k 0 (asin_body (rof (x * x))) (rof x, rof (1 # 6), rof (x * x * x)) in
  let* t := rmul coeff x_coeff in radd_mut result t.
Proof.
  intros Hx. unfold asin_iter. rewrite !Ropp_mut, !Rgt_one. destruct (qltb_qlt 1 x); [lra |]. destruct (qltb_qlt 1 (- x)); [lra |].
  rewrite from_dn_i32_ok by (unfold i32r; lia). cbn [bind]. rewrite Rmul. cbn [bind]. rewrite Rmul. cbn [bind].
  rewrite (rofF (- - x) x) by ring. rewrite (rofF (inject_Z 1 / inject_Z 6) (1 # 6)) by reflexivity. reflexivity.
Qed.
Lemma asin_iter_ok x k : (-(1) <= x <= 1)%Q -> Z.of_nat k <= 643 -> asin_iter (rof x) k = Ok (rof (asin_sum x (k + 2))).
Proof.
  intros Hx Hk. rewrite asin_unf, asin_loop by auto. cbn [bind]. rewrite Rmul. cbn [bind]. rewrite Radd_mut. apply rofE.
  replace (k + 2)%nat with (S (k + 1)) by lia. unfold asin_sum. cbn [qsum]. replace (2 * (k + 1) + 1)%nat with (2 * k + 3)%nat by lia. reflexivity.
Qed.
Lemma asin_iter_panic x k : ~ (-(1) <= x <= 1)%Q -> asin_iter (rof x) k = Panic.
Proof.
  intros Hx. unfold asin_iter. rewrite !Ropp_mut, !Rgt_one. destruct (qltb_qlt 1 x); auto. destruct (qltb_qlt 1 (- x)); auto. exfalso. apply Hx. lra.
Qed.
Lemma asin_coeff_pos n : (0 < asin_coeff n)%Q.
Proof.
  unfold asin_coeff. apply Qlt_shift_div_l; [| rewrite Qmult_0_l; apply qfact_pos].
  repeat apply Qmul_pos; try apply qfact_pos. apply qpw_pos. reflexivity. apply qnat_pos. lia.
Qed.
(** the i32 cast of the 644th update wraps: the next term comes out negative *)
Lemma asin_wrap x n : Z.of_nat n = 643 -> (0 < x <= 1)%Q -> exists r, asin_iter (rof x) (n + 1) = Ok (rof r) /\ (r < asin_sum x (n + 2))%Q.
Proof.
  intros Hn Hx. rewrite asin_unf by lra. rewrite for_split, asin_loop by lia. cbn [bind for_]. unfold asin_body at 1.
  rewrite Rmul. cbn [bind]. rewrite Radd_mut. cbn [bind]. replace (0 + Z.of_nat n) with 643 by lia.
  change (mulw 64 (2 * 643 + 3) (2 * 643 + 3)) with (@Ok Z 1661521). cbn [bind]. change (mulw 64 1661521 (2 * 643 + 4)) with (@Ok Z 2143362090). cbn [bind].
  change (casts 32 2143362090) with 2143362090. rewrite Rmul_i32_mut by (unfold i32r; lia). cbn [bind].
  change (mulw 64 (643 + 2) (643 + 2)) with (@Ok Z 416025). cbn [bind]. change (mulw 64 416025 (2 * 643 + 5)) with (@Ok Z 537088275). cbn [bind].
  change (mulw 64 537088275 4) with (@Ok Z 2148353100). cbn [bind]. change (casts 32 2148353100) with (-2146614196).
  rewrite Rdiv_i32_mut by (unfold i32r; lia). cbn [bind]. rewrite Rmul_mut. cbn [bind]. rewrite Rmul. cbn [bind]. rewrite Radd_mut. eexists. split; [reflexivity |].
  replace (n + 2)%nat with (S (n + 1)) by lia. replace (asin_sum x (S (n + 1))) with (asin_sum x (n + 1) + asin_coeff (n + 1) * qpw x (2 * (n + 1) + 1))%Q by reflexivity.
  replace (2 * (n + 1) + 1)%nat with (2 * n + 3)%nat by lia.
  pose proof (asin_coeff_pos (n + 1)). pose proof (qpw_pos x (2 * n + 3) ltac:(lra)).
  set (c := asin_coeff (n + 1)) in *. set (v := qpw x (2 * n + 3)) in *. clearbody c v.
  change (inject_Z 2143362090 ) with 2143362090%Q. change (inject_Z (-2146614196)) with (- (2146614196))%Q.
  assert (0 < c * (v * (x * x)))%Q by (repeat apply Qmul_pos; lra).
  setoid_replace (c * 2143362090 / - (2146614196) * (v * (x * x)))%Q with (- (2143362090 # 2146614196) * (c * (v * (x * x))))%Q by field. lra.
Qed.
Lemma acos_iter_ok x k : (-(1) <= x <= 1)%Q -> (k <= 255)%nat -> acos_iter (rof x) k = Ok (rof (bbp_sum (2 * k + 2) / 2 - asin_sum x (k + 2))).
Proof.
  intros Hx Hk. unfold acos_iter. rewrite pi_iter_ok by auto. cbn [bind]. rewrite Rdiv_i32 by (unfold i32r; lia). cbn [bind].
  rewrite asin_iter_ok by (auto; lia). cbn [bind]. apply Rsub.
Qed.
Lemma atan_sum_opp y N : (atan_sum (- y) N == - atan_sum y N)%Q.
Proof.
  unfold atan_sum. rewrite <- qsum_opp. apply qsum_ext. intros i _. unfold atan_term. rewrite qpw_opp, sgn_odd. field. apply qnat_nz. lia.
Qed.
Lemma atan_term_eq y n : atan_term y n = (sgn n * qpw y (2 * n + 1) / qnat (2 * n + 1))%Q. Proof. reflexivity. Qed.
Lemma atan_sum_m x y N : (x == y)%Q -> (atan_sum x N == atan_sum y N)%Q.
Proof. intros H. apply qsum_ext. intros. unfold atan_term. now rewrite H. Qed.
Lemma atan_loop y k : Z.of_nat k < 2 ^ 28 ->
  for_ k 0 (fun (_ : Z) '(result, x_coeff, c) =>
    let* t := rdiv_i32 x_coeff c in
    let* result := rsub_mut result t in
    let* c := sadd 32 c 2 in
    let* x_coeff := rmul_mut x_coeff (rof (y * y)) in
    let* t := rdiv_i32 x_coeff c in
    let* result := radd_mut result t in
    let* c := sadd 32 c 2 in
    let* x_coeff := rmul_mut x_coeff (rof (y * y)) in
    Ok (result, x_coeff, c)) (rof y, rof (y * y * y), 3) = Ok (rof (atan_sum y (2 * k + 1)), rof (qpw y (4 * k + 3)), 4 * Z.of_nat k + 3).
Proof.
  intros Hk. apply returns_eq'.
  eapply returns_weaken; [eapply (for_spec _ (fun i st => st = (rof (atan_sum y (2 * Z.to_nat i + 1)), rof (qpw y (4 * Z.to_nat i + 3)), 4 * i + 3))) |].
  - apply pair3; [apply rofF | apply rofF | reflexivity].
    + change (2 * Z.to_nat 0 + 1)%nat with 1%nat. unfold atan_sum. cbn [qsum]. unfold atan_term. change (2 * 0 + 1)%nat with 1%nat. rewrite qpw_1.
      change (sgn 0) with 1%Q. change (qnat 1) with 1%Q. field.
    + change (4 * Z.to_nat 0 + 3)%nat with 3%nat. rewrite !qpw_S, qpw_0. ring.
  - intros j s Hj ->. assert (Ei : exists i, j = Z.of_nat i) by (exists (Z.to_nat j); lia). destruct Ei as (i & ->). rewrite Nat2Z.id.
    replace (Z.to_nat (Z.of_nat i + 1)) with (S i) by lia.
    rewrite Rdiv_i32 by (unfold i32r; lia). cbn [bind]. rewrite Rsub_mut. cbn [bind]. unfold sadd. rewrite sres_ok by (change (2 ^ (32 - 1)) with 2147483648; lia). cbn [bind].
    rewrite Rmul_mut. cbn [bind]. rewrite Rdiv_i32 by (unfold i32r; lia). cbn [bind]. rewrite Radd_mut. cbn [bind]. rewrite sres_ok by (change (2 ^ (32 - 1)) with 2147483648; lia). cbn [bind].
    rewrite Rmul_mut. cbn [bind]. apply returns_ok. apply pair3; [apply rofF | apply rofF | lia].
    + replace (2 * S i + 1)%nat with (S (S (2 * i + 1))) by lia. unfold atan_sum. cbn [qsum]. rewrite !atan_term_eq, sgn_S, sgn_odd. replace (2 * (2 * i + 1) + 1)%nat with (4 * i + 3)%nat by lia. replace (2 * S (2 * i + 1) + 1)%nat with (S (S (4 * i + 3))) by lia.
      rewrite !qpw_S. replace (inject_Z (4 * Z.of_nat i + 3)) with (qnat (4 * i + 3)) by (unfold qnat; f_equal; lia).
      replace (inject_Z (4 * Z.of_nat i + 3 + 2)) with (qnat (S (S (4 * i + 3)))) by (unfold qnat; f_equal; lia). field. split; apply qnat_nz; lia.
    + replace (4 * S i + 3)%nat with (S (S (S (S (4 * i + 3))))) by lia. rewrite !qpw_S. ring.
  - intros s ->. replace (Z.to_nat (0 + Z.of_nat k)) with k by lia. reflexivity.
Qed.
Lemma atan_last y k : (atan_sum y (2 * k + 1) - qpw y (4 * k + 3) / inject_Z (4 * Z.of_nat k + 3) == atan_sum y (2 * k + 2))%Q.
Proof.
  replace (2 * k + 2)%nat with (S (2 * k + 1)) by lia. unfold atan_sum. cbn [qsum]. rewrite atan_term_eq, sgn_odd.
  replace (2 * (2 * k + 1) + 1)%nat with (4 * k + 3)%nat by lia. replace (inject_Z (4 * Z.of_nat k + 3)) with (qnat (4 * k + 3)) by (unfold qnat; f_equal; lia).
  field. apply qnat_nz. lia.
Qed.
Lemma atan_iter_ok x k : Z.of_nat k < 2 ^ 28 -> ((k <= 255)%nat \/ (- (1) <= x <= 1)%Q) -> atan_iter (rof x) k = Ok (rof (atan_value x k)).
Proof.
  intros Hk HP. unfold atan_iter. rewrite Ris_neg.
  assert (K : forall y (ng : bool), (0 <= y)%Q -> ((k <= 255)%nat \/ (y <= 1)%Q) ->
    (let* '(result, is_reci) := if rgt_one (rof y) then let* r := rreci_mut (rof y) in Ok (r, true) else Ok (rof y, false) in
     let* x_sqr := rmul result result in
     let* x_coeff := rmul x_sqr result in
     let* '(result, x_coeff, c) := for_ k 0 (fun _ '(result, x_coeff, c) =>
      let* t := rdiv_i32 x_coeff c in
      let* result := rsub_mut result t in
      let* c := sadd 32 c 2 in
      let* x_coeff := rmul_mut x_coeff x_sqr in
      let* t := rdiv_i32 x_coeff c in
      let* result := radd_mut result t in
      let* c := sadd 32 c 2 in
      let* x_coeff := rmul_mut x_coeff x_sqr in
      Ok (result, x_coeff, c)) (result, x_coeff, 3) in
     let* t := rdiv_i32 x_coeff c in
     let* result := rsub_mut result t in
     let* result := if (is_reci : bool) then let* p := pi_iter k in let* h := rdiv_i32 p 2 in rsub h result else Ok result in
     Ok (if ng then ropp_mut result else result)) =
    Ok (rof (let v := if qltb 1 y then (bbp_sum (2 * k + 2) / 2 - atan_sum (/ y) (2 * k + 2))%Q else atan_sum y (2 * k + 2) in if ng then - v else v)%Q)).
  { intros y ng Hy HP'. rewrite Rgt_one. destruct (qltb_qlt 1 y).
    - unfold rreci_mut. rewrite Rreci by lra. cbn [bind]. rewrite Rmul. cbn [bind]. rewrite Rmul. cbn [bind]. rewrite atan_loop by auto. cbn [bind].
      rewrite Rdiv_i32 by (unfold i32r; lia). cbn [bind]. rewrite Rsub_mut. cbn [bind]. rewrite pi_iter_ok. 2:{ destruct HP'; auto. lra. }
      cbn [bind]. rewrite Rdiv_i32 by (unfold i32r; lia). cbn [bind]. rewrite Rsub. cbn [bind].
      assert (E : (bbp_sum (2 * k + 2) / inject_Z 2 - (atan_sum (/ y) (2 * k + 1) - qpw (/ y) (4 * k + 3) / inject_Z (4 * Z.of_nat k + 3)) ==
        bbp_sum (2 * k + 2) / 2 - atan_sum (/ y) (2 * k + 2))%Q) by (rewrite atan_last; reflexivity).
      rewrite (rofF _ _ E). destruct ng; [now rewrite Ropp_mut | reflexivity].
    - cbn [bind]. rewrite Rmul. cbn [bind]. rewrite Rmul. cbn [bind]. rewrite atan_loop by auto. cbn [bind].
      rewrite Rdiv_i32 by (unfold i32r; lia). cbn [bind]. rewrite Rsub_mut. cbn [bind]. rewrite (rofF _ _ (atan_last y k)).
      destruct ng; [now rewrite Ropp_mut | reflexivity]. }
  unfold atan_value. change (Qle_bool ?a ?b) with (qleb a b). destruct (qltb_qlt x 0).
  - rewrite Ropp_mut. etransitivity; [apply (K (- x)%Q true); [lra | destruct HP; [now left | right; lra]] |]. apply rofE. cbn zeta.
    destruct (qleb_qle x 1); [| lra]. destruct (qltb_qlt 1 (- x)), (qleb_qle (- (1)) x); try lra.
    + rewrite (atan_sum_m (/ - x) (- / x)) by (field; lra). rewrite atan_sum_opp. ring.
    + rewrite atan_sum_opp. ring.
  - etransitivity; [apply (K x false); [lra | destruct HP; [now left | right; lra]] |]. apply rofE. cbn zeta.
    destruct (qltb_qlt 1 x), (qleb_qle x 1); try lra. destruct (qleb_qle (- (1)) x); [reflexivity | lra].
Qed.
