(** Properties C70 to C72: sine, cosine and tangent of F192 against the real functions.
    [xR a] is the real number denoted by [a], [ep k] is 2^-k; [kappa] is 2^61 / 20!, about 0.9478: the scaled series of the cosine crosses the power of two 2^61 there. *)
From Verif Require Import Base FSpec RSpec UBig UFun UStr UAddSub BBig BEq RBig RIeee RIeeeP XNum XFun XSpec XP1 XP2 XP3 XP6 XP7 XP8 XP9 XC13 XPow XFast Props_X1 Props_X2 RReal RReal4 XReal Props_R5 XErr XLog XPw XTrig XTrig2.
From Coq Require Import Reals Lra Lia Qreals ZArith QArith Qabs Bool.
From Coquelicot Require Import Coquelicot.
Local Open Scope R_scope.

Definition kappa : R := 2305843009213693952 / 2432902008176640000.
Definition moderate (a : f192) : Prop := xwf a /\ (xnull a = true \/ (Z.abs (xpow a) <= 2 ^ 27)%Z).
Lemma mod_b a : moderate a -> xb (2 ^ 27) a. Proof. auto. Qed.
Lemma kap_eq : kap = kappa. Proof. reflexivity. Qed.

(** ** C70 sin *)
(** the error of the reduction is 2^-122 relatively to the argument, that of the series below 2^-73.
    Missing: arguments whose sine is, up to sign, within 2^-79 of kappa. *)
Theorem C70_sin_partial : forall a, moderate a -> ep 79 + ep 122 * Rabs (xR a) <= Rabs (Rabs (sin (xR a)) - kappa) -> returns (xsin a) (fun c => xwf c /\ Rabs (xR c - sin (xR a)) <= ep 73 + ep 122 * Rabs (xR a)).
Proof. intros a M H. eapply returns_weaken; [apply (xsin_R (2 ^ 27)); [now apply mod_b | lia | lia | now rewrite kap_eq] |]. intros c [B E]. split; auto. apply B. Qed.
(** around 0 there is no exception, and the error is small relatively to the sine *)
Theorem C70_small : forall a, moderate a -> Rabs (xR a) <= 7 / 10 -> returns (xsin a) (fun c => xwf c /\ Rabs (xR c - sin (xR a)) <= ep 74 * Rabs (xR a)).
Proof. intros a M H. eapply returns_weaken; [apply (xsin_small_R (2 ^ 27)); [now apply mod_b | lia | lia | auto] |]. intros c [B E]. split; auto. apply B. Qed.
Lemma one_R : xR xONE = 1. Proof. unfold xR. replace 1 with (Q2R 1) by (unfold Q2R; cbn; field). apply Qeq_eqR. vm_compute. reflexivity. Qed.
Lemma one_m : moderate xONE. Proof. split; [split; cbn; lia | right; vm_compute; discriminate]. Qed.
Lemma sin1 : 841 / 1000 < sin 1 < 842 / 1000.
Proof. pose proof (sin_rem 3 1) as T. unfold sin_rsum in T. cbn [rsum] in T. change (2 * 3 + 1)%nat with 7%nat in T. repeat match type of T with context [INR (fact ?n)] => rewrite (zf_fact n) in T; let v := eval vm_compute in (zf n) in change (zf n) with v in T end. rewrite Rabs_R1 in T. cbn [pow Nat.mul Nat.add] in T. apply Rabs_le_between in T. lra. Qed.
Lemma cos1 : 540 / 1000 < cos 1 < 541 / 1000.
Proof. pose proof (cos_rem 4 1) as T. unfold cos_rsum in T. cbn [rsum] in T. change (2 * 4)%nat with 8%nat in T. repeat match type of T with context [INR (fact ?n)] => rewrite (zf_fact n) in T; let v := eval vm_compute in (zf n) in change (zf n) with v in T end. rewrite Rabs_R1 in T. cbn [pow Nat.mul Nat.add] in T. apply Rabs_le_between in T. lra. Qed.
Lemma band1 : ep 79 + ep 122 * Rabs (xR xONE) <= Rabs (Rabs (sin (xR xONE)) - kappa) /\ ep 79 + ep 122 * Rabs (xR xONE) <= Rabs (Rabs (cos (xR xONE)) - kappa).
Proof.
  rewrite one_R, Rabs_R1. pose proof sin1. pose proof cos1. rewrite (Rabs_pos_eq (sin 1)), (Rabs_pos_eq (cos 1)) by lra. assert (ep 79 <= ep 10) by (apply ep_le; lia). assert (ep 122 <= ep 10) by (apply ep_le; lia). assert (ep 10 <= / 1000) by (unfold ep; cbn; lra). unfold kappa. rewrite !Rabs_left1 by lra. lra.
Qed.
(** sin(1) comes out between 0.8409 and 0.8421 *)
Example C70_case : returns (xsin xONE) (fun c => 8409 / 10000 < xR c < 8421 / 10000) /\ returns (xsin (mkX 0 (EXPC - 327))) (fun c => 0 < xR c).
Proof.
  split.
  - eapply returns_weaken; [apply C70_sin_partial; [apply one_m | apply band1] |]. intros c [_ E]. rewrite one_R, Rabs_R1 in E. pose proof sin1. assert (ep 73 <= ep 20) by (apply ep_le; lia). assert (ep 122 <= ep 20) by (apply ep_le; lia). assert (ep 20 <= / 100000) by (unfold ep; cbn; lra). apply Rabs_le_between in E. lra.
  - assert (V : xR (mkX 0 (EXPC - 327)) = ep 200). { rewrite (ep_num 200). unfold xR. assert (Q : (xval (mkX 0 (EXPC - 327)) == / inject_Z (2 ^ 200))%Q) by (vm_compute; reflexivity). rewrite (Qeq_eqR _ _ Q), Q2R_inv by (vm_compute; discriminate). rewrite injR. reflexivity. }
    assert (E2 : ep 200 <= / 1024) by (apply (Rle_trans _ (ep 10)); [apply ep_le; lia | unfold ep; cbn; lra]). pose proof (ep_pos 200). eapply returns_weaken; [apply C70_small; [split; [split; cbn; lia | right; vm_compute; discriminate] | rewrite V, Rabs_pos_eq by lra; lra] |]. intros c [_ E]. rewrite V, (Rabs_pos_eq (ep 200)) in E by lra.
    assert (S : ep 200 / 2 <= sin (ep 200)). { pose proof (sin_rem 1 (ep 200)) as T. unfold sin_rsum in T. cbn [rsum] in T. repeat match type of T with context [INR (fact ?n)] => rewrite (zf_fact n) in T; let v := eval vm_compute in (zf n) in change (zf n) with v in T end. rewrite (Rabs_pos_eq (ep 200)) in T by lra. cbn [pow Nat.mul Nat.add] in T. apply Rabs_le_between in T. set (u := ep 200) in *. clearbody u. assert (u * (u * (u * 1)) <= u) by nra. lra. }
    assert (ep 74 * ep 200 <= / 4 * ep 200). { apply Rmult_le_compat_r; [lra |]. apply (Rle_trans _ (ep 2)); [apply ep_le; lia | unfold ep; cbn; lra]. } apply Rabs_le_between in E. lra.
Qed.

(** ** C71 cos *)
(** Missing: arguments whose cosine is, up to sign, within 2^-79 of kappa; among them the one refuted below. *)
Theorem C71_cos_partial : forall a, moderate a -> ep 79 + ep 122 * Rabs (xR a) <= Rabs (Rabs (cos (xR a)) - kappa) -> returns (xcos a) (fun c => xwf c /\ Rabs (xR c - cos (xR a)) <= ep 73 + ep 122 * Rabs (xR a)).
Proof. intros a M H. eapply returns_weaken; [apply (xcos_R (2 ^ 27)); [now apply mod_b | lia | lia | now rewrite kap_eq] |]. intros c [B E]. split; auto. apply B. Qed.
Example C71_case : returns (xcos xONE) (fun c => 5399 / 10000 < xR c < 5411 / 10000).
Proof. eapply returns_weaken; [apply C71_cos_partial; [apply one_m | apply band1] |]. intros c [_ E]. rewrite one_R, Rabs_R1 in E. pose proof cos1. assert (ep 73 <= ep 20) by (apply ep_le; lia). assert (ep 122 <= ep 20) by (apply ep_le; lia). assert (ep 20 <= / 100000) by (unfold ep; cbn; lra). apply Rabs_le_between in E. lra. Qed.
(** the scaled series sums to just below 2^61 and is rounded up to it: the sign of the sum flips and the cosine of 0.3246 comes out as -0.4739 *)
Definition bad_cos : f192 := mkX (220919119091136434945746775692117813925 - 2 ^ 127) (EXPC - 129).
Theorem C71_carry_refuted : xwf bad_cos /\ 9 / 10 < cos (xR bad_cos) /\ exists c, xcos bad_cos = Ok c /\ xR c < - (4 / 10).
Proof.
  assert (Rb : 3 / 10 <= xR bad_cos <= 4 / 10). { unfold xR. replace (3 / 10) with (Q2R (3 # 10)) by (unfold Q2R; cbn; field). replace (4 / 10) with (Q2R (4 # 10)) by (unfold Q2R; cbn; field). split; apply Qle_Rle; vm_compute; discriminate. }
  splits.
  - split; cbn; lia.
  - pose proof (cos_rem 1 (xR bad_cos)) as T. set (x := xR bad_cos) in *. clearbody x. unfold cos_rsum in T. cbn [rsum] in T. repeat match type of T with context [INR (fact ?n)] => rewrite (zf_fact n) in T; let v := eval vm_compute in (zf n) in change (zf n) with v in T end. rewrite (Rabs_pos_eq x) in T by lra. cbn [pow Nat.mul Nat.add] in T. apply Rabs_le_between in T. nra.
  - exists (mkX (322511023578540590474353485756820708861) (EXPC - 129)). split; [vm_compute; reflexivity |]. unfold xR. replace (- (4 / 10)) with (Q2R (- (4 # 10))) by (unfold Q2R; cbn; field). apply Qlt_Rlt. vm_compute. reflexivity.
Qed.

(** ** C72 tan *)
Theorem C72_tan_partial : forall a d, moderate a -> ep 79 + ep 122 * Rabs (xR a) <= Rabs (Rabs (sin (xR a)) - kappa) -> ep 79 + ep 122 * Rabs (xR a) <= Rabs (Rabs (cos (xR a)) - kappa) ->
  d = ep 73 + ep 122 * Rabs (xR a) -> 4 * d <= Rabs (cos (xR a)) -> returns (xtan a) (fun t => xwf t /\ Rabs (xR t - tan (xR a)) <= 3 * d / (cos (xR a) * cos (xR a))).
Proof. intros a d M HS HC Dd Hd. apply (xtan_R (2 ^ 27) a d); auto; try lia. lra. Qed.
Example C72_case : returns (xtan xONE) (fun t => 154 / 100 < xR t < 157 / 100).
Proof.
  pose proof sin1 as S. pose proof cos1 as C. assert (E1 : ep 73 <= ep 20) by (apply ep_le; lia). assert (E2 : ep 122 <= ep 20) by (apply ep_le; lia). assert (E3 : ep 20 <= / 100000) by (unfold ep; cbn; lra). pose proof (ep_pos 73). pose proof (ep_pos 122). eapply returns_weaken; [apply (C72_tan_partial xONE (ep 73 + ep 122 * Rabs (xR xONE))); [apply one_m | apply band1 | apply band1 | reflexivity | rewrite one_R, Rabs_R1, Rabs_pos_eq by lra; lra] |].
  intros t [_ E]. rewrite one_R, Rabs_R1 in E. unfold tan in E. set (s := sin 1) in *. set (c := cos 1) in *. clearbody s c. set (d := ep 73 + ep 122 * 1) in *. assert (D : 0 < d <= / 40000) by (unfold d; lra). clearbody d.
  assert (I : 1848 / 1000 < / c < 1852 / 1000). { split; [apply (Rmult_lt_reg_r c); [lra |]; rewrite Rinv_l by lra; lra | apply (Rmult_lt_reg_r c); [lra |]; rewrite Rinv_l by lra; lra]. }
  assert (B : 3 * d / (c * c) <= / 1000). { unfold Rdiv. rewrite Rinv_mult. assert (/ c * / c <= 2 * 2) by (apply Rmult_le_compat; lra). assert (3 * d * (/ c * / c) <= 3 * / 40000 * 4) by (apply Rmult_le_compat; try lra; apply Rmult_le_pos; lra). lra. }
  assert (841 / 1000 * (1848 / 1000) <= s * / c) by (apply Rmult_le_compat; lra). assert (s * / c <= 842 / 1000 * (1852 / 1000)) by (apply Rmult_le_compat; lra). apply Rabs_le_between in E. unfold Rdiv in *. lra.
Qed.
Print Assumptions C70_sin_partial.
Print Assumptions C70_small.
Print Assumptions C71_cos_partial.
Print Assumptions C71_carry_refuted.
Print Assumptions C72_tan_partial.
