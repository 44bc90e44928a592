(** Reduction of the argument of the trigonometric functions of F192, and their error against the real functions. *)
From Verif Require Import Base FSpec RSpec UBig UFun UStr UAddSub BBig BEq RBig RIeee RIeeeP XNum XFun XSpec XP1 XP2 XP3 XP6 XP7 XP8 XP9 XC13 XPow XFast Props_X1 Props_X2 RReal RReal4 XReal Props_R5 XErr XLog XPw XTrig.
From Coq Require Import Reals Lra Lia Qreals ZArith QArith Qabs Bool.
From Coquelicot Require Import Coquelicot.
Local Open Scope R_scope.

Lemma eps : 0 < ep 128 /\ ep 128 <= / 1048576 /\ ep 127 = 2 * ep 128 /\ ep 126 = 4 * ep 128 /\ ep 125 = 8 * ep 128 /\ ep 124 = 16 * ep 128 /\ ep 123 = 32 * ep 128 /\ ep 122 = 64 * ep 128 /\ ep 121 = 128 * ep 128 /\ ep 120 = 256 * ep 128.
Proof. assert (e1 : ep 128 <= / 1048576) by (apply (Rle_trans _ (ep 20)); [apply ep_le; lia | unfold ep; cbn; lra]). pose proof (ep_pos 128). rewrite (ep_S 120), (ep_S 121), (ep_S 122), (ep_S 123), (ep_S 124), (ep_S 125), (ep_S 126), (ep_S 127). lra. Qed.
Lemma e73s : 100000 * ep 128 <= / 100 * ep 73 /\ ep 73 <= / 1024 /\ 0 < ep 73.
Proof. splits. - change 128%nat with (55 + 73)%nat. rewrite ep_add. assert (ep 55 <= ep 30) by (apply ep_le; lia). assert (ep 30 <= / 10000000) by (unfold ep; cbn; lra). pose proof (ep_pos 73). apply (Rle_trans _ (100000 * (/ 10000000 * ep 73))); [apply Rmult_le_compat_l; [lra | apply Rmult_le_compat_r; lra] | lra]. - apply (Rle_trans _ (ep 10)); [apply ep_le; lia | unfold ep; cbn; lra]. - apply ep_pos. Qed.

(** ** Both kernels on the whole interval up to pi / 4 *)
Lemma sin_iter_R K x : xb K x -> (200 <= K)%Z -> (K < 2 ^ 29)%Z -> - (7 / 10) <= xR x <= 7855 / 10000 -> returns (xsin_iter x) (fun c => xb (K + 1100) c /\ Rabs (xR c - sin (xR x)) <= 9 / 10 * ep 73).
Proof.
  intros Bx HK HK2 Hx. destruct s2_c as (Bs & Es2 & S2). destruct (xgt x xONE_OVER_SQRT_2) eqn:G.
  - unfold xsin_iter. rewrite G. apply gt_R in G; [| apply Bx | apply Bs]. fold s2 in G. eapply returns_weaken; [apply (sin_near_R K x); auto; lra |]. intros c [Bc Ec]. split; auto. apply (xb_le 200); auto. lia.
  - pose proof (gt_R_false _ _ (proj1 Bx) (proj1 Bs) G) as L. fold s2 in L. assert (A : Rabs (xR x) <= s2) by (apply Rabs_le; lra). eapply returns_weaken; [apply (sin_iter_small K x); auto; lia |]. intros c [Bc Ec]. split; auto. eapply Rle_trans; [exact Ec |]. assert (ep 73 = 4 * ep 75) by (rewrite (ep_S 73), (ep_S 74); lra). pose proof (ep_pos 75). nra.
Qed.
Lemma cos_iter_R K x : xb K x -> (200 <= K)%Z -> (K < 2 ^ 28)%Z -> - (7 / 10) <= xR x <= 7855 / 10000 -> ep 80 <= Rabs (cos (xR x) - kap) -> returns (xcos_iter x) (fun c => xb 200 c /\ Rabs (xR c - cos (xR x)) <= 91 / 100 * ep 73).
Proof.
  intros Bx HK HK2 Hx HC. change (2 ^ 28)%Z with 268435456%Z in HK2. destruct s2_c as (Bs & Es2 & S2). destruct eps as (e0 & e1 & e127 & e126 & e125 & _). destruct e73s as (e73 & e73' & e730). destruct (xgt x xONE_OVER_SQRT_2) eqn:G.
  - unfold xcos_iter. rewrite G. apply gt_R in G; [| apply Bx | apply Bs]. fold s2 in G. destruct half_pi as [B2 V2]. destruct pi1_c as (_ & Epi & P1).
    eapply returns_bind. { apply (sub_grid K xPI_OVER_2 x (-128)); auto; [apply (xb_le 200); auto | lia | change (2 ^ 32)%Z with 4294967296%Z; lia | | |]; rewrite ?V2; change (-128 + 127)%Z with (- Z.of_nat 1)%Z; change (-128 + 128)%Z with 0%Z; rewrite ?p2_opp; unfold ep; cbn [pow powerRZ]; [rewrite Rabs_pos_eq; lra .. | apply Rabs_le_between; lra]. }
    intros y [By Ey]. rewrite V2 in Ey. rewrite (Rabs_pos_eq (pi1 / 2 - xR x)), e127 in Ey by lra. assert (Ey2 : Rabs (xR y - (pi1 / 2 - xR x)) <= 2 * ep 128). { eapply Rle_trans; [exact Ey |]. nra. } assert (Ey3 := Ey2). apply Rabs_le_between in Ey3.
    eapply returns_weaken; [apply (sin_near_R (K + 256) y); auto; [lia | change (2 ^ 29)%Z with 536870912%Z; lia | lra] |]. intros c [Bc Ec]. split; auto. rewrite <- (sin_shift (xR x)). destruct (sin_lip (xR y) (PI / 2 - xR x)) as [L _].
    assert (D : Rabs (xR y - (PI / 2 - xR x)) <= 4 * ep 128). { replace (xR y - (PI / 2 - xR x)) with (xR y - (pi1 / 2 - xR x) + (pi1 - PI) * / 2) by lra. eapply Rle_trans; [apply Rabs_triang |]. rewrite (Rabs_mult (pi1 - PI)), (Rabs_pos_eq (/ 2)) by lra. lra. }
    replace (xR c - sin (PI / 2 - xR x)) with (xR c - sin (xR y) + (sin (xR y) - sin (PI / 2 - xR x))) by ring. eapply Rle_trans; [apply Rabs_triang |]. lra.
  - pose proof (gt_R_false _ _ (proj1 Bx) (proj1 Bs) G) as L. fold s2 in L. assert (A : Rabs (xR x) <= s2) by (apply Rabs_le; lra). eapply returns_weaken; [apply (cos_iter_small K x); auto; [lia | change (2 ^ 29)%Z with 536870912%Z; lia] |]. intros c [Bc Ec]. split; auto. eapply Rle_trans; [exact Ec |]. assert (ep 80 <= ep 75) by (apply ep_le; lia). assert (ep 73 = 4 * ep 75) by (rewrite (ep_S 73), (ep_S 74); lra). lra.
Qed.

(** ** The argument modulo 2 pi *)
Lemma injR z : Q2R (inject_Z z) = IZR z. Proof. unfold Q2R, inject_Z. cbn. field. Qed.
Lemma frac_R K q : xb K q -> (0 <= K)%Z -> (K < 2 ^ 31)%Z -> 0 <= xR q -> returns (xfrac q) (fun f => xb (K + 128) f /\ exists z, (0 <= z)%Z /\ IZR z <= xR q /\ xR f = xR q - IZR z /\ 0 <= xR f < 1).
Proof.
  intros B HK HK2 Q0. change (2 ^ 31)%Z with 2147483648%Z in HK2. assert (B' := B). destruct B as [W P]. eapply returns_weaken; [apply C51_frac_partial; auto |].
  - destruct P as [N | P]; [rewrite (xnull_zero q N); cbn; lia |]. unfold xpow in P. change (2 ^ 48)%Z with 281474976710656%Z in *. change (2 ^ 63)%Z with 9223372036854775808%Z. lia.
  - intros E. destruct P as [N | P]; [rewrite E in N; discriminate |]. rewrite E in P. revert P. change (Z.abs (xpow (mkX (2 ^ 127) 0))) with 281474976710656%Z. lia.
  - destruct P as [N | P]; auto. left. change (2 ^ 32)%Z with 4294967296%Z. lia.
  - intros f (Wf & z & Vf & T). assert (F : xR f = xR q - IZR z). { apply Qeq_eqR in Vf. unfold Qminus in Vf. rewrite Q2R_plus, Q2R_opp in Vf. unfold xR. rewrite Vf. unfold Rminus. f_equal. f_equal. unfold Q2R, inject_Z. cbn. field. }
    assert (TT : (0 <= z)%Z /\ IZR z <= xR q < IZR z + 1). { pose proof (Rle_Qle 0 (xval q)) as LQ. rewrite RMicromega.Q2R_0 in LQ. specialize (LQ Q0). destruct T as (T1 & T2 & T3). rewrite (Qabs_pos (xval q)) in T1, T2 by auto. apply Qle_Rle in T1, T3. apply Qlt_Rlt in T2. rewrite Q2R_plus in T2. rewrite Q2R_mult in T3. fold (xR q) in *. rewrite !injR in *. replace (Q2R 1) with 1 in T2 by (unfold Q2R; cbn; field). rewrite RMicromega.Q2R_0 in T3.
      destruct (Z.le_gt_cases 0 z) as [Z0 | Z0]; [rewrite Z.abs_eq in * by lia; split; [auto | lra] |]. exfalso. apply IZR_lt in Z0. assert (xR q = 0) by nra. rewrite Z.abs_neq in T1 by (apply Z.lt_le_incl; now apply lt_IZR). rewrite opp_IZR in T1. lra. }
    destruct TT as (Z0 & Z1 & Z2). split; [| exists z; splits; auto; lra].
    destruct (xnull q) eqn:N. { pose proof (null_R q N) as V0. assert (z = 0)%Z by (apply Z.le_antisymm; auto; apply le_IZR; lra). subst z. split; auto. left. apply null_iff; auto. lra. }
    destruct P as [P | P]; [discriminate |]. assert (G : exists n, xR q = IZR n * powerRZ 2 (- K)). { exists (fint q (- K)). pose proof (fint_ok q (- K) W N ltac:(lia)) as Fi. apply Qeq_eqR in Fi. rewrite Q2R_mult, two_R, injR in Fi. exact Fi. } destruct G as [n Vn].
    assert (Vf2 : xR f = IZR (n - z * 2 ^ K) * powerRZ 2 (- K)). { rewrite F, Vn, minus_IZR, mult_IZR, <- p2_IZR by auto. rewrite Rmult_minus_distr_r, Rmult_assoc, <- p2_add, Z.add_opp_diag_r. change (powerRZ 2 0) with 1. ring. }
    apply (xb_le (Z.max (K + 128) 1)); [| lia]. apply xb_val; auto; try lia.
    + destruct (Z.eq_dec (n - z * 2 ^ K) 0) as [E | E]; [left; rewrite Vf2, E; ring | right]. rewrite Vf2, Rabs_mult, (Rabs_pos_eq (powerRZ 2 (- K))), <- abs_IZR by apply Rlt_le, p2_pos. rewrite <- (Rmult_1_l (powerRZ 2 (- K))) at 1. apply Rmult_le_compat_r; [apply Rlt_le, p2_pos | apply IZR_le; lia].
    + change (powerRZ 2 1) with (2 * 1). rewrite Rabs_pos_eq; lra.
Qed.
Definition reduce (x : f192) : res f192 := let* pi_2 := xshl xPI 1 in let* q := xdiv x pi_2 in let* f := xfrac q in xmul f pi_2.
Lemma pi2_R : exists p, xshl xPI 1 = Ok p /\ xb 201 p /\ xR p = 2 * pi1 /\ xnull p = false.
Proof.
  destruct pi1_c as (B & _ & P). assert (H : returns (xshl xPI 1) (fun c => xb (200 + 1) c /\ xR c = xR xPI * powerRZ 2 1)) by (apply shlR; auto; [lia | change (2 ^ 32)%Z with 4294967296%Z; lia]). destruct H as (p & E & B2 & V). exists p. fold pi1 in V. change (powerRZ 2 1) with (2 * 1) in V. splits; auto; [lra |].
  destruct (xnull p) eqn:N; auto. rewrite (null_R p N) in V. lra.
Qed.
Lemma reduce_R K x p : xb K x -> (0 <= K)%Z -> (K < 2 ^ 28)%Z -> 0 <= xR x -> xshl xPI 1 = Ok p -> returns (let* q := xdiv x p in let* f := xfrac q in xmul f p) (fun y => xb (K + 1600) y /\ 0 <= xR y <= 2 * pi1 /\
  Rabs (sin (xR y) - sin (xR x)) <= ep 122 * xR x /\ Rabs (cos (xR y) - cos (xR x)) <= ep 122 * xR x /\ (xR x <= 6 -> Rabs (xR y - xR x) <= ep 122 * xR x)).
Proof.
  intros Bx HK HK2 X0 Ep. change (2 ^ 28)%Z with 268435456%Z in HK2. destruct pi2_R as (p' & Ep' & Bp & Vp & Np). rewrite Ep in Ep'. inversion Ep'. subst p'. clear Ep'. destruct pi1_c as (_ & Epi & P1). destruct eps as (e0 & e1 & e127 & e126 & e125 & e124 & e123 & e122 & _).
  eapply returns_bind. { apply (divR K 201 x p); auto; try lia. } intros q (Bq & _ & Sq & Eq). rewrite Vp in *. set (X := xR x) in *. set (t := X / (2 * pi1)) in *. assert (Xt : X = t * (2 * pi1)) by (unfold t; field; lra). assert (T0 : 0 <= t) by (unfold t; apply Rmult_le_pos; [auto | apply Rlt_le, Rinv_0_lt_compat; lra]). rewrite (Rabs_pos_eq t) in Eq by auto. assert (Eq2 := Eq). apply Rabs_le_between in Eq2.
  assert (Q0 : 0 <= xR q). { assert (ep 123 * t <= / 2 * t) by (apply Rmult_le_compat_r; lra). lra. }
  eapply returns_bind. { apply (frac_R (K + 201 + 512) q); auto; [lia | change (2 ^ 31)%Z with 2147483648%Z; lia]. } intros f (Bf & z & Z0 & Z1 & Vf & F0 & F1).
  eapply returns_weaken; [apply (mulR (K + 201 + 512 + 128) 201 f p); auto; try lia; change (2 ^ 40)%Z with 1099511627776%Z; lia |]. intros y (By & Ly & Sy & Ey). rewrite Vp in *. assert (FP : 0 <= xR f * (2 * pi1)) by (apply Rmult_le_pos; lra). rewrite (Rabs_pos_eq (xR f * (2 * pi1))) in Ly, Ey by auto. assert (Ey2 := Ey). apply Rabs_le_between in Ey2.
  assert (Y0 : 0 <= xR y). { assert (ep 125 * (xR f * (2 * pi1)) <= / 2 * (xR f * (2 * pi1))) by (apply Rmult_le_compat_r; lra). lra. } rewrite (Rabs_pos_eq (xR y)) in Ly by auto. assert (FP2 : xR f * (2 * pi1) <= 1 * (2 * pi1)) by (apply Rmult_le_compat_r; lra).
  assert (Eq3 : Rabs (xR q * (2 * pi1) - X) <= ep 123 * X). { rewrite Xt. replace (xR q * (2 * pi1) - t * (2 * pi1)) with ((xR q - t) * (2 * pi1)) by ring. rewrite Rabs_mult, (Rabs_pos_eq (2 * pi1)) by lra. replace (ep 123 * (t * (2 * pi1))) with (ep 123 * t * (2 * pi1)) by ring. apply Rmult_le_compat_r; lra. }
  assert (eX : 0 <= ep 128 * X) by (apply Rmult_le_pos; lra).
  assert (Qx : xR q * (2 * pi1) <= 2 * X). { apply Rabs_le_between in Eq3. assert (ep 123 * X <= 1 * X) by (apply Rmult_le_compat_r; lra). lra. }
  assert (Zx : IZR z <= X / 3). { assert (IZR z * (2 * pi1) <= xR q * (2 * pi1)) by (apply Rmult_le_compat_r; lra). assert (0 <= IZR z) by (apply IZR_le; auto). nra. }
  assert (Main : Rabs (xR y - (X - 2 * IZR z * PI)) <= ep 122 * X).
  { replace (xR y - (X - 2 * IZR z * PI)) with (xR y - xR f * (2 * pi1) + (xR q * (2 * pi1) - X) + - (2 * IZR z * (pi1 - PI))) by (rewrite Vf; ring). eapply Rle_trans; [apply Rabs_triang |]. eapply Rle_trans; [apply Rplus_le_compat_r, Rabs_triang |]. rewrite Rabs_Ropp, Rabs_mult, (Rabs_pos_eq (2 * IZR z)) by (assert (0 <= IZR z) by (apply IZR_le; auto); lra).
    assert (A1 : ep 125 * (xR f * (2 * pi1)) <= ep 125 * (2 * X)). { apply Rmult_le_compat_l; [lra |]. apply (Rle_trans _ (xR q * (2 * pi1))); auto. apply Rmult_le_compat_r; [lra |]. rewrite Vf. assert (0 <= IZR z) by (apply IZR_le; auto). lra. }
    assert (A2 : 2 * IZR z * Rabs (pi1 - PI) <= 2 * (X / 3) * ep 126). { apply Rmult_le_compat; [assert (0 <= IZR z) by (apply IZR_le; auto); lra | apply Rabs_pos | lra | auto]. } rewrite e122, e123, e125, e126 in *. lra. }
  assert (Per : X = X - 2 * IZR z * PI + 2 * INR (Z.to_nat z) * PI) by (rewrite INR_IZR_INZ, Z2Nat.id by auto; ring). pose proof (sin_period (X - 2 * IZR z * PI) (Z.to_nat z)) as PS1. pose proof (cos_period (X - 2 * IZR z * PI) (Z.to_nat z)) as PC1. rewrite <- Per in PS1, PC1. rewrite PS1, PC1. destruct (sin_lip (xR y) (X - 2 * IZR z * PI)) as [LS LC].
  split; [apply (xb_le (K + 201 + 512 + 128 + 201 + 256)); auto; lia |]. splits; try lra.
  intros X6. assert (Zz : z = 0%Z). { apply Z.le_antisymm; auto. apply Z.lt_succ_r. apply lt_IZR. rewrite succ_IZR. apply Rabs_le_between in Eq3. assert (ep 123 * X <= / 1000 * X) by (apply Rmult_le_compat_r; lra). assert (IZR z * (2 * pi1) <= xR q * (2 * pi1)) by (apply Rmult_le_compat_r; lra). assert (IZR z * (2 * pi1) < 1 * (2 * pi1)) by lra. assert (IZR z < 1) by (apply (Rmult_lt_reg_r (2 * pi1)); lra). lra. }
  subst z. replace (xR y - X) with (xR y - (X - 2 * 0 * PI)) by ring. exact Main.
Qed.
Lemma sgn_R a : xwf a -> (xis_neg a = true -> xR a <= 0) /\ (xis_neg a = false -> 0 <= xR a).
Proof. intros W. rewrite xis_neg_sign by auto. unfold xR. rewrite <- RMicromega.Q2R_0. split; intros S; apply Qle_Rle; [apply Qlt_le_weak, xval_neg; auto | apply xval_pos; auto]. Qed.
Definition sg1 (b : bool) : R := if b then -1 else 1.
Lemma sg1_abs b v : Rabs (sg1 b * v) = Rabs v. Proof. rewrite Rabs_mult. fold (hsg (negb b)). replace (sg1 b) with (hsg (negb b)) by (destruct b; reflexivity). rewrite hsg_abs. ring. Qed.
(** subtracting from or reflecting at a multiple of pi / 4 *)
Lemma refl_R K c x g : xb K c -> xb K x -> (0 <= K)%Z -> (K < 2 ^ 31)%Z -> powerRZ 2 (g + 127) <= Rabs (xR c) -> powerRZ 2 (g + 127) <= Rabs (xR x) -> Rabs (xR c - xR x) <= powerRZ 2 (g + 128) -> Rabs (xR c - xR x) <= 4 ->
  returns (xsub c x) (fun y => xb (K + 256) y /\ Rabs (xR y - (xR c - xR x)) <= 8 * ep 128).
Proof.
  intros Bc Bx HK HK2 G1 G2 G3 G4. change (2 ^ 31)%Z with 2147483648%Z in HK2. eapply returns_weaken; [apply (sub_grid K c x g); auto; change (2 ^ 32)%Z with 4294967296%Z; lia |]. intros y [By Ey]. split; auto. destruct eps as (e0 & e1 & e127 & _). rewrite e127 in Ey. eapply Rle_trans; [exact Ey |]. assert (2 * ep 128 * Rabs (xR c - xR x) <= 2 * ep 128 * 4) by (apply Rmult_le_compat_l; lra). lra.
Qed.
Lemma g126 : powerRZ 2 (-126 + 127) = 2 /\ powerRZ 2 (-126 + 128) = 4. Proof. change (-126 + 127)%Z with (Z.of_nat 1). change (-126 + 128)%Z with (Z.of_nat 2). rewrite !p2_nat. cbn [pow]. lra. Qed.
Lemma g127 : powerRZ 2 (-127 + 127) = 1 /\ powerRZ 2 (-127 + 128) = 2. Proof. change (-127 + 127)%Z with (Z.of_nat 0). change (-127 + 128)%Z with (Z.of_nat 1). rewrite !p2_nat. cbn [pow]. lra. Qed.
Lemma g128 : powerRZ 2 (-128 + 127) = / 2 /\ powerRZ 2 (-128 + 128) = 1. Proof. change (-128 + 127)%Z with (- Z.of_nat 1)%Z. change (-128 + 128)%Z with (Z.of_nat 0). rewrite p2_nat, p2_opp. unfold ep. cbn [pow]. lra. Qed.

Lemma xsin_R K a : xb K a -> (200 <= K)%Z -> (K <= 2 ^ 27)%Z -> ep 79 + ep 122 * Rabs (xR a) <= Rabs (Rabs (sin (xR a)) - kap) -> returns (xsin a) (fun c => xb (K + 4000) c /\ Rabs (xR c - sin (xR a)) <= ep 73 + ep 122 * Rabs (xR a)).
Proof.
  intros Ba HK HK2 HC. change (2 ^ 27)%Z with 134217728%Z in HK2. destruct (abs_b K a Ba) as [Bx Vx]; [change (2 ^ 32)%Z with 4294967296%Z; lia |]. destruct (sgn_R a (proj1 Ba)) as [SN SP]. unfold xsin. set (b0 := xis_neg a) in *. set (X := Rabs (xR a)) in *. assert (X0 : 0 <= X) by apply Rabs_pos.
  destruct pi2_R as (p & Ep & _). rewrite Ep. cbn [bind]. destruct pi1_c as (Bpi & Epi & P1). destruct half_pi as [B2 V2]. destruct quarter_pi as [B4 V4]. destruct eps as (e0 & e1 & e127 & e126 & e125 & e124 & e123 & e122 & _). destruct e73s as (e73 & e73' & e730). rewrite e126 in Epi.
  assert (S0 : sin (xR a) = sg1 b0 * sin X). { unfold X, sg1. destruct b0. - rewrite Rabs_left1 by auto. rewrite sin_neg. ring. - rewrite Rabs_pos_eq by auto. ring. }
  cut (returns (let* x := (let* q := xdiv (xabs a) p in let* f := xfrac q in xmul f p) in let* '(x, is_neg) := if xgt x xPI then let* y := xsub x xPI in Ok (y, negb b0) else Ok (x, b0) in
    let* x := if xgt x xPI_OVER_2 then xsub xPI x else Ok x in let* r := if xgt x xPI_OVER_4 then let* y := xsub xPI_OVER_2 x in xcos_iter y else xsin_iter x in Ok (if is_neg then xneg r else r))
    (fun c => xb (K + 4000) c /\ Rabs (xR c - sin (xR a)) <= ep 73 + ep 122 * X)).
  { intros H. destruct (xdiv (xabs a) p) as [q | |]; auto. cbn [bind] in *. destruct (xfrac q) as [f | |]; auto. }
  eapply returns_bind. { apply (reduce_R K (xabs a) p); auto; [lia | change (2 ^ 28)%Z with 268435456%Z; lia | lra]. } rewrite Vx. fold X. intros x (Bx1 & Rx & Ex & _ & _). assert (eX : 0 <= ep 122 * X) by (apply Rmult_le_pos; [rewrite e122; lra | auto]). set (E := ep 122 * X) in *.
  assert (C31 : (K + 2000 < 2 ^ 31)%Z) by (change (2 ^ 31)%Z with 2147483648%Z; lia).
  (* x > pi *)
  eapply returns_bind with (Q := fun '(x, b) => xb (K + 2000) x /\ - / 1000 <= xR x <= 314160 / 100000 /\ Rabs (sg1 b * sin (xR x) - sin (xR a)) <= E + 16 * ep 128).
  { destruct (xgt x xPI) eqn:G.
    - apply gt_R in G; [| apply Bx1 | apply Bpi]. fold pi1 in G. eapply returns_bind. { apply (refl_R (K + 1600) x xPI (-126)); [auto | apply (xb_le 200); auto; lia | lia | lia | fold pi1; rewrite ?(proj1 g126), ?(proj2 g126); rewrite Rabs_pos_eq by lra; lra ..]. }
      intros y [By Ey]. fold pi1 in Ey. apply returns_ok. assert (Ey2 := Ey). apply Rabs_le_between in Ey2. split; [apply (xb_le (K + 1600 + 256)); auto; lia |]. split; [lra |].
      destruct (sin_lip (xR y) (xR x - PI)) as [L _]. assert (SI : sin (xR x - PI) = - sin (xR x)) by (replace (xR x - PI) with (- (PI - xR x)) by ring; rewrite sin_neg, sin_PI_x; ring). rewrite SI in L. assert (D : Rabs (xR y - (xR x - PI)) <= 12 * ep 128). { replace (xR y - (xR x - PI)) with (xR y - (xR x - pi1) + - (pi1 - PI)) by ring. eapply Rle_trans; [apply Rabs_triang |]. rewrite Rabs_Ropp. lra. }
      rewrite S0. replace (sg1 (negb b0) * sin (xR y) - sg1 b0 * sin X) with (sg1 (negb b0) * (sin (xR y) - - sin (xR x)) + sg1 b0 * (sin (xR x) - sin X)) by (unfold sg1; destruct b0; cbn; ring). eapply Rle_trans; [apply Rabs_triang |]. rewrite !sg1_abs. lra.
    - pose proof (gt_R_false _ _ (proj1 Bx1) (proj1 Bpi) G) as L. fold pi1 in L. apply returns_ok. split; [apply (xb_le (K + 1600)); auto; lia |]. split; [lra |]. rewrite S0, <- Rmult_minus_distr_l, sg1_abs. lra. }
  clear Ex Rx Bx1 x. intros [x b] (Bx1 & Rx & Ex).
  (* x > pi / 2 *)
  eapply returns_bind with (Q := fun x => xb (K + 2300) x /\ - / 500 <= xR x <= 15708 / 10000 /\ Rabs (sg1 b * sin (xR x) - sin (xR a)) <= E + 32 * ep 128).
  { destruct (xgt x xPI_OVER_2) eqn:G.
    - apply gt_R in G; [| apply Bx1 | apply B2]. rewrite V2 in G. eapply returns_weaken. { apply (refl_R (K + 2000) xPI x (-127)); [apply (xb_le 200); auto; lia | auto | lia | lia | fold pi1; rewrite ?(proj1 g127), ?(proj2 g127); (rewrite Rabs_pos_eq by lra; lra) || (apply Rabs_le; lra) ..]. }
      intros y [By Ey]. fold pi1 in Ey. assert (Ey2 := Ey). apply Rabs_le_between in Ey2. split; [apply (xb_le (K + 2000 + 256)); auto; lia |]. split; [lra |].
      destruct (sin_lip (xR y) (PI - xR x)) as [L _]. rewrite sin_PI_x in L. assert (D : Rabs (xR y - (PI - xR x)) <= 12 * ep 128). { replace (xR y - (PI - xR x)) with (xR y - (pi1 - xR x) + (pi1 - PI)) by ring. eapply Rle_trans; [apply Rabs_triang |]. lra. }
      replace (sg1 b * sin (xR y) - sin (xR a)) with (sg1 b * (sin (xR y) - sin (xR x)) + (sg1 b * sin (xR x) - sin (xR a))) by ring. eapply Rle_trans; [apply Rabs_triang |]. rewrite sg1_abs. lra.
    - pose proof (gt_R_false _ _ (proj1 Bx1) (proj1 B2) G) as L. rewrite V2 in L. apply returns_ok. split; [apply (xb_le (K + 2000)); auto; lia |]. split; [lra |]. lra. }
  clear Ex Rx Bx1 x. intros x (Bx1 & Rx & Ex).
  (* x > pi / 4 *)
  eapply returns_bind with (Q := fun c => xb (K + 4000) c /\ Rabs (sg1 b * xR c - sin (xR a)) <= ep 73 + E).
  { destruct (xgt x xPI_OVER_4) eqn:G.
    - apply gt_R in G; [| apply Bx1 | apply B4]. rewrite V4 in G. eapply returns_bind. { apply (refl_R (K + 2300) xPI_OVER_2 x (-128)); [apply (xb_le 200); auto; lia | auto | lia | change (2 ^ 31)%Z with 2147483648%Z; lia | rewrite ?V2; rewrite ?(proj1 g128), ?(proj2 g128); (rewrite Rabs_pos_eq by lra; lra) || (apply Rabs_le; lra) ..]. }
      intros y [By Ey]. rewrite V2 in Ey. assert (Ey2 := Ey). apply Rabs_le_between in Ey2. destruct (sin_lip (xR y) (PI / 2 - xR x)) as [_ L]. rewrite cos_shift in L. assert (D : Rabs (xR y - (PI / 2 - xR x)) <= 10 * ep 128). { replace (xR y - (PI / 2 - xR x)) with (xR y - (pi1 / 2 - xR x) + (pi1 - PI) * / 2) by lra. eapply Rle_trans; [apply Rabs_triang |]. rewrite (Rabs_mult (pi1 - PI)), (Rabs_pos_eq (/ 2)) by lra. lra. }
      assert (Ey3 : Rabs (sg1 b * cos (xR y) - sin (xR a)) <= E + 48 * ep 128). { replace (sg1 b * cos (xR y) - sin (xR a)) with (sg1 b * (cos (xR y) - sin (xR x)) + (sg1 b * sin (xR x) - sin (xR a))) by ring. eapply Rle_trans; [apply Rabs_triang |]. rewrite sg1_abs. lra. }
      assert (CY : 0 <= cos (xR y)) by (apply cos_ge_0; apply Rabs_le_between in Epi; lra).
      eapply returns_weaken. { apply (cos_iter_R (K + 2300 + 256) y); auto; [lia | change (2 ^ 28)%Z with 268435456%Z; lia | lra |].
        assert (T : Rabs (cos (xR y) - Rabs (sin (xR a))) <= E + 48 * ep 128). { replace (cos (xR y)) with (Rabs (sg1 b * cos (xR y))) by (rewrite sg1_abs; apply Rabs_pos_eq; auto). eapply Rle_trans; [apply Rabs_triang_inv2 | auto]. }
        assert (e79 : ep 79 = 2 * ep 80) by apply ep_S. assert (e80 : 48 * ep 128 <= ep 80). { change 128%nat with (48 + 80)%nat. rewrite ep_add. assert (ep 48 <= ep 20) by (apply ep_le; lia). assert (ep 20 <= / 1000) by (unfold ep; cbn; lra). pose proof (ep_pos 80). apply (Rle_trans _ (48 * (/ 1000 * ep 80))); [apply Rmult_le_compat_l; [lra | apply Rmult_le_compat_r; lra] | lra]. }
        assert (Rabs (Rabs (sin (xR a)) - kap) <= Rabs (cos (xR y) - kap) + Rabs (cos (xR y) - Rabs (sin (xR a)))). { rewrite (Rabs_minus_sym (cos (xR y)) (Rabs _)). eapply Rle_trans; [| apply Rabs_triang]. apply Req_le. f_equal. ring. } lra. }
      intros c [Bc Ec]. split; [apply (xb_le 200); auto; lia |]. replace (sg1 b * xR c - sin (xR a)) with (sg1 b * (xR c - cos (xR y)) + (sg1 b * cos (xR y) - sin (xR a))) by ring. eapply Rle_trans; [apply Rabs_triang |]. rewrite sg1_abs. lra.
    - pose proof (gt_R_false _ _ (proj1 Bx1) (proj1 B4) G) as L. rewrite V4 in L. eapply returns_weaken. { apply (sin_iter_R (K + 2300) x); auto; [lia | change (2 ^ 29)%Z with 536870912%Z; lia | lra]. }
      intros c [Bc Ec]. split; [apply (xb_le (K + 2300 + 1100)); auto; lia |]. replace (sg1 b * xR c - sin (xR a)) with (sg1 b * (xR c - sin (xR x)) + (sg1 b * sin (xR x) - sin (xR a))) by ring. eapply Rle_trans; [apply Rabs_triang |]. rewrite sg1_abs. lra. }
  intros c [Bc Ec]. apply returns_ok. destruct b; cbn [sg1] in Ec.
  - destruct (neg_b _ c Bc) as [Bn Vn]; [change (2 ^ 32)%Z with 4294967296%Z; lia |]. split; auto. rewrite Vn. replace (- xR c) with (-1 * xR c) by ring. auto.
  - split; auto. replace (xR c) with (1 * xR c) by ring. auto.
Qed.
Lemma xcos_R K a : xb K a -> (200 <= K)%Z -> (K <= 2 ^ 27)%Z -> ep 79 + ep 122 * Rabs (xR a) <= Rabs (Rabs (cos (xR a)) - kap) -> returns (xcos a) (fun c => xb (K + 4000) c /\ Rabs (xR c - cos (xR a)) <= ep 73 + ep 122 * Rabs (xR a)).
Proof.
  intros Ba HK HK2 HC. change (2 ^ 27)%Z with 134217728%Z in HK2. destruct (abs_b K a Ba) as [Bx Vx]; [change (2 ^ 32)%Z with 4294967296%Z; lia |]. unfold xcos. set (X := Rabs (xR a)) in *. assert (X0 : 0 <= X) by apply Rabs_pos.
  destruct pi2_R as (p & Ep & Bp & Vp & _). rewrite Ep. cbn [bind]. destruct pi1_c as (Bpi & Epi & P1). destruct half_pi as [B2 V2]. destruct quarter_pi as [B4 V4]. destruct eps as (e0 & e1 & e127 & e126 & e125 & e124 & e123 & e122 & _). destruct e73s as (e73 & e73' & e730). rewrite e126 in Epi.
  assert (S0 : cos (xR a) = cos X). { unfold X, Rabs. destruct (Rcase_abs (xR a)); [now rewrite cos_neg | auto]. }
  cut (returns (let* x := (let* q := xdiv (xabs a) p in let* f := xfrac q in xmul f p) in let* x := if xgt x xPI then xsub p x else Ok x in
    let* '(x, is_neg) := if xgt x xPI_OVER_2 then let* y := xsub xPI x in Ok (y, true) else Ok (x, false) in let* r := if xgt x xPI_OVER_4 then let* y := xsub xPI_OVER_2 x in xsin_iter y else xcos_iter x in Ok (if (is_neg : bool) then xneg r else r))
    (fun c => xb (K + 4000) c /\ Rabs (xR c - cos (xR a)) <= ep 73 + ep 122 * X)).
  { intros H. destruct (xdiv (xabs a) p) as [q | |]; auto. cbn [bind] in *. destruct (xfrac q) as [f | |]; auto. }
  eapply returns_bind. { apply (reduce_R K (xabs a) p); auto; [lia | change (2 ^ 28)%Z with 268435456%Z; lia | lra]. } rewrite Vx. fold X. intros x (Bx1 & Rx & _ & Ex & _). rewrite <- S0 in Ex. assert (eX : 0 <= ep 122 * X) by (apply Rmult_le_pos; [rewrite e122; lra | auto]). set (E := ep 122 * X) in *.
  assert (C31 : (K + 2000 < 2 ^ 31)%Z) by (change (2 ^ 31)%Z with 2147483648%Z; lia).
  (* x > pi *)
  eapply returns_bind with (Q := fun x => xb (K + 2000) x /\ - / 1000 <= xR x <= 314160 / 100000 /\ Rabs (cos (xR x) - cos (xR a)) <= E + 16 * ep 128).
  { destruct (xgt x xPI) eqn:G.
    - apply gt_R in G; [| apply Bx1 | apply Bpi]. fold pi1 in G. eapply returns_weaken. { apply (refl_R (K + 1600) p x (-126)); [apply (xb_le 201); auto; lia | auto | lia | lia | rewrite ?Vp, ?(proj1 g126), ?(proj2 g126); rewrite Rabs_pos_eq by lra; lra ..]. }
      intros y [By Ey]. rewrite Vp in Ey. assert (Ey2 := Ey). apply Rabs_le_between in Ey2. split; [apply (xb_le (K + 1600 + 256)); auto; lia |]. split; [lra |].
      destruct (sin_lip (xR y) (2 * PI - xR x)) as [_ L]. assert (SI : cos (2 * PI - xR x) = cos (xR x)) by (replace (2 * PI - xR x) with (- xR x + 2 * INR 1 * PI) by (cbn; ring); rewrite cos_period, cos_neg; reflexivity). rewrite SI in L. assert (D : Rabs (xR y - (2 * PI - xR x)) <= 16 * ep 128). { replace (xR y - (2 * PI - xR x)) with (xR y - (2 * pi1 - xR x) + 2 * (pi1 - PI)) by ring. eapply Rle_trans; [apply Rabs_triang |]. rewrite (Rabs_mult 2), (Rabs_pos_eq 2) by lra. lra. }
      replace (cos (xR y) - cos (xR a)) with ((cos (xR y) - cos (xR x)) + (cos (xR x) - cos (xR a))) by ring. eapply Rle_trans; [apply Rabs_triang |]. lra.
    - pose proof (gt_R_false _ _ (proj1 Bx1) (proj1 Bpi) G) as L. fold pi1 in L. apply returns_ok. split; [apply (xb_le (K + 1600)); auto; lia |]. split; lra. }
  clear Ex Rx Bx1 x. intros x (Bx1 & Rx & Ex).
  (* x > pi / 2 *)
  eapply returns_bind with (Q := fun '(x, b) => xb (K + 2300) x /\ - / 500 <= xR x <= 15708 / 10000 /\ Rabs (sg1 b * cos (xR x) - cos (xR a)) <= E + 32 * ep 128).
  { destruct (xgt x xPI_OVER_2) eqn:G.
    - apply gt_R in G; [| apply Bx1 | apply B2]. rewrite V2 in G. eapply returns_bind. { apply (refl_R (K + 2000) xPI x (-127)); [apply (xb_le 200); auto; lia | auto | lia | lia | fold pi1; rewrite ?(proj1 g127), ?(proj2 g127); (rewrite Rabs_pos_eq by lra; lra) || (apply Rabs_le; lra) ..]. }
      intros y [By Ey]. fold pi1 in Ey. apply returns_ok. assert (Ey2 := Ey). apply Rabs_le_between in Ey2. split; [apply (xb_le (K + 2000 + 256)); auto; lia |]. split; [lra |].
      destruct (sin_lip (xR y) (PI - xR x)) as [_ L]. assert (SI : cos (PI - xR x) = - cos (xR x)) by (replace (PI - xR x) with (- xR x + PI) by ring; rewrite neg_cos, cos_neg; reflexivity). rewrite SI in L. assert (D : Rabs (xR y - (PI - xR x)) <= 12 * ep 128). { replace (xR y - (PI - xR x)) with (xR y - (pi1 - xR x) + (pi1 - PI)) by ring. eapply Rle_trans; [apply Rabs_triang |]. lra. }
      cbn [sg1]. replace (-1 * cos (xR y) - cos (xR a)) with (- (cos (xR y) - - cos (xR x)) + (cos (xR x) - cos (xR a))) by ring. eapply Rle_trans; [apply Rabs_triang |]. rewrite Rabs_Ropp. lra.
    - pose proof (gt_R_false _ _ (proj1 Bx1) (proj1 B2) G) as L. rewrite V2 in L. apply returns_ok. split; [apply (xb_le (K + 2000)); auto; lia |]. split; [lra |]. cbn [sg1]. rewrite Rmult_1_l. lra. }
  clear Ex Rx Bx1 x. intros [x b] (Bx1 & Rx & Ex).
  (* x > pi / 4 *)
  eapply returns_bind with (Q := fun c => xb (K + 4000) c /\ Rabs (sg1 b * xR c - cos (xR a)) <= ep 73 + E).
  { destruct (xgt x xPI_OVER_4) eqn:G.
    - apply gt_R in G; [| apply Bx1 | apply B4]. rewrite V4 in G. eapply returns_bind. { apply (refl_R (K + 2300) xPI_OVER_2 x (-128)); [apply (xb_le 200); auto; lia | auto | lia | change (2 ^ 31)%Z with 2147483648%Z; lia | rewrite ?V2; rewrite ?(proj1 g128), ?(proj2 g128); (rewrite Rabs_pos_eq by lra; lra) || (apply Rabs_le; lra) ..]. }
      intros y [By Ey]. rewrite V2 in Ey. assert (Ey2 := Ey). apply Rabs_le_between in Ey2. destruct (sin_lip (xR y) (PI / 2 - xR x)) as [L _]. rewrite sin_shift in L. assert (D : Rabs (xR y - (PI / 2 - xR x)) <= 10 * ep 128). { replace (xR y - (PI / 2 - xR x)) with (xR y - (pi1 / 2 - xR x) + (pi1 - PI) * / 2) by lra. eapply Rle_trans; [apply Rabs_triang |]. rewrite (Rabs_mult (pi1 - PI)), (Rabs_pos_eq (/ 2)) by lra. lra. }
      eapply returns_weaken. { apply (sin_iter_R (K + 2300 + 256) y); auto; [lia | change (2 ^ 29)%Z with 536870912%Z; lia | lra]. }
      intros c [Bc Ec]. split; [apply (xb_le (K + 2300 + 256 + 1100)); auto; lia |]. replace (sg1 b * xR c - cos (xR a)) with (sg1 b * (xR c - sin (xR y)) + sg1 b * (sin (xR y) - cos (xR x)) + (sg1 b * cos (xR x) - cos (xR a))) by ring. eapply Rle_trans; [apply Rabs_triang |]. eapply Rle_trans; [apply Rplus_le_compat_r, Rabs_triang |]. rewrite !sg1_abs. lra.
    - pose proof (gt_R_false _ _ (proj1 Bx1) (proj1 B4) G) as L. rewrite V4 in L. assert (CY : 0 <= cos (xR x)) by (apply cos_ge_0; apply Rabs_le_between in Epi; lra).
      eapply returns_weaken. { apply (cos_iter_R (K + 2300) x); auto; [lia | change (2 ^ 28)%Z with 268435456%Z; lia | lra |].
        assert (T : Rabs (cos (xR x) - Rabs (cos (xR a))) <= E + 48 * ep 128). { replace (cos (xR x)) with (Rabs (sg1 b * cos (xR x))) by (rewrite sg1_abs; apply Rabs_pos_eq; auto). eapply Rle_trans; [apply Rabs_triang_inv2 | lra]. }
        assert (e79 : ep 79 = 2 * ep 80) by apply ep_S. assert (e80 : 48 * ep 128 <= ep 80). { change 128%nat with (48 + 80)%nat. rewrite ep_add. assert (ep 48 <= ep 20) by (apply ep_le; lia). assert (ep 20 <= / 1000) by (unfold ep; cbn; lra). pose proof (ep_pos 80). apply (Rle_trans _ (48 * (/ 1000 * ep 80))); [apply Rmult_le_compat_l; [lra | apply Rmult_le_compat_r; lra] | lra]. }
        assert (Rabs (Rabs (cos (xR a)) - kap) <= Rabs (cos (xR x) - kap) + Rabs (cos (xR x) - Rabs (cos (xR a)))). { rewrite (Rabs_minus_sym (cos (xR x)) (Rabs _)). eapply Rle_trans; [| apply Rabs_triang]. apply Req_le. f_equal. ring. } lra. }
      intros c [Bc Ec]. split; [apply (xb_le 200); auto; lia |]. replace (sg1 b * xR c - cos (xR a)) with (sg1 b * (xR c - cos (xR x)) + (sg1 b * cos (xR x) - cos (xR a))) by ring. eapply Rle_trans; [apply Rabs_triang |]. rewrite sg1_abs. lra. }
  intros c [Bc Ec]. apply returns_ok. destruct b; cbn [sg1] in Ec.
  - destruct (neg_b _ c Bc) as [Bn Vn]; [change (2 ^ 32)%Z with 4294967296%Z; lia |]. split; auto. rewrite Vn. replace (- xR c) with (-1 * xR c) by ring. auto.
  - split; auto. replace (xR c) with (1 * xR c) by ring. auto.
Qed.
(** near 0 the sine keeps its relative accuracy *)
Lemma xsin_small_R K a : xb K a -> (200 <= K)%Z -> (K <= 2 ^ 27)%Z -> Rabs (xR a) <= 7 / 10 -> returns (xsin a) (fun c => xb (K + 4000) c /\ Rabs (xR c - sin (xR a)) <= ep 74 * Rabs (xR a)).
Proof.
  intros Ba HK HK2 HA. change (2 ^ 27)%Z with 134217728%Z in HK2. destruct (abs_b K a Ba) as [Bx Vx]; [change (2 ^ 32)%Z with 4294967296%Z; lia |]. destruct (sgn_R a (proj1 Ba)) as [SN SP]. unfold xsin. set (b := xis_neg a) in *. set (X := Rabs (xR a)) in *. assert (X0 : 0 <= X) by apply Rabs_pos.
  destruct pi2_R as (p & Ep & _). rewrite Ep. cbn [bind]. destruct pi1_c as (Bpi & Epi & P1). destruct half_pi as [B2 V2]. destruct quarter_pi as [B4 V4]. destruct s2_c as (Bs & _ & S2). destruct eps as (e0 & e1 & e127 & e126 & e125 & e124 & e123 & e122 & _). destruct e73s as (e73 & e73' & e730).
  assert (S0 : sin (xR a) = sg1 b * sin X). { unfold X, sg1. destruct b. - rewrite Rabs_left1 by auto. rewrite sin_neg. ring. - rewrite Rabs_pos_eq by auto. ring. }
  pose proof (reduce_R K (xabs a) p Bx ltac:(lia) ltac:(change (2 ^ 28)%Z with 268435456%Z; lia) ltac:(lra) Ep) as RR. rewrite Vx in RR. fold X in RR.
  cut (returns (let* x := (let* q := xdiv (xabs a) p in let* f := xfrac q in xmul f p) in let* '(x, is_neg) := if xgt x xPI then let* y := xsub x xPI in Ok (y, negb b) else Ok (x, b) in
    let* x := if xgt x xPI_OVER_2 then xsub xPI x else Ok x in let* r := if xgt x xPI_OVER_4 then let* y := xsub xPI_OVER_2 x in xcos_iter y else xsin_iter x in Ok (if is_neg then xneg r else r))
    (fun c => xb (K + 4000) c /\ Rabs (xR c - sin (xR a)) <= ep 74 * X)).
  { intros H. destruct (xdiv (xabs a) p) as [q | |]; auto. cbn [bind] in *. destruct (xfrac q) as [f | |]; auto. }
  eapply returns_bind; [exact RR |]. clear RR. intros x (Bx1 & Rx & _ & _ & Ex). specialize (Ex ltac:(lra)). assert (eX : 0 <= ep 128 * X) by (apply Rmult_le_pos; lra). assert (Ex1 := Ex). apply Rabs_le_between in Ex1. assert (EXs : ep 122 * X <= / 1000 * (7 / 10)). { apply Rmult_le_compat; try lra. } assert (xle : xR x <= 7071 / 10000). { assert (ep 122 * X <= / 10000) by (rewrite e122; apply (Rle_trans _ (64 * / 1048576 * 1)); [apply Rmult_le_compat; lra | lra]). lra. }
  assert (G : forall y, xb 200 y -> s2 <= xR y -> xgt x y = false). { intros y By Hy. destruct (xgt x y) eqn:G; auto. apply gt_R in G; [lra | apply Bx1 | apply By]. }
  rewrite (G xPI) by (auto; fold pi1; lra). cbn [bind]. rewrite (G xPI_OVER_2) by (auto; lra). cbn [bind]. rewrite (G xPI_OVER_4) by (auto; lra).
  eapply returns_bind. { apply (sin_iter_small (K + 1600) x); auto; [lia | change (2 ^ 29)%Z with 536870912%Z; lia | rewrite Rabs_pos_eq; lra | apply G; auto; unfold s2; lra]. } intros c [Bc Ec].
  assert (F : Rabs (sg1 b * xR c - sin (xR a)) <= ep 74 * X). { rewrite S0, <- Rmult_minus_distr_l, sg1_abs. replace (xR c - sin X) with (xR c - sin (xR x) + (sin (xR x) - sin X)) by ring. eapply Rle_trans; [apply Rabs_triang |]. destruct (sin_lip (xR x) X) as [L _]. rewrite (Rabs_pos_eq (xR x)) in Ec by lra. assert (e74 : ep 74 = 2 * ep 75) by apply ep_S. assert (ep 73 = 4 * ep 75) by (rewrite (ep_S 73), (ep_S 74); lra). assert (e75 := ep_pos 75).
    assert (xR x <= 11 / 10 * X). { assert (ep 122 * X <= / 10 * X) by (apply Rmult_le_compat_r; lra). lra. } assert (ep 75 * xR x <= ep 75 * (11 / 10 * X)) by (apply Rmult_le_compat_l; lra). assert (ep 122 * X <= / 10 * ep 75 * X) by (apply Rmult_le_compat_r; lra). assert (0 <= ep 75 * X) by (apply Rmult_le_pos; lra). rewrite e74. lra. }
  apply returns_ok. destruct b; cbn [sg1] in F.
  - destruct (neg_b _ c Bc) as [Bn Vn]; [change (2 ^ 32)%Z with 4294967296%Z; lia |]. split; [apply (xb_le (K + 1600 + 1100)); auto; lia |]. rewrite Vn. replace (- xR c) with (-1 * xR c) by ring. auto.
  - split; [apply (xb_le (K + 1600 + 1100)); auto; lia |]. replace (xR c) with (1 * xR c) by ring. auto.
Qed.

(** ** The tangent *)
Lemma quot_R s c s1 c1 d : Rabs (s - s1) <= d -> Rabs (c - c1) <= d -> c1 <> 0 -> d <= Rabs c1 / 4 -> Rabs s1 <= 1 -> Rabs c1 <= 1 -> Rabs (s / c - s1 / c1) <= 8 / 3 * d / (c1 * c1) /\ Rabs (s / c) <= 5 / 3 / (c1 * c1) /\ c <> 0.
Proof.
  intros Hs Hc N Hd B1 B2. pose proof (Rabs_pos_lt c1 N) as C1. pose proof (Rabs_pos (s - s1)) as D0. assert (LC : 3 / 4 * Rabs c1 <= Rabs c). { assert (Rabs c1 <= Rabs c + Rabs (c - c1)). { rewrite (Rabs_minus_sym c c1). eapply Rle_trans; [| apply Rabs_triang]. apply Req_le. f_equal. ring. } lra. }
  assert (Nc : c <> 0) by (intros ->; rewrite Rabs_R0 in LC; lra). assert (Q : c1 * c1 = Rabs c1 * Rabs c1) by (rewrite <- Rabs_mult; symmetry; apply Rabs_pos_eq; nra). rewrite Q. set (k := Rabs c1) in *. assert (K0 : 0 < Rabs c) by lra. assert (KK : 0 < k * k) by (apply Rmult_lt_0_compat; lra).
  assert (P : forall v w, 0 <= w -> Rabs v <= w -> Rabs (v / (c * c1)) <= 4 / 3 * w / (k * k)).
  { intros v w W0 Hv. unfold Rdiv at 1. rewrite Rabs_mult, Rabs_inv, Rabs_mult. fold k. assert (L : 3 / 4 * (k * k) <= Rabs c * k) by (rewrite <- Rmult_assoc; apply Rmult_le_compat_r; lra).
    apply (Rle_trans _ (w * / (3 / 4 * (k * k)))); [| apply Req_le; field; lra]. apply Rmult_le_compat; auto; [apply Rabs_pos | apply Rlt_le, Rinv_0_lt_compat; lra |]. apply Rinv_le_contravar; lra. }
  splits; auto.
  - replace (s / c - s1 / c1) with (((s - s1) * c1 - s1 * (c - c1)) / (c * c1)) by (field; auto). replace (8 / 3 * d) with (4 / 3 * (2 * d)) by field. apply P; [lra |].
    unfold Rminus at 1. eapply Rle_trans; [apply Rabs_triang |]. rewrite Rabs_Ropp, !Rabs_mult. fold k. assert (Rabs (s - s1) * k <= d * 1) by (apply Rmult_le_compat; lra). assert (Rabs s1 * Rabs (c - c1) <= 1 * d) by (apply Rmult_le_compat; auto; apply Rabs_pos). lra.
  - replace (s / c) with (s * c1 / (c * c1)) by (field; auto). replace (5 / 3) with (4 / 3 * (5 / 4)) by field. apply P; [lra |]. rewrite Rabs_mult. fold k. assert (Rabs s <= 5 / 4). { replace s with (s1 + (s - s1)) by ring. eapply Rle_trans; [apply Rabs_triang |]. lra. } assert (Rabs s * k <= 5 / 4 * 1) by (apply Rmult_le_compat; auto; [apply Rabs_pos | lra]). lra.
Qed.
Lemma xtan_R K a d : xb K a -> (200 <= K)%Z -> (K <= 2 ^ 27)%Z -> ep 79 + ep 122 * Rabs (xR a) <= Rabs (Rabs (sin (xR a)) - kap) -> ep 79 + ep 122 * Rabs (xR a) <= Rabs (Rabs (cos (xR a)) - kap) -> d = ep 73 + ep 122 * Rabs (xR a) -> d <= Rabs (cos (xR a)) / 4 ->
  returns (xtan a) (fun t => xwf t /\ Rabs (xR t - tan (xR a)) <= 3 * d / (cos (xR a) * cos (xR a))).
Proof.
  intros Ba HK HK2 HS HC Dd Hd. unfold xtan. change (2 ^ 27)%Z with 134217728%Z in *. eapply returns_bind; [apply (xsin_R K a); auto |]. intros s [Bs Es]. eapply returns_bind; [apply (xcos_R K a); auto |]. intros c [Bc Ec]. rewrite <- Dd in *.
  destruct eps as (e0 & e1 & e127 & e126 & e125 & e124 & e123 & e122 & _). destruct e73s as (e73 & e73' & e730). pose proof (Rabs_pos (xR a)) as A0. assert (D0 : ep 73 <= d). { rewrite Dd. assert (0 <= ep 122 * Rabs (xR a)) by (apply Rmult_le_pos; lra). lra. }
  assert (N : cos (xR a) <> 0) by (intros Z; rewrite Z, Rabs_R0 in Hd; lra). assert (B1 : Rabs (sin (xR a)) <= 1) by (apply Rabs_le, SIN_bound). assert (B2 : Rabs (cos (xR a)) <= 1) by (apply Rabs_le, COS_bound).
  destruct (quot_R (xR s) (xR c) (sin (xR a)) (cos (xR a)) d) as (Q1 & Q2 & Nc); auto. eapply returns_weaken; [apply (divR (K + 4000) (K + 4000) s c); auto; try lia; apply nn_R; auto; apply Bc |]. intros t (Bt & _ & _ & Et). split; [apply Bt |].
  set (k := cos (xR a) * cos (xR a)) in *. assert (K0 : 0 < / k) by (apply Rinv_0_lt_compat; unfold k; nra). unfold tan. replace (xR t - sin (xR a) / cos (xR a)) with (xR t - xR s / xR c + (xR s / xR c - sin (xR a) / cos (xR a))) by ring. eapply Rle_trans; [apply Rabs_triang |].
  assert (ep 123 * Rabs (xR s / xR c) <= ep 123 * (5 / 3 / k)) by (apply Rmult_le_compat_l; lra). assert (ep 123 * (5 / 3) * / k <= / 3 * d * / k) by (apply Rmult_le_compat_r; lra). unfold Rdiv in *. lra.
Qed.
