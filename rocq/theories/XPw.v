(** pow2, pow and ln of F192 against the real functions. *)
From Verif Require Import Base FSpec RSpec UBig UFun UStr UAddSub BBig BEq RBig RIeee RIeeeP XNum XFun XSpec XP1 XP2 XP3 XP6 XP7 XP8 XP9 XC13 XPow XFast Props_X1 Props_X2 RReal RReal4 XReal Props_R5 XErr XLog.
From Coq Require Import Reals Lra Lia Qreals ZArith QArith Qabs Bool.
From Coquelicot Require Import Coquelicot.
Local Open Scope R_scope.

Lemma ep_num k : ep k = / IZR (2 ^ Z.of_nat k). Proof. unfold ep. now rewrite pow_IZR. Qed.
Lemma ep_small j k : (j <= k)%nat -> ep k <= ep j. Proof. apply ep_le. Qed.
Lemma const_R v c : xnearest_R v c -> xnull c = false -> Rabs (xR c - v) <= ep 128 * Rabs (xR c).
Proof. intros (W & _ & H) N. pose proof (ulp_R c W N) as U. rewrite (ep_S 127) in U. fold (xR c) in H. lra. Qed.
Lemma ln2_c : xb 200 xLN_2 /\ Rabs (xR xLN_2 - ln 2) <= ep 128 /\ 69 / 100 < xR xLN_2 < 7 / 10.
Proof.
  destruct C64_ln as [H _]. pose proof (const_R _ _ H eq_refl) as C. assert (B : 69 / 100 < xR xLN_2 < 7 / 10).
  { unfold xR. split; [apply (Rlt_le_trans _ (Q2R (693 # 1000))); [unfold Q2R; cbn; lra |]; apply Qle_Rle | apply (Rle_lt_trans _ (Q2R (694 # 1000))); [| unfold Q2R; cbn; lra]; apply Qle_Rle]; vm_compute; discriminate. }
  split; [split; [apply H | right; vm_compute; discriminate] |]. split; auto. eapply Rle_trans; [exact C |]. rewrite Rabs_pos_eq by lra. pose proof (ep_pos 128). nra.
Qed.
Lemma ln2_hi' : ln 2 < 6932 / 10000.
Proof. destruct LN2_enc as [_ H]. eapply Rle_lt_trans; [exact H |]. apply (Rle_lt_trans _ (Q2R (69315 # 100000))); [| unfold Q2R; cbn; lra]. apply Qle_Rle. vm_compute. discriminate. Qed.

(** ** ln *)
Lemma ln_R K a : xb K a -> 0 < xR a -> (0 <= K < 2 ^ 31)%Z -> ~ log2_band (lg (xR a)) -> returns (xln a) (fun c => Rabs (xR c - ln (xR a)) <= ep 118 + ep 124 * Rabs (ln (xR a))).
Proof.
  intros Ba Pa HK Band. unfold xln. eapply returns_bind; [apply (log2_R K a); auto |]. intros l (Bl & _ & El). destruct ln2_c as (B2 & E2 & R2). change (2 ^ 31)%Z with 2147483648%Z in HK.
  eapply returns_weaken; [apply (mulR (K + 512) 200 l xLN_2); auto; try lia; change (2 ^ 40)%Z with 1099511627776%Z; lia |]. intros c (_ & _ & _ & Ec). pose proof ln2_lo as N1. pose proof ln2_hi as N2.
  assert (V : ln (xR a) = lg (xR a) * ln 2). { unfold lg. rewrite (Rabs_pos_eq (xR a)) by lra. field. lra. } rewrite V. set (v := lg (xR a)) in *. set (L := xR xLN_2) in *. set (n := ln 2) in *. set (x := xR l) in *. set (y := xR c) in *. clearbody v L n x y. clear - Ec E2 R2 El N1 N2.
  rewrite !Rabs_mult, (Rabs_pos_eq n) by lra. rewrite Rabs_mult, (Rabs_pos_eq L) in Ec by lra.
  assert (e0 := ep_pos 129). assert (e128 : ep 128 = 2 * ep 129) by apply ep_S. assert (e127 : ep 127 = 4 * ep 129) by (rewrite (ep_S 127); lra). assert (e125 : ep 125 = 16 * ep 129) by (rewrite (ep_S 125), (ep_S 126); lra). assert (e124 : ep 124 = 32 * ep 129) by (rewrite (ep_S 124); lra).
  assert (e118 : ep 118 = 2048 * ep 129) by (rewrite (ep_S 118), (ep_S 119), (ep_S 120), (ep_S 121), (ep_S 122), (ep_S 123); lra). rewrite e118, e124, e125, e127, e128 in *. set (e := ep 129) in *. assert (e1 : e <= / 4096). { unfold e. apply (Rle_trans _ (ep 12)); [apply ep_le; lia | unfold ep; cbn; lra]. } clearbody e.
  assert (X : Rabs x <= Rabs v + (2048 * e + 4 * e * Rabs v)). { replace x with (v + (x - v)) by ring. eapply Rle_trans; [apply Rabs_triang |]. lra. } pose proof (Rabs_pos v) as V0. pose proof (Rabs_pos x) as X0.
  replace (y - v * n) with (y - x * L + ((x - v) * L + v * (L - n))) by ring. eapply Rle_trans; [apply Rabs_triang |]. assert (Rabs ((x - v) * L + v * (L - n)) <= 7 / 10 * (2048 * e + 4 * e * Rabs v) + Rabs v * (2 * e)).
  { eapply Rle_trans; [apply Rabs_triang |]. rewrite !Rabs_mult, (Rabs_pos_eq L) by lra. pose proof (Rabs_pos (x - v)). pose proof (Rabs_pos (L - n)). nra. }
  assert (16 * e * (Rabs x * L) <= 16 * e * (7 / 10 * (Rabs v + (2048 * e + 4 * e * Rabs v)))) by (apply Rmult_le_compat_l; [lra | nra]).
  assert (e * e <= e * / 4096) by (apply Rmult_le_compat_l; lra). assert (e * e * Rabs v <= e * / 4096 * Rabs v) by (apply Rmult_le_compat_r; lra). assert (e * Rabs v * (2 / 3) <= e * Rabs v * n) by (apply Rmult_le_compat_l; [nra | lra]). assert (0 <= e * Rabs v) by nra. nra.
Qed.

(** ** pow2 *)
(** shifting the exponent field *)
Lemma scale_ok K a z : xb K a -> xnull a = false -> (0 <= K)%Z -> (K + Z.abs z < 2 ^ 45)%Z -> returns (let* e := sadd 64 (casts 64 (xe a)) z in Ok (mkX (xd a) (castw 64 e))) (fun c => xb (K + Z.abs z) c /\ xR c = xR a * powerRZ 2 z).
Proof.
  intros [W P] N HK Hz. destruct P as [P | P]; [congruence |]. unfold xpow in P. change (2 ^ 48)%Z with 281474976710656%Z in P. change (2 ^ 45)%Z with 35184372088832%Z in Hz. pose proof W as [Wd We].
  rewrite casts_small by (change (64 - 1)%Z with 63%Z; lia). rewrite sadd_ok by (change (64 - 1)%Z with 63%Z; lia). cbn [bind]. apply returns_ok. rewrite castw_small by lia.
  destruct (xwf_cases a W) as [E | (s & m & e & E & Hm & He & Ne)]; [rewrite E in N; discriminate |]. rewrite E in *. cbn [xd xe xof] in *. change (mkX (if s then m else (m - SIGNM)%Z) (e + z)) with (xof s m (e + z)).
  assert (He' : XP1.expr (e + z)) by (unfold XP1.expr; change (2 ^ 64)%Z with 18446744073709551616%Z; lia). assert (N2 : xnull (xof s m (e + z)) = false) by (rewrite xnull_of by auto; replace (e + z =? 0)%Z with false by lia; now rewrite andb_false_r).
  split. { split; [now apply xof_wf |]. right. unfold xpow. cbn [xe xof]. change (2 ^ 48)%Z with 281474976710656%Z. lia. }
  unfold xR. rewrite !xval_of by auto. assert (T : Q2R (xq m (e + z)) = Q2R (xq m e) * powerRZ 2 z). { unfold xq. rewrite !Q2R_mult, !two_R, Rmult_assoc, <- p2_add. f_equal. f_equal. ring. } unfold sg. destruct s; [rewrite !Q2R_opp, T; ring | exact T].
Qed.
(** the loop: partial sums of the exponential series *)
Lemma pow2_step_R K u n i s : xb K u -> 0 <= xR u <= 7 / 10 -> (0 <= K)%Z -> (K < 2 ^ 26)%Z -> (1 <= n <= 14)%nat -> i = Z.of_nat (S n) ->
  xb 200 (fst s) /\ xb (Z.of_nat n * (K + 512)) (snd s) /\ 0 <= xR (snd s) /\ Rabs (xR (fst s) - exp_rsum (xR u) n) <= INR n * (2 * ep 123) /\ Rabs (xR (snd s) - xR u ^ n / INR (fact n)) <= ep 123 ->
  returns (xpow2_step u i s) (fun s => xb 200 (fst s) /\ xb (Z.of_nat (S n) * (K + 512)) (snd s) /\ 0 <= xR (snd s) /\ Rabs (xR (fst s) - exp_rsum (xR u) (S n)) <= INR (S n) * (2 * ep 123) /\ Rabs (xR (snd s) - xR u ^ S n / INR (fact (S n))) <= ep 123).
Proof.
  intros Bu Ru HK HK2 Hn Hi. destruct s as [ap it]. cbn [fst snd]. intros (Ba & Bi & Pi & Ea & Ei). unfold xpow2_step. change (2 ^ 26)%Z with 67108864%Z in HK2.
  assert (e0 := ep_pos 128). assert (e127 : ep 127 = 2 * ep 128) by apply ep_S. assert (e125 : ep 125 = 8 * ep 128) by (rewrite (ep_S 125), (ep_S 126); lra). assert (e123 : ep 123 = 32 * ep 128) by (rewrite (ep_S 123), (ep_S 124); lra).
  assert (e1 : ep 128 <= / 1048576). { apply (Rle_trans _ (ep 20)); [apply ep_le; lia | unfold ep; cbn; lra]. }
  assert (Nn : 1 <= INR n <= 14). { split; [change 1 with (INR 1) | replace 14 with (INR 14) by (cbn; lra)]; apply le_INR; lia. } assert (Fn : 1 <= INR (fact n)). { change 1 with (INR 1). apply le_INR. pose proof (lt_O_fact n). lia. }
  assert (T : 0 <= xR u ^ n / INR (fact n) <= 7 / 10). { assert (0 <= xR u ^ n <= 7 / 10). { split; [apply pow_le; lra |]. destruct n; [lia |]. cbn [pow]. assert (0 <= xR u ^ n <= 1). { split; [apply pow_le; lra |]. rewrite <- (pow1 n). apply pow_incr. lra. } nra. }
    assert (0 < / INR (fact n) <= 1). { split; [apply Rinv_0_lt_compat; lra |]. rewrite <- Rinv_1. apply Rinv_le_contravar; lra. } unfold Rdiv. split; nra. }
  assert (S0 : 0 <= exp_rsum (xR u) n <= 3). { destruct (exp_rem_pos n (xR u) ltac:(lra)) as [X1 X2]. split.
    - clear - Ru. unfold exp_rsum. induction n as [| n IH]; cbn [rsum]; [lra |]. assert (0 <= xR u ^ n / INR (fact n)). { apply Rmult_le_pos; [apply pow_le; lra | apply Rlt_le, Rinv_0_lt_compat, INR_fact_lt_0]. } lra.
    - assert (exp (xR u) <= 3). { apply (Rle_trans _ (exp 1)); [destruct (Req_dec (xR u) 1) as [-> | ]; [lra | left; apply exp_increasing; lra] | apply exp_le_3]. } clear X2. set (w := xR u ^ n / INR (fact n)) in *. clearbody w. lra. }
  assert (Hap : -1 / 10 <= xR ap <= 31 / 10). { apply Rabs_le_between in Ea. assert (INR n * (2 * ep 123) <= 14 * (2 * ep 123)) by (apply Rmult_le_compat_r; lra). lra. }
  assert (Hit : xR it <= 8 / 10) by (apply Rabs_le_between in Ei; lra).
  assert (Hap2 : 1 / 2 <= xR ap). { destruct n as [| n]; [lia |]. assert (1 <= exp_rsum (xR u) (S n)). { clear - Ru. unfold exp_rsum. induction n as [| n IH]; [cbn [rsum]; cbn [pow fact INR]; lra |]. remember (S n) as m. cbn [rsum]. assert (0 <= xR u ^ m / INR (fact m)). { apply Rmult_le_pos; [apply pow_le; lra | apply Rlt_le, Rinv_0_lt_compat, INR_fact_lt_0]. } lra. } apply Rabs_le_between in Ea. assert (INR (S n) * (2 * ep 123) <= 14 * (2 * ep 123)) by (apply Rmult_le_compat_r; lra). lra. }
  set (Ki := (Z.of_nat n * (K + 512))%Z) in *. assert (HKi : (512 <= Ki <= 14 * (K + 512))%Z) by (unfold Ki; nia).
  eapply returns_bind. { apply (addR Ki ap it); [apply (xb_le 200); auto; lia | auto | lia | change (2 ^ 32)%Z with 4294967296%Z; lia | left; apply Rmult_le_pos; lra]. } intros ap' [Ba' Ea'].
  eapply returns_bind. { apply (mulR Ki K it u); auto; lia. } intros m (Bm & _ & Sm & Em). assert (P0 : 0 <= xR it * xR u) by nra. rewrite (Rabs_pos_eq (xR it * xR u)) in Em by auto. assert (M1 : xR it * xR u <= 56 / 100) by nra. apply Rabs_le_between in Em.
  assert (M0 : 0 <= xR m). { assert (ep 125 * (xR it * xR u) <= 1 * (xR it * xR u)) by (apply Rmult_le_compat_r; lra). lra. }
  eapply returns_bind. { apply (divi_R (Ki + K + 256) m i); auto; lia. } intros d (Bd & _ & Sd & Ed). apply returns_ok. cbn [fst snd].
  assert (Vi : IZR i = INR (S n)) by (rewrite Hi; symmetry; apply INR_IZR_INZ). rewrite Vi in *. assert (I2 : 2 <= INR (S n)) by (rewrite S_INR; lra). assert (Iv : 0 < / INR (S n) <= 1 / 2). { split; [apply Rinv_0_lt_compat; lra |]. replace (1 / 2) with (/ 2) by lra. apply Rinv_le_contravar; lra. }
  set (q := / INR (S n)) in *. unfold Rdiv in Ed, Sd. fold q in Ed, Sd. assert (D0 : 0 <= xR m * q) by nra. rewrite (Rabs_pos_eq (xR m * q)) in Ed by auto. apply Rabs_le_between in Ed. assert (Dp : 0 <= xR d). { assert (ep 127 * (xR m * q) <= 1 * (xR m * q)) by (apply Rmult_le_compat_r; lra). lra. }
  rewrite (Rabs_pos_eq (xR ap + xR it)) in Ea' by lra. apply Rabs_le_between in Ea'. assert (ep 127 * (xR ap + xR it) <= ep 127 * 4) by (apply Rmult_le_compat_l; lra).
  assert (EA : Rabs (xR ap' - exp_rsum (xR u) (S n)) <= INR (S n) * (2 * ep 123)). { change (exp_rsum (xR u) (S n)) with (exp_rsum (xR u) n + xR u ^ n / INR (fact n)). rewrite S_INR. apply Rabs_le_between in Ea, Ei. apply Rabs_le. lra. }
  assert (A3 : 4 / 10 <= xR ap' <= 399 / 100) by lra.
  splits; auto.
  - apply (xb_le (Z.max (2 + 128) 2)); [| lia]. apply xb_val; try lia; [apply Ba' | right; change (-(2))%Z with (- Z.of_nat 2)%Z; rewrite p2_opp; unfold ep | change 2%Z with (Z.of_nat 2) at 2; rewrite p2_nat]; cbn [pow]; rewrite Rabs_pos_eq by lra; lra.
  - apply (xb_le (Ki + K + 256 + 256)); auto. unfold Ki. nia.
  - assert (V : xR u ^ S n / INR (fact (S n)) = xR u ^ n / INR (fact n) * xR u * q). { unfold q. rewrite fact_simpl, mult_INR. cbn [pow]. field. split; lra. } rewrite V. set (t := xR u ^ n / INR (fact n)) in *. apply Rabs_le_between in Ei.
    assert (X1 : Rabs (xR it * xR u * q - t * xR u * q) <= ep 123 * (7 / 20)). { replace (xR it * xR u * q - t * xR u * q) with ((xR it - t) * (xR u * q)) by ring. rewrite Rabs_mult, (Rabs_pos_eq (xR u * q)) by nra. apply Rmult_le_compat; [apply Rabs_pos | nra | apply Rabs_le; lra | nra]. } apply Rabs_le_between in X1.
    assert (M2 : xR m <= 1) by (assert (ep 125 * (xR it * xR u) <= ep 125 * 1) by (apply Rmult_le_compat_l; lra); lra).
    assert (X2 : - (ep 125 * / 2) <= xR m * q - xR it * xR u * q <= ep 125 * / 2). { assert (ep 125 * (xR it * xR u) <= ep 125 * 1) by (apply Rmult_le_compat_l; lra). assert (Y : - ep 125 <= xR m - xR it * xR u <= ep 125) by lra. replace (xR m * q - xR it * xR u * q) with ((xR m - xR it * xR u) * q) by ring. clear - Iv e0 e125 Y. generalize dependent (xR m - xR it * xR u). intros. nra. }
    assert (ep 127 * (xR m * q) <= ep 127 * 1) by (apply Rmult_le_compat_l; [lra | nra]). apply Rabs_le. lra.
Qed.

(** the fractional part is computed without carry *)
Lemma fl_carry K a z : xb K a -> IZR z <= xR a < IZR z + 1 -> Rabs (xR a) <= powerRZ 2 40 -> 0 <= xR a \/ xR a < - ep 129 -> ~ Rcarry (xR a - IZR z).
Proof.
  intros [W _] Hz U Sg. destruct (xnull a) eqn:N. { rewrite (null_R a N) in *. apply (nocarry_grid _ (- z) 0). - rewrite opp_IZR. cbn [powerRZ]. ring. - assert (z = 0%Z). { assert (z <= 0)%Z by (apply le_IZR; lra). assert (-1 < z)%Z by (apply lt_IZR; lra). lia. } subst z. cbn. lia. }
  destruct (mag_R a W N) as [M1 M2]. pose proof (p2_pos (xpow a)) as Pg. assert (Hg : (xpow a < -80)%Z). { assert (xpow a + 127 < 41)%Z; [| lia]. apply p2_lt_inv. replace 41%Z with (1 + 40)%Z by lia. rewrite (p2_add 1 40). change (powerRZ 2 1) with (2 * 1). pose proof (p2_pos 40). lra. }
  pose proof (fint_ok a (xpow a) W N ltac:(lia)) as F. apply Qeq_eqR in F. q2r F. rewrite two_R in F. change (xR a = IZR (fint a (xpow a)) * powerRZ 2 (xpow a)) in F. set (n := fint a (xpow a)) in *. set (g := xpow a) in *. clearbody n g.
  assert (Tg : IZR (2 ^ (- g)) * powerRZ 2 g = 1). { rewrite <- (Z2Nat.id (- g)) by lia. rewrite <- pow_IZR, <- p2_nat, <- p2_add, Z2Nat.id by lia. replace (- g + g)%Z with 0%Z by ring. reflexivity. }
  assert (G : xR a - IZR z = IZR (n - z * 2 ^ (- g)) * powerRZ 2 g). { rewrite minus_IZR, mult_IZR, F, Rmult_minus_distr_r, Rmult_assoc, Tg. ring. }
  assert (Nn : (Z.abs n < 2 ^ 128)%Z). { apply lt_IZR. rewrite abs_IZR. apply (Rmult_lt_reg_r (powerRZ 2 g)); auto. rewrite F, Rabs_mult, (Rabs_pos_eq (powerRZ 2 g)), (p2_add g 128) in M2 by lra. change (powerRZ 2 128) with (powerRZ 2 (Z.of_nat 128)) in M2. rewrite p2_nat, pow_IZR in M2. change (2 ^ Z.of_nat 128)%Z with (2 ^ 128)%Z in M2. lra. }
  destruct Sg as [Sg | Sg].
  - apply (nocarry_grid _ _ _ G). assert (0 <= z)%Z by (assert (-1 < z)%Z by (apply lt_IZR; lra); lia). assert (0 <= n - z * 2 ^ (- g))%Z. { apply le_IZR. apply (Rmult_le_reg_r (powerRZ 2 g)); auto. lra. } assert (0 <= z * 2 ^ (- g))%Z by (apply Z.mul_nonneg_nonneg; [auto | apply Z.pow_nonneg; lia]). lia.
  - destruct (Z_le_gt_dec (- 128) g) as [Hg2 | Hg2].
    + apply (nocarry_grid _ _ _ G). assert (0 <= n - z * 2 ^ (- g))%Z. { apply le_IZR. apply (Rmult_le_reg_r (powerRZ 2 g)); auto. lra. } assert (n - z * 2 ^ (- g) < 2 ^ (- g))%Z. { apply lt_IZR. apply (Rmult_lt_reg_r (powerRZ 2 g)); auto. lra. } assert (2 ^ (- g) <= 2 ^ 128)%Z by (apply Z.pow_le_mono_r; lia). lia.
    + assert (A2 : Rabs (xR a) < 1 / 2). { eapply Rlt_le_trans; [exact M2 |]. replace (1 / 2) with (powerRZ 2 (- Z.of_nat 1)) by (rewrite p2_opp; unfold ep; cbn; lra). apply p2_le. lia. } apply Rabs_lt_between in A2.
      pose proof (ep_pos 129). assert (Z1 : z = (-1)%Z). { assert (z < 0)%Z by (apply lt_IZR; lra). assert (-2 < z)%Z by (apply lt_IZR; lra). lia. } subst z. apply (nocarry_range _ (- Z.of_nat 1)). rewrite p2_opp. change (- Z.of_nat 1 + 1)%Z with 0%Z. cbn [powerRZ]. unfold ep at 1. cbn [pow]. rewrite Rabs_pos_eq by lra. lra.
Qed.
Lemma exp_close u v d : Rabs (u - v) <= d -> d <= 1 / 4 -> Rabs (exp u - exp v) <= 2 * d * exp v.
Proof.
  intros H D. replace (exp u) with (exp v * exp (u - v)) by (rewrite <- exp_plus; f_equal; ring). replace (exp v * exp (u - v) - exp v) with (exp v * (exp (u - v) - 1)) by ring. rewrite Rabs_mult, (Rabs_pos_eq (exp v)) by apply Rlt_le, exp_pos. rewrite (Rmult_comm _ (exp v)). apply Rmult_le_compat_l; [apply Rlt_le, exp_pos |].
  apply Rabs_le_between in H. set (x := u - v) in *. clearbody x. pose proof (exp_ineq1_le x) as L. assert (U : exp x <= / (1 - x)). { pose proof (exp_ineq1_le (- x)) as M. rewrite exp_Ropp in M. pose proof (exp_pos x) as P. apply (Rmult_le_reg_r (1 - x)); [lra |]. rewrite Rinv_l by lra. assert (exp x * (1 + - x) <= exp x * / exp x) by (apply Rmult_le_compat_l; lra). rewrite Rinv_r in H0 by lra. lra. }
  assert (/ (1 - x) <= 1 + 2 * d). { apply (Rmult_le_reg_r (1 - x)); [lra |]. rewrite Rinv_l by lra. nra. } apply Rabs_le. lra.
Qed.
Lemma pow2_R K a : xb K a -> (0 <= K <= 2 ^ 24)%Z -> Rabs (xR a) <= powerRZ 2 40 -> 0 <= xR a \/ xR a < - ep 129 ->
  returns (xpow2 a) (fun c => xwf c /\ Rabs (xR c - Rpower 2 (xR a)) <= ep 48 * Rpower 2 (xR a)).
Proof.
  intros Ba HK Ua Sg. change (2 ^ 24)%Z with 16777216%Z in HK. unfold xpow2. pose proof Ba as [Wa _].
  eapply returns_bind. { apply C51_floor_partial; auto. destruct (xnull a) eqn:N; [rewrite (xnull_zero a N); reflexivity |]. destruct Ba as [_ [? | P]]; [congruence |]. unfold xpow in P. change (2 ^ 48)%Z with 281474976710656%Z in P. lia. }
  intros c (Wc & z & Vc & [F1 F2]). apply Qeq_eqR in Vc. rewrite Q2R_Z in Vc. change (xR c = IZR z) in Vc. apply Qle_Rle in F1. apply Qlt_Rlt in F2. rewrite Q2R_plus in F2. rewrite Q2R_Z in F1, F2. change (Q2R (xval a)) with (xR a) in F1, F2. replace (Q2R 1) with 1 in F2 by (unfold Q2R; cbn; field).
  assert (Hz : (Z.abs z <= 2 ^ 41)%Z). { assert (T : powerRZ 2 40 = IZR (2 ^ 40)) by (change 40%Z with (Z.of_nat 40) at 1; rewrite p2_nat; apply pow_IZR). rewrite T in Ua. apply Rabs_le_between in Ua. assert (z <= 2 ^ 40)%Z by (apply le_IZR; lra). assert (- 2 ^ 40 - 1 <= z)%Z by (apply le_IZR; rewrite minus_IZR, opp_IZR; lra). change (2 ^ 40)%Z with 1099511627776%Z in *. change (2 ^ 41)%Z with 2199023255552%Z. lia. } change (2 ^ 41)%Z with 2199023255552%Z in Hz.
  assert (Bc : xb 128 c). { apply (xb_le (Z.max (0 + 128) 42)); [| lia]. apply xb_val; auto; try lia; rewrite Vc.
    - destruct (Z.eq_dec z 0) as [-> | Z]; auto. right. change (powerRZ 2 (- 0)) with 1. rewrite <- abs_IZR. apply IZR_le. lia.
    - rewrite <- abs_IZR. change 42%Z with (Z.of_nat 42). rewrite p2_nat, pow_IZR. apply IZR_lt. change (2 ^ Z.of_nat 42)%Z with 4398046511104%Z. lia. }
  eapply returns_bind. { apply (subR (K + 128) a c); [apply (xb_le K); auto; lia | apply (xb_le 128); auto; lia | lia | lia | right; rewrite Vc; apply (fl_carry K); auto]. } intros f [Bf Ef]. rewrite Vc in Ef. set (F := xR a - IZR z) in *. assert (HF : 0 <= F < 1) by (unfold F; lra).
  assert (TI : xtry_into I64 c = Ok (ROk z)).
  { destruct (xnull c) eqn:Nc. { rewrite (null_R c Nc) in Vc. assert (z = 0%Z) by (apply eq_IZR; auto). subst z. rewrite (xnull_zero c Nc). reflexivity. }
    destruct (mag_R c Wc Nc) as [M1 M2]. rewrite Vc, <- abs_IZR in M1, M2. assert (Z0 : z <> 0%Z). { intros ->. pose proof (p2_pos (xpow c + 127)). cbn in M1. lra. }
    destruct (C48_to_signed_partial I64 c) as (y & (T1 & T2 & T3) & E); auto.
    - split. + assert (0 < xpow c + 128)%Z; [| lia]. apply p2_lt_inv. eapply Rle_lt_trans; [| exact M2]. cbn [powerRZ]. apply IZR_le. lia.
      + assert (xpow c + 127 < 42)%Z; [| lia]. apply p2_lt_inv. eapply Rle_lt_trans; [exact M1 |]. change 42%Z with (Z.of_nat 42). rewrite p2_nat, pow_IZR. apply IZR_lt. change (2 ^ Z.of_nat 42)%Z with 4398046511104%Z. lia.
    - assert (Y : y = z). { apply Qle_Rle in T1, T3. apply Qlt_Rlt in T2. rewrite Q2R_plus in T2. rewrite Q2R_abs, Q2R_Z in T1, T2. rewrite Q2R_mult, Q2R_Z, RMicromega.Q2R_0 in T3. change (Q2R (xval c)) with (xR c) in *. rewrite Vc in *. rewrite <- abs_IZR in *. replace (Q2R 1) with 1 in T2 by (unfold Q2R; cbn; field). apply le_IZR in T1. assert (Z.abs z < Z.abs y + 1)%Z by (apply lt_IZR; rewrite plus_IZR; lra). rewrite <- mult_IZR in T3. apply le_IZR in T3. nia. }
      rewrite E, Y. cbn [pmin pmax]. replace ((- 2 ^ 63 <=? z)%Z && (z <? 2 ^ 63)%Z) with true; [reflexivity |]. change (2 ^ 63)%Z with 9223372036854775808%Z. symmetry. apply andb_true_intro. lia. }
  rewrite TI. cbn [bind]. destruct ln2_c as (B2 & E2 & R2). assert (e0 := ep_pos 128). assert (e127 : ep 127 = 2 * ep 128) by apply ep_S. assert (e125 : ep 125 = 8 * ep 128) by (rewrite (ep_S 125), (ep_S 126); lra). assert (e123 : ep 123 = 32 * ep 128) by (rewrite (ep_S 123), (ep_S 124); lra).
  assert (e1 : ep 128 <= ep 70) by (apply ep_le; lia). assert (e70 : 0 < ep 70 <= / 1048576). { split; [apply ep_pos |]. apply (Rle_trans _ (ep 20)); [apply ep_le; lia | unfold ep; cbn; lra]. }
  rewrite (Rabs_pos_eq F) in Ef by lra. assert (ep 127 * F <= ep 127 * 1) by (apply Rmult_le_compat_l; lra). assert (Ef1 := Ef). apply Rabs_le_between in Ef1. assert (Pf : 0 <= xR f) by (assert (ep 127 * F <= 1 * F) by (apply Rmult_le_compat_r; lra); lra).
  eapply returns_bind. { apply (mulR (K + 128 + 256) 200 f xLN_2); auto; lia. } intros u (Bu & Lu & Su & Eu). assert (P0 : 0 <= xR f * xR xLN_2) by nra. rewrite (Rabs_pos_eq (xR f * xR xLN_2)) in Eu, Lu by auto. set (L := xR xLN_2) in *.
  assert (P1 : xR f * L <= 71 / 100) by nra. assert (ep 125 * (xR f * L) <= ep 125 * 1) by (apply Rmult_le_compat_l; lra). assert (Eu1 := Eu). apply Rabs_le_between in Eu1. assert (Pu : 0 <= xR u) by (assert (ep 125 * (xR f * L) <= 1 * (xR f * L)) by (apply Rmult_le_compat_r; lra); lra).
  pose proof ln2_lo as N1. pose proof ln2_hi' as N2. set (U := F * ln 2) in *.
  assert (EU : Rabs (xR u - U) <= ep 123). { assert (Rabs (xR f * L - U) <= 4 * ep 128). { unfold U. replace (xR f * L - F * ln 2) with ((xR f - F) * L + F * (L - ln 2)) by ring. eapply Rle_trans; [apply Rabs_triang |]. rewrite !Rabs_mult, (Rabs_pos_eq L), (Rabs_pos_eq F) by lra. assert (Rabs (xR f - F) * L <= ep 127 * 1) by (apply Rmult_le_compat; [apply Rabs_pos | lra | lra | lra]). assert (F * Rabs (L - ln 2) <= 1 * ep 128) by (apply Rmult_le_compat; [lra | apply Rabs_pos | lra | lra]). lra. }
    replace (xR u - U) with (xR u - xR f * L + (xR f * L - U)) by ring. eapply Rle_trans; [apply Rabs_triang |]. lra. }
  assert (HU : 0 <= U <= ln 2) by (unfold U; split; nra). assert (EU1 := EU). apply Rabs_le_between in EU1. assert (e123s : ep 123 <= / 1048576) by (apply (Rle_trans _ (ep 20)); [apply ep_le; lia | unfold ep; cbn; lra]). assert (Hu : xR u <= 69321 / 100000) by lra.
  set (Ku := (K + 128 + 256 + 200 + 256)%Z) in *. assert (HKu : (0 <= Ku < 2 ^ 26)%Z) by (unfold Ku; change (2 ^ 26)%Z with 67108864%Z; lia).
  eapply returns_bind. { apply (for_spec (xpow2_step u) (fun i s => exists n, (1 <= n <= 14)%nat /\ i = Z.of_nat (S n) /\ (xb 200 (fst s) /\ xb (Z.of_nat n * (Ku + 512)) (snd s) /\ 0 <= xR (snd s) /\ Rabs (xR (fst s) - exp_rsum (xR u) n) <= INR n * (2 * ep 123) /\ Rabs (xR (snd s) - xR u ^ n / INR (fact n)) <= ep 123)) 13 2).
    - exists 1%nat. split; [lia |]. split; [reflexivity |]. cbn [fst snd]. splits; auto.
      + split; [split; cbn; lia | right; vm_compute; discriminate].
      + apply (xb_le Ku); auto. lia.
      + replace (xR xONE) with 1. { unfold exp_rsum. cbn [rsum pow fact INR]. replace (1 - (0 + 1 / 1)) with 0 by field. rewrite Rabs_R0. lra. } unfold xR. transitivity (Q2R 1); [unfold Q2R; cbn; field | apply Qeq_eqR; vm_compute; reflexivity].
      + assert (E : xR u ^ 1 / INR (fact 1) = xR u) by (cbn; field). rewrite E. replace (xR u - xR u) with 0 by ring. rewrite Rabs_R0. lra.
    - intros j s Hj (n & Hn & Hi & Inv). destruct (Nat.eq_dec n 14) as [-> | Hn2]; [lia |]. eapply returns_weaken. { apply (pow2_step_R Ku u n j s); auto; try lia; try lra. } intros s' Inv'. exists (S n). split; [lia |]. split; [lia |]. auto. }
  intros [ap it] (n & Hn & Hi & Ba' & Bi & Pi & Ea & Ei). cbn [fst snd] in *. assert (n = 14%nat) by lia. subst n. clear Hn Hi.
  pose proof (pow2_step_R Ku u 14 15 (ap, it) Bu ltac:(lra) ltac:(lia) ltac:(lia) ltac:(lia) eq_refl (conj Ba' (conj Bi (conj Pi (conj Ea Ei))))) as ST. destruct ST as ([ap2 it2] & Es & Bap & _ & _ & Ea2 & _). unfold xpow2_step in Es. destruct (xadd ap it) as [ap3 | |] eqn:Eadd; try discriminate. cbn [bind] in Es |- *.
  destruct (xmul it u) as [m3 | |]; try discriminate. cbn [bind] in Es. destruct (xdiv_i32 m3 15) as [d3 | |]; try discriminate. cbn [bind] in Es. injection Es as <- <-. cbn [fst snd] in Ea2, Bap. clear Ea Ei Ba' Bi Pi Eadd.
  destruct (exp_rem_pos 15 (xR u) Pu) as [X1 X2]. assert (e118 : INR 15 * (2 * ep 123) <= ep 110). { replace (INR 15) with 15 by (cbn; lra). rewrite (ep_S 110), (ep_S 111), (ep_S 112), (ep_S 113), (ep_S 114), (ep_S 115), (ep_S 116), (ep_S 117), (ep_S 118), (ep_S 119), (ep_S 120), (ep_S 121), (ep_S 122). pose proof (ep_pos 123). lra. }
  assert (T15 : 0 <= xR u ^ 15 / INR (fact 15) <= 885 / 1000 * ep 48). { rewrite zf_fact. change (zf 15) with 1307674368000%Z. split; [apply Rmult_le_pos; [apply pow_le; auto | lra] |]. assert (xR u ^ 15 <= (69321 / 100000) ^ 15) by (apply pow_incr; lra). rewrite ep_num. change (2 ^ Z.of_nat 48)%Z with 281474976710656%Z. clear - H1. set (w := xR u ^ 15) in *. clearbody w. cbn [pow] in H1. lra. }
  assert (XC := exp_close (xR u) U (ep 123) EU ltac:(lra)). set (t := xR u ^ 15 / INR (fact 15)) in *. set (sm := exp_rsum (xR u) 15) in *. set (eu := exp (xR u)) in *. set (ev := exp U) in *.
  assert (V1 : 1 <= ev) by (unfold ev; pose proof (exp_ineq1_le U); lra). assert (ep 110 <= ep 70) by (apply ep_le; lia). assert (e48 : ep 70 <= / 1000000 * ep 48). { change 70%nat with (48 + 22)%nat. rewrite ep_add, Rmult_comm. apply Rmult_le_compat_r; [apply Rlt_le, ep_pos |]. unfold ep. cbn [pow]. lra. }
  assert (ep 123 <= ep 70) by (apply ep_le; lia).
  assert (Efin : Rabs (xR ap3 - ev) <= ep 48 * ev).
  { apply Rabs_le_between in Ea2, XC. assert (S1 : ep 110 <= ep 70 * ev) by (apply (Rle_trans _ (ep 70 * 1)); [lra | apply Rmult_le_compat_l; lra]). assert (S2 : ep 123 * ev <= ep 70 * ev) by (apply Rmult_le_compat_r; lra). assert (S3 : t * eu <= 885 / 1000 * ep 48 * (ev * (1 + 2 * ep 123))). { apply Rmult_le_compat; try lra. unfold eu. apply Rlt_le, exp_pos. }
    assert (S4 : ep 123 <= / 1000). { apply (Rle_trans _ (ep 10)); [apply ep_le; lia | unfold ep; cbn; lra]. } assert (S5 : 885 / 1000 * ep 48 * (ev * (1 + 2 * ep 123)) <= 9 / 10 * (ep 48 * ev)). { pose proof (ep_pos 48). assert (0 < ep 48 * ev) by (apply Rmult_lt_0_compat; lra). replace (885 / 1000 * ep 48 * (ev * (1 + 2 * ep 123))) with (885 / 1000 * (1 + 2 * ep 123) * (ep 48 * ev)) by ring. apply Rmult_le_compat_r; lra. }
    assert (S6 : ep 70 * ev <= / 1000000 * (ep 48 * ev)) by nra. apply Rabs_le. lra. }
  assert (E1 : ep 48 <= / 1000). { apply (Rle_trans _ (ep 10)); [apply ep_le; lia | unfold ep; cbn; lra]. } assert (Nap : xnull ap3 = false). { apply nn_R; [apply Bap |]. apply Rabs_le_between in Efin. intros Z. rewrite Z in Efin. nra. }
  eapply returns_weaken; [apply (scale_ok 200 ap3 z); auto; lia |]. intros r [Br Vr]. split; [apply Br |]. rewrite Vr. assert (VP : Rpower 2 (xR a) = ev * powerRZ 2 z). { unfold ev, U, F. rewrite powerRZ_Rpower by lra. unfold Rpower. rewrite <- exp_plus. f_equal. ring. }
  rewrite VP. pose proof (p2_pos z). replace (xR ap3 * powerRZ 2 z - ev * powerRZ 2 z) with ((xR ap3 - ev) * powerRZ 2 z) by ring. rewrite Rabs_mult, (Rabs_pos_eq (powerRZ 2 z)) by lra. rewrite <- Rmult_assoc. apply Rmult_le_compat_r; lra.
Qed.

(** ** pow *)
Lemma pow_R K a x : xb K a -> xb K x -> (0 <= K <= 2 ^ 22)%Z -> 0 < xR a -> ~ log2_band (lg (xR a)) -> Rabs (xR x) <= powerRZ 2 40 -> Rabs (xR x * lg (xR a)) <= powerRZ 2 38 ->
  (1 <= xR a /\ 0 <= xR x) \/ ep 70 <= Rabs (xR x * lg (xR a)) -> returns (xpow_x a x) (fun c => xwf c /\ Rabs (xR c - Rpower (xR a) (xR x)) <= ep 47 * Rpower (xR a) (xR x)).
Proof.
  intros Ba Bx HK Pa Band Ux Uv Sg. change (2 ^ 22)%Z with 4194304%Z in HK. unfold xpow_x. eapply returns_bind; [apply (log2_R K a); auto; lia |]. intros l (Bl & Gl & El).
  eapply returns_bind; [apply (mulR K (K + 512) x l); auto; lia |]. intros p (Bp & Lp & Sp & Ep). set (V := lg (xR a)) in *. set (X := xR x) in *.
  assert (T40 : powerRZ 2 40 = ep 78 * / ep 118). { change 40%Z with (Z.of_nat 40). rewrite p2_nat. change 118%nat with (78 + 40)%nat. rewrite ep_add. unfold ep at 3. pose proof (ep_pos 78). assert (0 < 2 ^ 40) by (apply pow_lt; lra). field; try split; lra. }
  assert (T38 : powerRZ 2 38 = ep 88 * / ep 126). { change 38%Z with (Z.of_nat 38). rewrite p2_nat. change 126%nat with (88 + 38)%nat. rewrite ep_add. unfold ep at 3. pose proof (ep_pos 88). assert (0 < 2 ^ 38) by (apply pow_lt; lra). field; try split; lra. }
  pose proof (ep_pos 118) as e118. pose proof (ep_pos 126) as e126. assert (X1 : Rabs X * ep 118 <= ep 78). { apply (Rmult_le_compat_r (ep 118)) in Ux; [| lra]. rewrite T40, Rmult_assoc, Rinv_l in Ux by lra. lra. }
  assert (X2 : Rabs (X * V) * ep 126 <= ep 88). { apply (Rmult_le_compat_r (ep 126)) in Uv; [| lra]. rewrite T38, Rmult_assoc, Rinv_l in Uv by lra. lra. }
  assert (D : Rabs (X * xR l - X * V) <= ep 78 + ep 88). { replace (X * xR l - X * V) with (X * (xR l - V)) by ring. rewrite Rabs_mult. apply (Rle_trans _ (Rabs X * (ep 118 + ep 127 * Rabs V))); [apply Rmult_le_compat_l; [apply Rabs_pos | auto] |]. rewrite Rabs_mult in X2. assert (ep 127 <= ep 126) by (apply ep_le; lia). assert (Rabs X * (ep 127 * Rabs V) <= Rabs X * (ep 126 * Rabs V)) by (apply Rmult_le_compat_l; [apply Rabs_pos | apply Rmult_le_compat_r; [apply Rabs_pos | auto]]). lra. }
  assert (e88 : ep 88 <= / 1024 * ep 78). { change 88%nat with (78 + 10)%nat. rewrite ep_add, Rmult_comm. apply Rmult_le_compat_r; [apply Rlt_le, ep_pos | unfold ep; cbn; lra]. } assert (e125 : ep 125 = 2 * ep 126) by apply ep_S. assert (e0 := ep_pos 78).
  assert (XL : Rabs (X * xR l) <= Rabs (X * V) + 2 * ep 78). { replace (X * xR l) with (X * V + (X * xR l - X * V)) by ring. eapply Rle_trans; [apply Rabs_triang |]. lra. }
  assert (ES : ep 126 <= / 1024). { apply (Rle_trans _ (ep 10)); [apply ep_le; lia | unfold ep; cbn; lra]. }
  assert (DP : Rabs (xR p - X * V) <= ep 77). { replace (xR p - X * V) with (xR p - X * xR l + (X * xR l - X * V)) by ring. eapply Rle_trans; [apply Rabs_triang |]. rewrite (ep_S 77). assert (ep 125 * Rabs (X * xR l) <= ep 125 * (Rabs (X * V) + 2 * ep 78)) by (apply Rmult_le_compat_l; [lra | auto]). assert (ep 126 * ep 78 <= / 1024 * ep 78) by (apply Rmult_le_compat_r; lra). rewrite e125 in *. lra. }
  assert (e77 : ep 77 <= / 1048576 * ep 48). { change 77%nat with (48 + 29)%nat. rewrite ep_add, Rmult_comm. apply Rmult_le_compat_r; [apply Rlt_le, ep_pos |]. apply (Rle_trans _ (ep 20)); [apply ep_le; lia | unfold ep; cbn; lra]. } assert (e48 : 0 < ep 48 <= / 1024). { split; [apply ep_pos |]. apply (Rle_trans _ (ep 10)); [apply ep_le; lia | unfold ep; cbn; lra]. }
  eapply returns_weaken. { apply (pow2_R (K + (K + 512) + 256) p); auto; [lia | |].
    - assert (T : powerRZ 2 40 = 4 * powerRZ 2 38) by (change 40%Z with (2 + 38)%Z; rewrite (p2_add 2 38); change (powerRZ 2 2) with (2 * (2 * 1)); ring). rewrite T. assert (1 <= powerRZ 2 38) by (change 1 with (powerRZ 2 0); apply p2_le; lia). replace (xR p) with (X * V + (xR p - X * V)) by ring. eapply Rle_trans; [apply Rabs_triang |]. lra.
    - apply Rabs_le_between in DP. destruct Sg as [[A1 X0] | Sg].
      + left. specialize (Gl A1). assert (0 <= X * xR l) by nra. destruct (Req_dec (X * xR l) 0) as [Z | Z]; [| nra]. rewrite Z, Rabs_R0, Rmult_0_r, Rminus_0_r in Ep. assert (xR p = 0) by (apply Rabs_eq_0; pose proof (Rabs_pos (xR p)); lra). lra.
      + assert (ep 129 < / 128 * ep 70). { change 129%nat with (70 + 59)%nat. rewrite ep_add, Rmult_comm. apply Rmult_lt_compat_r; [apply ep_pos |]. apply (Rle_lt_trans _ (ep 8)); [apply ep_le; lia | unfold ep; cbn; lra]. } assert (ep 77 = / 128 * ep 70). { change 77%nat with (70 + 7)%nat. rewrite ep_add. unfold ep at 2. cbn [pow]. lra. } pose proof (ep_pos 70).
        destruct (Rle_or_lt 0 (X * V)) as [P | P]; [rewrite Rabs_pos_eq in Sg by auto; left; lra | rewrite Rabs_left in Sg by auto; right; lra]. }
  intros c [Wc Ec]. split; auto. assert (VP : Rpower (xR a) X = Rpower 2 (X * V)). { unfold Rpower, V, lg. rewrite (Rabs_pos_eq (xR a)) by lra. f_equal. field. pose proof ln2_lo. lra. } rewrite VP. unfold Rpower in *.
  assert (N1 := ln2_lo). assert (N2 := ln2_hi). assert (XC := exp_close (xR p * ln 2) (X * V * ln 2) (ep 77)). assert (Y : Rabs (xR p * ln 2 - X * V * ln 2) <= ep 77). { replace (xR p * ln 2 - X * V * ln 2) with ((xR p - X * V) * ln 2) by ring. rewrite Rabs_mult, (Rabs_pos_eq (ln 2)) by lra. apply (Rle_trans _ (Rabs (xR p - X * V) * 1)); [apply Rmult_le_compat_l; [apply Rabs_pos | lra] | lra]. } specialize (XC Y ltac:(lra)).
  set (ep' := exp (xR p * ln 2)) in *. pose proof (exp_pos (X * V * ln 2)) as P0. set (ev := exp (X * V * ln 2)) in *. rewrite (ep_S 47). replace (xR c - ev) with (xR c - ep' + (ep' - ev)) by ring. eapply Rle_trans; [apply Rabs_triang |].
  assert (ep' <= ev * (1 + 2 * ep 77)) by (apply Rabs_le_between in XC; lra). assert (ep 48 * ep' <= ep 48 * (ev * (1 + 2 * ep 77))) by (apply Rmult_le_compat_l; lra). assert (ep 77 * ev <= / 1048576 * ep 48 * ev) by (apply Rmult_le_compat_r; lra). assert (ep 48 * (ep 77 * ev) <= / 1024 * (ep 77 * ev)). { apply Rmult_le_compat_r; [| lra]. apply Rmult_le_pos; [apply Rlt_le, ep_pos | lra]. } clear - H H0 H1 H2 Ec XC P0 e48. assert (0 < ep 48 * ev) by (apply Rmult_lt_0_compat; lra). lra.
Qed.
