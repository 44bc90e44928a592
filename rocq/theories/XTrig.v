(** The polynomial kernels of the trigonometric functions of F192 and the reduction of the argument, against the real functions. *)
From Verif Require Import Base FSpec RSpec UBig UFun UStr UAddSub BBig BEq RBig RIeee RIeeeP XNum XFun XSpec XP1 XP2 XP3 XP6 XP7 XP8 XP9 XC13 XPow XFast Props_X1 Props_X2 RReal RReal4 XReal Props_R5 XErr XLog XPw.
From Coq Require Import Reals Lra Lia Qreals ZArith QArith Qabs Bool.
From Coquelicot Require Import Coquelicot.
Local Open Scope R_scope.

Lemma gt_R a b : xwf a -> xwf b -> xgt a b = true <-> xR b < xR a.
Proof. intros A B. rewrite xgt_ok by auto. unfold xR. split; [apply Qlt_Rlt | apply Rlt_Qlt]. Qed.
Lemma gt_R_false a b : xwf a -> xwf b -> xgt a b = false -> xR a <= xR b.
Proof. intros A B H. destruct (Rle_dec (xR a) (xR b)) as [| C]; auto. assert (xgt a b = true) by (apply gt_R; auto; lra). congruence. Qed.
Lemma p2_IZR k : (0 <= k)%Z -> powerRZ 2 k = IZR (2 ^ k).
Proof. intros H. rewrite <- (Z2Nat.id k) by lia. rewrite p2_nat. apply pow_IZR. Qed.
Lemma ep_mul k n : IZR (2 ^ Z.of_nat n) * ep (n + k) = ep k.
Proof. rewrite ep_add. unfold ep at 1. rewrite pow_IZR. assert (0 < IZR (2 ^ Z.of_nat n)) by (apply IZR_lt, Z.pow_pos_nonneg; lia). field. lra. Qed.

(** ** One step of Horner's rule: r * x + s * c *)
Definition hop (s : bool) (x : f192) (c : Z) (r : f192) : res f192 := if s then hadd x c r else hsub x c r.
Definition hsg (s : bool) : R := if s then 1 else -1.
Lemma hsg_abs s : Rabs (hsg s) = 1. Proof. unfold hsg, Rabs. destruct s; destruct (Rcase_abs _); lra. Qed.
(** [xi] bounds the argument in hundredths, [cp] the magnitude of [r], [cp'] that of the result; the result stays in one binade *)
Definition hok (xi c cp cp' j : Z) : bool :=
  (0 <? c)%Z && (c <? 2 ^ 62)%Z && (0 <? cp)%Z && (cp * xi + 100 <=? 100 * c)%Z && (0 <=? j)%Z && (100 * 2 ^ j <=? 100 * c - cp * xi - 100)%Z && (c <? 2 ^ (j + 1))%Z && (100 * c + cp * xi + 100 <=? 100 * cp')%Z && (0 <? xi)%Z.
Lemma hstep s K x r c cp cp' j xi p k :
  xb 200 r -> xb K x -> (0 <= K)%Z -> (K < 2 ^ 31)%Z -> hok xi c cp cp' j = true -> Rabs (xR x) <= IZR xi / 100 -> Rabs (xR r) <= IZR cp -> Rabs (xR r - p) <= IZR k * ep 124 * IZR cp -> (0 <= k)%Z ->
  returns (hop s x c r) (fun y => xb 200 y /\ Rabs (xR y) <= IZR cp' /\ Rabs (xR y - (p * xR x + hsg s * IZR c)) <= IZR (k + 1) * ep 124 * IZR cp').
Proof.
  intros Br Bx HK HK2 OK Hx Hr Hp Hk. unfold hok in OK. rewrite !andb_true_iff, !Z.ltb_lt, !Z.leb_le in OK. destruct OK as ((((((((C0 & C1) & C2) & C3) & J0) & C4) & C5) & C6) & C7). change (2 ^ 31)%Z with 2147483648%Z in HK2.
  assert (e0 := ep_pos 128). assert (e127 : ep 127 = 2 * ep 128) by apply ep_S. assert (e125 : ep 125 = 8 * ep 128) by (rewrite (ep_S 125), (ep_S 126); lra). assert (e124 : ep 124 = 16 * ep 128) by (rewrite (ep_S 124); lra).
  set (X := xR x) in *. set (rr := xR r) in *. set (C := IZR c) in *. set (d := IZR cp * (IZR xi / 100)).
  assert (R0 : 1 <= C) by (apply IZR_le; lia). assert (Rcp : 1 <= IZR cp) by (apply IZR_le; lia). assert (Rxi : 1 <= IZR xi) by (apply IZR_le; lia).
  assert (D1 : d + 1 <= C). { unfold d, C. apply IZR_le in C3. rewrite plus_IZR, !mult_IZR in C3. lra. }
  assert (D2 : powerRZ 2 j <= C - d - 1). { rewrite p2_IZR by auto. unfold d, C. apply IZR_le in C4. rewrite !minus_IZR, !mult_IZR in C4. lra. }
  assert (D3 : C + 1 <= powerRZ 2 (j + 1)). { rewrite p2_IZR by lia. unfold C. rewrite <- plus_IZR. apply IZR_le. lia. }
  assert (D4 : C + d + 1 <= IZR cp'). { unfold d, C. apply IZR_le in C6. rewrite !plus_IZR, !mult_IZR in C6. lra. }
  assert (Cs : ep 120 * C <= / 1024). { assert (C <= powerRZ 2 62) by (rewrite p2_IZR by lia; apply IZR_le; lia). change 62%Z with (Z.of_nat 62) in H. rewrite p2_nat in H. apply (Rle_trans _ (ep 120 * 2 ^ 62)); [apply Rmult_le_compat_l; [apply Rlt_le, ep_pos | auto] |]. replace (ep 120) with (ep 58 * ep 62) by (rewrite <- ep_add; reflexivity). unfold ep at 2. rewrite Rmult_assoc, Rinv_l by (apply pow_nonzero; lra). rewrite Rmult_1_r. apply (Rle_trans _ (ep 10)); [apply ep_le; lia | unfold ep; cbn [pow]; lra]. }
  assert (e120 : ep 120 = 256 * ep 128) by (rewrite (ep_S 120), (ep_S 121), (ep_S 122), (ep_S 123); lra).
  assert (P0 : Rabs (rr * X) <= d). { rewrite Rabs_mult. unfold d. apply Rmult_le_compat; auto; apply Rabs_pos. }
  assert (M : returns (xmul r x) (fun m => xb (200 + K + 256) m /\ Rabs (xR m) <= d /\ Rabs (xR m - rr * X) <= ep 125 * d)).
  { eapply returns_weaken; [apply (mulR 200 K r x); auto; change (2 ^ 40)%Z with 1099511627776%Z; lia |]. intros m (Bm & Lm & _ & Em). split; auto. fold rr X in Lm, Em. split; [lra |]. eapply Rle_trans; [exact Em |]. apply Rmult_le_compat_l; lra. }
  assert (FK : returns (xfrom_prim U64 c) (fun k => xb 128 k /\ xR k = C)). { apply fromR; [change (pmin U64) with 0%Z; change (pmax U64) with (2 ^ 64)%Z; change (2 ^ 64)%Z with (4 * 2 ^ 62)%Z; lia | lia]. }
  assert (G : forall v y, xwf y -> Rabs (v - hsg s * C) <= d -> Rabs (v - (rr * X + hsg s * C)) <= ep 125 * d -> Rabs (xR y - v) <= ep 127 * Rabs v ->
    xb 200 y /\ Rabs (xR y) <= IZR cp' /\ Rabs (xR y - (p * X + hsg s * C)) <= IZR (k + 1) * ep 124 * IZR cp').
  { intros v y Wy V1 V2 Ey. assert (V3 : Rabs v <= C + d). { replace v with (hsg s * C + (v - hsg s * C)) by ring. eapply Rle_trans; [apply Rabs_triang |]. rewrite Rabs_mult, (Rabs_pos_eq C) by lra. rewrite hsg_abs. lra. }
    assert (V4 : C - d <= Rabs v). { assert (C <= Rabs v + Rabs (v - hsg s * C)). { replace C with (Rabs (hsg s * C)) at 1. - replace (hsg s * C) with (v - (v - hsg s * C)) at 1 by ring. unfold Rminus at 1. eapply Rle_trans; [apply Rabs_triang |]. rewrite Rabs_Ropp. lra. - rewrite Rabs_mult, (Rabs_pos_eq C) by lra. rewrite hsg_abs. lra. } lra. }
    assert (E1 : ep 127 * Rabs v <= 4 * ep 128 * C). { rewrite e127. replace (4 * ep 128 * C) with (2 * ep 128 * (2 * C)) by ring. apply Rmult_le_compat_l; lra. } assert (S1 : 4 * ep 128 * C <= / 1024) by nra.
    assert (Y1 : Rabs (xR y) <= C + d + / 1024). { replace (xR y) with (v + (xR y - v)) by ring. eapply Rle_trans; [apply Rabs_triang |]. lra. }
    assert (Y2 : C - d - / 1024 <= Rabs (xR y)). { assert (Rabs v <= Rabs (xR y) + Rabs (xR y - v)). { replace v with (xR y - (xR y - v)) at 1 by ring. unfold Rminus at 1. eapply Rle_trans; [apply Rabs_triang |]. rewrite Rabs_Ropp. lra. } lra. }
    splits; [| lra |].
    - apply (xb_le (Z.max (1 + 128) 70)); [| lia]. apply xb_val; auto; try lia.
      + right. change (-(1))%Z with (- Z.of_nat 1)%Z. rewrite p2_opp. unfold ep. cbn [pow]. lra.
      + assert (C <= powerRZ 2 62) by (rewrite p2_IZR by lia; apply IZR_le; lia). change 70%Z with (8 + 62)%Z. rewrite p2_add. change (powerRZ 2 8) with (2 * (2 * (2 * (2 * (2 * (2 * (2 * (2 * 1)))))))). lra.
    - apply (Rle_trans _ (IZR (k + 1) * ep 124 * C)); [| apply Rmult_le_compat_l; [apply Rmult_le_pos; [apply IZR_le; lia | lra] | pose proof (Rabs_pos (xR r)); unfold d in D4; nra]].
      replace (xR y - (p * X + hsg s * C)) with (xR y - v + (v - (rr * X + hsg s * C)) + (rr - p) * X) by ring. eapply Rle_trans; [apply Rabs_triang |]. rewrite (Rabs_mult (rr - p) X). eapply Rle_trans; [apply Rplus_le_compat_r, Rabs_triang |]. rewrite plus_IZR.
      assert (E2 : ep 125 * d <= 8 * ep 128 * C) by (rewrite e125; apply Rmult_le_compat_l; lra).
      assert (E3 : Rabs (rr - p) * Rabs X <= IZR k * ep 124 * C). { apply (Rle_trans _ (IZR k * ep 124 * IZR cp * (IZR xi / 100))); [apply Rmult_le_compat; auto; apply Rabs_pos |]. rewrite Rmult_assoc. fold d. apply Rmult_le_compat_l; [| lra]. apply Rmult_le_pos; [apply IZR_le; auto | lra]. }
      assert (0 <= ep 128 * C) by (apply Rmult_le_pos; lra). rewrite e124 in *. lra. }
  unfold hop, hadd, hsub. destruct s; (eapply returns_bind; [exact M |]; intros m (Bm & Lm & Em); eapply returns_bind; [exact FK |]; intros q (Bq & Vq)).
  - assert (NC : 0 <= xR m * xR q \/ ~ Rcarry (xR m + xR q)). { rewrite Vq. destruct (Rle_dec 0 (xR m)) as [Z | Z]; [left; nra | right]. apply (nocarry_range _ j). rewrite Rabs_left1 in Lm by lra. rewrite Rabs_pos_eq by lra. split; [lra |]. apply (Rlt_le_trans _ C); [lra |]. assert (0 < ep 129 <= ep 128) by (split; [apply ep_pos | apply ep_le; lia]). assert (powerRZ 2 (j + 1) <= 2 * C). { rewrite p2_add. change (powerRZ 2 1) with (2 * 1). pose proof (p2_pos j). unfold d in D2. nra. } nra. }
    eapply returns_weaken; [apply (addR (200 + K + 256) m q); auto; [apply (xb_le 128); auto; lia | lia | change (2 ^ 32)%Z with 4294967296%Z; lia] |]. intros y [By Ey]. apply (G (xR m + xR q)); auto; [apply By | |]; rewrite Vq; cbn [hsg].
    + replace (xR m + C - 1 * C) with (xR m) by ring. auto.
    + replace (xR m + C - (rr * X + 1 * C)) with (xR m - rr * X) by ring. auto.
  - assert (NC : xR m * xR q <= 0 \/ ~ Rcarry (xR m - xR q)). { rewrite Vq. destruct (Rle_dec (xR m) 0) as [Z | Z]; [left; nra | right]. apply (nocarry_range _ j). rewrite Rabs_pos_eq in Lm by lra. rewrite Rabs_left1 by lra. split; [lra |]. apply (Rlt_le_trans _ C); [lra |]. assert (0 < ep 129 <= ep 128) by (split; [apply ep_pos | apply ep_le; lia]). assert (powerRZ 2 (j + 1) <= 2 * C). { rewrite p2_add. change (powerRZ 2 1) with (2 * 1). pose proof (p2_pos j). unfold d in D2. nra. } nra. }
    eapply returns_weaken; [apply (subR (200 + K + 256) m q); auto; [apply (xb_le 128); auto; lia | lia | change (2 ^ 32)%Z with 4294967296%Z; lia] |]. intros y [By Ey]. apply (G (xR m - xR q)); auto; [apply By | |]; rewrite Vq; cbn [hsg].
    + replace (xR m - C - -1 * C) with (xR m) by ring. auto.
    + replace (xR m - C - (rr * X + -1 * C)) with (xR m - rr * X) by ring. auto.
Qed.

Ltac hs s xi c cp cp' j k := eapply returns_bind; [eapply (hstep s _ _ _ c cp cp' j xi _ k); [eassumption | eassumption | lia | lia | reflexivity | assumption | eassumption | eassumption | lia] | let r := fresh "r" in let B := fresh "B" in let L := fresh "L" in let E := fresh "E" in intros r (B & L & E); cbn [hsg] in E].
Ltac nfact := repeat match goal with |- context [INR (fact ?n)] => rewrite (zf_fact n); let v := eval vm_compute in (zf n) in change (zf n) with v end.

(** the constants *)
Definition s2 : R := xR xONE_OVER_SQRT_2.
Lemma s2_c : xb 200 xONE_OVER_SQRT_2 /\ Rabs (s2 - 1 / sqrt 2) <= ep 128 /\ 7071 / 10000 < s2 < 70711 / 100000.
Proof.
  destruct C64_sqrt as (_ & _ & _ & H). pose proof (const_R _ _ H eq_refl) as C. fold s2 in C. assert (B : 7071 / 10000 < s2 < 70711 / 100000).
  { unfold s2, xR. split; [apply (Rlt_le_trans _ (Q2R (70710 # 100000) + / 1000000)); [unfold Q2R; cbn; lra |] | apply (Rle_lt_trans _ (Q2R (707107 # 1000000))); [| unfold Q2R; cbn; lra]].
    - replace (Q2R (70710 # 100000) + / 1000000) with (Q2R (707101 # 1000000)) by (unfold Q2R; cbn; lra). apply Qle_Rle. vm_compute. discriminate.
    - apply Qle_Rle. vm_compute. discriminate. }
  split; [split; [apply H | right; vm_compute; discriminate] |]. split; auto. eapply Rle_trans; [exact C |]. rewrite Rabs_pos_eq by lra. pose proof (ep_pos 128). nra.
Qed.
Definition pi1 : R := xR xPI.
Lemma pi1_c : xb 200 xPI /\ Rabs (pi1 - PI) <= ep 126 /\ 31415926 / 10000000 < pi1 < 31415927 / 10000000.
Proof.
  destruct C64_pi as (H & _). pose proof (const_R _ _ H eq_refl) as C. fold pi1 in C. assert (B : 31415926 / 10000000 < pi1 < 31415927 / 10000000).
  { unfold pi1, xR. split; [apply (Rlt_le_trans _ (Q2R (314159263 # 100000000))); [unfold Q2R; cbn; lra | apply Qle_Rle; vm_compute; discriminate] | apply (Rle_lt_trans _ (Q2R (314159266 # 100000000))); [apply Qle_Rle; vm_compute; discriminate | unfold Q2R; cbn; lra]]. }
  split; [split; [apply H | right; vm_compute; discriminate] |]. split; auto. eapply Rle_trans; [exact C |]. rewrite Rabs_pos_eq by lra. pose proof (ep_pos 128). rewrite (ep_S 126), (ep_S 127). nra.
Qed.
Lemma half_pi : xb 200 xPI_OVER_2 /\ xR xPI_OVER_2 = pi1 / 2.
Proof. split; [split; [split; cbn; lia | right; vm_compute; discriminate] |]. unfold pi1, xR. assert (E : (xval xPI_OVER_2 == (1 # 2) * xval xPI)%Q) by (vm_compute; reflexivity). rewrite (Qeq_eqR _ _ E), Q2R_mult. replace (Q2R (1 # 2)) with (/ 2) by (unfold Q2R; cbn; lra). lra. Qed.
Lemma quarter_pi : xb 200 xPI_OVER_4 /\ xR xPI_OVER_4 = pi1 / 4.
Proof. split; [split; [split; cbn; lia | right; vm_compute; discriminate] |]. unfold pi1, xR. assert (E : (xval xPI_OVER_4 == (1 # 4) * xval xPI)%Q) by (vm_compute; reflexivity). rewrite (Qeq_eqR _ _ E), Q2R_mult. replace (Q2R (1 # 4)) with (/ 4) by (unfold Q2R; cbn; lra). lra. Qed.

(** ** The series of the sine around 0 *)
Lemma sq_R K x : xb K x -> (0 <= K)%Z -> (K < 2 ^ 29)%Z -> Rabs (xR x) <= s2 -> returns (xmul x x) (fun q => xb (2 * K + 256) q /\ 0 <= xR q <= 5001 / 10000 /\
  exists y, 0 <= y <= Rabs (xR x) /\ xR q = y * y /\ Rabs (y - Rabs (xR x)) <= ep 125 * Rabs (xR x)).
Proof.
  intros Bx HK HK2 Hx. change (2 ^ 29)%Z with 536870912%Z in HK2. eapply returns_weaken; [apply (mulR K K x x); auto; change (2 ^ 40)%Z with 1099511627776%Z; lia |]. intros q (Bq & Lq & Sq & Eq). destruct s2_c as (_ & _ & S2). set (s := Rabs (xR x)) in *. pose proof (Rabs_pos (xR x)) as S0. fold s in S0.
  assert (V : xR x * xR x = s * s) by (unfold s; rewrite <- Rabs_mult; symmetry; apply Rabs_pos_eq; nra). rewrite V in *. assert (P0 : 0 <= s * s) by nra. rewrite (Rabs_pos_eq (s * s)) in Lq, Eq by auto.
  assert (e1 : 0 < ep 125 <= 1 / 4). { split; [apply ep_pos |]. apply (Rle_trans _ (ep 2)); [apply ep_le; lia | unfold ep; cbn; lra]. } apply Rabs_le_between in Eq. assert (Q1 : s * s * (3 / 4) <= xR q) by nra. assert (Q0 : 0 <= xR q) by nra. rewrite (Rabs_pos_eq (xR q)) in Lq by auto.
  split; [apply (xb_le (K + K + 256)); auto; lia |]. split. { split; auto. nra. } exists (sqrt (xR q)). pose proof (sqrt_pos (xR q)) as Y0. pose proof (sqrt_sqrt (xR q) Q0) as YY. set (y := sqrt (xR q)) in *. clearbody y.
  assert (Y1 : y <= s) by (apply Rnot_lt_le; intros L; nra). splits; auto. rewrite Rabs_left1 by lra. destruct (Req_dec s 0) as [Z | Z]; [nra |]. assert (Sp : 0 < s) by lra.
  (* (s - y) s <= (s - y)(s + y) = s^2 - y^2 <= ep s^2 *) apply (Rmult_le_reg_r s); auto. nra.
Qed.
Definition PS (X : R) : R := ((((((((((342 - X) * X + -1 * 93024) * X + 1 * 19535040) * X + -1 * 3047466240) * X + 1 * 335221286400) * X + -1 * 24135932620800) * X + 1 * 1013709170073600) * X + -1 * 20274183401472000) * X + 1 * 121645100408832000)) / 121645100408832000.
Lemma PS_sin y : PS (y * y) * y = sin_rsum y 10.
Proof. unfold PS, sin_rsum. cbn [rsum]. nfact. cbn [pow Nat.mul Nat.add]. field. Qed.
Lemma PS_rem s y : 0 <= y <= s -> s < 70711 / 100000 -> Rabs (y - s) <= ep 125 * s -> Rabs (PS (y * y)) <= 11 / 10 -> Rabs (PS (y * y) * s - sin s) <= 9 / 10 * ep 75 * s.
Proof.
  intros Hy Hs Hd HP. pose proof (sin_rem 10 y) as T. rewrite <- PS_sin, (Rabs_pos_eq y) in T by lra. change (2 * 10 + 1)%nat with 21%nat in T. rewrite zf_fact in T. change (zf 21) with 51090942171709440000%Z in T.
  assert (Y20 : y ^ 21 <= 9770 / 10000000 * s). { change (y ^ 21) with (y * y ^ 20). assert (y ^ 20 <= (70711 / 100000) ^ 20) by (apply pow_incr; lra). assert ((70711 / 100000) ^ 20 <= 9770 / 10000000) by (cbn [pow]; lra). assert (0 <= y ^ 20) by (apply pow_le; lra). apply Rle_trans with (s * y ^ 20); [apply Rmult_le_compat_r; lra | rewrite (Rmult_comm s); apply Rmult_le_compat_r; lra]. }
  destruct (sin_lip y s) as [L _]. replace (PS (y * y) * s - sin s) with (- (PS (y * y) * (y - s)) + (- (sin y - PS (y * y) * y)) + (sin y - sin s)) by ring.
  eapply Rle_trans; [apply Rabs_triang |]. eapply Rle_trans; [apply Rplus_le_compat_r, Rabs_triang |]. rewrite !Rabs_Ropp, Rabs_mult. set (A := PS (y * y)) in *. clearbody A. set (u := Rabs (y - s)) in *. pose proof (Rabs_pos (y - s)) as U0. fold u in U0. clearbody u. pose proof (Rabs_pos A).
  assert (Rabs A * u <= 11 / 10 * (ep 125 * s)) by (apply Rmult_le_compat; lra). assert (e125 : ep 125 <= / 1000 * ep 75). { change 125%nat with (50 + 75)%nat. rewrite ep_add. apply Rmult_le_compat_r; [apply Rlt_le, ep_pos |]. apply (Rle_trans _ (ep 10)); [apply ep_le; lia | unfold ep; cbn; lra]. } assert (ep 125 * s <= / 1000 * ep 75 * s) by (apply Rmult_le_compat_r; lra).
  assert (y ^ 21 / 51090942171709440000 <= 8 / 10 * ep 75 * s). { rewrite (ep_num 75). change (2 ^ Z.of_nat 75)%Z with 37778931862957161709568%Z. lra. } lra.
Qed.
Lemma ep124 : ep 124 = 16 * ep 128. Proof. rewrite (ep_S 124), (ep_S 125), (ep_S 126), (ep_S 127). lra. Qed.
(** rounding and scaling at the end: [c] is r * x / (2^n d e) *)
Lemma scale_R K r x n d e N : xb 200 r -> xb K x -> (0 <= K)%Z -> (K < 2 ^ 30)%Z -> (0 <= n <= 64)%Z -> (0 < d < 2 ^ 31)%Z -> (0 < e < 2 ^ 31)%Z -> N = IZR (2 ^ n * d * e) ->
  returns (let* r := xmul r x in let* r := xshr r n in let* r := xdiv_i32 r d in xdiv_i32 r e) (fun c => xb (K + 1100) c /\ Rabs (xR c - xR r * xR x / N) <= ep 124 * Rabs (xR r * xR x / N)).
Proof.
  intros Br Bx HK HK2 Hn Hd He HN. change (2 ^ 30)%Z with 1073741824%Z in HK2. eapply returns_bind; [apply (mulR 200 K r x); auto; change (2 ^ 40)%Z with 1099511627776%Z; lia |]. intros m (Bm & _ & _ & Em).
  eapply returns_bind; [apply (shrR (200 + K + 256) m n); auto; change (2 ^ 32)%Z with 4294967296%Z; lia |]. intros m2 (Bm2 & Vm2).
  eapply returns_bind; [apply (divi_R (200 + K + 256 + n) m2 d); auto; try lia; change (2 ^ 32)%Z with 4294967296%Z; lia |]. intros m3 (Bm3 & _ & _ & Em3).
  eapply returns_weaken; [apply (divi_R (200 + K + 256 + n + 256) m3 e); auto; try lia; change (2 ^ 32)%Z with 4294967296%Z; lia |]. intros c (Bc & _ & _ & Ec). split; [apply (xb_le (200 + K + 256 + n + 256 + 256)); auto; lia |].
  assert (T : powerRZ 2 (- n) = / IZR (2 ^ n)). { rewrite <- (Z2Nat.id n) by lia. rewrite p2_opp, ep_num. reflexivity. } rewrite T in Vm2. rewrite HN, !mult_IZR.
  assert (N0 : 1 <= IZR (2 ^ n)) by (apply IZR_le; assert (0 < 2 ^ n)%Z by (apply Z.pow_pos_nonneg; lia); lia). assert (D0 : 1 <= IZR d) by (apply IZR_le; lia). assert (E0 : 1 <= IZR e) by (apply IZR_le; lia).
  set (v := xR r * xR x) in *. set (t := IZR (2 ^ n)) in *. set (dd := IZR d) in *. set (ee := IZR e) in *. clearbody v t dd ee. rewrite Vm2 in Em3. set (w := v / (t * dd * ee)).
  assert (e0 := ep_pos 128). assert (e127 : ep 127 = 2 * ep 128) by apply ep_S. assert (e125 : ep 125 = 8 * ep 128) by (rewrite (ep_S 125), (ep_S 126); lra). assert (e1 : ep 128 <= / 1024) by (apply (Rle_trans _ (ep 10)); [apply ep_le; lia | unfold ep; cbn; lra]).
  assert (TD : 1 <= t * dd) by nra. assert (TDE : 1 <= t * dd * ee) by nra. assert (T0 : 0 < / (t * dd * ee)) by (apply Rinv_0_lt_compat; lra).
  assert (A1 : Rabs (xR m * / t / dd / ee - w) <= 8 * ep 128 * Rabs w). { unfold w. replace (xR m * / t / dd / ee - v / (t * dd * ee)) with ((xR m - v) / (t * dd * ee)) by (field; lra). unfold Rdiv. rewrite !Rabs_mult, (Rabs_pos_eq (/ (t * dd * ee))) by lra. rewrite <- Rmult_assoc, <- e125. apply Rmult_le_compat_r; lra. }
  assert (A2 : Rabs (xR m3 / ee - xR m * / t / dd / ee) <= 2 * ep 128 * Rabs (xR m * / t / dd / ee)). { replace (xR m3 / ee - xR m * / t / dd / ee) with ((xR m3 - xR m * / t / dd) * / ee) by (field; lra). unfold Rdiv at 2. rewrite Rabs_mult, (Rabs_mult (xR m * / t / dd)), (Rabs_pos_eq (/ ee)) by (apply Rlt_le, Rinv_0_lt_compat; lra). rewrite <- Rmult_assoc, <- e127. apply Rmult_le_compat_r; auto. apply Rlt_le, Rinv_0_lt_compat. lra. }
  rewrite e127 in Ec. rewrite ep124. set (w1 := xR m * / t / dd / ee) in *. set (w2 := xR m3 / ee) in *. set (w3 := xR c) in *. clearbody w w1 w2 w3. set (q := ep 128) in *. clearbody q. clear - A1 A2 Ec e0 e1.
  assert (B1 : Rabs w1 <= Rabs w + 8 * q * Rabs w). { replace w1 with (w + (w1 - w)) by ring. eapply Rle_trans; [apply Rabs_triang |]. lra. } assert (B2 : Rabs w2 <= Rabs w1 + 2 * q * Rabs w1). { replace w2 with (w1 + (w2 - w1)) by ring. eapply Rle_trans; [apply Rabs_triang |]. lra. }
  replace (w3 - w) with (w3 - w2 + (w2 - w1) + (w1 - w)) by ring. eapply Rle_trans; [apply Rabs_triang |]. eapply Rle_trans; [apply Rplus_le_compat_r, Rabs_triang |]. pose proof (Rabs_pos w). pose proof (Rabs_pos w1). pose proof (Rabs_pos w2). assert (0 <= q * Rabs w) by nra. assert (q * Rabs w1 <= q * (5 / 4 * Rabs w)) by (apply Rmult_le_compat_l; [lra | nra]). assert (q * Rabs w2 <= q * (3 / 2 * Rabs w)) by (apply Rmult_le_compat_l; [lra | nra]). nra.
Qed.
Lemma sin_iter_small K x : xb K x -> (0 <= K)%Z -> (K < 2 ^ 29)%Z -> Rabs (xR x) <= s2 -> xgt x xONE_OVER_SQRT_2 = false ->
  returns (xsin_iter x) (fun c => xb (K + 1100) c /\ Rabs (xR c - sin (xR x)) <= ep 75 * Rabs (xR x)).
Proof.
  intros Bx HK HK2 Hx G. unfold xsin_iter. rewrite G. change (2 ^ 29)%Z with 536870912%Z in HK2. eapply returns_bind; [apply (sq_R K x); auto |]. intros q (Bq & Rq & y & Hy & Vq & Dy). destruct s2_c as (_ & _ & S2).
  assert (Aq : Rabs (xR q) <= IZR 51 / 100) by (rewrite Rabs_pos_eq by lra; lra). assert (e0 := ep_pos 128). pose proof ep124 as e124. assert (e1 : ep 128 <= / 1048576) by (apply (Rle_trans _ (ep 20)); [apply ep_le; lia | unfold ep; cbn; lra]). assert (e127 : ep 127 = 2 * ep 128) by apply ep_S.
  eapply returns_bind. { apply (fromR I32 342); [cbn; lia | lia]. } intros k (Bk & Vk).
  eapply returns_bind with (Q := fun r => xb 200 r /\ Rabs (xR r) <= IZR 343 /\ Rabs (xR r - (342 - xR q)) <= IZR 1 * ep 124 * IZR 343).
  { eapply returns_weaken; [apply (subR (2 * K + 256) k q); auto; try lia; [apply (xb_le 128); auto; lia |] |].
    - right. rewrite Vk. apply (nocarry_range _ (Z.of_nat 8)). rewrite p2_nat. change (Z.of_nat 8 + 1)%Z with (Z.of_nat 9). rewrite p2_nat, Rabs_pos_eq by lra. assert (0 < ep 129 <= ep 128) by (split; [apply ep_pos | apply ep_le; lia]). cbn [pow]. lra.
    - rewrite Vk. intros r [Br Er]. rewrite (Rabs_pos_eq (342 - xR q)) in Er by lra. assert (E1 := Er). apply Rabs_le_between in E1. assert (ep 127 * (342 - xR q) <= 2 * ep 128 * 342) by (rewrite e127; apply Rmult_le_compat_l; lra). splits.
      + apply (xb_le (Z.max (0 + 128) 9)); [| lia]. apply xb_val; try lia; [apply Br | right; change (powerRZ 2 (- 0)) with 1; rewrite Rabs_pos_eq by lra; lra | change 9%Z with (Z.of_nat 9); rewrite p2_nat, Rabs_pos_eq by lra; cbn [pow]; lra].
      + rewrite Rabs_pos_eq by lra. lra.
      + rewrite e124. lra. }
  intros r0 (B0 & L0 & E0). assert (Hb : (0 <= 2 * K + 256 < 2 ^ 31)%Z) by (change (2 ^ 31)%Z with 2147483648%Z; lia). destruct Hb as [Hb1 Hb2].
  hs false 51%Z 93024%Z 343%Z 93200%Z 16%Z 1%Z.
  hs true 51%Z 19535040%Z 93200%Z 19582573%Z 24%Z 2%Z.
  hs false 51%Z 3047466240%Z 19582573%Z 3057453354%Z 31%Z 3%Z.
  hs true 51%Z 335221286400%Z 3057453354%Z 336780587612%Z 38%Z 4%Z.
  hs false 51%Z 24135932620800%Z 336780587612%Z 24307690720484%Z 44%Z 5%Z.
  hs true 51%Z 1013709170073600%Z 24307690720484%Z 1026106092341048%Z 49%Z 6%Z.
  hs false 51%Z 20274183401472000%Z 1026106092341048%Z 20797497508565936%Z 54%Z 7%Z.
  hs true 51%Z 121645100408832000%Z 20797497508565936%Z 132251824138200629%Z 56%Z 8%Z.
  set (N := 121645100408832000) in *. assert (EN : Rabs (xR r7 - N * PS (xR q)) <= 160 * ep 128 * N). { rewrite e124 in E7. replace (N * PS (xR q)) with (((((((((342 - xR q) * xR q + -1 * 93024) * xR q + 1 * 19535040) * xR q + -1 * 3047466240) * xR q + 1 * 335221286400) * xR q + -1 * 24135932620800) * xR q + 1 * 1013709170073600) * xR q + -1 * 20274183401472000) * xR q + 1 * 121645100408832000) by (unfold PS, N; field). eapply Rle_trans; [exact E7 |]. change (IZR (8 + 1)) with 9. unfold N. lra. }
  eapply returns_weaken; [apply (scale_R K r7 x 16 820125 2263261 N); auto; try (change (2 ^ 30)%Z with 1073741824%Z; lia); try (change (2 ^ 31)%Z with 2147483648%Z; lia); reflexivity |]. intros c (Bc & Ec). split; auto.
  assert (N0 : 0 < N) by (unfold N; lra). assert (PB : Rabs (PS (xR q)) <= 11 / 10). { apply (Rmult_le_reg_l N); auto. rewrite <- (Rabs_pos_eq N) at 1 by lra. rewrite <- Rabs_mult. replace (N * PS (xR q)) with (xR r7 - (xR r7 - N * PS (xR q))) by ring. unfold Rminus at 1. eapply Rle_trans; [apply Rabs_triang |]. rewrite Rabs_Ropp. unfold N in *. lra. }
  assert (PR : Rabs (PS (xR q) * xR x - sin (xR x)) <= 9 / 10 * ep 75 * Rabs (xR x)). { rewrite Vq in PB |- *. assert (Hs : Rabs (xR x) < 70711 / 100000) by lra. pose proof (PS_rem (Rabs (xR x)) y Hy Hs Dy PB) as T. destruct (Rle_dec 0 (xR x)) as [P | P]; [rewrite (Rabs_pos_eq (xR x)) in * by lra; auto |]. rewrite (Rabs_left1 (xR x)) in * by lra. replace (PS (y * y) * xR x - sin (xR x)) with (- (PS (y * y) * - xR x - sin (- xR x))) by (rewrite sin_neg; ring). rewrite Rabs_Ropp. auto. }
  assert (Es : Rabs (xR r7 * xR x / N - PS (xR q) * xR x) <= 160 * ep 128 * Rabs (xR x)). { replace (xR r7 * xR x / N - PS (xR q) * xR x) with ((xR r7 - N * PS (xR q)) * / N * xR x) by (field; lra). rewrite !Rabs_mult, (Rabs_pos_eq (/ N)) by (apply Rlt_le, Rinv_0_lt_compat; auto). apply Rmult_le_compat_r; [apply Rabs_pos |]. apply (Rmult_le_reg_r N); auto. rewrite Rmult_assoc, Rinv_l by lra. lra. }
  assert (Ew : Rabs (xR r7 * xR x / N) <= 2 * Rabs (xR x)). { replace (xR r7 * xR x / N) with (xR r7 * / N * xR x) by (field; lra). rewrite !Rabs_mult, (Rabs_pos_eq (/ N)) by (apply Rlt_le, Rinv_0_lt_compat; auto). apply Rmult_le_compat_r; [apply Rabs_pos |]. apply (Rmult_le_reg_r N); auto. rewrite Rmult_assoc, Rinv_l by lra. unfold N. lra. }
  assert (e75 : 1000 * ep 128 <= / 10 * ep 75). { change 128%nat with (53 + 75)%nat. rewrite ep_add. assert (ep 53 <= ep 20) by (apply ep_le; lia). assert (ep 20 <= / 10000) by (unfold ep; cbn; lra). pose proof (ep_pos 75). apply (Rle_trans _ (1000 * (/ 10000 * ep 75))); [apply Rmult_le_compat_l; [lra | apply Rmult_le_compat_r; lra] | lra]. }
  rewrite e124 in Ec. pose proof (Rabs_pos (xR x)). replace (xR c - sin (xR x)) with (xR c - xR r7 * xR x / N + (xR r7 * xR x / N - PS (xR q) * xR x) + (PS (xR q) * xR x - sin (xR x))) by ring. eapply Rle_trans; [apply Rabs_triang |]. eapply Rle_trans; [apply Rplus_le_compat_r, Rabs_triang |]. set (X := Rabs (xR x)) in *. clearbody X. assert (16 * ep 128 * Rabs (xR r7 * xR x / N) <= 16 * ep 128 * (2 * X)) by (apply Rmult_le_compat_l; lra). assert (1000 * ep 128 * X <= / 10 * ep 75 * X) by (apply Rmult_le_compat_r; lra). assert (0 <= ep 128 * X) by (apply Rmult_le_pos; lra). lra.
Qed.

(** ** Differences on a grid are not touched by the carry *)
Lemma grid_R a g : xwf a -> powerRZ 2 (g + 127) <= Rabs (xR a) -> exists n, xR a = IZR n * powerRZ 2 g.
Proof.
  intros W H. destruct (xnull a) eqn:N. { exists 0%Z. rewrite (null_R a N). ring. } destruct (mag_R a W N) as [_ M]. assert (L : (g + 127 < xpow a + 128)%Z) by (apply p2_lt_inv; lra).
  exists (fint a g). pose proof (fint_ok a g W N ltac:(lia)) as F. apply Qeq_eqR in F. rewrite Q2R_mult, two_R in F. unfold xR. rewrite F. f_equal. unfold Q2R, inject_Z. cbn. field.
Qed.
Lemma sub_grid K a b g : xb K a -> xb K b -> (0 <= K)%Z -> (K < 2 ^ 32)%Z -> powerRZ 2 (g + 127) <= Rabs (xR a) -> powerRZ 2 (g + 127) <= Rabs (xR b) -> Rabs (xR a - xR b) <= powerRZ 2 (g + 128) -> returns (xsub a b) (xnear (K + 256) (xR a - xR b)).
Proof.
  intros Ba Bb HK HK2 La Lb D. apply subR; auto. right. destruct (grid_R a g (proj1 Ba) La) as [n Vn]. destruct (grid_R b g (proj1 Bb) Lb) as [m Vm]. apply (nocarry_grid _ (n - m) g).
  - rewrite Vn, Vm, minus_IZR. ring.
  - rewrite Vn, Vm in D. rewrite <- Rmult_minus_distr_r, <- minus_IZR, Rabs_mult, (Rabs_pos_eq (powerRZ 2 g)), <- abs_IZR in D by (apply Rlt_le, p2_pos). rewrite Zplus_comm, p2_add in D. apply Rmult_le_reg_r in D; [| apply p2_pos]. change 128%Z with (Z.of_nat 128) in D. rewrite p2_nat, pow_IZR in D. apply le_IZR in D. exact D.
Qed.

(** ** The sine around pi / 4 *)
Definition PN (X : R) : R := (((((((((((- (11 + X)) * X + 1 * 110) * X + 1 * 990) * X + -1 * 7920) * X + -1 * 55440) * X + 1 * 332640) * X + 1 * 1663200) * X + -1 * 6652800) * X + -1 * 19958400) * X + 1 * 39916800) * X + 1 * 39916800) / 39916800.
Lemma PN_sum h : PN h = cos_rsum h 6 + sin_rsum h 6.
Proof. unfold PN, sin_rsum, cos_rsum. cbn [rsum]. nfact. cbn [pow Nat.mul Nat.add]. field. Qed.
Lemma PN_rem h : Rabs h <= 784 / 10000 -> Rabs (PN h - (cos h + sin h)) <= 1080 / 1000 * ep 73.
Proof.
  intros H. rewrite PN_sum. pose proof (cos_rem 6 h) as C. pose proof (sin_rem 6 h) as S. change (2 * 6)%nat with 12%nat in C. change (2 * 6 + 1)%nat with 13%nat in S. rewrite zf_fact in C, S. change (zf 12) with 479001600%Z in C. change (zf 13) with 6227020800%Z in S.
  assert (H12 : Rabs h ^ 12 <= (784 / 10000) ^ 12) by (apply pow_incr; split; [apply Rabs_pos | auto]). assert (H13 : Rabs h ^ 13 <= (784 / 10000) ^ 13) by (apply pow_incr; split; [apply Rabs_pos | auto]).
  replace (cos_rsum h 6 + sin_rsum h 6 - (cos h + sin h)) with (- (cos h - cos_rsum h 6) + - (sin h - sin_rsum h 6)) by ring. eapply Rle_trans; [apply Rabs_triang |]. rewrite !Rabs_Ropp. rewrite (ep_num 73). change (2 ^ Z.of_nat 73)%Z with 9444732965739290427392%Z. cbn [pow] in H12, H13 |- *. lra.
Qed.
Lemma pi4_sum h : sin (PI / 4 + h) = (cos h + sin h) * (1 / sqrt 2).
Proof. rewrite sin_plus, sin_PI4, cos_PI4. ring. Qed.
Lemma sin_big z : 7 / 10 <= z <= 8637 / 10000 -> 58 / 100 <= sin z <= 1.
Proof.
  intros H. split; [| apply SIN_bound]. pose proof (sin_rem 2 z) as T. unfold sin_rsum in T. cbn [rsum] in T. change (2 * 2 + 1)%nat with 5%nat in T. rewrite !zf_fact in T. change (zf (2 * 0 + 1)) with 1%Z in T. change (zf (2 * 1 + 1)) with 6%Z in T. change (zf 5) with 120%Z in T. rewrite (Rabs_pos_eq z) in T by lra.
  assert (Y3 : z ^ 3 <= (8637 / 10000) ^ 3) by (apply pow_incr; lra). assert (Y5 : z ^ 5 <= (8637 / 10000) ^ 5) by (apply pow_incr; lra). apply Rabs_le_between in T. set (a := sin z) in *. change (2 * 1 + 1)%nat with 3%nat in T. set (u := z ^ 3) in *. set (v := z ^ 5) in *. clearbody a u v. cbn [pow Nat.mul Nat.add] in T, Y3, Y5. lra.
Qed.
Lemma sin_near_R K x : xb K x -> (200 <= K)%Z -> (K < 2 ^ 29)%Z -> s2 <= xR x <= 8637 / 10000 -> returns (xsin_near x) (fun c => xb 200 c /\ Rabs (xR c - sin (xR x)) <= 9 / 10 * ep 73).
Proof.
  intros Bx HK HK2 Hx. change (2 ^ 29)%Z with 536870912%Z in HK2. unfold xsin_near. destruct s2_c as (Bs & Es2 & S2). destruct pi1_c as (_ & Epi & P1). destruct quarter_pi as [B4 V4].
  assert (e0 := ep_pos 128). pose proof ep124 as e124. assert (e1 : ep 128 <= / 1048576) by (apply (Rle_trans _ (ep 20)); [apply ep_le; lia | unfold ep; cbn; lra]). assert (e127 : ep 127 = 2 * ep 128) by apply ep_S. assert (e126 : ep 126 = 4 * ep 128) by (rewrite (ep_S 126); lra). assert (e125 : ep 125 = 8 * ep 128) by (rewrite (ep_S 125); lra).
  eapply returns_bind. { apply (sub_grid K x xPI_OVER_4 (-128)); auto; [apply (xb_le 200); auto | lia | change (2 ^ 32)%Z with 4294967296%Z; lia | | |]; rewrite ?V4; change (-128 + 127)%Z with (- Z.of_nat 1)%Z; change (-128 + 128)%Z with 0%Z; rewrite ?p2_opp; unfold ep; cbn [pow powerRZ]; [rewrite Rabs_pos_eq; lra .. | apply Rabs_le_between; lra]. }
  intros h [Bh Eh]. rewrite V4 in Eh. set (d := xR x - pi1 / 4) in *. assert (Hd : - (783 / 10000) <= d <= 7835 / 100000) by (unfold d; lra). assert (Ad : Rabs d <= 7835 / 100000) by (apply Rabs_le_between; lra).
  assert (Ed : Rabs (xR h - d) <= ep 128). { eapply Rle_trans; [exact Eh |]. rewrite e127. nra. } assert (Hh : Rabs (xR h) <= 784 / 10000). { replace (xR h) with (d + (xR h - d)) by ring. eapply Rle_trans; [apply Rabs_triang |]. lra. }
  assert (Ah : Rabs (xR h) <= IZR 8 / 100) by lra. assert (Hh2 := Hh). apply Rabs_le_between in Hh2.
  eapply returns_bind. { apply (fromR I32 11); [cbn; lia | lia]. } intros k (Bk & Vk). change (2 ^ 32)%Z with 4294967296%Z in *.
  eapply returns_bind. { apply (addR (K + 256) k h); auto; try lia; [apply (xb_le 128); auto; lia |]. right. rewrite Vk. apply (nocarry_range _ (Z.of_nat 3)). change (Z.of_nat 3 + 1)%Z with (Z.of_nat 4). rewrite !p2_nat, Rabs_pos_eq by lra. assert (0 < ep 129 <= ep 128) by (split; [apply ep_pos | apply ep_le; lia]). cbn [pow]. lra. }
  rewrite Vk. intros r' [Br' Er']. destruct (neg_b _ _ Br') as [Bn Vn]; [lia |]. set (r0 := xneg r') in *. rewrite (Rabs_pos_eq (11 + xR h)) in Er' by lra. assert (E1 := Er'). apply Rabs_le_between in E1. assert (ep 127 * (11 + xR h) <= 24 * ep 128) by (rewrite e127; nra).
  assert (B0 : xb 200 r0). { apply (xb_le (Z.max (0 + 128) 4)); [| lia]. apply xb_val; try lia; [apply Bn | right; change (powerRZ 2 (- 0)) with 1; rewrite Vn, Rabs_left1 by lra; lra | change 4%Z with (Z.of_nat 4); rewrite p2_nat, Vn, Rabs_left1 by lra; cbn [pow]; lra]. }
  assert (L0 : Rabs (xR r0) <= IZR 12) by (rewrite Vn, Rabs_left1 by lra; lra). assert (E0 : Rabs (xR r0 - (- (11 + xR h))) <= IZR 1 * ep 124 * IZR 12). { rewrite Vn. replace (- xR r' - - (11 + xR h)) with (- (xR r' - (11 + xR h))) by ring. rewrite Rabs_Ropp, e124. lra. }
  clearbody r0. clear Br' Er' E1 Vn Bn. assert (Hb : (0 <= K + 256 < 2 ^ 31)%Z) by (change (2 ^ 31)%Z with 2147483648%Z; lia). destruct Hb as [Hb1 Hb2].
  hs true 8%Z 110%Z 12%Z 112%Z 6%Z 1%Z.
  hs true 8%Z 990%Z 112%Z 1000%Z 9%Z 2%Z.
  hs false 8%Z 7920%Z 1000%Z 8001%Z 12%Z 3%Z.
  hs false 8%Z 55440%Z 8001%Z 56082%Z 15%Z 4%Z.
  hs true 8%Z 332640%Z 56082%Z 337128%Z 18%Z 5%Z.
  hs true 8%Z 1663200%Z 337128%Z 1690172%Z 20%Z 6%Z.
  hs false 8%Z 6652800%Z 1690172%Z 6788015%Z 22%Z 7%Z.
  hs false 8%Z 19958400%Z 6788015%Z 20501443%Z 24%Z 8%Z.
  hs true 8%Z 39916800%Z 20501443%Z 41556917%Z 25%Z 9%Z.
  hs true 8%Z 39916800%Z 41556917%Z 43241355%Z 25%Z 10%Z.
  match goal with H : Rabs (xR ?z - _) <= IZR (10 + 1) * _ * _ |- _ => rename z into rr; rename H into EF end. match goal with H : xb 200 rr |- _ => rename H into BF end. match goal with H : Rabs (xR rr) <= _ |- _ => rename H into LF end.
  set (N := 39916800) in *. assert (EN : Rabs (xR rr - N * PN (xR h)) <= 200 * ep 128 * N). { rewrite e124 in EF. replace (N * PN (xR h)) with (((((((((((- (11 + xR h)) * xR h + 1 * 110) * xR h + 1 * 990) * xR h + -1 * 7920) * xR h + -1 * 55440) * xR h + 1 * 332640) * xR h + 1 * 1663200) * xR h + -1 * 6652800) * xR h + -1 * 19958400) * xR h + 1 * N) * xR h + 1 * N) by (unfold PN, N; field). eapply Rle_trans; [exact EF |]. change (IZR (10 + 1)) with 11. unfold N. lra. }
  eapply returns_bind. { apply (mulR 200 200 rr xONE_OVER_SQRT_2); auto; change (2 ^ 40)%Z with 1099511627776%Z; lia. } intros m (Bm & _ & _ & Em). fold s2 in Em.
  eapply returns_weaken; [apply (divi_R (200 + 200 + 256) m 39916800); auto; try lia; change (2 ^ 32)%Z with 4294967296%Z; lia |]. intros c (Bc & _ & _ & Ec). fold N in Ec.
  assert (N0 : 0 < N) by (unfold N; lra). pose proof (PN_rem (xR h) Hh) as PR. set (w := cos (xR h) + sin (xR h)) in *. assert (W2 : Rabs w <= 2). { unfold w. eapply Rle_trans; [apply Rabs_triang |]. pose proof (COS_bound (xR h)). pose proof (SIN_bound (xR h)). assert (Rabs (cos (xR h)) <= 1) by (apply Rabs_le; lra). assert (Rabs (sin (xR h)) <= 1) by (apply Rabs_le; lra). lra. }
  pose proof (pi4_sum (xR h)) as V. fold w in V. set (q2 := 1 / sqrt 2) in *.
  assert (F : Rabs (sin (PI / 4 + xR h) - sin (xR x)) <= 2 * ep 128). { destruct (sin_lip (PI / 4 + xR h) (xR x)) as [Lq _]. eapply Rle_trans; [exact Lq |]. replace (PI / 4 + xR h - xR x) with (xR h - d + - ((pi1 - PI) * / 4)) by (unfold d; lra). eapply Rle_trans; [apply Rabs_triang |]. rewrite Rabs_Ropp, Rabs_mult, (Rabs_pos_eq (/ 4)) by lra. lra. }
  assert (M : Rabs (xR rr * s2) <= 2 * N). { rewrite Rabs_mult, (Rabs_pos_eq s2) by lra. assert (Rabs (xR rr) * s2 <= 43241355 * 1) by (apply Rmult_le_compat; [apply Rabs_pos | lra | auto | lra]). unfold N. lra. }
  assert (M2 : Rabs (xR m - N * PN (xR h) * s2) <= 400 * ep 128 * N). { replace (xR m - N * PN (xR h) * s2) with (xR m - xR rr * s2 + (xR rr - N * PN (xR h)) * s2) by ring. eapply Rle_trans; [apply Rabs_triang |]. rewrite (Rabs_mult (xR rr - _)), (Rabs_pos_eq s2) by lra. rewrite e125 in Em. assert (8 * ep 128 * Rabs (xR rr * s2) <= 8 * ep 128 * (2 * N)) by (apply Rmult_le_compat_l; lra). assert (Rabs (xR rr - N * PN (xR h)) * s2 <= 200 * ep 128 * N * 1) by (apply Rmult_le_compat; [apply Rabs_pos | lra | auto | lra]). assert (0 <= ep 128 * N) by (apply Rmult_le_pos; lra). lra. }
  assert (M3 : Rabs (xR m / N - PN (xR h) * s2) <= 400 * ep 128). { replace (xR m / N - PN (xR h) * s2) with ((xR m - N * PN (xR h) * s2) * / N) by (field; lra). rewrite Rabs_mult, (Rabs_pos_eq (/ N)) by (apply Rlt_le, Rinv_0_lt_compat; auto). apply (Rmult_le_reg_r N); auto. rewrite Rmult_assoc, Rinv_l by lra. lra. }
  assert (e73 : 10000 * ep 128 <= / 10 * ep 73). { change 128%nat with (55 + 73)%nat. rewrite ep_add. assert (ep 55 <= ep 20) by (apply ep_le; lia). assert (ep 20 <= / 100000) by (unfold ep; cbn; lra). pose proof (ep_pos 73). apply (Rle_trans _ (10000 * (/ 100000 * ep 73))); [apply Rmult_le_compat_l; [lra | apply Rmult_le_compat_r; lra] | lra]. } assert (e73' : ep 73 <= / 1024) by (apply (Rle_trans _ (ep 10)); [apply ep_le; lia | unfold ep; cbn; lra]). assert (e730 := ep_pos 73).
  assert (AP : Rabs (PN (xR h)) <= 3). { replace (PN (xR h)) with (w + (PN (xR h) - w)) by ring. eapply Rle_trans; [apply Rabs_triang |]. lra. }
  assert (Q2 : 7 / 10 < q2 < 71 / 100). { apply Rabs_le_between in Es2. lra. }
  assert (M4 : Rabs (PN (xR h) * s2 - w * q2) <= 71 / 100 * (1080 / 1000 * ep 73) + 3 * ep 128). { replace (PN (xR h) * s2 - w * q2) with (PN (xR h) * (s2 - q2) + (PN (xR h) - w) * q2) by ring. eapply Rle_trans; [apply Rabs_triang |]. rewrite !Rabs_mult, (Rabs_pos_eq q2) by lra. assert (Rabs (PN (xR h)) * Rabs (s2 - q2) <= 3 * ep 128) by (apply Rmult_le_compat; auto; apply Rabs_pos). assert (Rabs (PN (xR h) - w) * q2 <= 1080 / 1000 * ep 73 * (71 / 100)) by (apply Rmult_le_compat; [apply Rabs_pos | lra | auto | lra]). lra. }
  assert (M5 : Rabs (xR m / N) <= 4). { replace (xR m / N) with (xR m / N - PN (xR h) * s2 + PN (xR h) * s2) by ring. eapply Rle_trans; [apply Rabs_triang |]. rewrite (Rabs_mult (PN (xR h))), (Rabs_pos_eq s2) by lra. assert (Rabs (PN (xR h)) * s2 <= 3 * 1) by (apply Rmult_le_compat; [apply Rabs_pos | lra | auto | lra]). lra. }
  assert (Fin : Rabs (xR c - sin (xR x)) <= 9 / 10 * ep 73). { replace (xR c - sin (xR x)) with (xR c - xR m / N + (xR m / N - PN (xR h) * s2) + (PN (xR h) * s2 - w * q2) + (sin (PI / 4 + xR h) - sin (xR x))) by (rewrite V; ring). eapply Rle_trans; [apply Rabs_triang |]. eapply Rle_trans; [apply Rplus_le_compat_r, Rabs_triang |]. eapply Rle_trans; [apply Rplus_le_compat_r, Rplus_le_compat_r, Rabs_triang |]. rewrite e127 in Ec. assert (2 * ep 128 * Rabs (xR m / N) <= 2 * ep 128 * 4) by (apply Rmult_le_compat_l; lra). lra. }
  split; auto. assert (SX : 58 / 100 <= sin (xR x) <= 1) by (apply sin_big; lra).
  apply Rabs_le_between in Fin. apply (xb_le (Z.max (1 + 128) 1)); [| lia]. apply xb_val; try lia; [apply Bc | right; change (- (1))%Z with (- Z.of_nat 1)%Z; rewrite p2_opp; unfold ep; cbn [pow]; rewrite Rabs_pos_eq by lra; lra | change (powerRZ 2 1) with (2 * 1); rewrite Rabs_pos_eq by lra; lra].
Qed.

(** ** The series of the cosine *)
Definition PC (X : R) : R := ((((((((((X - 380) * X + 1 * 116280) * X + -1 * 27907200) * X + 1 * 5079110400) * X + -1 * 670442572800) * X + 1 * 60339831552000) * X + -1 * 3379030566912000) * X + 1 * 101370917007360000) * X + -1 * 1216451004088320000) * X + 2432902008176640000) / 2432902008176640000.
Lemma PC_cos y : PC (y * y) = cos_rsum y 11.
Proof. unfold PC, cos_rsum. cbn [rsum]. nfact. cbn [pow Nat.mul Nat.add]. field. Qed.
Lemma PC_rem s y : 0 <= y <= s -> s < 70711 / 100000 -> Rabs (y - s) <= ep 125 * s -> Rabs (PC (y * y) - cos s) <= 6 / 10 * ep 80.
Proof.
  intros Hy Hs Hd. pose proof (cos_rem 11 y) as T. rewrite <- PC_cos, (Rabs_pos_eq y) in T by lra. change (2 * 11)%nat with 22%nat in T. rewrite zf_fact in T. change (zf 22) with 1124000727777607680000%Z in T.
  assert (Y22 : y ^ 22 <= 489 / 1000000). { assert (y ^ 22 <= (70711 / 100000) ^ 22) by (apply pow_incr; lra). assert ((70711 / 100000) ^ 22 <= 489 / 1000000) by (cbn [pow]; lra). lra. }
  destruct (sin_lip y s) as [_ L]. replace (PC (y * y) - cos s) with (- (cos y - PC (y * y)) + (cos y - cos s)) by ring. eapply Rle_trans; [apply Rabs_triang |]. rewrite Rabs_Ropp.
  assert (e125 : ep 125 <= / 1000 * ep 80). { change 125%nat with (45 + 80)%nat. rewrite ep_add. apply Rmult_le_compat_r; [apply Rlt_le, ep_pos |]. apply (Rle_trans _ (ep 10)); [apply ep_le; lia | unfold ep; cbn; lra]. } pose proof (ep_pos 80). pose proof (ep_pos 125). assert (ep 125 * s <= / 1000 * ep 80 * 1) by (apply Rmult_le_compat; lra).
  assert (y ^ 22 / 1124000727777607680000 <= 55 / 100 * ep 80). { rewrite (ep_num 80). change (2 ^ Z.of_nat 80)%Z with 1208925819614629174706176%Z. lra. } lra.
Qed.
(** the sum ends above or below 2^61 according to the side of this number on which the cosine lies *)
Definition kap : R := IZR (2 ^ 61) / 2432902008176640000.
Lemma cos_iter_small K x : xb K x -> (0 <= K)%Z -> (K < 2 ^ 29)%Z -> Rabs (xR x) <= s2 -> xgt x xONE_OVER_SQRT_2 = false -> ep 80 <= Rabs (cos (xR x) - kap) ->
  returns (xcos_iter x) (fun c => xb 200 c /\ Rabs (xR c - cos (xR x)) <= ep 80).
Proof.
  intros Bx HK HK2 Hx G HC. unfold xcos_iter. rewrite G. change (2 ^ 29)%Z with 536870912%Z in HK2. eapply returns_bind; [apply (sq_R K x); auto |]. intros q (Bq & Rq & y & Hy & Vq & Dy). destruct s2_c as (_ & _ & S2).
  assert (Aq : Rabs (xR q) <= IZR 51 / 100) by (rewrite Rabs_pos_eq by lra; lra). assert (e0 := ep_pos 128). pose proof ep124 as e124. assert (e1 : ep 128 <= / 1048576) by (apply (Rle_trans _ (ep 20)); [apply ep_le; lia | unfold ep; cbn; lra]). assert (e127 : ep 127 = 2 * ep 128) by apply ep_S.
  assert (e126 : ep 126 = 4 * ep 128) by (rewrite (ep_S 126); lra). assert (e125 : ep 125 = 8 * ep 128) by (rewrite (ep_S 125); lra).
  eapply returns_bind. { apply (fromR I32 380); [cbn; lia | lia]. } intros k (Bk & Vk).
  eapply returns_bind with (Q := fun r => xb 200 r /\ Rabs (xR r) <= IZR 381 /\ Rabs (xR r - (xR q - 380)) <= IZR 1 * ep 124 * IZR 381).
  { eapply returns_weaken; [apply (subR (2 * K + 256) q k); auto; try lia; [apply (xb_le 128); auto; lia |] |].
    - right. rewrite Vk. apply (nocarry_range _ (Z.of_nat 8)). rewrite p2_nat. change (Z.of_nat 8 + 1)%Z with (Z.of_nat 9). rewrite p2_nat, Rabs_left1 by lra. assert (0 < ep 129 <= ep 128) by (split; [apply ep_pos | apply ep_le; lia]). cbn [pow]. lra.
    - rewrite Vk. intros r [Br Er]. rewrite (Rabs_left1 (xR q - 380)) in Er by lra. assert (E1 := Er). apply Rabs_le_between in E1. assert (ep 127 * - (xR q - 380) <= 2 * ep 128 * 380) by (rewrite e127; apply Rmult_le_compat_l; lra). splits.
      + apply (xb_le (Z.max (0 + 128) 9)); [| lia]. apply xb_val; try lia; [apply Br | right; change (powerRZ 2 (- 0)) with 1; rewrite Rabs_left1 by lra; lra | change 9%Z with (Z.of_nat 9); rewrite p2_nat, Rabs_left1 by lra; cbn [pow]; lra].
      + rewrite Rabs_left1 by lra. lra.
      + rewrite e124. lra. }
  intros r0 (B0 & L0 & E0). assert (Hb : (0 <= 2 * K + 256 < 2 ^ 31)%Z) by (change (2 ^ 31)%Z with 2147483648%Z; lia). destruct Hb as [Hb1 Hb2].
  hs true 51%Z 116280%Z 381%Z 116476%Z 16%Z 1%Z.
  hs false 51%Z 27907200%Z 116476%Z 27966604%Z 24%Z 2%Z.
  hs true 51%Z 5079110400%Z 27966604%Z 5093373370%Z 32%Z 3%Z.
  hs false 51%Z 670442572800%Z 5093373370%Z 673040193220%Z 39%Z 4%Z.
  hs true 51%Z 60339831552000%Z 673040193220%Z 60683082050544%Z 45%Z 5%Z.
  hs false 51%Z 3379030566912000%Z 60683082050544%Z 3409978938757779%Z 51%Z 6%Z.
  hs true 51%Z 101370917007360000%Z 3409978938757779%Z 103110006266126469%Z 56%Z 7%Z.
  hs false 51%Z 1216451004088320000%Z 103110006266126469%Z 1269037107284044501%Z 60%Z 8%Z.
  match goal with H : Rabs (xR ?z - _) <= IZR (8 + 1) * _ * _ |- _ => rename z into rr; rename H into EF end. match goal with H : xb 200 rr |- _ => rename H into BF end. match goal with H : Rabs (xR rr) <= _ |- _ => rename H into LF end.
  set (N := 2432902008176640000) in *. assert (N0 : 0 < N) by (unfold N; lra). unfold hadd at 1.
  eapply returns_bind; [eapply returns_bind; [apply (mulR 200 (2 * K + 256) rr q); auto; change (2 ^ 40)%Z with 1099511627776%Z; change (2 ^ 31)%Z with 2147483648%Z in Hb2; lia |] |].
  { intros m (Bm & Lm & _ & Em). eapply returns_bind. { apply (fromR U64 2432902008176640000); [change (pmin U64) with 0%Z; change (pmax U64) with (2 ^ 64)%Z; change (2 ^ 64)%Z with 18446744073709551616%Z; lia | lia]. } intros f (Bf & Vf). fold N in Vf.
    assert (L1z : Rabs (xR rr * xR q) <= 27 / 100 * N). { rewrite Rabs_mult. apply (Rle_trans _ (1269037107284044501 * (51 / 100))); [apply Rmult_le_compat; auto; apply Rabs_pos | unfold N; lra]. }
    assert (EV : Rabs (xR m + N - N * PC (xR q)) <= 300 * ep 128 * N). { replace (N * PC (xR q)) with ((((((((((xR q - 380) * xR q + 1 * 116280) * xR q + -1 * 27907200) * xR q + 1 * 5079110400) * xR q + -1 * 670442572800) * xR q + 1 * 60339831552000) * xR q + -1 * 3379030566912000) * xR q + 1 * 101370917007360000) * xR q + -1 * 1216451004088320000) * xR q + N) by (unfold PC, N; field).
      match type of EF with Rabs (xR rr - ?P) <= _ => set (p := P) in * end. replace (xR m + N - (p * xR q + N)) with (xR m - xR rr * xR q + (xR rr - p) * xR q) by ring. eapply Rle_trans; [apply Rabs_triang |]. rewrite (Rabs_mult (xR rr - p)). rewrite e125 in Em. rewrite e124 in EF. change (IZR (8 + 1)) with 9 in EF.
      assert (8 * ep 128 * Rabs (xR rr * xR q) <= 8 * ep 128 * (27 / 100 * N)) by (apply Rmult_le_compat_l; lra). assert (Rabs (xR rr - p) * Rabs (xR q) <= 9 * (16 * ep 128) * 1269037107284044501 * (51 / 100)) by (apply Rmult_le_compat; auto; apply Rabs_pos). unfold N in *. lra. }
    assert (PR : Rabs (PC (xR q) - cos (xR x)) <= 6 / 10 * ep 80). { rewrite Vq. assert (Hs : Rabs (xR x) < 70711 / 100000) by lra. pose proof (PC_rem (Rabs (xR x)) y Hy Hs Dy) as T. destruct (Rle_dec 0 (xR x)) as [P | P]; [rewrite (Rabs_pos_eq (xR x)) in * by lra; auto |]. rewrite (Rabs_left1 (xR x)) in T by lra. rewrite cos_neg in T. auto. }
    assert (e80 : 100000 * ep 128 <= / 10 * ep 80). { change 128%nat with (48 + 80)%nat. rewrite ep_add. assert (ep 48 <= ep 20) by (apply ep_le; lia). assert (ep 20 <= / 1000000) by (unfold ep; cbn; lra). pose proof (ep_pos 80). apply (Rle_trans _ (100000 * (/ 1000000 * ep 80))); [apply Rmult_le_compat_l; [lra | apply Rmult_le_compat_r; lra] | lra]. } assert (e80' : ep 80 <= / 1024) by (apply (Rle_trans _ (ep 10)); [apply ep_le; lia | unfold ep; cbn; lra]). assert (e800 := ep_pos 80).
    assert (Lm2 : Rabs (xR m) <= 27 / 100 * N) by lra. assert (Lm3 := Lm2). apply Rabs_le_between in Lm3.
    assert (EV2 : Rabs ((xR m + N) / N - cos (xR x)) <= 7 / 10 * ep 80). { replace ((xR m + N) / N - cos (xR x)) with ((xR m + N - N * PC (xR q)) * / N + (PC (xR q) - cos (xR x))) by (field; lra). eapply Rle_trans; [apply Rabs_triang |]. rewrite Rabs_mult, (Rabs_pos_eq (/ N)) by (apply Rlt_le, Rinv_0_lt_compat; auto). assert (Rabs (xR m + N - N * PC (xR q)) * / N <= 300 * ep 128). { apply (Rmult_le_reg_r N); auto. rewrite Rmult_assoc, Rinv_l by lra. lra. } lra. }
    set (v := xR m + N) in *. assert (Nv : v / N * N = v) by (field; lra).
    assert (NC : ~ Rcarry v). { unfold kap in HC. fold N in HC. set (T61 := IZR (2 ^ 61)) in *. assert (T61v : T61 = 2305843009213693952) by reflexivity. assert (T : ep 129 * 2 <= ep 128) by (rewrite (ep_S 128); lra).
      assert (TN : T61 / N <= 1) by (apply (Rmult_le_reg_r N); auto; unfold Rdiv; rewrite Rmult_assoc, Rinv_l by lra; unfold N; lra). assert (TN2 : T61 / N * N = T61) by (field; lra).
      destruct (Rle_dec T61 v) as [A | A].
      - apply (nocarry_range _ (Z.of_nat 61)). change (Z.of_nat 61 + 1)%Z with (Z.of_nat 62). rewrite !p2_nat, !pow_IZR. change (2 ^ Z.of_nat 61)%Z with (2 ^ 61)%Z. fold T61. change (IZR (2 ^ Z.of_nat 62)) with 4611686018427387904. rewrite Rabs_pos_eq by (unfold v; lra). split; auto. unfold v, N in *. lra.
      - apply (nocarry_range _ (Z.of_nat 60)). change (Z.of_nat 60 + 1)%Z with (Z.of_nat 61). rewrite !p2_nat, !pow_IZR. change (2 ^ Z.of_nat 61)%Z with (2 ^ 61)%Z. fold T61. change (IZR (2 ^ Z.of_nat 60)) with 1152921504606846976. rewrite Rabs_pos_eq by (unfold v; lra). split; [unfold v, N in *; lra |].
        assert (D : v / N <= T61 / N - 2 / 10 * ep 80). { assert (v / N < T61 / N) by (apply Rmult_lt_compat_r; [apply Rinv_0_lt_compat; auto | lra]). apply Rabs_le_between in EV2. apply Rnot_lt_le. intros D. assert (Rabs (cos (xR x) - T61 / N) < ep 80) by (apply Rabs_def1; lra). lra. }
        assert (v <= T61 - 2 / 10 * ep 80 * N). { rewrite <- Nv, <- TN2. rewrite <- Rmult_minus_distr_r. apply Rmult_le_compat_r; lra. } rewrite T61v in *. unfold N in *. lra. }
    eapply returns_weaken; [apply (addR (200 + (2 * K + 256) + 256) m f); auto; [apply (xb_le 128); auto; lia | lia | change (2 ^ 32)%Z with 4294967296%Z; lia | right; rewrite Vf; exact NC] |]. rewrite Vf. fold v. intros rz [Brz Erz].
    instantiate (1 := fun rz => xb 200 rz /\ Rabs (xR rz / N - cos (xR x)) <= 8 / 10 * ep 80 /\ N * (1 / 2) <= xR rz <= N * 2). cbv beta.
    rewrite e127 in Erz. rewrite (Rabs_pos_eq v) in Erz by (unfold v; lra). assert (Er2 : Rabs (xR rz - v) <= 4 * ep 128 * N). { eapply Rle_trans; [exact Erz |]. assert (2 * ep 128 * v <= 2 * ep 128 * (2 * N)) by (apply Rmult_le_compat_l; unfold v; lra). lra. } assert (Er3 := Er2). apply Rabs_le_between in Er3. assert (4 * ep 128 * N <= N * / 1000). { rewrite (Rmult_comm _ N). apply Rmult_le_compat_l; lra. }
    assert (Rr : N * (1 / 2) <= xR rz <= N * 2) by (unfold v in *; lra). splits; [| | lra | lra].
    - apply (xb_le (Z.max (0 + 128) 63)); [| lia]. apply xb_val; try lia; [apply Brz | right; change (powerRZ 2 (- 0)) with 1; rewrite Rabs_pos_eq by lra; unfold N in *; lra | change 63%Z with (Z.of_nat 63); rewrite p2_nat, pow_IZR, Rabs_pos_eq by lra; change (IZR (2 ^ Z.of_nat 63)) with 9223372036854775808; unfold N in *; lra].
    - replace (xR rz / N - cos (xR x)) with ((xR rz - v) * / N + (v / N - cos (xR x))) by (field; lra). eapply Rle_trans; [apply Rabs_triang |]. rewrite Rabs_mult, (Rabs_pos_eq (/ N)) by (apply Rlt_le, Rinv_0_lt_compat; auto). assert (Rabs (xR rz - v) * / N <= 4 * ep 128). { apply (Rmult_le_reg_r N); auto. rewrite Rmult_assoc, Rinv_l by lra. lra. } lra. }
  intros rz (Brz & Erz & Rr). eapply returns_bind; [apply (shrR 200 rz 18); auto; [lia | change (2 ^ 32)%Z with 4294967296%Z; lia] |]. intros r2z (B2z & V2z).
  eapply returns_bind; [apply (divi_R (200 + 18) r2z 4100625); auto; try lia; change (2 ^ 32)%Z with 4294967296%Z; lia |]. intros r3z (B3z & _ & _ & E3z).
  eapply returns_weaken; [apply (divi_R (200 + 18 + 256) r3z 2263261); auto; try lia; change (2 ^ 32)%Z with 4294967296%Z; lia |]. intros c (Bc & _ & _ & Ec).
  change (- (18))%Z with (- Z.of_nat 18)%Z in V2z. rewrite p2_opp in V2z. rewrite (ep_num 18) in V2z. change (2 ^ Z.of_nat 18)%Z with 262144%Z in V2z. rewrite e127 in E3z, Ec. assert (e80 := ep_pos 80).
  assert (e80' : ep 80 <= / 1024) by (apply (Rle_trans _ (ep 10)); [apply ep_le; lia | unfold ep; cbn; lra]). assert (e80'' : 100000 * ep 128 <= / 10 * ep 80). { change 128%nat with (48 + 80)%nat. rewrite ep_add. assert (ep 48 <= ep 20) by (apply ep_le; lia). assert (ep 20 <= / 1000000) by (unfold ep; cbn; lra). apply (Rle_trans _ (100000 * (/ 1000000 * ep 80))); [apply Rmult_le_compat_l; [lra | apply Rmult_le_compat_r; lra] | lra]. }
  set (w := xR rz / N) in *. assert (Vr : xR r2z = w * 9280784638125 ). { rewrite V2z. unfold w, N. field. } rewrite Vr in E3z. assert (W : 1 / 2 <= w <= 2). { unfold w. split; apply (Rmult_le_reg_r N); auto; unfold Rdiv at 1; try (unfold Rdiv; rewrite !Rmult_assoc, Rinv_l by lra; lra). }
  replace (w * 9280784638125 / 4100625) with (w * 2263261) in E3z by field. rewrite (Rabs_pos_eq (w * 2263261)) in E3z by lra. assert (E4z : Rabs (xR r3z / 2263261 - w) <= 4 * ep 128). { replace (xR r3z / 2263261 - w) with ((xR r3z - w * 2263261) * / 2263261) by field. rewrite Rabs_mult, (Rabs_pos_eq (/ 2263261)) by lra. assert (2 * ep 128 * (w * 2263261) <= 2 * ep 128 * (2 * 2263261)) by (apply Rmult_le_compat_l; lra). lra. }
  assert (E5z : Rabs (xR r3z / 2263261) <= 3). { replace (xR r3z / 2263261) with (w + (xR r3z / 2263261 - w)) by ring. eapply Rle_trans; [apply Rabs_triang |]. rewrite (Rabs_pos_eq w) by lra. lra. }
  assert (E6z : Rabs (xR c - w) <= 10 * ep 128). { replace (xR c - w) with (xR c - xR r3z / 2263261 + (xR r3z / 2263261 - w)) by ring. eapply Rle_trans; [apply Rabs_triang |]. assert (2 * ep 128 * Rabs (xR r3z / 2263261) <= 2 * ep 128 * 3) by (apply Rmult_le_compat_l; lra). lra. }
  split.
  - apply Rabs_le_between in E6z. apply (xb_le (Z.max (2 + 128) 2)); [| lia]. apply xb_val; try lia; [apply Bc | right; change (- (2))%Z with (- Z.of_nat 2)%Z; rewrite p2_opp; unfold ep; cbn [pow]; rewrite Rabs_pos_eq by lra; lra | change 2%Z with (Z.of_nat 2); rewrite p2_nat; cbn [pow]; rewrite Rabs_pos_eq by lra; lra].
  - replace (xR c - cos (xR x)) with (xR c - w + (w - cos (xR x))) by ring. eapply Rle_trans; [apply Rabs_triang |]. lra.
Qed.
