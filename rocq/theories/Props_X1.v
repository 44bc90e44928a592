(** Properties C44, C45, C46, C47 and C49: the type F192. *)
From Coq Require Import ZArith QArith Qabs Lqa Lia Bool List.
From Verif Require Import Base UBig UStr USpec UAddSub UEq BBig BSpec BEq RBig RSpec REq RIeee FSpec RIeeeP XNum XSpec XP1 XP2 XP3 XP4 XP5 XP6 XP7 XP8.
Local Open Scope Z_scope.

(** The bit pattern of the negative number of smallest magnitude, -2^127 * 2^(-2^48), whose negation would be the pattern of zero. *)
Definition LOWEST : f192 := mkX (2 ^ 127) 0.
Lemma pow_val n : EXPC + n <> 0 -> (xval (mkX 0 (EXPC + n)) == inject_Z (2 ^ 127) * two n)%Q.
Proof.
  intros H. unfold xval, xmag, xsign, xnull, xsig, xpow. cbn [xd xe]. change (2 ^ 127 <=? 0) with false. change (0 =? 0) with true. change (0 mod 2 ^ 127) with 0. rewrite (proj2 (Z.eqb_neq (EXPC + n) 0) H). cbn [andb].
  rewrite Z.add_0_r. replace (EXPC + n - 2 ^ 48) with n by (change (2 ^ 48) with EXPC; ring). reflexivity.
Qed.
Lemma big_int a : xsign a = false -> xnull a = false -> 0 <= xpow a -> exists z, (xval a == inject_Z z)%Q.
Proof. intros S N P. exists (xsig a * 2 ^ xpow a). unfold xval, xmag. rewrite S, N. rewrite inject_Z_mult, <- two_Z by auto. reflexivity. Qed.
Lemma not_lowest a : a <> LOWEST -> xlowest a = false.
Proof. intros H. destruct (xlowest a) eqn:E; auto. exfalso. apply H. now apply lowest_eq. Qed.

(** ** C44 order, sign, shifts, neighbours *)
Theorem C44_cmp : forall a b, xwf a -> xwf b -> xcmp a b = (xval a ?= xval b)%Q /\ (xeq a b = true <-> (xval a == xval b)%Q) /\
  (xlt a b = true <-> (xval a < xval b)%Q) /\ (xle a b = true <-> (xval a <= xval b)%Q) /\ (xgt a b = true <-> (xval b < xval a)%Q) /\ (xge a b = true <-> (xval b <= xval a)%Q).
Proof. intros a b Wa Wb. splits; [now apply xcmp_ok | now apply xeq_ok | now apply xlt_ok | now apply xle_ok | now apply xgt_ok | now apply xge_ok]. Qed.
(** no two patterns denote the same number *)
Theorem C44_injective : forall a b, xwf a -> xwf b -> (xval a == xval b)%Q -> a = b.
Proof. exact xval_inj. Qed.
Theorem C44_sign : forall a, xwf a -> (xis_zero a = true <-> (xval a == 0)%Q) /\ (xis_neg a = true <-> (xval a < 0)%Q).
Proof.
  intros a W. rewrite xis_neg_sign by auto. rewrite xis_zero_null. pose proof (xval_sign a W) as S. split.
  - split; [intros N; now rewrite (xnull_zero a N) |]. intros V. destruct (xnull a) eqn:N; auto. pose proof (xabs_val a W) as A. rewrite V in A. pose proof (xmag_pos a W N). change (Qabs 0) with 0%Q in A. lra.
  - destruct (xsign a); split; auto; try discriminate. intros. lra.
Qed.
Theorem C44_neg_abs_partial : forall a, xwf a -> a <> LOWEST -> xwf (xneg a) /\ (xval (xneg a) == - xval a)%Q /\ xwf (xabs a) /\ (xval (xabs a) == Qabs (xval a))%Q.
Proof. intros a W L. apply not_lowest in L. splits; [now apply xneg_wf | now apply xneg_ok | now apply xabs_wf | now apply xabs_ok]. Qed.
Theorem C44_neg_abs_refuted : xwf LOWEST /\ (xval LOWEST < 0)%Q /\ xneg LOWEST = xZERO /\ xabs LOWEST = xZERO.
Proof. split; [split; cbn; lia |]. split; [apply xlowest_val; reflexivity |]. split; reflexivity. Qed.
Theorem C44_shl : forall a n, xwf a -> 0 <= n -> xe a + n < 2 ^ 64 -> returns (xshl a n) (fun c => xwf c /\ (xval c == xval a * two n)%Q).
Proof. exact xshl_ok. Qed.
Theorem C44_shr : forall a n, xwf a -> 0 <= n < xe a -> returns (xshr a n) (fun c => xwf c /\ (xval c == xval a * two (- n))%Q).
Proof. exact xshr_ok. Qed.
Theorem C44_shr_underflow : forall a n, xwf a -> 0 <= n -> xe a < n \/ xval a == 0%Q -> xshr a n = Ok xZERO.
Proof.
  intros a n W Hn [H | H]; [now apply xshr_under |]. assert (N : xnull a = true) by (rewrite <- xis_zero_null; now apply (C44_sign a W)). rewrite (xnull_zero a N). now apply xshr_zero.
Qed.
(** the next number away from zero: nothing of the same sign lies between *)
Theorem C44_step : forall a, xwf a -> a <> xMAX -> a <> xMIN -> returns (xstep a) (fun c => xwf c /\ xsign c = xsign a /\ (Qabs (xval a) < Qabs (xval c))%Q /\
  forall y, xwf y -> xsign y = xsign a -> (Qabs (xval a) < Qabs (xval y) -> Qabs (xval c) <= Qabs (xval y))%Q).
Proof.
  intros a W M1 M2. eapply returns_weaken; [apply xstep_ok; auto |].
  - intros [K1 K2]. destruct (xof_of a W) as (E & S & _). change (2 ^ 127) with SIGNM in *. unfold xsig in E, S. change (2 ^ 127) with SIGNM in E, S. rewrite K1, K2 in E. destruct (xsign a); [apply M2 | apply M1]; rewrite E; reflexivity.
  - intros c (Wc & Sc & Ic). split; [auto |]. split; [auto |]. rewrite !xabs_val by auto. pose proof (xmag_idx a c W Wc ltac:(congruence)) as K. split.
    + rewrite Qlt_alt, K. apply Z.compare_lt_iff. lia.
    + intros y Wy Sy. rewrite ?xabs_val by auto. pose proof (xmag_idx a y W Wy ltac:(congruence)) as K1. pose proof (xmag_idx c y Wc Wy ltac:(congruence)) as K2.
      intros H. apply Qlt_alt in H. apply Qle_alt. rewrite K2. assert (H1 : xidx a < xidx y) by exact (eq_trans (eq_sym K1) H). intros H2. apply Z.compare_gt_iff in H2. lia.
Qed.
Theorem C44_is_integer_partial : forall a, xwf a -> xe a < 2 ^ 63 -> exists b, xis_integer a = Ok b /\ (b = true <-> exists z, (xval a == inject_Z z)%Q).
Proof. exact xis_integer_ok. Qed.
(** exponents of 2^63 and more are read as negative *)
Theorem C44_is_integer_refuted : xwf xMAX /\ xis_integer xMAX = Ok false /\ (exists z, (xval xMAX == inject_Z z)%Q) /\ xwf (mkX 0 (2 ^ 63)) /\ xis_integer (mkX 0 (2 ^ 63)) = Panic.
Proof.
  split; [split; split; vm_compute; congruence |]. split; [reflexivity |]. split; [apply big_int; [reflexivity | reflexivity | vm_compute; discriminate] |]. split; [split; cbn; lia | reflexivity].
Qed.
Example C44_case : xcmp (mkX 1 (EXPC - 127)) xONE = Gt /\ xstep xONE = Ok (mkX 1 (EXPC - 127)) /\ xneg xONE = mkX (2 ^ 127) (EXPC - 127) /\ xONE <> LOWEST /\ xis_integer (mkX (2 ^ 126) (EXPC - 127)) = Ok false.
Proof. splits; try reflexivity. discriminate. Qed.

(** ** C45 addition and subtraction *)
(** operands of the same sign: the sum rounded toward zero *)
Theorem C45_add_same_sign : forall a b, xwf a -> xwf b -> xnull a = false -> xnull b = false -> xsign a = xsign b -> xe a + 1 < 2 ^ 64 -> xe b + 1 < 2 ^ 64 ->
  returns (xadd a b) (xrounds_down (xval a + xval b)).
Proof. intros. now apply xadd_same_rounds. Qed.
Theorem C45_sub_opposite_sign : forall a b, xwf a -> xwf b -> xnull a = false -> xnull b = false -> a <> LOWEST -> b <> LOWEST -> xsign a <> xsign b -> xe a + 1 < 2 ^ 64 -> xe b + 1 < 2 ^ 64 ->
  returns (xsub a b) (xrounds_down (xval a - xval b)).
Proof. intros. apply xsub_opp; auto using not_lowest. Qed.
(** cancellation: a nearest number.  Missing: exponents of 2^32 and more, and results that round up to a power of two; both are refuted below. *)
Theorem C45_add_opposite_sign_partial : forall a b, xwf a -> xwf b -> xnull a = false -> xnull b = false -> xsign a <> xsign b -> Z.abs (xpow a) < 2 ^ 32 -> Z.abs (xpow b) < 2 ^ 32 ->
  ~ xcarry (xval a + xval b) -> returns (xadd a b) (xnearest (xval a + xval b)).
Proof.
  intros a b Wa Wb Na Nb S Pa Pb C. assert (L : forall x, Z.abs (xpow x) < 2 ^ 32 -> xlowest x = false) by (intros x P; apply not_lowest; intros ->; vm_compute in P; discriminate).
  rewrite xadd_opp by auto. apply (xsum_ok (2 ^ 32) eq_refl); auto.
Qed.
Theorem C45_sub_same_sign_partial : forall a b, xwf a -> xwf b -> xnull a = false -> xnull b = false -> xsign a = xsign b -> Z.abs (xpow a) < 2 ^ 32 -> Z.abs (xpow b) < 2 ^ 32 ->
  ~ xcarry (xval a - xval b) -> returns (xsub a b) (xnearest (xval a - xval b)).
Proof. intros a b Wa Wb Na Nb S Pa Pb C. unfold xsub. rewrite xsub_same by auto. apply (xdiff_ok (2 ^ 32) eq_refl); auto. Qed.
(** a difference that is representable comes out exactly, so in particular x - x = 0 *)
Theorem C45_sub_exact : forall a b d, xwf a -> xwf b -> xwf d -> xnull a = false -> xnull b = false -> xsign a = xsign b -> Z.abs (xpow a) < 2 ^ 32 -> Z.abs (xpow b) < 2 ^ 32 ->
  (xval d == xval a - xval b)%Q -> xsub a b = Ok d.
Proof. intros a b d Wa Wb Wd Na Nb S Pa Pb V. unfold xsub. rewrite xsub_same by auto. rewrite <- (rof_qeq _ _ V). now apply xfrom_ratio_exact. Qed.
Theorem C45_sub_self : forall a, xwf a -> xnull a = false -> Z.abs (xpow a) < 2 ^ 32 -> xsub a a = Ok xZERO.
Proof. intros a W N P. apply (C45_sub_exact a a xZERO); auto. - apply xwf_zero. - rewrite xval_zero. ring. Qed.
Theorem C45_comm : forall a b, xwf a -> xwf b -> xadd a b = xadd b a.
Proof. exact xadd_comm. Qed.
Theorem C45_zero_partial : forall a, xwf a -> a <> LOWEST -> xadd a xZERO = Ok a /\ xadd xZERO a = Ok a /\ xsub a xZERO = Ok a /\ xsub xZERO a = Ok (xneg a).
Proof. intros a W L. apply not_lowest in L. splits; [now apply xadd_zero_r | now apply xadd_zero_l | now apply xsub_zero_r | now apply xsub_zero_l]. Qed.
Theorem C45_zero_refuted : xadd LOWEST xZERO = Ok xZERO /\ LOWEST <> xZERO.
Proof. split; [reflexivity | discriminate]. Qed.
(** 2^128 - 1/4 comes out as -2^127: rounding up to 2^128 sets the bit that holds the sign *)
Theorem C45_carry_refuted : exists a b, xwf a /\ xwf b /\ (xval a == inject_Z (2 ^ 128))%Q /\ (xval b == 1 # 4)%Q /\ xsub a b = Ok (mkX (2 ^ 127) EXPC) /\ (xval (mkX (2 ^ 127) EXPC) == - inject_Z (2 ^ 127))%Q.
Proof. exists (mkX 0 (EXPC + 1)), (mkX 0 (EXPC - 129)). split; [split; cbn; lia |]. split; [split; cbn; lia |]. splits; try (vm_compute; reflexivity). Qed.
(** exponents are taken modulo 2^32 when signs differ: 2^127 * 2^(2^32) - 1 comes out as 2^127 - 1 *)
Theorem C45_exponent_refuted : exists a c, xwf a /\ (xval a == inject_Z (2 ^ 127) * two (2 ^ 32))%Q /\ xsub a xONE = Ok c /\ (xval c == inject_Z (2 ^ 127 - 1))%Q.
Proof.
  exists (mkX 0 (EXPC + 2 ^ 32)). eexists. split; [split; cbn; lia |]. split; [apply pow_val; discriminate |]. split; [vm_compute; reflexivity |]. unfold Qeq. vm_compute. reflexivity.
Qed.
Lemma no_carry_int z : z <> 0 -> Z.abs z < 2 ^ 127 -> ~ xcarry (inject_Z z).
Proof.
  intros Hz B (E & C1 & C2). change (Qabs (inject_Z z)) with (inject_Z (Z.abs z)) in *.
  assert (K : (inject_Z (2 * SIGNM) - (1 # 2) <= inject_Z (Z.abs z) * two (- E) < inject_Z (2 * SIGNM))%Q) by (split; [now apply scale_le' | now apply scale_lt]).
  destruct (Z_le_gt_dec E 0) as [E0 | E0].
  - rewrite two_Z, <- inject_Z_mult in K by lia. destruct K as [K1 K2]. rewrite <- Zlt_Qlt in K2. assert (Kz : (inject_Z (2 * SIGNM - 1) < inject_Z (Z.abs z * 2 ^ (- E)))%Q) by (rewrite <- Z.add_opp_r, inject_Z_plus; change (inject_Z (- (1))) with (- (1))%Q; lra).
    rewrite <- Zlt_Qlt in Kz. lia.
  - assert (T : (two (- E) <= 1)%Q) by (change 1%Q with (two 0); apply two_le; lia). pose proof (two_pos (- E)). rewrite Zlt_Qlt in B. assert ((inject_Z (2 ^ 127) < inject_Z (2 * SIGNM) - (1 # 2))%Q) by reflexivity.
    assert ((0 <= inject_Z (Z.abs z))%Q) by (change 0%Q with (inject_Z 0); rewrite <- Zle_Qle; lia). nra.
Qed.
Example C45_case : exists a b, xwf a /\ xwf b /\ xnull a = false /\ xnull b = false /\ xsign a = xsign b /\ Z.abs (xpow a) < 2 ^ 32 /\ Z.abs (xpow b) < 2 ^ 32 /\ ~ xcarry (xval a - xval b) /\ xsub a b = Ok (mkX (2 ^ 126) (EXPC - 126)).
Proof.
  exists (mkX (2 ^ 125) (EXPC - 125)), (mkX 0 (EXPC - 126)). split; [split; cbn; lia |]. split; [split; cbn; lia |]. do 5 (split; [vm_compute; reflexivity |]). split; [| vm_compute; reflexivity]. assert (E : (xval (mkX (2 ^ 125) (EXPC - 125)) - xval (mkX 0 (EXPC - 126)) == inject_Z 3)%Q) by (unfold Qeq; vm_compute; reflexivity).
  intros (e & C). apply (no_carry_int 3); [lia | lia |]. exists e. rewrite <- E. exact C.
Qed.

(** ** C46 multiplication *)
Theorem C46_mul : forall a b, xwf a -> xwf b -> xnull a = false -> xnull b = false -> EXPC <= xe a + xe b < 2 ^ 64 -> xe a + xe b - EXPC + 128 < 2 ^ 64 ->
  returns (xmul a b) (fun c => xbelow 4 (xval a * xval b) c /\ xnull c = false).
Proof. exact xmul_ok. Qed.
(** relative error below 2^-125 *)
Theorem C46_mul_relative : forall a b, xwf a -> xwf b -> xnull a = false -> xnull b = false -> EXPC <= xe a + xe b < 2 ^ 64 -> xe a + xe b - EXPC + 128 < 2 ^ 64 ->
  returns (xmul a b) (fun c => xwf c /\ (Qabs (xval c - xval a * xval b) < two (- 125) * Qabs (xval a * xval b))%Q).
Proof.
  intros a b Wa Wb Na Nb L1 L2. eapply returns_weaken; [apply xmul_ok; auto |]. intros c ((Wc & B1 & B2 & B3) & Nc). split; auto.
  destruct (xmag_bin c Wc Nc) as [M1 _]. assert (A := xabs_val c Wc). rewrite two_plus in M1. unfold xulp in B3. change (inject_Z 4) with 4%Q in B3. assert (T := two_pos (xpow c)).
  assert (T4 : (4 == two (- 125) * two 127)%Q) by reflexivity. assert (Tp := two_pos (- 125)). rewrite T4 in B3.
  set (q := (xval a * xval b)%Q) in *. set (x := xval c) in *. set (u := two (- 125)) in *. set (v := two 127) in *. set (w := two (xpow c)) in *. rewrite <- A in M1. clearbody q x u v w. clear - B1 B2 B3 M1 Tp.
  assert (D : (Qabs (x - q) == Qabs q - Qabs x)%Q) by (revert B1; apply (Qabs_case x); intros; revert B1; apply (Qabs_case q); intros; apply Qabs_case; intros; try lra; assert (x == 0)%Q by nra; lra).
  rewrite D. assert ((u * v * w <= u * Qabs x)%Q) by (setoid_replace (u * v * w)%Q with (w * v * u)%Q by ring; rewrite (Qmult_comm u); apply Qmult_le_r; auto).
  assert ((u * Qabs x <= u * Qabs q)%Q) by (rewrite !(Qmult_comm u); apply Qmult_le_r; auto). lra.
Qed.
(** exact when both significands end in 64 zero bits *)
Theorem C46_mul_exact : forall a b, xwf a -> xwf b -> xnull a = false -> xnull b = false -> EXPC <= xe a + xe b < 2 ^ 64 -> xe a + xe b - EXPC + 128 < 2 ^ 64 ->
  xd a mod 2 ^ 64 = 0 -> xd b mod 2 ^ 64 = 0 -> returns (xmul a b) (fun c => xwf c /\ (xval c == xval a * xval b)%Q).
Proof. intros. apply xmul_exact; auto. Qed.
Theorem C46_comm : forall a b, xmul a b = xmul b a.
Proof. exact xmul_comm. Qed.
Theorem C46_zero : forall a, xmul a xZERO = Ok xZERO /\ xmul xZERO a = Ok xZERO.
Proof. intros a. rewrite xmul_comm. split; reflexivity. Qed.
Theorem C46_underflow : forall a b, xwf a -> xwf b -> xnull a = false -> xnull b = false -> xe a + xe b < EXPC -> xmul a b = Ok xZERO.
Proof. intros a b [_ Wa] [_ Wb] Na Nb H. apply xmul_under; try rewrite xis_zero_null; auto; lia. Qed.
(** multiplying by one clears the last bit *)
Theorem C46_one_partial : forall a, xwf a -> xnull a = false -> 127 <= xe a -> xe a + EXPC + 1 < 2 ^ 64 -> xmul a xONE = Ok (mkX (xd a - xd a mod 2) (xe a)) /\ (xd a mod 2 = 0 -> xmul a xONE = Ok a).
Proof. intros a W N H1 H2. rewrite xmul_one by auto. split; auto. intros ->. rewrite Z.sub_0_r. now destruct a. Qed.
Theorem C46_one_refuted : exists a, xwf a /\ xmul a xONE <> Ok a /\ a = xPI.
Proof. exists xPI. split; [split; cbn; lia |]. split; [vm_compute; discriminate | reflexivity]. Qed.
(** by a machine integer: rounded toward zero, or a panic when adding the carried part overflows *)
Theorem C46_mul_i32_partial : forall s a, xwf s -> xnull s = false -> a <> 0 -> - 2 ^ 31 < a < 2 ^ 31 -> 0 < xe s -> xe s + 32 < 2 ^ 64 ->
  xmul_i32 s a = Panic \/ returns (xmul_i32 s a) (xrounds_down (xval s * inject_Z a)).
Proof.
  intros s a W N Ha Ra X1 X2. destruct (xmul_i32_ok s a W N Ha Ra X1 X2) as [K1 K2]. destruct (Z_lt_le_dec (xsig s * Z.abs a * 2 ^ nshift (xsig s / 2 ^ 32 * Z.abs a)) (2 ^ 160)); auto.
Qed.
Theorem C46_mul_i32_short : forall s a, xwf s -> xnull s = false -> a <> 0 -> - 2 ^ 31 < a < 2 ^ 31 -> 0 < xe s -> xe s + 32 < 2 ^ 64 -> xd s mod 2 ^ 32 = 0 ->
  returns (xmul_i32 s a) (xrounds_down (xval s * inject_Z a)).
Proof.
  intros s a W N Ha Ra X1 X2 Hd. destruct (xmul_i32_ok s a W N Ha Ra X1 X2) as [K1 _]. apply K1. destruct (xof_of s W) as (_ & [S1 S2] & _).
  assert (D0 : xsig s mod 2 ^ 32 = 0).
  { apply Z.mod_divide; [lia |]. apply Z.mod_divide in Hd; [| lia]. unfold xsig. apply Z.divide_add_r; [exists (2 ^ 95); reflexivity |]. rewrite Z.mod_eq by lia. apply Z.divide_sub_r; auto. apply Z.divide_mul_l. exists (2 ^ 95). reflexivity. }
  pose proof (Z.div_mod (xsig s) (2 ^ 32) ltac:(lia)) as DM. rewrite D0 in DM. set (h := xsig s / 2 ^ 32) in *. pose proof PS.
  destruct (nshift_ok (h * Z.abs a)) as [[_ B] _]. { rewrite ?P128 in *. assert (2 ^ 95 <= h < 2 ^ 96) by (change SIGNM with (2 ^ 127) in *; lia). assert (2 ^ 96 * 2 ^ 31 = SIGNM) by reflexivity. nia. }
  rewrite DM. replace ((2 ^ 32 * h + 0) * Z.abs a * 2 ^ nshift (h * Z.abs a)) with (2 ^ 32 * (h * Z.abs a * 2 ^ nshift (h * Z.abs a))) by ring. set (g := h * Z.abs a * 2 ^ nshift (h * Z.abs a)) in *. clearbody g. change SIGNM with (2 ^ 127) in B. lia.
Qed.
Theorem C46_mul_i32_zero : forall s a, xmul_i32 xZERO a = Ok xZERO /\ xmul_i32 s 0 = Ok xZERO.
Proof. intros. unfold xmul_i32. rewrite Z.eqb_refl, orb_true_r. split; reflexivity. Qed.
Theorem C46_mul_i32_refuted : exists s, xwf s /\ xpow s = 0 /\ xmul_i32 s 3 = Panic /\ xmul_i32 xONE (- 2 ^ 31) = Panic.
Proof. exists (mkX (((2 ^ 97 - 2) / 3 * 2 ^ 32 + 2 ^ 32 - 1) mod 2 ^ 127) EXPC). split; [split; vm_compute; split; congruence |]. splits; vm_compute; reflexivity. Qed.
Example C46_case : xmul (mkX (2 ^ 126) (EXPC - 127)) (mkX (2 ^ 125) (EXPC - 127)) = Ok (mkX (2 ^ 127 - 2 ^ 124) (EXPC - 127)) /\ xmul_i32 xONE 3 = Ok (mkX (2 ^ 126) (EXPC - 126)) /\
  EXPC <= xe (mkX (2 ^ 126) (EXPC - 127)) + xe (mkX (2 ^ 125) (EXPC - 127)) < 2 ^ 64.
Proof. splits; try (vm_compute; reflexivity); try (vm_compute; discriminate). Qed.

(** ** C47 division *)
(** [xleast s o c]: no positive number below c has a computed product with o that reaches s, and c has one *)
Theorem C47_div : forall a b, xwf a -> xwf b -> xnull a = false -> xnull b = false -> Z.abs (xpow a) < 2 ^ 36 -> Z.abs (xpow b) < 2 ^ 36 ->
  returns (xdiv a b) (fun c => xwf c /\ xnull c = false /\ xsign c = xorb (xsign a) (xsign b) /\
    (Qabs (xval a / xval b) <= Qabs (xval c))%Q /\ (Qabs (xval c) < Qabs (xval a / xval b) + 9 * xulp c)%Q /\ xleast (xabs a) (xabs b) (xabs c)).
Proof. exact xdiv_main. Qed.
(** an exact quotient is found when multiplying it back is exact, in particular when divisor and quotient end in 64 zero bits *)
Theorem C47_div_exact : forall a b q, xwf a -> xwf b -> xwf q -> xnull a = false -> xnull b = false -> Z.abs (xpow a) < 2 ^ 36 -> Z.abs (xpow b) < 2 ^ 36 -> 0 < xe q ->
  (xval q * xval b == xval a)%Q -> xmul (xabs b) (xabs q) = Ok (xabs a) -> xdiv a b = Ok q.
Proof. exact xdiv_exact. Qed.
Theorem C47_div_short : forall b q, xwf b -> xwf q -> xd b mod 2 ^ 64 = 0 -> xd q mod 2 ^ 64 = 0 -> xnull b = false -> xnull q = false -> Z.abs (xpow b) < 2 ^ 34 -> Z.abs (xpow q) < 2 ^ 34 ->
  exists a, xmul q b = Ok a /\ (xval a == xval q * xval b)%Q /\ xdiv a b = Ok q.
Proof. intros. apply xdiv_short; auto. Qed.
Theorem C47_div_zero : forall a b, (xis_zero a = true -> xdiv a b = Ok xZERO) /\ (xis_zero a = false -> xis_zero b = true -> xdiv a b = Panic).
Proof. intros a b. unfold xdiv. split; [intros -> | intros -> ->]; reflexivity. Qed.
Theorem C47_div_i32 : forall s a, xwf s -> xnull s = false -> a <> 0 -> - 2 ^ 31 < a < 2 ^ 31 -> 31 < xe s -> returns (xdiv_i32 s a) (xrounds_down (xval s / inject_Z a)).
Proof. exact xdiv_i32_ok. Qed.
Theorem C47_div_i32_zero : forall s a, xdiv_i32 s 0 = Panic /\ (a <> 0 -> xdiv_i32 xZERO a = Ok xZERO).
Proof. intros s a. split; [reflexivity |]. intros. unfold xdiv_i32. destruct (Z.eqb_spec a 0); [lia | reflexivity]. Qed.
Theorem C47_div_i32_refuted : xdiv_i32 xONE (- 2 ^ 31) = Panic.
Proof. reflexivity. Qed.
Example C47_case : Z.abs (xpow xONE) < 2 ^ 36 /\ xdiv_i32 xONE 3 = Ok (mkX (2 ^ 127 / 3) (EXPC - 129)).
Proof. split; [cbn; lia |]. vm_compute. reflexivity. Qed.

(** ** C49 Ratio *)
Theorem C49_to_ratio_partial : forall a, xwf a -> Z.abs (xpow a) < 2 ^ 32 -> returns (xto_ratio a) (fun r => rwf r /\ (rval r == xval a)%Q).
Proof. intros a W P. rewrite xto_ratio_ok by auto. apply returns_ok. split; [apply rof_wf | apply rof_val]. Qed.
Theorem C49_to_ratio_refuted : exists a r, xwf a /\ (xval a == inject_Z (2 ^ 127) * two (2 ^ 32))%Q /\ xto_ratio a = Ok r /\ (rval r == inject_Z (2 ^ 127))%Q.
Proof. exists (mkX 0 (EXPC + 2 ^ 32)). eexists. split; [split; cbn; lia |]. split; [apply pow_val; discriminate |]. split; vm_compute; reflexivity. Qed.
Theorem C49_from_ratio_partial : forall r E, rwf r -> (inject_Z (2 ^ 127) * two E <= Qabs (rval r))%Q -> (Qabs (rval r) < (inject_Z (2 ^ 128) - (1 # 2)) * two E)%Q -> 0 < E + 2 ^ 48 < 2 ^ 64 ->
  returns (xfrom_ratio r) (xnearest (rval r)).
Proof.
  intros r E W L U HE. destruct (xfrom_ratio_near (rval r) E L U HE) as [K1 K2]. rewrite (rof_rval r W) in K1. rewrite K1. now apply returns_ok.
Qed.
(** everything that rounds up to a power of two becomes minus half of it *)
Theorem C49_from_ratio_carry_refuted : forall r E, rwf r -> ((inject_Z (2 ^ 128) - (1 # 2)) * two E <= Qabs (rval r))%Q -> (Qabs (rval r) < inject_Z (2 ^ 128) * two E)%Q -> 0 <= E + 2 ^ 48 < 2 ^ 64 ->
  xfrom_ratio r = Ok (mkX (2 ^ 127) (E + 2 ^ 48)) /\ (xval (mkX (2 ^ 127) (E + 2 ^ 48)) == - (inject_Z (2 ^ 127) * two E))%Q.
Proof.
  intros r E W L U HE. pose proof (xfrom_ratio_carry (rval r) E L U HE) as K. rewrite (rof_rval r W) in K. split; [exact K |]. unfold xval, xmag, xsign, xnull, xsig, xpow. cbn [xd xe]. rewrite Z.leb_refl. change (2 ^ 127 =? 0) with false. cbn [andb].
  change (2 ^ 127 + 2 ^ 127 mod 2 ^ 127) with (2 ^ 127). replace (E + 2 ^ 48 - 2 ^ 48) with E by ring. reflexivity.
Qed.
Theorem C49_zero : forall r, rwf r -> (rval r == 0)%Q -> xfrom_ratio r = Ok xZERO.
Proof. intros r W V. rewrite <- (rof_rval r W). now apply xfrom_ratio_zero. Qed.
(** a representable value is taken over exactly; there and back is the identity *)
Theorem C49_from_ratio_exact : forall r a, rwf r -> xwf a -> (rval r == xval a)%Q -> xfrom_ratio r = Ok a.
Proof. intros r a W Wa V. rewrite <- (rof_rval r W), (rof_qeq _ _ V). now apply xfrom_ratio_exact. Qed.
Theorem C49_round_trip : forall a r, xwf a -> Z.abs (xpow a) < 2 ^ 32 -> xto_ratio a = Ok r -> xfrom_ratio r = Ok a.
Proof. intros a r W P H. rewrite xto_ratio_ok in H by auto. injection H as <-. now apply xfrom_ratio_exact. Qed.
Example C49_case : xfrom_ratio (rof (1 # 3)) = Ok (mkX (2 ^ 127 / 3 + 1) (EXPC - 129)) /\ (inject_Z (2 ^ 127) * two (- 129) <= Qabs (1 # 3) < (inject_Z (2 ^ 128) - (1 # 2)) * two (- 129))%Q.
Proof. split; [vm_compute; reflexivity |]. split; vm_compute; [discriminate | reflexivity]. Qed.

Print Assumptions C44_cmp.
Print Assumptions C44_injective.
Print Assumptions C44_sign.
Print Assumptions C44_neg_abs_partial.
Print Assumptions C44_neg_abs_refuted.
Print Assumptions C44_shl.
Print Assumptions C44_shr.
Print Assumptions C44_shr_underflow.
Print Assumptions C44_step.
Print Assumptions C44_is_integer_partial.
Print Assumptions C44_is_integer_refuted.
Print Assumptions C45_add_same_sign.
Print Assumptions C45_sub_opposite_sign.
Print Assumptions C45_add_opposite_sign_partial.
Print Assumptions C45_sub_same_sign_partial.
Print Assumptions C45_sub_exact.
Print Assumptions C45_sub_self.
Print Assumptions C45_comm.
Print Assumptions C45_zero_partial.
Print Assumptions C45_zero_refuted.
Print Assumptions C45_carry_refuted.
Print Assumptions C45_exponent_refuted.
Print Assumptions C46_mul.
Print Assumptions C46_mul_relative.
Print Assumptions C46_mul_exact.
Print Assumptions C46_comm.
Print Assumptions C46_zero.
Print Assumptions C46_underflow.
Print Assumptions C46_one_partial.
Print Assumptions C46_one_refuted.
Print Assumptions C46_mul_i32_partial.
Print Assumptions C46_mul_i32_short.
Print Assumptions C46_mul_i32_zero.
Print Assumptions C46_mul_i32_refuted.
Print Assumptions C47_div.
Print Assumptions C47_div_exact.
Print Assumptions C47_div_short.
Print Assumptions C47_div_zero.
Print Assumptions C47_div_i32.
Print Assumptions C47_div_i32_zero.
Print Assumptions C47_div_i32_refuted.
Print Assumptions C49_to_ratio_partial.
Print Assumptions C49_to_ratio_refuted.
Print Assumptions C49_from_ratio_partial.
Print Assumptions C49_from_ratio_carry_refuted.
Print Assumptions C49_zero.
Print Assumptions C49_from_ratio_exact.
Print Assumptions C49_round_trip.
