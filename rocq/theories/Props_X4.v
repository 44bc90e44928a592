(** Properties C65 to C67: logarithms and powers of F192 against the real functions.
    [xR a] is the real number denoted by [a], [ep k] is 2^-k. *)
From Verif Require Import Base FSpec RSpec UBig UFun UStr UAddSub BBig BEq RBig RIeee RIeeeP XNum XFun XSpec XP1 XP2 XP3 XP6 XP7 XP8 XP9 XC13 XPow XFast Props_X1 Props_X2 RReal RReal4 XReal Props_R5 XErr XLog XPw.
From Coq Require Import Reals Lra Lia Qreals ZArith QArith Qabs Bool.
From Coquelicot Require Import Coquelicot.
Local Open Scope R_scope.

Lemma lg_pos x : 0 < x -> lg x = ln x / ln 2. Proof. intros H. unfold lg. now rewrite Rabs_pos_eq by lra. Qed.
Lemma band_out a : powerRZ 2 (-128) <= xR a -> ~ log2_band (lg (xR a)).
Proof.
  intros H (k & Hk & B & _). assert (L := lg_le (powerRZ 2 (-128)) (xR a)). pose proof (p2_pos (-128)). rewrite lg_p2, !Rabs_pos_eq in L by lra. specialize (L ltac:(lra) H).
  assert (2 ^ 8 <= 2 ^ k) by (apply Rle_pow; [lra | auto]). assert (e1 : ep 129 <= / 1024) by (apply (Rle_trans _ (ep 10)); [apply ep_le; lia | unfold ep; cbn; lra]). assert (e2 : ep 118 <= / 1024) by (apply (Rle_trans _ (ep 10)); [apply ep_le; lia | unfold ep; cbn; lra]).
  set (w := 2 ^ k) in *. cbn [pow] in H1. assert (w * ep 129 <= w * / 1024) by (apply Rmult_le_compat_l; lra). lra.
Qed.
Lemma xb_of a : xwf a -> (Z.abs (xpow a) < 2 ^ 31)%Z -> xb (2 ^ 31 - 1) a. Proof. intros W H. split; auto. right. lia. Qed.

(** ** C65 log2 and ln *)
Theorem C65_log2 : forall a, xwf a -> powerRZ 2 (-128) <= xR a -> (xpow a < 2 ^ 31)%Z ->
  returns (xlog2 a) (fun c => xwf c /\ Rabs (xR c - ln (xR a) / ln 2) <= ep 118 + ep 127 * Rabs (ln (xR a) / ln 2)).
Proof.
  intros a W L H. pose proof (p2_pos (-128)). assert (Na : xnull a = false) by (apply nn_R; auto; lra). assert (P : (-256 < xpow a)%Z). { destruct (mag_R a W Na) as [_ M]. rewrite Rabs_pos_eq in M by lra. assert (-128 < xpow a + 128)%Z by (apply p2_lt_inv; lra). lia. }
  eapply returns_weaken. { apply (log2_R (2 ^ 31 - 1) a); [apply xb_of; auto; lia | lra | lia | now apply band_out]. } intros c (B & _ & E). rewrite lg_pos in E by lra. split; auto. apply B.
Qed.
(** all moderate positive numbers.  Missing: logarithms within 2^-118 of -2^k with k >= 8, where the sum can carry; refuted below. *)
Theorem C65_log2_partial : forall a, xwf a -> 0 < xR a -> (Z.abs (xpow a) < 2 ^ 31)%Z -> ~ log2_band (ln (xR a) / ln 2) ->
  returns (xlog2 a) (fun c => xwf c /\ Rabs (xR c - ln (xR a) / ln 2) <= ep 118 + ep 127 * Rabs (ln (xR a) / ln 2)).
Proof. intros a W L H N. rewrite <- lg_pos in * by auto. eapply returns_weaken. { apply (log2_R (2 ^ 31 - 1) a); [apply xb_of; auto; lia | lra | lia | auto]. } intros c (B & _ & E). split; auto. apply B. Qed.
Theorem C65_log2_sign : forall a, xwf a -> 1 <= xR a -> (xpow a < 2 ^ 31)%Z -> returns (xlog2 a) (fun c => xwf c /\ 0 <= xR c).
Proof.
  intros a W L H. assert (powerRZ 2 (-128) <= 1) by (change 1 with (powerRZ 2 0); apply p2_le; lia). assert (Na : xnull a = false) by (apply nn_R; auto; lra). assert (P : (-256 < xpow a)%Z). { destruct (mag_R a W Na) as [_ M]. rewrite Rabs_pos_eq in M by lra. assert (-128 < xpow a + 128)%Z by (apply p2_lt_inv; lra). lia. }
  eapply returns_weaken. { apply (log2_R (2 ^ 31 - 1) a); [apply xb_of; auto; lia | lra | lia | apply band_out; lra]. } intros c (B & G & _). split; [apply B | auto].
Qed.
Theorem C65_domain : forall a, xwf a -> xR a <= 0 -> xlog2 a = Panic /\ xln a = Panic.
Proof.
  intros a W H. assert (E : xlog2 a = Panic); [| split; auto; unfold xln; now rewrite E]. unfold xlog2. rewrite xis_neg_sign, xis_zero_null by auto. destruct (xsign a) eqn:S; auto. destruct (xnull a) eqn:N; auto. pose proof (sign_R a W N) as P. rewrite S in P. lra.
Qed.
Theorem C65_ln : forall a, xwf a -> powerRZ 2 (-128) <= xR a -> (xpow a < 2 ^ 31)%Z ->
  returns (xln a) (fun c => Rabs (xR c - ln (xR a)) <= ep 118 + ep 124 * Rabs (ln (xR a))).
Proof.
  intros a W L H. pose proof (p2_pos (-128)). assert (Na : xnull a = false) by (apply nn_R; auto; lra). assert (P : (-256 < xpow a)%Z). { destruct (mag_R a W Na) as [_ M]. rewrite Rabs_pos_eq in M by lra. assert (-128 < xpow a + 128)%Z by (apply p2_lt_inv; lra). lia. }
  apply (ln_R (2 ^ 31 - 1) a); [apply xb_of; auto; lia | lra | lia | now apply band_out].
Qed.
Theorem C65_ln_partial : forall a, xwf a -> 0 < xR a -> (Z.abs (xpow a) < 2 ^ 31)%Z -> ~ log2_band (ln (xR a) / ln 2) ->
  returns (xln a) (fun c => Rabs (xR c - ln (xR a)) <= ep 118 + ep 124 * Rabs (ln (xR a))).
Proof. intros a W L H N. rewrite <- lg_pos in N by auto. apply (ln_R (2 ^ 31 - 1) a); [apply xb_of; auto; lia | lra | lia | auto]. Qed.
(** a number just above 2^-256 has the computed logarithm -128 *)
Definition w_log : f192 := mkX 64 (EXPC - 127 - 256).
Definition w_log_frac : f192 := mkX 167482727468899399985879689595323416577 281474976710535.
Theorem C65_carry_refuted : exists a c, xwf a /\ 0 < xR a < powerRZ 2 (-255) /\ ln (xR a) / ln 2 < -255 /\ xlog2 a = Ok c /\ xR c = -128.
Proof.
  exists w_log, (mkX (2 ^ 127) (EXPC - 127 + 7)). assert (W : xwf w_log) by (split; cbn; lia). assert (N : xnull w_log = false) by reflexivity. pose proof (mag_R w_log W N) as [M1 M2]. pose proof (sign_R w_log W N) as S. change (xsign w_log) with false in S. cbn iota in S. rewrite Rabs_pos_eq in M1, M2 by lra. change (xpow w_log + 128)%Z with (-255)%Z in M2.
  split; auto. split; auto. split. { rewrite <- lg_pos by auto. rewrite <- (lg_p2 (-255)). apply lg_lt; [lra |]. rewrite !Rabs_pos_eq by (try apply Rlt_le, p2_pos; lra). auto. }
  split.
  - unfold xlog2. change (xis_neg w_log) with false. change (xis_zero w_log) with false. cbn iota. assert (E : xlog2_iter (mkX (xhid (xd w_log)) EXPC) 16 = Ok w_log_frac) by (vm_compute; reflexivity). cbn zeta. change (xei w_log) with (Ok (-383)%Z). cbn [bind]. rewrite E. assert (F : xfrom_prim I64 (-383) = Ok (mkX 254547161192811389661079052043685986304 281474976710537)) by (vm_compute; reflexivity). rewrite F. cbn [bind]. rewrite fadd_eq. vm_compute. reflexivity.
  - unfold xR. transitivity (Q2R (-128 # 1)); [apply Qeq_eqR; vm_compute; reflexivity | unfold Q2R; cbn; field].
Qed.
Example C65_case : exists a, xwf a /\ xR a = 10 /\ powerRZ 2 (-128) <= xR a /\ (xpow a < 2 ^ 31)%Z.
Proof.
  exists (mkX (2 ^ 125) (EXPC - 124)). assert (V : xR (mkX (2 ^ 125) (EXPC - 124)) = 10) by (unfold xR; transitivity (Q2R 10); [apply Qeq_eqR; vm_compute; reflexivity | unfold Q2R; cbn; field]). split; [split; cbn; lia |]. split; auto. split; [| cbn; lia]. rewrite V. assert (powerRZ 2 (-128) <= 1) by (change 1 with (powerRZ 2 0); apply p2_le; lia). lra.
Qed.

(** ** C66 pow2 *)
(** Missing: negative numbers of at most 2^-129 in magnitude, refuted below, and magnitudes above 2^40 *)
Theorem C66_pow2_partial : forall a, xwf a -> xnull a = true \/ (Z.abs (xpow a) <= 2 ^ 24)%Z -> Rabs (xR a) <= powerRZ 2 40 -> 0 <= xR a \/ xR a < - ep 129 ->
  returns (xpow2 a) (fun c => xwf c /\ Rabs (xR c - Rpower 2 (xR a)) <= ep 48 * Rpower 2 (xR a)).
Proof. intros a W P U S. apply (pow2_R (2 ^ 24)); auto; [now split | lia]. Qed.
(** integers: exact *)
Theorem C66_pow2_integer : forall a z, xwf a -> (xval a == inject_Z z)%Q -> (Z.abs z <= 2 ^ 40)%Z -> xpow2 a = xfrom_pow2 z.
Proof.
  intros a z W V Hz. change (2 ^ 40)%Z with 1099511627776%Z in Hz. assert (VR : xR a = IZR z) by (apply Qeq_eqR in V; rewrite Q2R_Z in V; exact V).
  assert (B : xb 128 a). { apply (xb_le (Z.max (0 + 128) 42)); [| lia]. apply xb_val; auto; try lia; rewrite VR.
    - destruct (Z.eq_dec z 0) as [-> | Z]; auto. right. change (powerRZ 2 (- 0)) with 1. rewrite <- abs_IZR. apply IZR_le. lia.
    - rewrite <- abs_IZR. change 42%Z with (Z.of_nat 42). rewrite p2_nat, pow_IZR. apply IZR_lt. change (2 ^ Z.of_nat 42)%Z with 4398046511104%Z. lia. }
  assert (E63 : (xe a < 2 ^ 63)%Z). { destruct (xnull a) eqn:N; [rewrite (xnull_zero a N); reflexivity |]. destruct B as [_ [? | P]]; [congruence |]. unfold xpow in P. change (2 ^ 48)%Z with 281474976710656%Z in P. change (2 ^ 63)%Z with 9223372036854775808%Z. lia. }
  destruct (C51_floor_partial a W E63) as (f & Ef & Wf & y & Vf & F1 & F2). assert (Y : y = z). { rewrite V in F1, F2. rewrite <- Zle_Qle in F1. change 1%Q with (inject_Z 1) in F2. rewrite <- inject_Z_plus, <- Zlt_Qlt in F2. lia. } subst y. assert (Ff : f = a) by (apply C44_injective; auto; rewrite Vf, V; reflexivity). subst f.
  unfold xpow2. rewrite Ef. cbn [bind]. assert (SS : xsub a a = Ok xZERO). { destruct (xnull a) eqn:N; [rewrite (xnull_zero a N); reflexivity |]. apply C45_sub_self; auto. destruct B as [_ [? | P]]; [congruence | lia]. } rewrite SS. cbn [bind].
  assert (TI : xtry_into I64 a = Ok (ROk z)).
  { destruct (xnull a) eqn:Nc. { rewrite (null_R a Nc) in VR. assert (z = 0%Z) by (apply eq_IZR; auto). subst z. rewrite (xnull_zero a Nc). reflexivity. }
    destruct (mag_R a W Nc) as [M1 M2]. rewrite VR, <- abs_IZR in M1, M2. assert (Z0 : z <> 0%Z). { intros ->. pose proof (p2_pos (xpow a + 127)). cbn in M1. lra. }
    destruct (C48_to_signed_partial I64 a) as (y & (T1 & T2 & T3) & E); auto.
    - split. + assert (0 < xpow a + 128)%Z; [| lia]. apply p2_lt_inv. eapply Rle_lt_trans; [| exact M2]. cbn [powerRZ]. apply IZR_le. lia.
      + assert (xpow a + 127 < 42)%Z; [| lia]. apply p2_lt_inv. eapply Rle_lt_trans; [exact M1 |]. change 42%Z with (Z.of_nat 42). rewrite p2_nat, pow_IZR. apply IZR_lt. change (2 ^ Z.of_nat 42)%Z with 4398046511104%Z. lia.
    - assert (Y : y = z). { rewrite V in T1, T2, T3. change (Qabs (inject_Z z)) with (inject_Z (Z.abs z)) in *. change 1%Q with (inject_Z 1) in T2. rewrite <- inject_Z_plus, <- Zlt_Qlt in T2. rewrite <- Zle_Qle in T1. rewrite <- inject_Z_mult in T3. change 0%Q with (inject_Z 0) in T3. rewrite <- Zle_Qle in T3. nia. }
      rewrite E, Y. cbn [pmin pmax]. replace ((- 2 ^ 63 <=? z)%Z && (z <? 2 ^ 63)%Z) with true; [reflexivity |]. change (2 ^ 63)%Z with 9223372036854775808%Z. symmetry. apply andb_true_intro. lia. }
  rewrite TI. cbn [bind]. assert (M : xmul xZERO xLN_2 = Ok xZERO) by apply C46_zero. rewrite M. cbn [bind]. assert (L : for_ 13 2 (xpow2_step xZERO) (xONE, xZERO) = Ok (xONE, xZERO)) by (vm_compute; reflexivity). rewrite L. cbn [bind]. assert (A : xadd xONE xZERO = Ok xONE) by reflexivity. rewrite A. cbn [bind].
  change (casts 64 (xe xONE)) with (EXPC - 127)%Z. unfold xfrom_pow2. rewrite (sadd_ok 64 (EXPC - 127) z), (sadd_ok 64 z EXPC) by (change (64 - 1)%Z with 63%Z; unfold EXPC; lia). cbn [bind]. rewrite ssub_ok by (change (64 - 1)%Z with 63%Z; unfold EXPC; lia). cbn [bind]. f_equal. change (xd xONE) with 0%Z. f_equal. f_equal. ring.
Qed.
(** 2^(-2^-130) is within 2^-130 of one but comes out below 0.36: the fraction 1 - 2^-130 rounds up to one and sets the sign bit *)
Definition fpow2_step (iter_unit : f192) (i : Z) (s : f192 * f192) : res (f192 * f192) :=
  let '(approx, iter) := s in
  let* approx := fadd approx iter in
  let* iter := xmul iter iter_unit in
  let* iter := xdiv_i32 iter i in
  Ok (approx, iter).
Lemma for_ext {A} n (f g : Z -> A -> res A) : (forall i s, f i s = g i s) -> forall i s, for_ n i f s = for_ n i g s.
Proof. intros H. induction n; intros; cbn [for_]; auto. rewrite H. destruct (g i s); cbn [bind]; auto. Qed.
Lemma fpow2_step_eq u i s : xpow2_step u i s = fpow2_step u i s. Proof. destruct s. unfold xpow2_step, fpow2_step. now rewrite fadd_eq. Qed.
Definition qltb (p q : Q) : bool := (Qnum p * QDen q <? Qnum q * QDen p)%Z.
Definition w_pow : f192 := mkX (2 ^ 127) (EXPC - 127 - 130).
Definition unres {A} (d : A) (m : res A) : A := match m with Ok a => a | _ => d end.
Definition w_u : f192 := Eval vm_compute in unres xZERO (xmul (mkX (2 ^ 127) (EXPC - 128)) xLN_2).
Lemma w_pow1 : xmul (mkX (2 ^ 127) (EXPC - 128)) xLN_2 = Ok w_u. Proof. vm_compute. reflexivity. Qed.
Definition w_s : f192 * f192 := Eval vm_compute in unres (xZERO, xZERO) (for_ 13 2 (fpow2_step w_u) (xONE, w_u)).
Lemma w_pow2 : for_ 13 2 (fpow2_step w_u) (xONE, w_u) = Ok w_s. Proof. vm_compute. reflexivity. Qed.
Definition w_c : f192 := Eval vm_compute in unres xZERO (let* z := fadd (fst w_s) (snd w_s) in Ok (mkX (xd z) (xe z - 1))).
Theorem C66_small_refuted : exists a c, xwf a /\ xR a = - ep 130 /\ xpow2 a = Ok c /\ 0 < xR c < 36 / 100 /\ 99 / 100 < Rpower 2 (xR a) < 1.
Proof.
  assert (V : xR w_pow = - ep 130). { unfold xR. transitivity (- Q2R (1 # (2 ^ 130))). { rewrite <- Q2R_opp. apply Qeq_eqR. vm_compute. reflexivity. } f_equal. rewrite ep_num. unfold Q2R. cbn [Qnum Qden]. rewrite Rmult_1_l. reflexivity. }
  assert (E : exists c, xpow2 w_pow = Ok c /\ qltb 0 (xval c) && qltb (xval c) (36 # 100) = true).
  { unfold xpow2. assert (E1 : xfloor w_pow = Ok (mkX (2 ^ 127) (EXPC - 127))) by (vm_compute; reflexivity). rewrite E1. cbn [bind]. rewrite fsub_eq. assert (E2 : fsub w_pow (mkX (2 ^ 127) (EXPC - 127)) = Ok (mkX (2 ^ 127) (EXPC - 128))) by (vm_compute; reflexivity). rewrite E2. cbn [bind].
    assert (E3 : xtry_into I64 (mkX (2 ^ 127) (EXPC - 127)) = Ok (ROk (-1)%Z)) by (vm_compute; reflexivity). rewrite E3. cbn [bind]. rewrite w_pow1. cbn [bind]. rewrite (for_ext 13 _ _ (fpow2_step_eq w_u)). rewrite w_pow2. unfold w_s. cbn [bind]. rewrite fadd_eq. exists w_c. split; vm_compute; reflexivity. }
  destruct E as (c & Ec & Bc). apply andb_prop in Bc. destruct Bc as [B1 B2]. exists w_pow, c. split; [split; cbn; lia |]. split; auto. split; auto. split.
  - assert (L : forall p q, qltb p q = true -> Q2R p < Q2R q). { intros p q H. apply Qlt_Rlt. unfold qltb in H. unfold Qlt. now apply Z.ltb_lt. } apply L in B1, B2. rewrite RMicromega.Q2R_0 in B1. replace (Q2R (36 # 100)) with (36 / 100) in B2 by (unfold Q2R; cbn; field). unfold xR. lra.
  - rewrite V. unfold Rpower. pose proof ln2_lo as N1. pose proof ln2_hi as N2. pose proof (ep_pos 130). assert (ep 130 <= / 1024) by (apply (Rle_trans _ (ep 10)); [apply ep_le; lia | unfold ep; cbn; lra]). split.
    + pose proof (exp_ineq1_le (- ep 130 * ln 2)). nra.
    + apply (Rlt_le_trans _ (exp 0)); [apply exp_increasing; nra | rewrite exp_0; lra].
Qed.
Example C66_case : xwf (mkX (2 ^ 126) (EXPC - 127)) /\ (Z.abs (xpow (mkX (2 ^ 126) (EXPC - 127))) <= 2 ^ 24)%Z /\ xR (mkX (2 ^ 126) (EXPC - 127)) = 3 / 2.
Proof. split; [split; cbn; lia |]. split; [cbn; lia |]. unfold xR. transitivity (Q2R (3 # 2)); [apply Qeq_eqR; vm_compute; reflexivity | unfold Q2R; cbn; field]. Qed.

(** ** C67 pow *)
(** Missing: exponents tinier than 2^-70 that are negative or of a base below one, and the bands of C65 *)
Theorem C67_pow_partial : forall a x, xwf a -> xwf x -> (Z.abs (xpow a) <= 2 ^ 22)%Z -> xnull x = true \/ (Z.abs (xpow x) <= 2 ^ 22)%Z -> 0 < xR a -> ~ log2_band (ln (xR a) / ln 2) ->
  Rabs (xR x) <= powerRZ 2 40 -> Rabs (xR x * (ln (xR a) / ln 2)) <= powerRZ 2 38 -> (1 <= xR a /\ 0 <= xR x) \/ ep 70 <= Rabs (xR x * (ln (xR a) / ln 2)) ->
  returns (xpow_x a x) (fun c => xwf c /\ Rabs (xR c - Rpower (xR a) (xR x)) <= ep 47 * Rpower (xR a) (xR x)).
Proof. intros a x Wa Wx Pa Px A0 Bd Ux Uv Sg. rewrite <- lg_pos in * by auto. apply (pow_R (2 ^ 22)); auto; [split; auto | now split | lia]. Qed.
(** bases of at least one and exponents of at least zero, without further conditions but size *)
Theorem C67_pow : forall a x, xwf a -> xwf x -> 1 <= xR a < powerRZ 2 (2 ^ 20) -> 0 <= xR x <= powerRZ 2 18 -> xnull x = true \/ (- 2 ^ 22 <= xpow x)%Z ->
  returns (xpow_x a x) (fun c => xwf c /\ Rabs (xR c - Rpower (xR a) (xR x)) <= ep 47 * Rpower (xR a) (xR x)).
Proof.
  intros a x Wa Wx Ra Rx Px. assert (P0 : powerRZ 2 (-128) <= 1) by (change 1 with (powerRZ 2 0); apply p2_le; lia). assert (Na : xnull a = false) by (apply nn_R; auto; lra). destruct (mag_R a Wa Na) as [M1 M2]. rewrite Rabs_pos_eq in M1, M2 by lra.
  assert (Pa : (-128 < xpow a < 2 ^ 20)%Z). { split. - assert (0 < xpow a + 128)%Z by (apply p2_lt_inv; cbn [powerRZ]; lra). lia. - assert (xpow a + 127 < 2 ^ 20)%Z by (apply p2_lt_inv; lra). lia. }
  assert (L0 : 0 <= lg (xR a) < IZR (2 ^ 20)). { split. - rewrite <- (lg_p2 0). apply lg_le; [cbn; lra |]. cbn [powerRZ]. rewrite !Rabs_pos_eq by lra. lra. - rewrite <- lg_p2. apply lg_lt; [lra |]. rewrite !Rabs_pos_eq by (try apply Rlt_le, p2_pos; lra). lra. }
  assert (P2 : powerRZ 2 40 = powerRZ 2 18 * 4194304). { change 40%Z with (18 + 22)%Z. rewrite (p2_add 18 22). f_equal. change 22%Z with (Z.of_nat 22). rewrite p2_nat. cbn [pow]. lra. } pose proof (p2_pos 18).
  assert (P3 : powerRZ 2 38 = powerRZ 2 18 * IZR (2 ^ 20)). { change 38%Z with (18 + 20)%Z. rewrite (p2_add 18 20). f_equal. change 20%Z with (Z.of_nat 20) at 1. rewrite p2_nat. apply pow_IZR. }
  apply (pow_R (2 ^ 22)).
  - split; auto. right. lia.
  - split; auto. destruct Px as [Px | Px]; auto. destruct (xnull x) eqn:Nx; auto. right. destruct (mag_R x Wx Nx) as [N1 N2]. rewrite Rabs_pos_eq in N1 by lra. assert (xpow x + 127 < 19)%Z; [| lia]. apply p2_lt_inv. change 19%Z with (1 + 18)%Z. rewrite (p2_add 1 18). change (powerRZ 2 1) with (2 * 1). lra.
  - lia.
  - lra.
  - apply band_out. lra.
  - rewrite Rabs_pos_eq by lra. rewrite P2. lra.
  - rewrite Rabs_mult, !Rabs_pos_eq by lra. rewrite P3. apply Rmult_le_compat; lra.
  - left. lra.
Qed.
Example C67_case : exists a x, xwf a /\ xwf x /\ xR a = 10 /\ xR x = 3 / 2 /\ (- 2 ^ 22 <= xpow x)%Z.
Proof.
  exists (mkX (2 ^ 125) (EXPC - 124)), (mkX (2 ^ 126) (EXPC - 127)). splits; try (split; cbn; lia); try (cbn; lia); unfold xR; [transitivity (Q2R 10) | transitivity (Q2R (3 # 2))]; try (apply Qeq_eqR; vm_compute; reflexivity); unfold Q2R; cbn; field.
Qed.

Print Assumptions C65_log2.
Print Assumptions C65_ln.
Print Assumptions C65_carry_refuted.
Print Assumptions C66_pow2_partial.
Print Assumptions C66_small_refuted.
Print Assumptions C67_pow.
