(** F192: integers and rounding to integers. *)
From Coq Require Import ZArith QArith Qabs Lqa Lia Bool List.
From Verif Require Import Base UBig UStr USpec UAddSub UEq BBig BSpec BEq RBig RSpec REq RIeee FSpec RIeeeP XNum XSpec XP1 XP2 XP3.
Local Open Scope Z_scope.

Lemma P48 : EXPC = 2 ^ 48. Proof. reflexivity. Qed.
Lemma PS : 0 < SIGNM. Proof. reflexivity. Qed.
(** ** every small multiple of a power of two is representable *)
Lemma norm_sig k : 0 < k < 2 ^ 128 -> sigr (k * 2 ^ (127 - Z.log2 k)) /\ 0 <= Z.log2 k <= 127.
Proof.
  intros H. pose proof (Z.log2_nonneg k). assert (Z.log2 k < 128) by (apply Z.log2_lt_pow2; lia). split; [| lia].
  pose proof (Z.log2_spec k ltac:(lia)) as [L1 L2]. unfold sigr. 
  assert (E1 : SIGNM = 2 ^ Z.log2 k * 2 ^ (127 - Z.log2 k)) by (rewrite <- Z.pow_add_r by lia; unfold SIGNM; f_equal; lia).
  assert (E2 : 2 * SIGNM = 2 ^ Z.succ (Z.log2 k) * 2 ^ (127 - Z.log2 k)) by (rewrite E1, Z.pow_succ_r by lia; ring).
  assert (0 < 2 ^ (127 - Z.log2 k)) by (apply Z.pow_pos_nonneg; lia). rewrite E2. rewrite E1 at 1. split; [apply Z.mul_le_mono_nonneg_r; lia | apply Z.mul_lt_mono_pos_r; lia].
Qed.
Lemma rep_pos s k E : 0 < k < 2 ^ 128 -> 127 < E + EXPC < 2 ^ 64 ->
  let c := xof s (k * 2 ^ (127 - Z.log2 k)) (E + EXPC - (127 - Z.log2 k)) in xwf c /\ xnull c = false /\ (xval c == sg s (inject_Z k * two E))%Q.
Proof.
  intros Hk HE c. destruct (norm_sig k Hk) as [Sg Lg]. assert (Xe : expr (E + EXPC - (127 - Z.log2 k))) by (unfold expr; lia).
  assert (N : xnull c = false) by (apply xnull_pos; auto; lia). split; [now apply xof_wf |]. split; [exact N |]. unfold c. rewrite xval_of by auto. apply sg_eq.
  unfold xq. replace (E + EXPC - (127 - Z.log2 k) - EXPC) with (E + - (127 - Z.log2 k)) by ring. rewrite inject_Z_mult, two_plus, <- (two_Z (127 - Z.log2 k)) by lia.
  rewrite two_opp. field. apply two_nz.
Qed.
Lemma rep k E : Z.abs k < 2 ^ 128 -> 127 < E + EXPC < 2 ^ 64 -> exists c, xwf c /\ (xval c == inject_Z k * two E)%Q.
Proof.
  intros Hk HE. destruct (Z.eq_dec k 0) as [-> | nz]. { exists xZERO. split; [apply xwf_zero |]. rewrite xval_zero. change (inject_Z 0) with 0%Q. ring. }
  destruct (rep_pos (k <? 0) (Z.abs k) E ltac:(lia) HE) as (W & _ & V). eexists. split; [exact W |]. rewrite V. unfold sg. destruct (Z.ltb_spec k 0).
  - rewrite Z.abs_neq, inject_Z_opp by lia. ring. - rewrite Z.abs_eq by lia. reflexivity.
Qed.
Lemma rounds_rep q c y : xrounds_down q c -> xwf y -> (xval y == q)%Q -> (xval c == q)%Q.
Proof.
  intros (W & L & S & B & _) Wy Vy. specialize (B y Wy). assert (K : (Qabs (xval c) == Qabs q)%Q).
  { apply Qle_antisym; auto. rewrite <- Vy at 1. apply B. rewrite Vy. apply Qle_refl. }
  revert K. set (x := xval c) in *. clearbody x. clear - S. apply Qabs_case; intros; revert K; apply Qabs_case; intros; try lra; nra.
Qed.

(** ** from integers *)
Lemma lz128_ok n : 0 < n -> lz128 n = 127 - Z.log2 n. Proof. intros. unfold lz128. zb; lia. Qed.
Lemma xfrom_u128_pos n : 0 < n < 2 ^ 128 -> xfrom_u128 n = Ok (xof false (n * 2 ^ (127 - Z.log2 n)) (EXPC - (127 - Z.log2 n))).
Proof.
  intros H. unfold xfrom_u128. destruct (Z.eqb_spec n 0); [lia |]. rewrite lz128_ok by lia. destruct (norm_sig n H) as [Sg Lg]. pose proof P48.
  rewrite shlw_ok; [| lia | unfold sigr in Sg; rewrite P128; pose proof PS; lia]. cbn [bind]. rewrite subw_ok by lia. cbn [bind]. rewrite xlow_sig by auto. reflexivity.
Qed.
Lemma int_val s n : 0 < n < 2 ^ 128 -> let c := xof s (n * 2 ^ (127 - Z.log2 n)) (EXPC - (127 - Z.log2 n)) in xwf c /\ xnull c = false /\ (xval c == sg s (inject_Z n))%Q.
Proof.
  intros H c. destruct (rep_pos s n 0 H ltac:(pose proof P48; lia)) as (W & N & V). replace (0 + EXPC) with EXPC in * by ring. split; [exact W |]. split; [exact N |]. unfold c. rewrite V. apply sg_eq. change (two 0) with 1%Q. ring.
Qed.
Lemma xfrom_u128_ok n : 0 <= n < 2 ^ 128 -> returns (xfrom_u128 n) (fun c => xwf c /\ (xval c == inject_Z n)%Q).
Proof.
  intros H. destruct (Z.eq_dec n 0) as [-> | nz]. { exists xZERO. split; [reflexivity |]. split; [apply xwf_zero | reflexivity]. }
  rewrite xfrom_u128_pos by lia. apply returns_ok. destruct (int_val false n ltac:(lia)) as (W & _ & V). split; [exact W | exact V].
Qed.
Lemma xfrom_i128_ok n : - 2 ^ 127 < n < 2 ^ 127 -> returns (xfrom_i128 n) (fun c => xwf c /\ (xval c == inject_Z n)%Q).
Proof.
  intros H. unfold xfrom_i128. destruct (Z.ltb_spec n 0).
  - rewrite sabs_ok by (change (128 - 1) with 127; lia). cbn [bind]. rewrite castw_small by lia. rewrite xfrom_u128_pos by lia. cbn [bind]. apply returns_ok.
    destruct (norm_sig (Z.abs n) ltac:(lia)) as [Sg Lg]. destruct (int_val true (Z.abs n) ltac:(lia)) as (W & _ & V).
    assert (R : forall m e, sigr m -> mkX (Z.lor (xd (xof false m e)) SIGNM) (xe (xof false m e)) = xof true m e) by (intros m e Hm; unfold xof; cbn [xd xe]; rewrite lor_sign_low by (unfold sigr in Hm; lia); f_equal; ring).
    rewrite R by auto. split; [exact W |]. rewrite V. unfold sg. rewrite <- inject_Z_opp. rewrite Z.abs_neq by lia. now rewrite Z.opp_involutive.
  - rewrite castw_small by lia. apply xfrom_u128_ok. lia.
Qed.
Lemma xfrom_i128_min : xfrom_i128 (- 2 ^ 127) = Panic. Proof. reflexivity. Qed.
Definition pmin (p : prim) : Z := match p with I8 => - 2 ^ 7 | I16 => - 2 ^ 15 | I32 => - 2 ^ 31 | I64 | Isize => - 2 ^ 63 | I128 => - 2 ^ 127 | _ => 0 end.
Definition pmax (p : prim) : Z := match p with I8 => 2 ^ 7 | I16 => 2 ^ 15 | I32 => 2 ^ 31 | I64 | Isize => 2 ^ 63 | I128 => 2 ^ 127 | U8 => 2 ^ 8 | U16 => 2 ^ 16 | U32 => 2 ^ 32 | U64 | Usize => 2 ^ 64 | U128 => 2 ^ 128 end.
Lemma xfrom_prim_ok p n : pmin p <= n < pmax p -> n <> - 2 ^ 127 -> returns (xfrom_prim p n) (fun c => xwf c /\ (xval c == inject_Z n)%Q).
Proof. intros H1 H2. destruct p; cbn [pmin pmax xfrom_prim] in *; (apply xfrom_u128_ok; lia) || (apply xfrom_i128_ok; lia). Qed.

(** ** to integers *)
Lemma div_pow_q m e j : 0 <= j -> (inject_Z (m / 2 ^ j) <= inject_Z m * two (- j) < inject_Z (m / 2 ^ j) + 1)%Q \/ e = 1.
Proof.
  intros Hj. left. assert (P : 0 < 2 ^ j) by (apply Z.pow_pos_nonneg; lia). pose proof (Z.div_mod m (2 ^ j) ltac:(lia)) as DM. pose proof (Z.mod_pos_bound m (2 ^ j) P) as MB.
  assert (T := two_pos (- j)). assert (TT : (inject_Z (2 ^ j) * two (- j) == 1)%Q) by (rewrite two_opp, two_Z by lia; field; intros C; rewrite <- two_Z in C by lia; apply (two_nz j C)).
  set (t := two (- j)) in *. set (d := m / 2 ^ j) in *.
  assert (E : (inject_Z m * t == inject_Z d + inject_Z (m mod 2 ^ j) * t)%Q) by (rewrite DM at 1; rewrite inject_Z_plus, inject_Z_mult; setoid_replace ((inject_Z (2 ^ j) * inject_Z d + inject_Z (m mod 2 ^ j)) * t)%Q with (inject_Z d * (inject_Z (2 ^ j) * t) + inject_Z (m mod 2 ^ j) * t)%Q by ring; rewrite TT; ring).
  rewrite E. destruct MB as [M1 M2]. rewrite Zle_Qle in M1. rewrite Zlt_Qlt in M2. change (inject_Z 0) with 0%Q in M1. split; [nra |]. assert ((inject_Z (m mod 2 ^ j) * t < inject_Z (2 ^ j) * t)%Q) by (apply Qmult_lt_r; auto). lra.
Qed.
Lemma div_pow m j : 0 <= j -> (inject_Z (m / 2 ^ j) <= inject_Z m * two (- j) < inject_Z (m / 2 ^ j) + 1)%Q.
Proof. intros. destruct (div_pow_q m 0 j H); auto; lia. Qed.
Lemma xto_u128_pos a : xwf a -> xsign a = false -> xnull a = false -> - 127 <= xpow a <= 0 -> returns (xto_u128 a) (fun r => exists z, r = ROk z /\ 0 <= z < 2 ^ 128 /\ trunc_to (xval a) z /\ z = xsig a / 2 ^ (- xpow a)).
Proof.
  intros W S N P. pose proof P48. unfold xpow in *. change (2 ^ 48) with EXPC in *. unfold xto_u128. rewrite xis_zero_null, N, xis_neg_sign, S by auto. cbn [orb]. destruct (Z.ltb_spec EXPC (xe a)); [lia |].
  destruct (xof_of a W) as (E & Sg & X). replace (xhid (xd a)) with (xsig a) by (rewrite E at 2; now rewrite xhid_xof). rewrite subw_ok by lia. cbn [bind]. rewrite shrw_ok by lia. cbn [bind]. apply returns_ok.
  eexists. split; [reflexivity |]. replace (- (xe a - EXPC)) with (EXPC - xe a) by ring. set (j := EXPC - xe a). assert (Pj : 0 < 2 ^ j) by (apply Z.pow_pos_nonneg; lia). pose proof (xsig_range _ Sg) as R.
  assert (B : 0 <= xsig a / 2 ^ j < 2 ^ 128) by (split; [apply Z.div_pos; lia | apply Z.div_lt_upper_bound; nia]). split; [auto |]. split; [| reflexivity].
  assert (V : (xval a == inject_Z (xsig a) * two (- j))%Q) by (unfold xval, xmag, xpow; rewrite S, N; unfold j; change (2 ^ 48) with EXPC; replace (- (EXPC - xe a)) with (xe a - EXPC) by ring; reflexivity).
  destruct (div_pow (xsig a) j ltac:(lia)) as [D1 D2]. pose proof (xval_pos a W S) as Vp. unfold trunc_to. rewrite (Qabs_pos (xval a)) by auto. rewrite Z.abs_eq by lia. rewrite <- V in D1, D2. split; [auto |]. split; [auto |].
  assert ((0 <= inject_Z (xsig a / 2 ^ j))%Q) by (change 0%Q with (inject_Z 0); rewrite <- Zle_Qle; lia). nra.
Qed.
Lemma xto_u128_neg a : xwf a -> xsign a = true -> xto_u128 a = Ok (RErr NotInRange).
Proof. intros W S. unfold xto_u128. rewrite xis_zero_null, xis_neg_sign, S by auto. destruct (xnull a) eqn:N; [| reflexivity]. apply xnull_sign in N. congruence. Qed.
Lemma xto_u128_big a : xwf a -> 0 < xpow a -> xto_u128 a = Ok (RErr NotInRange).
Proof. intros W P. pose proof P48. unfold xpow in P. change (2 ^ 48) with EXPC in P. unfold xto_u128, xis_zero. destruct (Z.eqb_spec (xe a) 0); [lia |]. cbn [andb]. destruct (Z.ltb_spec EXPC (xe a)); [| lia]. rewrite orb_true_r. reflexivity. Qed.
Lemma xto_u128_frac a : xwf a -> xsign a = false -> xnull a = false -> xpow a < - 127 -> xto_u128 a = Panic.
Proof.
  intros W S N P. pose proof P48. unfold xpow in P. change (2 ^ 48) with EXPC in P. unfold xto_u128. rewrite xis_zero_null, N, xis_neg_sign, S by auto. destruct (Z.ltb_spec EXPC (xe a)); [lia |]. cbn [orb].
  rewrite subw_ok by lia. cbn [bind]. unfold shrw. destruct (Z.ltb_spec (EXPC - xe a) 128); [lia | reflexivity].
Qed.
(** the binade of a number tells how large it is *)
Lemma xmag_bin a : xwf a -> xnull a = false -> (two (xpow a + 127) <= xmag a < two (xpow a + 128))%Q.
Proof.
  intros W N. destruct (xof_of a W) as (_ & [S1 S2] & _). unfold xmag. rewrite N. assert (T := two_pos (xpow a)). rewrite !(two_plus (xpow a)).
  change (two 127) with (inject_Z SIGNM). change (two 128) with (inject_Z (2 * SIGNM)). rewrite Zle_Qle in S1. rewrite Zlt_Qlt in S2. rewrite !(Qmult_comm (two (xpow a))). split; [apply Qmult_le_r | apply Qmult_lt_r]; auto.
Qed.
Lemma xpow_small a k : xwf a -> xnull a = false -> (xmag a < two k)%Q -> xpow a + 127 < k.
Proof. intros W N H. destruct (xmag_bin a W N) as [L _]. apply two_lt_inv. lra. Qed.
Lemma xpow_large a k : xwf a -> xnull a = false -> (two k <= xmag a)%Q -> k < xpow a + 128.
Proof. intros W N H. destruct (xmag_bin a W N) as [_ L]. apply two_lt_inv. lra. Qed.

(** ** is_integer and truncate *)
Lemma clear_low (s : bool) m j : sigr m -> 0 <= j <= 127 -> let d := if s then m else m - SIGNM in let m' := m / 2 ^ j * 2 ^ j in d / 2 ^ j * 2 ^ j = (if s then m' else m' - SIGNM) /\ sigr m' /\ 0 <= d < 2 ^ 128.
Proof.
  intros [H1 H2] Hj d m'. assert (P : 0 < 2 ^ j) by (apply Z.pow_pos_nonneg; lia). assert (SD : SIGNM = 2 ^ (127 - j) * 2 ^ j) by (rewrite <- Z.pow_add_r by lia; unfold SIGNM; f_equal; lia).
  pose proof (Z.div_mod m (2 ^ j) ltac:(lia)) as DM. pose proof (Z.mod_pos_bound m (2 ^ j) P) as MB. split.
  - unfold d, m'. destruct s; [reflexivity |]. rewrite SD at 1. replace (m - 2 ^ (127 - j) * 2 ^ j) with (m + (- 2 ^ (127 - j)) * 2 ^ j) by ring. rewrite Z.div_add by lia. rewrite Z.mul_add_distr_r. rewrite SD. ring.
  - split; [| unfold d; rewrite P128; destruct s; lia]. unfold sigr, m'. split; [| nia]. assert (2 ^ (127 - j) <= m / 2 ^ j) by (apply Z.div_le_lower_bound; lia). rewrite SD. apply Z.mul_le_mono_nonneg_r; lia.
Qed.
Lemma xtruncate_ok a : xwf a -> xe a < 2 ^ 63 -> returns (xtruncate a) (fun c => xwf c /\ exists z, (xval c == inject_Z z)%Q /\ trunc_to (xval a) z /\
  ((xnull c = true /\ (Qabs (xval a) < 1)%Q) \/ (xnull c = false /\ xsign c = xsign a /\ xpow c = xpow a /\ xnull a = false)) /\ (xval c == xval a -> xeq c a = true)%Q /\ (0 <= xpow a \/ xnull a = true -> c = a)).
Proof.
  intros W D. pose proof P48 as P. unfold xtruncate. rewrite xis_zero_null. destruct (xnull a) eqn:N.
  { apply returns_ok. rewrite (xnull_zero a N). split; [apply xwf_zero |]. exists 0. unfold trunc_to. rewrite xval_zero. splits; [reflexivity | vm_compute; discriminate | reflexivity | vm_compute; discriminate | left; split; reflexivity | reflexivity | reflexivity]. }
  rewrite xei_ok by (split; auto). cbn [bind]. change (xe a - EXPC) with (xpow a).
  assert (Am := xabs_val a W). destruct (xmag_bin a W N) as [B1 B2]. assert (Mp := xmag_pos a W N).
  destruct (Z.ltb_spec (xpow a) (- 127)).
  { apply returns_ok. split; [apply xwf_zero |]. assert (L : (xmag a < 1)%Q) by (eapply Qlt_le_trans; [exact B2 | change 1%Q with (two 0); apply two_le; lia]).
    exists 0. unfold trunc_to. rewrite xval_zero. change (inject_Z (Z.abs 0)) with 0%Q. change (inject_Z 0) with 0%Q. splits; [reflexivity | rewrite Am; lra | rewrite Am; lra | lra | left; split; [reflexivity | rewrite Am; auto] | | intros [C | C]; [lia | discriminate]].
    intros C. rewrite <- C in Am. change (Qabs 0) with 0%Q in Am. lra. }
  destruct (xof_of a W) as (E & Sg & X).
  destruct (Z.leb_spec 0 (xpow a)).
  { apply returns_ok. split; auto. 
    assert (V : (xval a == inject_Z ((if xsign a then - xsig a else xsig a) * 2 ^ xpow a))%Q).
    { unfold xval, xmag. rewrite N. rewrite inject_Z_mult, <- two_Z by lia. destruct (xsign a); [rewrite inject_Z_opp; ring | reflexivity]. }
    eexists. split; [exact V |]. split; [| split; [right; auto | split; [intros _; unfold xeq; rewrite !Z.eqb_refl; reflexivity | reflexivity]]].
    set (z := (if xsign a then - xsig a else xsig a) * 2 ^ xpow a) in *. clearbody z. unfold trunc_to. rewrite V.
    assert (Az : (Qabs (inject_Z z) == inject_Z (Z.abs z))%Q) by reflexivity. rewrite Az. splits; [apply Qle_refl | lra | unfold Qle; cbn; nia]. }
  unfold sneg. rewrite sres_ok by (change (64 - 1) with 63; lia). cbn [bind]. rewrite castw_small by lia. set (j := - xpow a).
  destruct (clear_low (xsign a) (xsig a) j Sg ltac:(lia)) as (C1 & C2 & C3). set (d := if xsign a then xsig a else xsig a - SIGNM) in *. 
  assert (Ed : xd a = d) by (rewrite E; reflexivity). rewrite Ed. assert (Pj : 0 < 2 ^ j) by (apply Z.pow_pos_nonneg; lia).
  rewrite shrw_ok by lia. cbn [bind]. rewrite shlw_ok; [| lia |]. 2: { pose proof (Z.div_mod d (2 ^ j) ltac:(lia)). pose proof (Z.mod_pos_bound d (2 ^ j) Pj). assert (0 <= d / 2 ^ j) by (apply Z.div_pos; lia). nia. }
  cbn [bind]. apply returns_ok. rewrite C1. fold (xof (xsign a) (xsig a / 2 ^ j * 2 ^ j) (xe a)). set (m' := xsig a / 2 ^ j * 2 ^ j) in *.
  assert (X0 : 0 < xe a) by (unfold xpow in *; lia). assert (Nc := xnull_pos (xsign a) m' (xe a) C2 X0).
  split; [apply xof_wf; auto |]. set (k := xsig a / 2 ^ j).
  assert (Xe : xe a - EXPC = - j) by (unfold j, xpow; change (2 ^ 48) with EXPC; ring).
  assert (TT : (inject_Z (2 ^ j) * two (- j) == 1)%Q) by (rewrite two_opp, two_Z by lia; field; intros CC; rewrite <- two_Z in CC by lia; apply (two_nz j CC)).
  assert (Vc : (xval (xof (xsign a) m' (xe a)) == inject_Z (if xsign a then - k else k))%Q).
  { rewrite xval_of by auto. unfold xq, m', k. rewrite Xe. rewrite inject_Z_mult. unfold sg. destruct (xsign a); [rewrite inject_Z_opp |]; rewrite <- Qmult_assoc, TT; ring. }
  eexists. split; [exact Vc |]. destruct (div_pow (xsig a) j ltac:(lia)) as [D1 D2]. fold k in D1, D2.
  assert (Vm : (xmag a == inject_Z (xsig a) * two (- j))%Q) by (unfold xmag; rewrite N; unfold j; rewrite Z.opp_involutive; reflexivity). rewrite <- Vm in D1, D2.
  assert (K0 : 0 <= k) by (apply Z.div_pos; unfold sigr in Sg; pose proof PS; lia). assert (QK : (0 <= inject_Z k)%Q) by (change 0%Q with (inject_Z 0); rewrite <- Zle_Qle; lia).
  split; [| split; [| split]].
  - unfold trunc_to. rewrite Am. replace (Z.abs (if xsign a then - k else k)) with k by (destruct (xsign a); lia). split; [auto |]. split; [auto |]. unfold xval. destruct (xsign a); [rewrite inject_Z_opp |]; nra.
  - right. split; [exact Nc |]. split; [now apply xsign_of |]. auto.
  - intros CC. assert (EQ : xof (xsign a) m' (xe a) = a) by (apply xval_inj; auto; now apply xof_wf). rewrite EQ. unfold xeq. rewrite !Z.eqb_refl. reflexivity.
  - intros [CC | CC]; [lia | discriminate].
Qed.
