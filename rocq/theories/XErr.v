(** The operations of F192 against the operations of the real numbers: relative errors. *)
From Verif Require Import Base FSpec RSpec RIeeeP XNum XSpec XP1 XP2 XP3 XP6 XP7 XP8 XP9 XPow XFast Props_X1 RReal RReal4.
From Coq Require Import Reals Lra Lia Qreals ZArith QArith Qabs Bool.
From Coquelicot Require Import Coquelicot.
Local Open Scope R_scope.

(** the real number denoted by a bit pattern *)
Definition xR (a : f192) : R := Q2R (xval a).
(** 2^-k *)
Definition ep (k : nat) : R := / 2 ^ k.
Lemma ep_pos k : 0 < ep k. Proof. apply Rinv_0_lt_compat, pow_lt. lra. Qed.
Lemma ep_S k : ep k = 2 * ep (S k). Proof. unfold ep. cbn [pow]. assert (0 < 2 ^ k) by (apply pow_lt; lra). field. lra. Qed.
Lemma ep_add i j : ep (i + j) = ep i * ep j. Proof. unfold ep. rewrite pow_add. assert (0 < 2 ^ i) by (apply pow_lt; lra). assert (0 < 2 ^ j) by (apply pow_lt; lra). field. lra. Qed.
Lemma ep_le i j : (i <= j)%nat -> ep j <= ep i.
Proof. intros H. replace j with (i + (j - i))%nat by lia. rewrite ep_add. assert (ep (j - i) <= 1). { unfold ep. rewrite <- Rinv_1. apply Rinv_le_contravar; [lra |]. apply pow_R1_Rle. lra. } pose proof (ep_pos i). nra. Qed.
Lemma two_R e : Q2R (two e) = powerRZ 2 e.
Proof. unfold two. rewrite Q2R_power by discriminate. f_equal. unfold Q2R. cbn. field. Qed.
Lemma p2_pos e : 0 < powerRZ 2 e. Proof. apply powerRZ_lt. lra. Qed.
Lemma p2_add i j : powerRZ 2 (i + j) = powerRZ 2 i * powerRZ 2 j. Proof. apply powerRZ_add. lra. Qed.
Lemma p2_nat k : powerRZ 2 (Z.of_nat k) = 2 ^ k. Proof. now rewrite pow_powerRZ. Qed.
Lemma p2_opp k : powerRZ 2 (- Z.of_nat k) = ep k. Proof. rewrite powerRZ_neg' by lra. rewrite p2_nat. reflexivity. Qed.
Lemma p2_le i j : (i <= j)%Z -> powerRZ 2 i <= powerRZ 2 j.
Proof. intros H. rewrite <- !two_R. apply Qle_Rle, two_le. auto. Qed.
Lemma p2_lt_inv i j : powerRZ 2 i < powerRZ 2 j -> (i < j)%Z.
Proof. intros H. rewrite <- !two_R in H. apply Rlt_Qlt in H. now apply two_lt_inv. Qed.
Lemma Q2R_abs q : Q2R (Qabs q) = Rabs (Q2R q).
Proof. apply Qabs_case; intros H; apply Qle_Rle in H; rewrite RMicromega.Q2R_0 in H; [rewrite Rabs_pos_eq by auto; reflexivity | rewrite Rabs_left1, Q2R_opp by auto; reflexivity]. Qed.
Ltac q2r H := repeat first [rewrite Q2R_minus in H | rewrite Q2R_plus in H | rewrite Q2R_mult in H | rewrite Q2R_abs in H | rewrite Q2R_Z in H | rewrite RMicromega.Q2R_0 in H].
Lemma xR_zero : xR xZERO = 0. Proof. unfold xR, Q2R. cbn. lra. Qed.

(** moderate numbers: zero, or an exponent of at most K in absolute value *)
Definition xb (K : Z) (a : f192) : Prop := xwf a /\ (xnull a = true \/ (Z.abs (xpow a) <= K)%Z).
Lemma xb_le K L a : xb K a -> (K <= L)%Z -> xb L a. Proof. intros [W [N | P]] H; split; auto. right. lia. Qed.
Lemma xb_zero K : xb K xZERO. Proof. split; [apply xwf_zero | left; reflexivity]. Qed.
Lemma null_R a : xnull a = true -> xR a = 0. Proof. intros N. rewrite (xnull_zero a N). apply xR_zero. Qed.
Lemma mag_R a : xwf a -> xnull a = false -> powerRZ 2 (xpow a + 127) <= Rabs (xR a) < powerRZ 2 (xpow a + 128).
Proof.
  intros W N. destruct (xmag_bin a W N) as [M1 M2]. pose proof (xabs_val a W) as A. rewrite <- A in M1, M2. apply Qle_Rle in M1. apply Qlt_Rlt in M2. rewrite two_R, Q2R_abs in *. auto.
Qed.
Lemma nonnull_R a : xwf a -> xnull a = false -> 0 < Rabs (xR a). Proof. intros W N. destruct (mag_R a W N) as [H _]. pose proof (p2_pos (xpow a + 127)). lra. Qed.
Lemma null_iff a : xwf a -> xR a = 0 -> xnull a = true.
Proof. intros W H. destruct (xnull a) eqn:N; auto. pose proof (nonnull_R a W N) as K. rewrite H, Rabs_R0 in K. lra. Qed.
Lemma xb_val a i j : xwf a -> (xR a = 0 \/ powerRZ 2 (- i) <= Rabs (xR a)) -> Rabs (xR a) < powerRZ 2 j -> (0 <= i)%Z -> (0 <= j)%Z -> xb (Z.max (i + 128) j) a.
Proof.
  intros W L U Hi Hj. split; auto. destruct (xnull a) eqn:N; auto. right. destruct (mag_R a W N) as [M1 M2]. destruct L as [L | L]. { rewrite L, Rabs_R0 in M1. pose proof (p2_pos (xpow a + 127)). lra. }
  assert (- i < xpow a + 128)%Z by (apply p2_lt_inv; lra). assert (xpow a + 127 < j)%Z by (apply p2_lt_inv; lra). lia.
Qed.
Lemma ulp_R a : xwf a -> xnull a = false -> Q2R (xulp a) <= ep 127 * Rabs (xR a).
Proof.
  intros W N. destruct (mag_R a W N) as [M1 _]. unfold xulp. rewrite two_R. rewrite p2_add in M1. change 127%Z with (Z.of_nat 127) in M1. rewrite p2_nat in M1. unfold ep.
  assert (0 < 2 ^ 127) by (apply pow_lt; lra). apply (Rmult_le_reg_r (2 ^ 127)); auto. replace (/ 2 ^ 127 * Rabs (xR a) * 2 ^ 127) with (Rabs (xR a)) by (field; lra). lra.
Qed.

(** ** products *)
Lemma mulR K L a b : xb K a -> xb L b -> (0 <= K)%Z -> (0 <= L)%Z -> (K + L <= 2 ^ 40)%Z -> returns (xmul a b) (fun c => xb (K + L + 256) c /\
  Rabs (xR c) <= Rabs (xR a * xR b) /\ 0 <= xR c * (xR a * xR b) /\ Rabs (xR c - xR a * xR b) <= ep 125 * Rabs (xR a * xR b)).
Proof.
  intros [Wa Pa] [Wb Pb] HK HL HS. assert (Z : xnull a = true \/ xnull b = true -> returns (xmul a b) (fun c => xb (K + L + 256) c /\
  Rabs (xR c) <= Rabs (xR a * xR b) /\ 0 <= xR c * (xR a * xR b) /\ Rabs (xR c - xR a * xR b) <= ep 125 * Rabs (xR a * xR b))).
  { intros Z. assert (E : xmul a b = Ok xZERO) by (destruct Z as [Z | Z]; rewrite (xnull_zero _ Z); apply C46_zero). rewrite E. apply returns_ok. split; [apply xb_zero |].
    assert (P : xR a * xR b = 0) by (destruct Z as [Z | Z]; rewrite (null_R _ Z); ring). rewrite P, xR_zero, Rminus_0_r, Rabs_R0. repeat split; lra. }
  destruct (xnull a) eqn:Na; [apply Z; auto |]. destruct (xnull b) eqn:Nb; [apply Z; auto |]. clear Z. destruct Pa as [Pa | Pa]; [discriminate |]. destruct Pb as [Pb | Pb]; [discriminate |].
  unfold xpow in Pa, Pb. change (2 ^ 40)%Z with 1099511627776%Z in HS. change (2 ^ 48)%Z with 281474976710656%Z in Pa, Pb.
  assert (R1 : (EXPC <= xe a + xe b < 2 ^ 64)%Z) by (unfold EXPC; change (2 ^ 64)%Z with 18446744073709551616%Z; lia). assert (R2 : (xe a + xe b - EXPC + 128 < 2 ^ 64)%Z) by (unfold EXPC; change (2 ^ 64)%Z with 18446744073709551616%Z; lia).
  eapply returns_weaken; [apply xmul_ok; auto |]. intros c ((Wc & B1 & B2 & B3) & Nc). apply Qle_Rle in B1, B2. apply Qlt_Rlt in B3. q2r B1. q2r B2. q2r B3.
  fold (xR a) (xR b) (xR c) in *. set (p := xR a * xR b) in *. pose proof (ulp_R c Wc Nc) as U. set (u := Q2R (xulp c)) in *.
  assert (D : Rabs (xR c - p) = Rabs p - Rabs (xR c)). { clear - B1 B2. revert B1 B2. unfold Rabs. destruct (Rcase_abs (xR c)), (Rcase_abs p), (Rcase_abs (xR c - p)); intros; nra. }
  assert (E5 : 4 * ep 127 = ep 125) by (rewrite (ep_S 125), (ep_S 126); lra). pose proof (ep_pos 127) as E0. pose proof (Rabs_pos (xR c)) as Pc.
  assert (Er : Rabs (xR c - p) <= ep 125 * Rabs p). { rewrite D, <- E5. assert (ep 127 * Rabs (xR c) <= ep 127 * Rabs p) by (apply Rmult_le_compat_l; lra). lra. }
  splits; auto.
  split; [auto |]. right. pose proof (mag_R a Wa Na) as [A1 A2]. pose proof (mag_R b Wb Nb) as [C1 C2]. pose proof (mag_R c Wc Nc) as [D1 D2]. fold p in D1, D2.
  assert (Lp : powerRZ 2 (xpow a + 127 + (xpow b + 127)) <= Rabs p). { rewrite p2_add. unfold p. rewrite Rabs_mult. pose proof (p2_pos (xpow a + 127)). pose proof (p2_pos (xpow b + 127)). apply Rmult_le_compat; lra. }
  assert (Up : Rabs p < powerRZ 2 (xpow a + 128 + (xpow b + 128))). { rewrite p2_add. unfold p. rewrite Rabs_mult. apply Rmult_le_0_lt_compat; auto using Rabs_pos. }
  assert (E1 : ep 125 <= 1 / 2). { replace (1 / 2) with (ep 1) by (unfold ep; cbn; field). apply ep_le. lia. }
  assert (Rabs p <= 2 * Rabs (xR c)). { assert (ep 125 * Rabs p <= 1 / 2 * Rabs p) by (apply Rmult_le_compat_r; [apply Rabs_pos | auto]). lra. }
  assert (xpow a + 127 + (xpow b + 127) < xpow c + 129)%Z. { apply p2_lt_inv. replace (xpow c + 129)%Z with (1 + (xpow c + 128))%Z by ring. rewrite (p2_add 1). change (powerRZ 2 1) with (2 * 1). lra. }
  assert (xpow c + 127 < xpow a + 128 + (xpow b + 128))%Z by (apply p2_lt_inv; lra). unfold xpow in *. change (2 ^ 48)%Z with 281474976710656%Z in *. lia.
Qed.

(** ** sums: where rounding does not carry into the next binade *)
Definition Rcarry (v : R) : Prop := exists E, (1 - ep 129) * powerRZ 2 E <= Rabs v < powerRZ 2 E.
Lemma nocarry_Q q : ~ Rcarry (Q2R q) -> ~ xcarry q.
Proof.
  intros N (E & H1 & H2). apply N. exists (E + 128)%Z. apply Qle_Rle in H1. apply Qlt_Rlt in H2. q2r H1. q2r H2. rewrite two_R in H1, H2.
  rewrite p2_add. change (powerRZ 2 128) with (powerRZ 2 (Z.of_nat 128)). rewrite p2_nat. replace (Q2R (1 # 2)) with (1 / 2) in H1 by (unfold Q2R; cbn; field).
  replace (2 * SIGNM)%Z with (2 ^ 128)%Z in H1, H2 by reflexivity. rewrite (pow_IZR 2 128). change (2 ^ Z.of_nat 128)%Z with (2 ^ 128)%Z. pose proof (p2_pos E) as P.
  assert (T : ep 129 * IZR (2 ^ 128) = 1 / 2). { unfold ep. rewrite (pow_IZR 2 129). change (2 ^ Z.of_nat 129)%Z with (2 ^ 128 * 2)%Z. rewrite mult_IZR. assert (IZR (2 ^ 128) <> 0) by (apply not_0_IZR; discriminate). field. auto. }
  set (w := IZR (2 ^ 128)) in *. split; [| lra]. replace ((1 - ep 129) * (powerRZ 2 E * w)) with ((w - ep 129 * w) * powerRZ 2 E) by ring. rewrite T. lra.
Qed.
Lemma Rcarry_abs v w : Rabs v = Rabs w -> Rcarry v -> Rcarry w. Proof. intros H (E & K). exists E. rewrite <- H. auto. Qed.
Lemma nocarry_range v j : powerRZ 2 j <= Rabs v < (1 - ep 129) * powerRZ 2 (j + 1) -> ~ Rcarry v.
Proof.
  intros [H1 H2] (E & K1 & K2). assert (j < E)%Z by (apply p2_lt_inv; lra). assert (powerRZ 2 (j + 1) <= powerRZ 2 E) by (apply p2_le; lia).
  assert (0 < 1 - ep 129). { assert (ep 129 <= ep 1) by (apply ep_le; lia). unfold ep in *. cbn in *. lra. } nra.
Qed.
Lemma nocarry_grid v N g : v = IZR N * powerRZ 2 g -> (Z.abs N <= 2 ^ 128)%Z -> ~ Rcarry v.
Proof.
  intros V B (E & K1 & K2). rewrite V, Rabs_mult, <- abs_IZR, (Rabs_pos_eq (powerRZ 2 g)) in K1, K2 by (apply Rlt_le, p2_pos). pose proof (p2_pos g) as Pg. set (n := Z.abs N) in *. assert (Hn : (0 <= n)%Z) by (unfold n; lia).
  assert (e1 : 0 < ep 129 < 1 / 2). { split; [apply ep_pos |]. apply (Rle_lt_trans _ (ep 2)); [apply ep_le; lia | unfold ep; cbn; lra]. }
  replace E with (E - g + g)%Z in K1, K2 by ring. rewrite p2_add in K1, K2. set (k := (E - g)%Z) in *. pose proof (p2_pos k) as Pk.
  assert (L1 : (1 - ep 129) * powerRZ 2 k <= IZR n) by (apply (Rmult_le_reg_r (powerRZ 2 g)); lra). assert (L2 : IZR n < powerRZ 2 k) by (apply (Rmult_lt_reg_r (powerRZ 2 g)); lra).
  assert (Hk : (k <= 128)%Z). { assert (powerRZ 2 k < powerRZ 2 129); [| assert (k < 129)%Z by (now apply p2_lt_inv); lia]. assert (IZR n <= IZR (2 ^ 128)) by (apply IZR_le; auto). assert (T : powerRZ 2 129 = 2 * IZR (2 ^ 128)). { change 129%Z with (Z.of_nat 129). rewrite p2_nat, (pow_IZR 2 129). change (2 ^ Z.of_nat 129)%Z with (2 * 2 ^ 128)%Z. now rewrite mult_IZR. } nra. }
  destruct (Z_le_gt_dec 0 k) as [K0 | K0].
  - assert (T : powerRZ 2 k = IZR (2 ^ k)). { rewrite <- (Z2Nat.id k) by auto. rewrite p2_nat. apply pow_IZR. } rewrite T in *. assert (n <= 2 ^ k - 1)%Z by (apply lt_IZR in L2; lia). apply IZR_le in H. rewrite minus_IZR in H.
    assert (IZR (2 ^ k) <= IZR (2 ^ 128)) by (apply IZR_le, Z.pow_le_mono_r; lia). assert (E2 : ep 129 * IZR (2 ^ 128) = 1 / 2). { unfold ep. rewrite (pow_IZR 2 129). change (2 ^ Z.of_nat 129)%Z with (2 ^ 128 * 2)%Z. rewrite mult_IZR. assert (IZR (2 ^ 128) <> 0) by (apply not_0_IZR; discriminate). field. auto. } nra.
  - assert (powerRZ 2 k <= 1). { change 1 with (powerRZ 2 0). apply p2_le. lia. } assert (n = 0%Z). { assert (IZR n < IZR 1) by lra. apply lt_IZR in H0. lia. } rewrite H0 in L1. nra.
Qed.
Lemma zero_pow : (xpow xZERO <= - 2 ^ 40)%Z. Proof. vm_compute. discriminate. Qed.
Lemma null_ulp K q c : xnull c = true -> (K < 2 ^ 40)%Z -> powerRZ 2 (- K) <= Rabs q -> ~ Rabs (xR c - q) <= Q2R (xulp c).
Proof.
  intros N HK L H. assert (Hz : (xpow c <= - 2 ^ 40)%Z) by (rewrite (xnull_zero c N); exact zero_pow). rewrite (null_R c N) in H. unfold xulp in H. rewrite two_R in H. unfold Rminus in H. rewrite Rplus_0_l, Rabs_Ropp in H.
  assert (powerRZ 2 (xpow c) < powerRZ 2 (- K)) by (rewrite <- !two_R; apply Qlt_Rlt, two_lt; lia). lra.
Qed.
Lemma zero_near q c : xnearest q c -> Q2R q = 0 -> xR c = 0.
Proof. intros (W & B & H) L. specialize (B xZERO xwf_zero). apply Qle_Rle in B. rewrite !Q2R_abs, !Q2R_minus, L, !Rminus_0_r in B. change (Q2R (xval xZERO)) with (xR xZERO) in B. rewrite xR_zero, Rabs_R0 in B. fold (xR c) in B. apply Rabs_eq_0. pose proof (Rabs_pos (xR c)). lra. Qed.
Lemma near_rel K q c : xnearest q c -> (K < 2 ^ 40)%Z -> Q2R q = 0 \/ powerRZ 2 (- K) <= Rabs (Q2R q) -> Rabs (xR c - Q2R q) <= ep 127 * Rabs (Q2R q).
Proof.
  intros Nr HK L. destruct L as [L | L]. { rewrite (zero_near q c Nr L), L, Rminus_0_r, Rabs_R0. lra. }
  destruct Nr as (W & _ & H). apply Qle_Rle in H. q2r H. fold (xR c) in H. replace (Q2R (1 # 2)) with (1 / 2) in H by (unfold Q2R; cbn; field).
  destruct (xnull c) eqn:N.
  - exfalso. apply (null_ulp K (Q2R q) c N ltac:(lia) L). unfold xulp in *. pose proof (p2_pos (xpow c)). rewrite two_R in *. lra.
  - pose proof (ulp_R c W N) as U. revert H U. generalize (Q2R (xulp c)) (Q2R q) (xR c). intros u v x H U. assert (T : Rabs x <= Rabs v + Rabs (x - v)). { replace x with (v + (x - v)) at 1 by ring. apply Rabs_triang. }
    assert (e1 : 0 < ep 127 <= 1 / 2). { split; [apply ep_pos |]. apply (Rle_trans _ (ep 1)); [apply ep_le; lia | unfold ep; cbn; lra]. } pose proof (Rabs_pos v). pose proof (Rabs_pos (x - v)). generalize dependent (ep 127). intros. nra.
Qed.
Lemma down_rel K q c : xrounds_down q c -> (K < 2 ^ 40)%Z -> Q2R q = 0 \/ powerRZ 2 (- K) <= Rabs (Q2R q) -> Rabs (xR c) <= Rabs (Q2R q) /\ 0 <= xR c * Q2R q /\ Rabs (xR c - Q2R q) <= ep 127 * Rabs (Q2R q).
Proof.
  intros (W & B1 & B2 & B & H) HK L. apply Qlt_Rlt in H. apply Qle_Rle in B1, B2. q2r H. q2r B1. q2r B2. fold (xR c) in *. set (v := Q2R q) in *. splits; auto.
  destruct L as [L | L].
  { rewrite L, Rabs_R0 in *. assert (E : xR c = 0) by (apply Rabs_eq_0; pose proof (Rabs_pos (xR c)); lra). rewrite E, Rminus_0_r, Rabs_R0. lra. }
  destruct (xnull c) eqn:N.
  - exfalso. apply (null_ulp K v c N HK L). lra.
  - pose proof (ulp_R c W N) as U. set (u := Q2R (xulp c)) in *. assert (ep 127 * Rabs (xR c) <= ep 127 * Rabs v) by (apply Rmult_le_compat_l; [apply Rlt_le, ep_pos | auto]). lra.
Qed.
(** a sum or difference of moderate numbers is zero or not too small *)
Lemma sum_grid K a b (s : Z) : xb K a -> xb K b -> s = 1%Z \/ s = (-1)%Z -> xR a + IZR s * xR b = 0 \/ powerRZ 2 (- K) <= Rabs (xR a + IZR s * xR b).
Proof.
  intros [Wa Pa] [Wb Pb] Hs. assert (G : forall x, xwf x -> xnull x = true \/ (Z.abs (xpow x) <= K)%Z -> exists n, xR x = IZR n * powerRZ 2 (- K)).
  { intros x Wx Px. destruct (xnull x) eqn:N. { exists 0%Z. rewrite (null_R x N). lra. } destruct Px as [Px | Px]; [discriminate |]. exists (fint x (- K)). pose proof (fint_ok x (- K) Wx N ltac:(lia)) as F. apply Qeq_eqR in F. q2r F. rewrite two_R in F. exact F. }
  destruct (G a Wa Pa) as (n & En), (G b Wb Pb) as (m & Em). rewrite En, Em. replace (IZR n * powerRZ 2 (- K) + IZR s * (IZR m * powerRZ 2 (- K))) with (IZR (n + s * m) * powerRZ 2 (- K)) by (rewrite plus_IZR, mult_IZR; ring).
  destruct (Z.eq_dec (n + s * m) 0) as [E | E]; [left; rewrite E; ring | right]. rewrite Rabs_mult, (Rabs_pos_eq (powerRZ 2 (- K))) by apply Rlt_le, p2_pos. pose proof (p2_pos (- K)).
  assert (1 <= Rabs (IZR (n + s * m))). { rewrite <- abs_IZR. apply IZR_le. lia. } nra.
Qed.
Lemma val_up K a : xb K a -> (0 <= K)%Z -> Rabs (xR a) < powerRZ 2 (K + 128).
Proof. intros [W P] HK. destruct (xnull a) eqn:N; [rewrite (null_R a N), Rabs_R0; apply p2_pos |]. destruct P as [P | P]; [discriminate |]. destruct (mag_R a W N) as [_ M]. eapply Rlt_le_trans; [exact M |]. apply p2_le. lia. Qed.
(** what a sum is, relative to the exact value [v]: error at most 2^-127 of it *)
Definition xnear (K : Z) (v : R) (c : f192) : Prop := xb K c /\ Rabs (xR c - v) <= ep 127 * Rabs v.
Lemma near_xb K v c : (0 <= K)%Z -> xwf c -> v = 0 \/ powerRZ 2 (- K) <= Rabs v -> Rabs v < powerRZ 2 (K + 129) -> Rabs (xR c - v) <= ep 127 * Rabs v -> xb (K + 256) c.
Proof.
  intros HK W L U H. assert (e1 : 0 < ep 127 <= 1 / 2). { split; [apply ep_pos |]. apply (Rle_trans _ (ep 1)); [apply ep_le; lia | unfold ep; cbn; lra]. }
  assert (H1 : Rabs (xR c) <= 2 * Rabs v). { replace (xR c) with (v + (xR c - v)) by ring. eapply Rle_trans; [apply Rabs_triang |]. pose proof (Rabs_pos v). nra. }
  assert (H2 : Rabs v <= 2 * Rabs (xR c)). { assert (Rabs v <= Rabs (xR c) + Rabs (xR c - v)). { rewrite (Rabs_minus_sym (xR c) v). replace v with (xR c + (v - xR c)) at 1 by ring. apply Rabs_triang. } pose proof (Rabs_pos v). nra. }
  apply (xb_le (Z.max (K + 1 + 128) (K + 130))); [| lia]. apply xb_val; auto; try lia.
  - destruct L as [L | L]; [left | right].
    + rewrite L, Rabs_R0 in H1. apply Rabs_eq_0. pose proof (Rabs_pos (xR c)). lra.
    + replace (- (K + 1))%Z with (- K + - Z.of_nat 1)%Z by lia. rewrite p2_add, p2_opp. replace (ep 1) with (/ 2) by (unfold ep; cbn; field). lra.
  - replace (K + 130)%Z with (1 + (K + 129))%Z by ring. rewrite p2_add. change (powerRZ 2 1) with (2 * 1). lra.
Qed.
(** why the exact value must not carry: only needed when the signs differ *)
Lemma not_low K a : xb K a -> (K < 2 ^ 32)%Z -> xnull a = false -> a <> LOWEST.
Proof. intros [W [N | P]] H N2 E; [congruence |]. rewrite E in P. assert (2 ^ 32 <= Z.abs (xpow LOWEST))%Z by (vm_compute; discriminate). lia. Qed.
Lemma not_low0 K a : xb K a -> (K < 2 ^ 32)%Z -> xlowest a = false.
Proof. intros B H. destruct (xnull a) eqn:N; [rewrite (xnull_zero a N); reflexivity |]. apply not_lowest. eapply not_low; eauto. Qed.
Lemma sign_R a : xwf a -> xnull a = false -> if xsign a then xR a < 0 else 0 < xR a.
Proof.
  intros W N. unfold xR, xval. pose proof (xmag_pos a W N) as M. apply Qlt_Rlt in M. rewrite RMicromega.Q2R_0 in M. destruct (xsign a); [rewrite Q2R_opp |]; lra.
Qed.
Lemma neg_b K a : xb K a -> (K < 2 ^ 32)%Z -> xb K (xneg a) /\ xR (xneg a) = - xR a.
Proof.
  intros B H. pose proof (not_low0 K a B H) as L. destruct B as [W P]. assert (V : xR (xneg a) = - xR a). { unfold xR. rewrite <- Q2R_opp. apply Qeq_eqR. now apply xneg_ok. }
  split; auto. assert (W2 : xwf (xneg a)) by now apply xneg_wf. split; auto. destruct (xnull a) eqn:N. { left. apply null_iff; auto. rewrite V, (null_R a N). ring. }
  destruct P as [P | P]; [discriminate |]. right. destruct (xnull (xneg a)) eqn:N2. { pose proof (null_R _ N2) as Z. rewrite V in Z. pose proof (nonnull_R a W N) as Z2. replace (xR a) with 0 in Z2 by lra. rewrite Rabs_R0 in Z2. lra. }
  pose proof (mag_R a W N) as M1. pose proof (mag_R _ W2 N2) as M2. rewrite V, Rabs_Ropp in M2. assert (xpow a + 127 < xpow (xneg a) + 128)%Z by (apply p2_lt_inv; lra). assert (xpow (xneg a) + 127 < xpow a + 128)%Z by (apply p2_lt_inv; lra). replace (xpow (xneg a)) with (xpow a) by lia. auto.
Qed.
Lemma abs_b K a : xb K a -> (K < 2 ^ 32)%Z -> xb K (xabs a) /\ xR (xabs a) = Rabs (xR a).
Proof.
  intros B H. pose proof (not_low0 K a B H) as L. destruct B as [W P]. assert (V : xR (xabs a) = Rabs (xR a)). { unfold xR. rewrite <- Q2R_abs. apply Qeq_eqR. now apply xabs_ok. }
  split; auto. assert (W2 : xwf (xabs a)) by now apply xabs_wf. split; auto. destruct (xnull a) eqn:N. { left. apply null_iff; auto. rewrite V, (null_R a N). apply Rabs_R0. }
  destruct P as [P | P]; [discriminate |]. right. pose proof (nonnull_R a W N) as Z2. destruct (xnull (xabs a)) eqn:N2. { pose proof (null_R _ N2) as Z. rewrite V in Z. lra. }
  pose proof (mag_R a W N) as M1. pose proof (mag_R _ W2 N2) as M2. rewrite V, Rabs_Rabsolu in M2. assert (xpow a + 127 < xpow (xabs a) + 128)%Z by (apply p2_lt_inv; lra). assert (xpow (xabs a) + 127 < xpow a + 128)%Z by (apply p2_lt_inv; lra). replace (xpow (xabs a)) with (xpow a) by lia. auto.
Qed.
Lemma near_self K a : xb K a -> xnear (K + 256) (xR a) a.
Proof. intros B. split; [apply (xb_le K); auto; lia |]. replace (xR a - xR a) with 0 by ring. rewrite Rabs_R0. pose proof (ep_pos 127). pose proof (Rabs_pos (xR a)). nra. Qed.
Lemma sum_up K a b s : xb K a -> xb K b -> (0 <= K)%Z -> s = 1%Z \/ s = (-1)%Z -> Rabs (xR a + IZR s * xR b) < powerRZ 2 (K + 129).
Proof.
  intros Ba Bb HK Hs. pose proof (val_up K a Ba HK) as A. pose proof (val_up K b Bb HK) as B. replace (K + 129)%Z with (1 + (K + 128))%Z by ring. rewrite p2_add. change (powerRZ 2 1) with (2 * 1).
  eapply Rle_lt_trans; [apply Rabs_triang |]. rewrite Rabs_mult. replace (Rabs (IZR s)) with 1 by (destruct Hs as [-> | ->]; rewrite <- abs_IZR; reflexivity). lra.
Qed.
Lemma sum_done K a b s q c : xb K a -> xb K b -> (0 <= K)%Z -> (K < 2 ^ 32)%Z -> s = 1%Z \/ s = (-1)%Z -> Q2R q = xR a + IZR s * xR b -> xnearest q c \/ xrounds_down q c -> xnear (K + 256) (xR a + IZR s * xR b) c.
Proof.
  intros Ba Bb HK HK2 Hs Hq H. pose proof (sum_grid K a b s Ba Bb Hs) as G. pose proof (sum_up K a b s Ba Bb HK Hs) as U.
  assert (E : Rabs (xR c - (xR a + IZR s * xR b)) <= ep 127 * Rabs (xR a + IZR s * xR b)). { rewrite <- Hq in *. destruct H as [H | H]; [apply (near_rel K q c H); auto; lia | apply (down_rel K q c H); auto; lia]. }
  split; auto. apply (near_xb K (xR a + IZR s * xR b)); auto. destruct H as [[W _] | [W _]]; auto.
Qed.
Lemma addR K a b : xb K a -> xb K b -> (0 <= K)%Z -> (K < 2 ^ 32)%Z -> 0 <= xR a * xR b \/ ~ Rcarry (xR a + xR b) -> returns (xadd a b) (xnear (K + 256) (xR a + xR b)).
Proof.
  intros Ba Bb HK HK2 C. assert (La := not_low0 K a Ba HK2). assert (Lb := not_low0 K b Bb HK2).
  destruct (xnull a) eqn:Na. { rewrite (null_R a Na), Rplus_0_l, (xnull_zero a Na). rewrite xadd_zero_l by (auto; apply Bb). apply returns_ok. now apply near_self. }
  destruct (xnull b) eqn:Nb. { rewrite (null_R b Nb), Rplus_0_r, (xnull_zero b Nb). rewrite xadd_zero_r by (auto; apply Ba). apply returns_ok. now apply near_self. }
  assert (F : forall c, xnearest (xval a + xval b) c \/ xrounds_down (xval a + xval b) c -> xnear (K + 256) (xR a + xR b) c).
  { intros c H. replace (xR a + xR b) with (xR a + IZR 1 * xR b) by ring. apply (sum_done K a b 1 (xval a + xval b)); auto. rewrite Q2R_plus. unfold xR. ring. }
  pose proof (sign_R a (proj1 Ba) Na) as Sa. pose proof (sign_R b (proj1 Bb) Nb) as Sb. destruct Ba as [Wa [Pa | Pa]]; [congruence |]. destruct Bb as [Wb [Pb | Pb]]; [congruence |]. unfold xpow in *. change (2 ^ 32)%Z with 4294967296%Z in HK2. change (2 ^ 48)%Z with 281474976710656%Z in Pa, Pb.
  destruct (bool_dec (xsign a) (xsign b)) as [S | S].
  - eapply returns_weaken; [apply C45_add_same_sign; auto; change (2 ^ 64)%Z with 18446744073709551616%Z; lia |]. intros c H. apply F. auto.
  - eapply returns_weaken; [apply C45_add_opposite_sign_partial; auto; unfold xpow; change (2 ^ 48)%Z with 281474976710656%Z; change (2 ^ 32)%Z with 4294967296%Z; try lia |].
    + apply nocarry_Q. rewrite Q2R_plus. destruct C as [C | C]; auto. exfalso. destruct (xsign a), (xsign b); try congruence; nra.
    + intros c H. apply F. auto.
Qed.
Lemma subR K a b : xb K a -> xb K b -> (0 <= K)%Z -> (K < 2 ^ 32)%Z -> xR a * xR b <= 0 \/ ~ Rcarry (xR a - xR b) -> returns (xsub a b) (xnear (K + 256) (xR a - xR b)).
Proof.
  intros Ba Bb HK HK2 C. assert (La := not_low0 K a Ba HK2). assert (Lb := not_low0 K b Bb HK2).
  destruct (xnull a) eqn:Na. { rewrite (null_R a Na), Rminus_0_l, (xnull_zero a Na). rewrite xsub_zero_l by (auto; apply Bb). apply returns_ok. destruct (neg_b K b Bb HK2) as [Nb <-]. now apply near_self. }
  destruct (xnull b) eqn:Nb. { rewrite (null_R b Nb), Rminus_0_r, (xnull_zero b Nb). rewrite xsub_zero_r by (auto; apply Ba). apply returns_ok. now apply near_self. }
  assert (F : forall c, xnearest (xval a - xval b) c \/ xrounds_down (xval a - xval b) c -> xnear (K + 256) (xR a - xR b) c).
  { intros c H. replace (xR a - xR b) with (xR a + IZR (-1) * xR b) by ring. apply (sum_done K a b (-1) (xval a - xval b)); auto. rewrite Q2R_minus. unfold xR. ring. }
  pose proof (sign_R a (proj1 Ba) Na) as Sa. pose proof (sign_R b (proj1 Bb) Nb) as Sb. assert (La' : a <> LOWEST) by (apply (not_low K); auto). assert (Lb' : b <> LOWEST) by (apply (not_low K); auto).
  destruct Ba as [Wa [Pa | Pa]]; [congruence |]. destruct Bb as [Wb [Pb | Pb]]; [congruence |]. unfold xpow in *. change (2 ^ 32)%Z with 4294967296%Z in HK2. change (2 ^ 48)%Z with 281474976710656%Z in Pa, Pb.
  destruct (bool_dec (xsign a) (xsign b)) as [S | S].
  - eapply returns_weaken; [apply C45_sub_same_sign_partial; auto; unfold xpow; change (2 ^ 48)%Z with 281474976710656%Z; change (2 ^ 32)%Z with 4294967296%Z; try lia |].
    + apply nocarry_Q. rewrite Q2R_minus. destruct C as [C | C]; auto. exfalso. destruct (xsign a), (xsign b); try congruence; nra.
    + intros c H. apply F. auto.
  - eapply returns_weaken; [apply C45_sub_opposite_sign; auto; change (2 ^ 64)%Z with 18446744073709551616%Z; lia |]. intros c H. apply F. auto.
Qed.

(** ** shifts, integers, division *)
Lemma shrR K a n : xb K a -> (0 <= n)%Z -> (K + n < 2 ^ 32)%Z -> returns (xshr a n) (fun c => xb (K + n) c /\ xR c = xR a * powerRZ 2 (- n)).
Proof.
  intros [W P] Hn H. destruct (xnull a) eqn:N. { rewrite (xnull_zero a N), xshr_zero by auto. apply returns_ok. split; [apply xb_zero |]. rewrite xR_zero. ring. }
  destruct P as [P | P]; [discriminate |]. eapply returns_weaken. { apply xshr_ok; auto. unfold xpow in P. change (2 ^ 48)%Z with 281474976710656%Z in P. change (2 ^ 32)%Z with 4294967296%Z in H. lia. }
  intros c [Wc V]. apply Qeq_eqR in V. rewrite Q2R_mult, two_R in V. change (xR c = xR a * powerRZ 2 (- n)) in V. split; auto. split; auto.
  destruct (xnull c) eqn:Nc; auto. right. pose proof (mag_R a W N) as M1. pose proof (mag_R c Wc Nc) as M2. rewrite V, Rabs_mult, (Rabs_pos_eq (powerRZ 2 (- n))) in M2 by apply Rlt_le, p2_pos. pose proof (p2_pos (- n)) as Pn. destruct M1 as [M1 M1'], M2 as [M2 M2'].
  apply (Rmult_le_compat_r (powerRZ 2 (- n))) in M1; [| lra]. apply (Rmult_lt_compat_r (powerRZ 2 (- n))) in M1'; [| lra]. rewrite <- p2_add in M1, M1'.
  assert (xpow a + 127 + - n < xpow c + 128)%Z by (apply p2_lt_inv; lra). assert (xpow c + 127 < xpow a + 128 + - n)%Z by (apply p2_lt_inv; lra). lia.
Qed.
Lemma shlR K a n : xb K a -> xnull a = false -> (0 <= n)%Z -> (K + n < 2 ^ 32)%Z -> returns (xshl a n) (fun c => xb (K + n) c /\ xR c = xR a * powerRZ 2 n).
Proof.
  intros [W P] N Hn H. destruct P as [P | P]; [congruence |]. eapply returns_weaken. { apply xshl_ok; auto. unfold xpow in P. change (2 ^ 48)%Z with 281474976710656%Z in P. change (2 ^ 32)%Z with 4294967296%Z in H. change (2 ^ 64)%Z with 18446744073709551616%Z. lia. }
  intros c [Wc V]. apply Qeq_eqR in V. rewrite Q2R_mult, two_R in V. change (xR c = xR a * powerRZ 2 n) in V. split; auto. split; auto.
  destruct (xnull c) eqn:Nc; auto. right. pose proof (mag_R a W N) as M1. pose proof (mag_R c Wc Nc) as M2. rewrite V, Rabs_mult, (Rabs_pos_eq (powerRZ 2 n)) in M2 by apply Rlt_le, p2_pos. pose proof (p2_pos n) as Pn. destruct M1 as [M1 M1'], M2 as [M2 M2'].
  apply (Rmult_le_compat_r (powerRZ 2 n)) in M1; [| lra]. apply (Rmult_lt_compat_r (powerRZ 2 n)) in M1'; [| lra]. rewrite <- p2_add in M1, M1'.
  assert (xpow a + 127 + n < xpow c + 128)%Z by (apply p2_lt_inv; lra). assert (xpow c + 127 < xpow a + 128 + n)%Z by (apply p2_lt_inv; lra). lia.
Qed.
Lemma fromR p n : (pmin p <= n < pmax p)%Z -> n <> (- 2 ^ 127)%Z -> returns (xfrom_prim p n) (fun c => xb 128 c /\ xR c = IZR n).
Proof.
  intros H1 H2. eapply returns_weaken; [apply xfrom_prim_ok; auto |]. intros c [W V]. apply Qeq_eqR in V. rewrite Q2R_Z in V. change (xR c = IZR n) in V. split; auto.
  apply (xb_le (Z.max (0 + 128) 128)); [| lia]. apply xb_val; auto; try lia; rewrite V.
  - destruct (Z.eq_dec n 0) as [-> | Z]; auto. right. rewrite <- abs_IZR. change (powerRZ 2 (- 0)) with 1. apply IZR_le. lia.
  - rewrite <- abs_IZR. change 128%Z with (Z.of_nat 128). rewrite p2_nat, pow_IZR. apply IZR_lt. change (2 ^ Z.of_nat 128)%Z with 340282366920938463463374607431768211456%Z. destruct p; cbn in H1; lia.
Qed.
Lemma divi_R K a n : xb K a -> (K + 256 < 2 ^ 32)%Z -> n <> 0%Z -> (- 2 ^ 31 < n < 2 ^ 31)%Z -> (0 <= K)%Z -> returns (xdiv_i32 a n) (fun c => xb (K + 256) c /\
  Rabs (xR c) <= Rabs (xR a / IZR n) /\ 0 <= xR c * (xR a / IZR n) /\ Rabs (xR c - xR a / IZR n) <= ep 127 * Rabs (xR a / IZR n)).
Proof.
  intros B H Hn Rn HK. destruct (xnull a) eqn:N. { rewrite (xnull_zero a N). rewrite (proj2 (C47_div_i32_zero xZERO n)) by auto. apply returns_ok. rewrite xR_zero. unfold Rdiv. rewrite Rmult_0_l, Rminus_0_r, Rabs_R0. splits; try lra. apply xb_zero. }
  pose proof B as [W P]. destruct P as [P | P]; [congruence |]. change (2 ^ 32)%Z with 4294967296%Z in H. eapply returns_weaken. { apply C47_div_i32; auto. unfold xpow in P. change (2 ^ 48)%Z with 281474976710656%Z in P. lia. }
  intros c Hc. assert (NZ : IZR n <> 0) by now apply not_0_IZR. assert (V : Q2R (xval a / inject_Z n) = xR a / IZR n). { rewrite Q2R_div, Q2R_Z; auto. intros E. apply Qeq_eqR in E. rewrite Q2R_Z, RMicromega.Q2R_0 in E. auto. }
  destruct (mag_R a W N) as [M1 M2]. assert (A1 : 1 <= Rabs (IZR n) < powerRZ 2 32). { rewrite <- abs_IZR. change 32%Z with (Z.of_nat 32). rewrite p2_nat, pow_IZR. split; [apply IZR_le; lia | apply IZR_lt; change (2 ^ Z.of_nat 32)%Z with 4294967296%Z; change (2 ^ 31)%Z with 2147483648%Z in Rn; lia]. }
  assert (D : Rabs (xR a / IZR n) * Rabs (IZR n) = Rabs (xR a)) by (rewrite <- Rabs_mult; f_equal; field; auto). set (v := xR a / IZR n) in *.
  assert (L : powerRZ 2 (- K) <= Rabs v). { pose proof (p2_pos 32). assert (powerRZ 2 (xpow a + 127) = powerRZ 2 (xpow a + 127 - 32) * powerRZ 2 32) by (rewrite <- p2_add; f_equal; ring). pose proof (p2_pos (xpow a + 127 - 32)).
    assert (powerRZ 2 (xpow a + 127 - 32) <= Rabs v). { apply (Rmult_le_reg_r (powerRZ 2 32)); auto. pose proof (Rabs_pos v). nra. } eapply Rle_trans; [| eassumption]. apply p2_le. lia. }
  assert (U : Rabs v < powerRZ 2 (K + 129)). { pose proof (val_up K a B HK). assert (powerRZ 2 (K + 128) <= powerRZ 2 (K + 129)) by (apply p2_le; lia). pose proof (Rabs_pos v). nra. }
  destruct (down_rel K (xval a / inject_Z n) c Hc) as (R1 & R2 & R3); [change (2 ^ 40)%Z with 1099511627776%Z; lia | right; rewrite V; auto |]. rewrite V in R1, R2, R3. splits; auto. apply (near_xb K v); auto. apply Hc.
Qed.
Lemma divR K L a b : xb K a -> xb L b -> xnull b = false -> (0 <= K)%Z -> (0 <= L)%Z -> (K + L < 2 ^ 32)%Z -> returns (xdiv a b) (fun c => xb (K + L + 512) c /\
  Rabs (xR a / xR b) <= Rabs (xR c) /\ 0 <= xR c * (xR a / xR b) /\ Rabs (xR c - xR a / xR b) <= ep 123 * Rabs (xR a / xR b)).
Proof.
  intros Ba Bb Nb HK HL HS. destruct (xnull a) eqn:Na. { rewrite (proj1 (C47_div_zero a b)) by now rewrite xis_zero_null. apply returns_ok. rewrite xR_zero, (null_R a Na). unfold Rdiv. rewrite Rmult_0_l, Rminus_0_r, Rabs_R0. splits; try lra. apply xb_zero. }
  destruct Ba as [Wa Pa]. destruct Bb as [Wb Pb]. destruct Pa as [Pa | Pa]; [congruence |]. destruct Pb as [Pb | Pb]; [congruence |]. change (2 ^ 32)%Z with 4294967296%Z in HS.
  eapply returns_weaken; [apply C47_div; auto; change (2 ^ 36)%Z with 68719476736%Z; lia |]. intros c (Wc & Nc & Sc & L1 & L2 & _). apply Qle_Rle in L1. apply Qlt_Rlt in L2.
  pose proof (nonnull_R b Wb Nb) as Pbb. assert (NZ : ~ (xval b == 0)%Q). { intros E. apply Qeq_eqR in E. rewrite RMicromega.Q2R_0 in E. change (xR b = 0) in E. rewrite E, Rabs_R0 in Pbb. lra. }
  rewrite !Q2R_abs, Q2R_div in L1 by auto. rewrite Q2R_plus, Q2R_mult, !Q2R_abs, Q2R_div in L2 by auto. change (Q2R (xval a)) with (xR a) in *. change (Q2R (xval b)) with (xR b) in *. change (Q2R (xval c)) with (xR c) in *. set (v := xR a / xR b) in *.
  pose proof (ulp_R c Wc Nc) as U. set (u := Q2R (xulp c)) in *. replace (Q2R 9) with 9 in L2 by (unfold Q2R; cbn; field).
  assert (SG : 0 <= xR c * v). { unfold v. pose proof (sign_R a Wa Na) as Sa. pose proof (sign_R b Wb Nb) as Sb. pose proof (sign_R c Wc Nc) as S3. rewrite Sc in S3. assert (B0 : xR b <> 0) by (intros E; rewrite E, Rabs_R0 in Pbb; lra).
    replace (xR c * (xR a / xR b)) with (xR c * xR a * xR b * / (xR b * xR b)) by (field; auto). assert (0 < / (xR b * xR b)) by (apply Rinv_0_lt_compat; nra). apply Rmult_le_pos; [| lra]. rewrite Rmult_assoc. destruct (xsign a), (xsign b); cbn in S3; [assert (0 < xR a * xR b) by nra | assert (xR a * xR b < 0) by nra | assert (xR a * xR b < 0) by nra | assert (0 < xR a * xR b) by nra]; nra. }
  assert (D : Rabs (xR c - v) = Rabs (xR c) - Rabs v). { clear - L1 SG. revert L1 SG. unfold Rabs. destruct (Rcase_abs (xR c)), (Rcase_abs v), (Rcase_abs (xR c - v)); intros; nra. }
  assert (E5 : 16 * ep 127 = ep 123) by (rewrite (ep_S 123), (ep_S 124), (ep_S 125), (ep_S 126); lra). pose proof (ep_pos 127) as E0. assert (E1 : ep 127 <= / 64). { apply (Rle_trans _ (ep 6)); [apply ep_le; lia | unfold ep; cbn; lra]. }
  assert (E6 : Rabs (xR c) <= Rabs v + 9 * ep 127 * Rabs (xR c)) by lra. pose proof (Rabs_pos v) as V0. pose proof (Rabs_pos (xR c)) as C0. assert (E7 : Rabs (xR c) <= 3 / 2 * Rabs v) by nra.
  assert (Er : Rabs (xR c - v) <= ep 123 * Rabs v). { rewrite D, <- E5. assert (ep 127 * Rabs (xR c) <= ep 127 * (3 / 2 * Rabs v)) by (apply Rmult_le_compat_l; lra). lra. }
  splits; auto. assert (DV : Rabs v * Rabs (xR b) = Rabs (xR a)). { rewrite <- Rabs_mult. f_equal. unfold v. field. intros E; rewrite E, Rabs_R0 in Pbb; lra. }
  destruct (mag_R a Wa Na) as [A1 A2]. destruct (mag_R b Wb Nb) as [B1 B2].
  assert (Lv : powerRZ 2 (- (K + L + 1)) <= Rabs v). { apply (Rmult_le_reg_r (powerRZ 2 (xpow b + 128))); [apply p2_pos |]. rewrite <- p2_add. apply (Rle_trans _ (powerRZ 2 (xpow a + 127))); [apply p2_le; lia |]. apply (Rle_trans _ (Rabs v * Rabs (xR b))); [lra |]. apply Rmult_le_compat_l; lra. }
  assert (Uv : Rabs v < powerRZ 2 (K + L + 1)). { apply (Rmult_lt_reg_r (powerRZ 2 (xpow b + 127))); [apply p2_pos |]. rewrite <- p2_add. apply (Rlt_le_trans _ (powerRZ 2 (xpow a + 128))); [| apply p2_le; lia]. apply (Rle_lt_trans _ (Rabs v * Rabs (xR b))); [apply Rmult_le_compat_l; lra | lra]. }
  apply (xb_le (Z.max (K + L + 1 + 128) (K + L + 2))); [| lia]. apply xb_val; auto; try lia; [right; lra |]. replace (K + L + 2)%Z with (1 + (K + L + 1))%Z by ring. rewrite (p2_add 1). change (powerRZ 2 1) with (2 * 1). lra.
Qed.
