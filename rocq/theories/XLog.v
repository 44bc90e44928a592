(** log2 and ln of F192 against the logarithm of the real numbers. *)
From Verif Require Import Base FSpec RSpec RBig RIeee RIeeeP XNum XFun XSpec XP1 XP2 XP3 XP6 XP7 XP8 XP9 XPow XFast Props_X1 RReal RReal4 XReal Props_R5 XErr.
From Coq Require Import Reals Lra Lia Qreals ZArith QArith Qabs Bool.
From Coquelicot Require Import Coquelicot.
Local Open Scope R_scope.

Lemma ln2_lo : 2 / 3 < ln 2.
Proof. destruct LN2_enc as [H _]. eapply Rlt_le_trans; [| exact H]. apply (Rlt_le_trans _ (Q2R (69 # 100))); [unfold Q2R; cbn; lra |]. apply Qle_Rle. vm_compute. discriminate. Qed.
Lemma ln2_hi : ln 2 < 7 / 10.
Proof. destruct LN2_enc as [_ H]. eapply Rle_lt_trans; [exact H |]. apply (Rle_lt_trans _ (Q2R (6932 # 10000))); [| unfold Q2R; cbn; lra]. apply Qle_Rle. vm_compute. discriminate. Qed.
(** the binary logarithm of the absolute value *)
Definition lg (x : R) : R := ln (Rabs x) / ln 2.
Lemma lg_mul x y : x <> 0 -> y <> 0 -> lg (x * y) = lg x + lg y.
Proof. intros Hx Hy. unfold lg. rewrite Rabs_mult, ln_mult by (apply Rabs_pos_lt; auto). field. pose proof ln2_lo. lra. Qed.
Lemma lg_le x y : x <> 0 -> Rabs x <= Rabs y -> lg x <= lg y.
Proof. intros Hx H. pose proof ln2_lo. unfold lg. apply Rmult_le_compat_r; [apply Rlt_le, Rinv_0_lt_compat; lra |]. apply Rabs_pos_lt in Hx. destruct H as [H | H]; [left; now apply ln_increasing | rewrite H; right; reflexivity]. Qed.
Lemma lg_lt x y : x <> 0 -> Rabs x < Rabs y -> lg x < lg y.
Proof. intros Hx H. pose proof ln2_lo. unfold lg. apply Rmult_lt_compat_r; [apply Rinv_0_lt_compat; lra |]. apply Rabs_pos_lt in Hx. now apply ln_increasing. Qed.
Lemma lg_p2 e : lg (powerRZ 2 e) = IZR e.
Proof. unfold lg. pose proof ln2_lo. rewrite Rabs_pos_eq by apply Rlt_le, p2_pos. rewrite powerRZ_Rpower by lra. unfold Rpower. rewrite ln_exp. field. lra. Qed.
Lemma ln_le1 x : 0 < x -> ln x <= x - 1.
Proof. intros H. assert (exp (ln x) = x) by (apply exp_ln; auto). destruct (Req_dec (ln x) 0) as [E | E]. - rewrite E, exp_0 in *. lra. - pose proof (exp_ineq1 (ln x) E). lra. Qed.
Lemma lg_near d x y : 0 <= d <= 1 / 8 -> y <> 0 -> (1 - d) * Rabs y <= Rabs x -> lg y - 2 * d <= lg x.
Proof.
  intros Hd Hy H. assert (Hy' := Rabs_pos_lt y Hy). assert (N : (1 - d) * y <> 0) by (apply Rmult_integral_contrapositive_currified; lra). assert (L := lg_le ((1 - d) * y) x N). rewrite Rabs_mult, (Rabs_pos_eq (1 - d)) in L by lra. specialize (L H). rewrite lg_mul in L by lra.
  assert (- (2 * d) <= lg (1 - d)); [| lra]. unfold lg. rewrite Rabs_pos_eq by lra. pose proof ln2_lo. assert (K := ln_le1 (/ (1 - d)) ltac:(apply Rinv_0_lt_compat; lra)). rewrite ln_Rinv in K by lra.
  apply (Rmult_le_reg_r (ln 2)); [lra |]. replace (ln (1 - d) / ln 2 * ln 2) with (ln (1 - d)) by (field; lra). assert (/ (1 - d) - 1 <= 4 / 3 * d). { apply (Rmult_le_reg_r (1 - d)); [lra |]. rewrite Rmult_minus_distr_r, Rinv_l by lra. nra. } nra.
Qed.

(** the exponent of a product *)
Lemma mul_pow a b c : xwf a -> xwf b -> xnull a = false -> xnull b = false -> (EXPC <= xe a + xe b < 2 ^ 64)%Z -> (xe a + xe b - EXPC + 128 < 2 ^ 64)%Z -> xmul a b = Ok c -> (xpow a + xpow b + 127 <= xpow c)%Z.
Proof.
  intros Wa Wb Na Nb L1 L2. destruct (xwf_cases a Wa) as [-> | (s & m & e & -> & Hm & He & N)]; [discriminate |].
  destruct (xwf_cases b Wb) as [-> | (t & n & f & -> & Hn & Hf & N')]; [discriminate |]. cbn [xe xof] in *. rewrite xmul_eq by auto. intros E. injection E as <-. unfold xpow. cbn [xe xof]. unfold pexp. pose proof (pshift01 (pdig m n)). change EXPC with (2 ^ 48)%Z in *. lia.
Qed.
(** one squaring: twice the logarithm, less at most 2^-124 *)
Lemma sq_lg K a : xb K a -> xR a <> 0 -> (0 <= K)%Z -> (2 * K <= 2 ^ 40)%Z -> returns (xmul a a) (fun c => xb (2 * K + 256) c /\ xR c <> 0 /\ 0 <= xR c /\ 2 * lg (xR a) - ep 124 <= lg (xR c) <= 2 * lg (xR a) /\ (2 * xpow a + 127 <= xpow c)%Z).
Proof.
  intros B N HK H. pose proof (mulR K K a a B B HK HK ltac:(lia)) as (c & Ec & B1 & L & S & E). exists c. split; [exact Ec |].
  assert (XP : (2 * xpow a + 127 <= xpow c)%Z). { destruct B as [W P]. assert (Na : xnull a = false) by (destruct (xnull a) eqn:Na; auto; now rewrite (null_R a Na) in N). destruct P as [P | P]; [congruence |]. unfold xpow in P. change (2 ^ 48)%Z with 281474976710656%Z in P. change (2 ^ 40)%Z with 1099511627776%Z in H. pose proof (mul_pow a a c W W Na Na) as M. unfold EXPC in M. change (2 ^ 64)%Z with 18446744073709551616%Z in M. change (2 ^ 48)%Z with 281474976710656%Z in M. specialize (M ltac:(lia) ltac:(lia) Ec). lia. } replace (2 * K + 256)%Z with (K + K + 256)%Z by ring. assert (P : 0 < xR a * xR a) by nra.
  rewrite (Rabs_pos_eq (xR a * xR a)) in * by lra. assert (e0 := ep_pos 125). assert (e1 : ep 125 <= 1 / 8). { apply (Rle_trans _ (ep 3)); [apply ep_le; lia | unfold ep; cbn; lra]. }
  assert (C0 : 0 <= xR c) by nra. rewrite (Rabs_pos_eq (xR c)) in L by auto. apply Rabs_le_between in E. assert (C1 : (1 - ep 125) * (xR a * xR a) <= xR c) by lra. assert (C2 : 0 < xR c) by nra. splits; auto; try lra.
  - assert (Q := lg_near (ep 125) (xR c) (xR a * xR a) ltac:(lra) ltac:(lra)). rewrite (Rabs_pos_eq (xR a * xR a)), (Rabs_pos_eq (xR c)) in Q by lra. specialize (Q C1). rewrite lg_mul in Q by auto. rewrite (ep_S 124). lra.
  - assert (Q := lg_le (xR c) (xR a * xR a) ltac:(lra)). rewrite (Rabs_pos_eq (xR a * xR a)), (Rabs_pos_eq (xR c)) in Q by lra. specialize (Q L). rewrite lg_mul in Q by auto. lra.
Qed.
(** the significand: a number of the binade of 2^127 *)
Lemma dig_ok h : xwf h -> xnull h = false -> let d := mkX (xhid (xd h)) EXPC in xb 0 d /\ xR d <> 0 /\ lg (xR h) = lg (xR d) + IZR (xpow h) /\ 127 <= lg (xR d) < 128.
Proof.
  intros W N. destruct (xwf_cases h W) as [E | (s & m & e & E & Hm & He & Ne)]; [rewrite E in N; discriminate |]. cbn zeta. rewrite E. cbn [xd xof]. rewrite xhid_of by auto.
  change (mkX m EXPC) with (xof true m EXPC). set (d := xof true m EXPC). assert (We : XP1.expr EXPC) by (unfold XP1.expr, EXPC; lia). assert (Wd : xwf d) by now apply xof_wf. assert (Nd : xnull d = false) by (unfold d; rewrite xnull_of by auto; reflexivity).
  assert (Pd : xpow d = 0%Z) by reflexivity. pose proof (mag_R d Wd Nd) as M. rewrite Pd in M. assert (Z : xR d <> 0) by (intros Z; rewrite Z, Rabs_R0 in M; pose proof (p2_pos (0 + 127)); lra).
  assert (V : Rabs (xR (xof s m e)) = Rabs (xR d) * powerRZ 2 (xpow (xof s m e))).
  { assert (A : forall t f, XP1.expr f -> xnull (xof t m f) = false -> Rabs (xR (xof t m f)) = IZR m * powerRZ 2 (f - EXPC)). { intros t f Hf Hn. unfold xR. rewrite <- Q2R_abs. assert (Wt : xwf (xof t m f)) by now apply xof_wf. rewrite (Qeq_eqR _ _ (xabs_val (xof t m f) Wt)), xmag_of by auto. unfold xq. rewrite Q2R_mult, Q2R_Z, two_R. reflexivity. }
    rewrite (A s e) by (auto; rewrite <- E; auto). unfold d. rewrite (A true EXPC) by auto. unfold xpow, xof. cbn [xe]. change (EXPC - EXPC)%Z with 0%Z. change (2 ^ 48)%Z with EXPC. cbn [powerRZ]. ring. }
  split; [split; auto; right; rewrite Pd; cbn; lia |]. split; auto. split.
  - rewrite <- lg_p2, <- lg_mul; auto; [| pose proof (p2_pos (xpow (xof s m e))); lra]. unfold lg. rewrite V, Rabs_mult, (Rabs_pos_eq (powerRZ _ _)) by apply Rlt_le, p2_pos. reflexivity.
  - pose proof (p2_pos 127). pose proof (p2_pos 128). change (0 + 127)%Z with 127%Z in M. change (0 + 128)%Z with 128%Z in M. split.
    + rewrite <- (lg_p2 127). apply lg_le; [lra |]. rewrite Rabs_pos_eq by lra. lra.
    + rewrite <- (lg_p2 128). apply lg_lt; auto. rewrite (Rabs_pos_eq (powerRZ 2 128)) by lra. lra.
Qed.
Lemma xei_R K h : xb K h -> xnull h = false -> (K <= 2 ^ 40)%Z -> xei h = Ok (xpow h).
Proof. intros [W [N | P]] Nh H; [congruence |]. unfold xpow in P. change (2 ^ 48)%Z with 281474976710656%Z in P. change (2 ^ 40)%Z with 1099511627776%Z in H. rewrite xei_ok; [reflexivity |]. split; auto. change (2 ^ 63)%Z with 9223372036854775808%Z. lia. Qed.
Lemma nn_R a : xwf a -> xR a <> 0 -> xnull a = false. Proof. intros W H. destruct (xnull a) eqn:N; auto. now rewrite (null_R a N) in H. Qed.
(** a sum of positive numbers is at least every number that the exact sum reaches *)
Lemma add_floor K a b c y : xb K a -> xb K b -> (0 <= K)%Z -> (K < 2 ^ 32)%Z -> 0 < xR a -> 0 < xR b -> xwf y -> 0 <= xR y <= xR a + xR b -> xadd a b = Ok c -> xR y <= xR c.
Proof.
  intros Ba Bb HK HK2 Pa Pb Wy Hy E. assert (Na : xnull a = false) by (apply nn_R; [apply Ba | lra]). assert (Nb : xnull b = false) by (apply nn_R; [apply Bb | lra]).
  pose proof (sign_R a (proj1 Ba) Na) as Sa. pose proof (sign_R b (proj1 Bb) Nb) as Sb. destruct Ba as [Wa [P | P1]]; [congruence |]. destruct Bb as [Wb [P | P2]]; [congruence |]. unfold xpow in *. change (2 ^ 32)%Z with 4294967296%Z in HK2. change (2 ^ 48)%Z with 281474976710656%Z in P1, P2.
  destruct (C45_add_same_sign a b Wa Wb Na Nb) as (c' & E' & W' & D1 & D2 & D3 & _).
  - destruct (xsign a), (xsign b); auto; lra.
  - lia.
  - lia.
  - rewrite E in E'. injection E' as <-. specialize (D3 y Wy). assert (T : (Qabs (xval y) <= Qabs (xval a + xval b))%Q). { apply Rle_Qle. rewrite !Q2R_abs, Q2R_plus. fold (xR y) (xR a) (xR b). rewrite !Rabs_pos_eq by lra. lra. }
    specialize (D3 T). apply Qle_Rle in D2, D3. rewrite !Q2R_abs in D3. q2r D2. fold (xR a) (xR b) (xR c) in D2. fold (xR y) (xR c) in D3. rewrite (Rabs_pos_eq (xR y)) in D3 by lra. assert (0 <= xR c) by nra. rewrite Rabs_pos_eq in D3 by auto. exact D3.
Qed.
(** the fractional part: after n rounds of squaring, 8 n digits *)
Lemma iter_lg n : forall a, xb 0 a -> xR a <> 0 -> 127 <= lg (xR a) < 128 -> returns (xlog2_iter a n) (fun l => xb 128 l /\ 127 <= xR l /\ Rabs (xR l - lg (xR a)) <= ep 119 + ep (8 * n)).
Proof.
  induction n as [| n IH]; intros a Ba Na La; cbn [xlog2_iter].
  - eapply returns_weaken; [apply fromR; cbn; lia |]. intros c [Bc V]. split; auto. split; [rewrite V; lra |]. rewrite V. pose proof (ep_pos 119). change (ep (8 * 0)) with (/ 1). apply Rabs_le. lra.
  - assert (Qa : (0 <= xpow a)%Z) by (destruct Ba as [W [N | P]]; [rewrite (null_R a N) in Na; lra | lia]). eapply returns_bind; [apply (sq_lg 0); auto; lia |]. clear Ba. intros a1 (B1 & N1 & _ & L1 & Q1). change (2 * 0 + 256)%Z with 256%Z in B1.
    eapply returns_bind; [apply (sq_lg 256); auto; lia |]. clear B1. intros a2 (B2 & N2 & _ & L2 & Q2). change (2 * 256 + 256)%Z with 768%Z in B2.
    eapply returns_bind; [apply (sq_lg 768); auto; lia |]. clear B2. intros a3 (B3 & N3 & _ & L3 & Q3). change (2 * 768 + 256)%Z with 1792%Z in B3.
    eapply returns_bind; [apply (sq_lg 1792); auto; lia |]. clear B3. intros a4 (B4 & N4 & _ & L4 & Q4). change (2 * 1792 + 256)%Z with 3840%Z in B4.
    eapply returns_bind; [apply (sq_lg 3840); auto; lia |]. clear B4. intros a5 (B5 & N5 & _ & L5 & Q5). change (2 * 3840 + 256)%Z with 7936%Z in B5.
    eapply returns_bind; [apply (sq_lg 7936); auto; lia |]. clear B5. intros a6 (B6 & N6 & _ & L6 & Q6). change (2 * 7936 + 256)%Z with 16128%Z in B6.
    eapply returns_bind; [apply (sq_lg 16128); auto; lia |]. clear B6. intros a7 (B7 & N7 & _ & L7 & Q7). change (2 * 16128 + 256)%Z with 32512%Z in B7.
    eapply returns_bind; [apply (sq_lg 32512); auto; lia |]. clear B7. intros h (B8 & N8 & _ & L8 & Q8). change (2 * 32512 + 256)%Z with 65280%Z in B8.
    assert (LH : 256 * lg (xR a) - 256 * ep 124 <= lg (xR h) <= 256 * lg (xR a)). { pose proof (ep_pos 124). clear - L1 L2 L3 L4 L5 L6 L7 L8 H. lra. } clear L1 L2 L3 L4 L5 L6 L7 L8.
    assert (Nh : xnull h = false) by (apply nn_R; auto; apply B8). cbn zeta. pose proof B8 as [Wh [Z | Ph]]; [congruence |]. destruct (dig_ok h Wh Nh) as (Bd & Nd & Ld & Rd). cbn zeta in *. set (d := mkX (xhid (xd h)) EXPC) in *.
    rewrite (xei_R 65280 h B8 Nh) by lia. cbn [bind]. eapply returns_bind; [apply (fromR I64 (xpow h)); cbn; lia |]. intros e [Be Ve]. eapply returns_bind; [apply (IH d); auto |]. intros l (Bl & Gl & El).
    assert (e119 : ep 119 = 32 * ep 124) by (rewrite (ep_S 119), (ep_S 120), (ep_S 121), (ep_S 122), (ep_S 123); lra). assert (e127 : ep 124 = 8 * ep 127) by (rewrite (ep_S 124), (ep_S 125), (ep_S 126); lra). assert (e1 : ep 124 <= / 16). { apply (Rle_trans _ (ep 4)); [apply ep_le; lia | unfold ep; cbn; lra]. }
    assert (en : 0 < ep (8 * n) <= 1). { split; [apply ep_pos |]. apply (Rle_trans _ (ep 0)); [apply ep_le; lia | unfold ep; cbn; lra]. }
    assert (en2 : ep (8 * n) = 256 * ep (8 * S n)). { replace (8 * S n)%nat with (8 * n + 8)%nat by lia. rewrite ep_add. unfold ep at 3. replace (2 ^ 8) with 256 by (cbn; lra). lra. }
    assert (Hl : 123 <= xR l <= 132) by (apply Rabs_le_between in El; pose proof (ep_pos 124); lra). assert (Pe : 32000 <= xR e <= 32800) by (rewrite Ve; pose proof (ep_pos 124); lra).
    assert (PP : 0 <= xR e * xR l) by (apply Rmult_le_pos; lra). destruct (addR 128 e l Be Bl ltac:(lia) ltac:(lia) (or_introl PP)) as (s & Xs & Bs & Es).
    assert (Gs : 127 * 256 <= xR s). { assert (HX : (127 * 255 <= xpow h)%Z) by (clear - Qa Q1 Q2 Q3 Q4 Q5 Q6 Q7 Q8; lia). destruct (fromR I64 (127 * 256)) as (y & _ & By & Vy); [cbn; lia | lia |]. rewrite <- mult_IZR, <- Vy. apply (add_floor 128 e l s y); auto; try lia; try lra; [apply By |]. rewrite Vy, Ve. apply IZR_le in HX. rewrite mult_IZR in HX |- *. lra. }
    rewrite Xs. cbn [bind]. eapply returns_weaken; [apply (shrR (128 + 256) s 8 Bs); lia |]. intros c [Bc Vc].
    change (powerRZ 2 (- (8))) with (powerRZ 2 (- Z.of_nat 8)) in Vc. rewrite p2_opp in Vc. replace (ep 8) with (/ 256) in Vc by (unfold ep; cbn; lra). rewrite (Rabs_pos_eq (xR e + xR l)) in Es by lra.
    assert (Es2 : Rabs (xR s - (xR e + xR l)) <= 33000 * ep 127) by (eapply Rle_trans; [exact Es |]; rewrite Rmult_comm; apply Rmult_le_compat_r; [apply Rlt_le, ep_pos | lra]). apply Rabs_le_between in Es2, El. pose proof (ep_pos 127).
    assert (Err : Rabs (xR c - lg (xR a)) <= ep 119 + ep (8 * S n)). { apply Rabs_le. rewrite Vc. lra. }
    split; [| split; auto; rewrite Vc; lra]. apply (xb_le (Z.max (0 + 128) 8)); [| lia]. apply Rabs_le_between in Err. assert (100 <= xR c <= 150) by lra. apply xb_val; try lia; [apply Bc | right; change (powerRZ 2 (- 0)) with 1 | change (powerRZ 2 8) with (powerRZ 2 (Z.of_nat 8)); rewrite p2_nat]; rewrite Rabs_pos_eq by lra; cbn [pow]; lra.
Qed.
(** the whole logarithm: the sum of the exponent and the fractional part must not carry *)
Definition log2_band (v : R) : Prop := exists k, (8 <= k)%nat /\ 2 ^ k - ep 118 - 2 ^ k * ep 129 <= - v <= 2 ^ k + ep 118.
Lemma log2_R K a : xb K a -> 0 < xR a -> (0 <= K < 2 ^ 31)%Z -> ~ log2_band (lg (xR a)) -> returns (xlog2 a) (fun c => xb (K + 512) c /\ (1 <= xR a -> 0 <= xR c) /\ Rabs (xR c - lg (xR a)) <= ep 118 + ep 127 * Rabs (lg (xR a))).
Proof.
  intros Ba Pa HK Band. pose proof Ba as [Wa _]. assert (Na : xnull a = false) by (apply nn_R; auto; lra). unfold xlog2. rewrite xis_zero_null, Na. rewrite xis_neg_sign by auto. pose proof (sign_R a Wa Na) as Sa. destruct (xsign a); [lra |]. clear Sa.
  destruct (dig_ok a Wa Na) as (Bd & Nd & Ld & Rd). cbn zeta in *. set (d := mkX (xhid (xd a)) EXPC) in *. rewrite (xei_R K a Ba Na) by lia. cbn [bind]. pose proof Ba as [_ [Z | P]]; [congruence |].
  change (2 ^ 31)%Z with 2147483648%Z in HK. eapply returns_bind; [apply (fromR I64 (xpow a)); cbn; lia |]. intros e [Be Ve]. eapply returns_bind; [apply (iter_lg 16 d); auto |]. intros l (Bl & Gl & El). change (8 * 16)%nat with 128%nat in El.
  assert (e118 : ep 118 = 2 * ep 119) by apply ep_S. assert (e128 : ep 119 = 512 * ep 128) by (rewrite (ep_S 119), (ep_S 120), (ep_S 121), (ep_S 122), (ep_S 123), (ep_S 124), (ep_S 125), (ep_S 126), (ep_S 127); lra). pose proof (ep_pos 128) as e0. assert (e1 : ep 118 <= / 16). { apply (Rle_trans _ (ep 4)); [apply ep_le; lia | unfold ep; cbn; lra]. }
  assert (e129 : ep 128 = 2 * ep 129) by apply ep_S. assert (e127 : ep 127 = 2 * ep 128) by apply ep_S.
  set (V := lg (xR a)) in *. assert (SV : Rabs (xR e + xR l - V) <= 513 * ep 128). { rewrite Ve, Ld. replace (IZR (xpow a) + xR l - (lg (xR d) + IZR (xpow a))) with (xR l - lg (xR d)) by ring. lra. }
  assert (NC : 0 <= xR e * xR l \/ ~ Rcarry (xR e + xR l)).
  { apply Rabs_le_between in El. assert (Hl : 126 <= xR l <= 129) by lra. destruct (Z_le_gt_dec 0 (xpow a)) as [S | S]. { left. rewrite Ve. apply Rmult_le_pos; [apply IZR_le; auto | lra]. } right.
    apply Rabs_le_between in SV. destruct (Rle_or_lt (Rabs (xR e + xR l)) 128) as [A | A].
    - destruct (xnull l) eqn:Nl; [rewrite (null_R l Nl) in Hl; lra |]. assert (Wl := proj1 Bl). pose proof (mag_R l Wl Nl) as [M1 M2]. rewrite (Rabs_pos_eq (xR l)) in M1, M2 by lra.
      assert (Pl : (- 121 <= xpow l)%Z). { assert (powerRZ 2 6 < powerRZ 2 (xpow l + 128)) by (change (powerRZ 2 6) with (powerRZ 2 (Z.of_nat 6)); rewrite p2_nat; cbn [pow]; lra). apply p2_lt_inv in H. lia. } pose proof (fint_ok l (- 121) Wl Nl Pl) as F. apply Qeq_eqR in F. q2r F. rewrite two_R in F. change (xR l = IZR (fint l (-121)) * powerRZ 2 (-121)) in F.
      assert (T : powerRZ 2 121 * powerRZ 2 (- 121) = 1) by (rewrite <- p2_add; reflexivity). assert (T2 : powerRZ 2 121 = IZR (2 ^ 121)) by (change 121%Z with (Z.of_nat 121) at 1; rewrite p2_nat; apply pow_IZR).
      assert (G : xR e + xR l = IZR (xpow a * 2 ^ 121 + fint l (- 121)) * powerRZ 2 (- 121)). { rewrite plus_IZR, mult_IZR, <- T2, Ve, F. rewrite Rmult_plus_distr_r, Rmult_assoc, T. ring. }
      apply (nocarry_grid _ _ _ G). set (N := (xpow a * 2 ^ 121 + fint l (- 121))%Z) in *. apply le_IZR. rewrite abs_IZR. apply (Rmult_le_reg_r (powerRZ 2 (- 121))); [apply p2_pos |]. replace (Rabs (IZR N) * powerRZ 2 (- 121)) with (Rabs (xR e + xR l)) by (rewrite G, Rabs_mult, (Rabs_pos_eq (powerRZ _ _)) by apply Rlt_le, p2_pos; reflexivity).
      change (2 ^ 128)%Z with (2 ^ 121 * 128)%Z. rewrite mult_IZR, <- T2. replace (powerRZ 2 121 * 128 * powerRZ 2 (- 121)) with (128 * (powerRZ 2 121 * powerRZ 2 (- 121))) by ring. rewrite T. lra.
    - intros (E & C1 & C2). assert (Hneg : xR e + xR l < 0). { apply Rnot_le_lt. intros H. rewrite Rabs_pos_eq in A by auto. assert (IZR (xpow a) <= -1) by (apply IZR_le; lia). rewrite Ve in A. apply Rabs_le_between in El. assert (128 < IZR (-1) + xR l) by lra. lra. }
      rewrite Rabs_left in A, C1, C2 by auto. assert (HE : (7 < E)%Z) by (apply p2_lt_inv; change (powerRZ 2 7) with (powerRZ 2 (Z.of_nat 7)); rewrite p2_nat; cbn [pow]; lra). apply Band. exists (Z.to_nat E). split; [lia |]. rewrite <- p2_nat, Z2Nat.id by lia. pose proof (p2_pos E). lra. }
  assert (K' : (K + 256 < 2 ^ 32)%Z) by (change (2 ^ 32)%Z with 4294967296%Z; lia). eapply returns_weaken; [apply (addR (K + 256)); auto; try lia; [apply (xb_le 128); auto; lia | apply (xb_le 128); auto; lia] |].
  intros c [Bc Ec]. split; [apply (xb_le (K + 256 + 256)); auto; lia |]. split.
  { intros A1. assert (0 <= xR e + xR l). { rewrite Ve. destruct (mag_R a Wa Na) as [_ M]. rewrite (Rabs_pos_eq (xR a)) in M by lra. assert (0 < xpow a + 128)%Z by (apply p2_lt_inv; cbn [powerRZ]; lra). assert (-127 <= IZR (xpow a)) by (apply IZR_le; lia). lra. } rewrite (Rabs_pos_eq (xR e + xR l)) in Ec by auto. apply Rabs_le_between in Ec. assert (ep 127 * (xR e + xR l) <= 1 * (xR e + xR l)) by (apply Rmult_le_compat_r; [auto |]; lra). lra. } assert (A1 : Rabs (xR e + xR l) <= Rabs V + 513 * ep 128). { replace (xR e + xR l) with (V + (xR e + xR l - V)) by ring. eapply Rle_trans; [apply Rabs_triang |]. lra. }
  replace (xR c - V) with (xR c - (xR e + xR l) + (xR e + xR l - V)) by ring. eapply Rle_trans; [apply Rabs_triang |].
  assert (ep 127 * Rabs (xR e + xR l) <= ep 127 * (Rabs V + 513 * ep 128)) by (apply Rmult_le_compat_l; lra). assert (ep 127 * (513 * ep 128) <= ep 128) by (assert (ep 127 <= / 1024) by (apply (Rle_trans _ (ep 10)); [apply ep_le; lia | unfold ep; cbn; lra]); nra). lra.
Qed.
