(** Powers and binary logarithm of F192. *)
From Coq Require Import ZArith QArith Qabs Lqa Lia Bool List Qfield Qpower.
From Verif Require Import Base UBig UStr USpec UEq BBig BSpec BEq RBig RIeee FSpec RIeeeP XNum XSpec XP1 XP2 XP3 XP6 XP7 XFun XC13.
Local Open Scope Z_scope.

(** ** powers of two *)
Lemma pow2_ok n : - 2 ^ 48 + 127 < n < 2 ^ 63 - 2 ^ 48 -> returns (xfrom_pow2 n) (fun c => xwf c /\ (xval c == two n)%Q).
Proof.
  intros H. unfold xfrom_pow2. rewrite sadd_ok by (change (64 - 1) with 63; unfold EXPC; lia). cbn [bind]. rewrite ssub_ok by (change (64 - 1) with 63; unfold EXPC; lia). cbn [bind]. rewrite castw_small by (unfold EXPC; lia). apply returns_ok.
  split; [split; cbn [xd xe]; unfold EXPC; lia |]. unfold xval, xmag, xsign, xnull, xsig, xpow. cbn [xd xe]. change (2 ^ 127 <=? 0) with false. cbn [Z.eqb andb]. rewrite (proj2 (Z.eqb_neq _ 0)) by (unfold EXPC; lia).
  change (2 ^ 127 + 0 mod 2 ^ 127) with (2 ^ 127). rewrite <- two_Z by lia. rewrite <- two_plus. replace (127 + (n + EXPC - 127 - 2 ^ 48)) with n by (unfold EXPC; ring). reflexivity.
Qed.
Lemma ilog2_ok a : xwf a -> xnull a = false -> xsign a = false -> xe a < 2 ^ 63 ->
  returns (xilog2 a) (fun c => xwf c /\ exists k, (xval c == inject_Z k)%Q /\ (two k <= xval a < two (k + 1))%Q).
Proof.
  intros W N S X. unfold xilog2. rewrite xis_neg_sign, S, xis_zero_null, N by auto. rewrite xei_ok by (split; auto). cbn [bind]. pose proof W as [_ We]. rewrite sadd_ok by (change (64 - 1) with 63; unfold EXPC; lia). cbn [bind].
  eapply returns_weaken; [apply xfrom_prim_ok; [cbn; unfold EXPC; lia | unfold EXPC; lia] |]. intros c (Wc & V). split; auto. exists (xpow a + 127). split; [rewrite V; unfold xpow, EXPC; apply inject_Z_injective; ring |].
  destruct (xmag_bin a W N) as [B1 B2]. unfold xval. rewrite S. split; [exact B1 |]. replace (xpow a + 127 + 1) with (xpow a + 128) by ring. exact B2.
Qed.

(** ** integer powers *)
Notation uu := (two (- 125)).
Lemma mul_step a b : xwf a -> xwf b -> xnull a = false -> xnull b = false -> - 2 ^ 48 <= xpow a + xpow b < 2 ^ 62 ->
  returns (xmul a b) (fun c => xwf c /\ xnull c = false /\ xsign c = xorb (xsign a) (xsign b) /\ (xmag a * xmag b * (1 - uu) <= xmag c)%Q /\ (xmag c <= xmag a * xmag b)%Q).
Proof.
  intros Wa Wb Na Nb H. unfold xpow in H. eapply returns_weaken; [apply xmul_ok; auto; unfold EXPC; lia |]. intros c ((Wc & B1 & B2 & B3) & Nc).
  assert (Pa := xmag_pos a Wa Na). assert (Pb := xmag_pos b Wb Nb). assert (Pc := xmag_pos c Wc Nc). rewrite Qabs_Qmult in B1, B3. rewrite !xabs_val in B1, B3 by auto.
  split; auto. split; auto. split.
  - unfold xval in B2. assert (0 < xmag a * xmag b)%Q by (apply Qmult_lt_0_compat; auto). assert (0 < xmag c * (xmag a * xmag b))%Q by (apply Qmult_lt_0_compat; auto).
    destruct (xsign a), (xsign b), (xsign c); auto; exfalso; lra.
  - split; auto. destruct (xmag_bin c Wc Nc) as [M1 _]. rewrite two_plus in M1. unfold xulp in B3. change (inject_Z 4) with 4%Q in B3. assert (T4 : (4 == uu * two 127)%Q) by reflexivity. rewrite T4 in B3. assert (Tp := two_pos (- 125)). assert (U1 : (uu < 1)%Q) by reflexivity.
    set (q := (xmag a * xmag b)%Q) in *. set (x := xmag c) in *. set (u := two (- 125)) in *. set (v := two 127) in *. set (w := two (xpow c)) in *. clearbody q x u v w. clear - B1 B3 M1 Tp Pc U1. nra.
Qed.
Definition pwr (a : f192) (b k : Z) (c : f192) : Prop :=
  xwf c /\ xnull c = false /\ xsign c = xsign a && Z.odd b /\ (xmag a ^ b * (1 - inject_Z k * uu) <= xmag c)%Q /\ (xmag c <= xmag a ^ b)%Q.
Lemma pow_bounds P L b : (two L <= P < two (L + 1))%Q -> 0 <= b -> (two (b * L) <= P ^ b <= two (b * (L + 1)))%Q.
Proof.
  intros [H1 H2] Hb. assert (T := two_pos L). pattern b. apply natlike_ind; auto; [cbn; split; apply Qle_refl |]. clear b Hb. intros b Hb [I1 I2].
  replace (Z.succ b * L) with (b * L + L) by ring. replace (Z.succ b * (L + 1)) with (b * (L + 1) + (L + 1)) by ring. change (Z.succ b) with (b + 1). rewrite (two_plus (b * L)), (two_plus (b * (L + 1))), Qpower_plus by lra. change (P ^ 1)%Q with P.
  assert (T1 := two_pos (b * L)). assert (T2 := two_pos (L + 1)). set (x := two (b * L)) in *. set (y := two (b * (L + 1))) in *. set (p := (P ^ b)%Q) in *. set (v := two L) in *. set (w := two (L + 1)) in *. clearbody x y p v w. nra.
Qed.
Lemma k_small k : 0 <= k <= 2 ^ 47 -> (0 <= inject_Z k * uu <= 1 # 2 ^ 70)%Q.
Proof.
  intros [H1 H2]. assert (Tp := two_pos (- 125)). rewrite Zle_Qle in H1, H2. change (inject_Z 0) with 0%Q in H1. split; [apply Qmult_le_0_compat; lra |].
  apply Qle_trans with (inject_Z (2 ^ 47) * uu)%Q; [apply Qmult_le_r; auto | vm_compute; discriminate].
Qed.
Lemma pwr_exp a b k c L R : xwf a -> xnull a = false -> L = xpow a + 127 -> R = Z.abs L + 1 -> 0 <= b -> b * R <= 2 ^ 46 -> 0 <= k <= 2 ^ 47 -> pwr a b k c -> Z.abs (xpow c + 127) <= b * R + 2.
Proof.
  intros Wa Na EL ER Hb HB Hk (Wc & Nc & _ & C1 & C2). destruct (xmag_bin a Wa Na) as [M1 M2]. replace (xpow a + 128) with (L + 1) in M2 by lia. rewrite <- EL in M1. destruct (pow_bounds _ L b (conj M1 M2) Hb) as [P1 P2].
  destruct (k_small k Hk) as [K1 K2]. assert (T := two_pos (b * L)).
  assert (A1 : xpow c + 127 < b * (L + 1) + 1). { apply xpow_small; auto. rewrite two_plus. change (two 1) with 2%Q. assert (T2 := two_pos (b * (L + 1))). lra. }
  assert (A2 : b * L - 1 < xpow c + 128). { apply xpow_large; auto. replace (b * L - 1) with (- (1) + b * L) by ring. rewrite two_plus. change (two (- (1))) with (1 # 2)%Q. set (p := (xmag a ^ b)%Q) in *. set (x := two (b * L)) in *. clearbody p x. assert ((1 # 2) <= 1 - inject_Z k * uu)%Q. { assert ((1 # 2 ^ 70) <= 1 # 2)%Q by (vm_compute; discriminate). lra. } nra. }
  subst R. assert (b * Z.abs L = Z.abs (b * L)) by (rewrite Z.abs_mul; rewrite (Z.abs_eq b); lia). nia.
Qed.
Lemma pwr_mul a L R b1 k1 c1 b2 k2 c2 : xwf a -> xnull a = false -> L = xpow a + 127 -> R = Z.abs L + 1 -> 0 <= b1 -> b1 * R <= 2 ^ 46 -> 0 <= b2 -> b2 * R <= 2 ^ 46 -> 0 <= k1 <= 2 ^ 47 -> 0 <= k2 <= 2 ^ 47 ->
  pwr a b1 k1 c1 -> pwr a b2 k2 c2 -> returns (xmul c1 c2) (pwr a (b1 + b2) (k1 + k2 + 1)).
Proof.
  intros Wa Na EL ER B1 X1 B2 X2 K1 K2 H1 H2. pose proof (pwr_exp a b1 k1 c1 L R Wa Na EL ER B1 X1 K1 H1) as E1. pose proof (pwr_exp a b2 k2 c2 L R Wa Na EL ER B2 X2 K2 H2) as E2.
  destruct H1 as (W1 & N1 & S1 & L1 & U1). destruct H2 as (W2 & N2 & S2 & L2 & U2). eapply returns_weaken; [apply mul_step; auto; lia |].
  intros c (Wc & Nc & Sc & Lc & Uc). split; auto. split; auto. split. { rewrite Sc, S1, S2, Z.odd_add. destruct (xsign a), (Z.odd b1), (Z.odd b2); reflexivity. }
  assert (Pa := xmag_pos a Wa Na). assert (Pw : forall b, 0 <= b -> (0 < xmag a ^ b)%Q) by (intros; now apply Qpower_0_lt). assert (P1 := Pw b1 B1). assert (P2 := Pw b2 B2). rewrite Qpower_plus by lra. clear Pw.
  destruct (k_small k1 K1) as [K11 K12]. destruct (k_small k2 K2) as [K21 K22]. assert (U : (0 < uu < 1)%Q) by (split; reflexivity). assert (Q70 : ((1 # 2 ^ 70) <= 1 # 2)%Q) by (vm_compute; discriminate). rewrite !inject_Z_plus. change (inject_Z 1) with 1%Q.
  assert (M1 := xmag_pos c1 W1 N1). assert (M2 := xmag_pos c2 W2 N2).
  set (p := (xmag a ^ b1)%Q) in *. set (q := (xmag a ^ b2)%Q) in *. set (x := xmag c1) in *. set (y := xmag c2) in *. set (z := xmag c) in *. set (u := uu) in *.
  setoid_replace ((inject_Z k1 + inject_Z k2 + 1) * u)%Q with (inject_Z k1 * u + inject_Z k2 * u + u)%Q by ring. set (g := (inject_Z k1 * u)%Q) in *. set (h := (inject_Z k2 * u)%Q) in *. clearbody p q x y z u g h. clear - L1 U1 L2 U2 Lc Uc P1 P2 K11 K12 K21 K22 U Q70 M1 M2. destruct U as [V1 V2].
  assert (XY : (p * (1 - g) * (q * (1 - h)) <= x * y)%Q). { apply Qle_trans with (x * (q * (1 - h)))%Q; [apply Qmult_le_r; auto; apply Qmult_lt_0_compat; lra |]. rewrite !(Qmult_comm x). apply Qmult_le_r; auto. }
  assert (UY : (x * y <= p * q)%Q). { apply Qle_trans with (p * y)%Q; [apply Qmult_le_r; auto |]. rewrite !(Qmult_comm p). apply Qmult_le_r; auto. }
  split; [| lra]. eapply Qle_trans; [| exact Lc]. apply Qle_trans with (p * (1 - g) * (q * (1 - h)) * (1 - u))%Q; [| apply Qmult_le_r; [lra | auto]].
  setoid_replace (p * (1 - g) * (q * (1 - h)) * (1 - u))%Q with ((p * q) * ((1 - g) * (1 - h) * (1 - u)))%Q by ring. rewrite !(Qmult_comm (p * q)). apply Qmult_le_r; [apply Qmult_lt_0_compat; auto |].
  assert (0 <= g * h)%Q by (apply Qmult_le_0_compat; auto). assert (0 <= (g + h - g * h) * u)%Q; [| nra]. apply Qmult_le_0_compat; [| lra]. assert (g * h <= g * 1)%Q; [| lra]. rewrite !(Qmult_comm g). apply Qmult_le_compat_r; lra.
Qed.
Lemma pwr_weak a b k k' c : xwf a -> xnull a = false -> 0 <= b -> k <= k' -> pwr a b k c -> pwr a b k' c.
Proof.
  intros Wa Na Hb H (W & N & S & L & U). split; auto. split; auto. split; auto. split; auto. eapply Qle_trans; [| exact L]. assert (Pa := xmag_pos a Wa Na). assert (P := Qpower_0_lt _ b Pa). rewrite !(Qmult_comm (_ ^ b)). apply Qmult_le_r; auto.
  assert (inject_Z k * uu <= inject_Z k' * uu)%Q; [| lra]. apply Qmult_le_r; [apply two_pos |]. now rewrite <- Zle_Qle.
Qed.
Lemma powi_abs_ok fuel : forall a b L R, xwf a -> xnull a = false -> L = xpow a + 127 -> R = Z.abs L + 1 -> 0 <= b < 2 ^ Z.of_nat fuel * 8 -> b * R <= 2 ^ 46 ->
  returns (xpowi_abs fuel a b) (pwr a b (Z.max 0 (2 * b - 1))).
Proof.
  assert (One : forall a, pwr a 0 0 xONE). { intros a. split; [split; split; vm_compute; congruence |]. split; [reflexivity |]. split; [symmetry; apply andb_false_r |]. split; vm_compute; discriminate. }
  assert (Self : forall a, xwf a -> xnull a = false -> pwr a 1 0 a). { intros a W N. split; auto. split; auto. split; [now rewrite andb_true_r |]. cbn. split; [ring_simplify; apply Qle_refl | apply Qle_refl]. }
  assert (Sm : forall fuel a b L R, xwf a -> xnull a = false -> L = xpow a + 127 -> R = Z.abs L + 1 -> 0 <= b < 8 -> b * R <= 2 ^ 46 -> returns (xpowi_abs fuel a b) (pwr a b (Z.max 0 (2 * b - 1)))).
  { clear fuel. intros fuel a b L R Wa Na EL ER Hb HB. assert (E : xpowi_abs fuel a b = if b <? 2 then if b =? 0 then Ok xONE else Ok a else
      let* aa := xmul a a in let* '(result, b) := loopn 3 (fun self => xpowi_small self aa) (xONE, b) in if b =? 1 then xmul result a else Ok result) by (destruct fuel; cbn [xpowi_abs]; rewrite (proj2 (Z.ltb_lt b 8)) by lia; reflexivity).
    rewrite E. clear E. destruct (Z.ltb_spec b 2) as [B2 | B2].
    { destruct (Z.eqb_spec b 0) as [-> | B0]; apply returns_ok; [apply One |]. replace b with 1 by lia. eapply pwr_weak; [auto | auto | lia | | now apply Self]. lia. }
    assert (HR : 1 <= R) by lia. eapply returns_bind; [apply (pwr_mul a L R 1 0 a 1 0 a); auto; try lia; try nia; now apply Self |]. cbn [Z.add Pos.add]. intros aa Haa. change (1 + 1) with 2 in Haa.
    apply (returns_bind _ _ (fun s => snd s = b mod 2 /\ pwr a (b - b mod 2) (b - b mod 2) (fst s))).
    { apply (loopn_spec (fun self => xpowi_small self aa) (fun s => 0 <= snd s <= b /\ (b - snd s) mod 2 = 0 /\ pwr a (b - snd s) (b - snd s) (fst s)) (fun _ s => snd s = b mod 2 /\ pwr a (b - b mod 2) (b - b mod 2) (fst s)) (fun s => snd s)).
      - intros self [r c] I1 Hs. cbn [fst snd] in *. destruct I1 as (I1 & I2 & I3). unfold xpowi_small. destruct (Z.leb_spec 2 c) as [C | C].
        + eapply returns_bind; [apply (pwr_mul a L R (b - c) (b - c) r 2 1 aa); auto; try lia; nia |]. intros r' Hr. rewrite subw_ok by lia. cbn [bind]. apply Hs; cbn [fst snd]; [| lia]. split; [lia |]. replace (b - (c - 2)) with (b - c + 2) by ring.
          split; [rewrite Z.add_mod by lia; rewrite I2; reflexivity |]. replace (b - c + 2) with (b - c + 2) at 2 by ring. eapply pwr_weak; [auto | auto | lia | | exact Hr]. lia.
        + apply returns_ok. cbn [fst snd]. assert (c = b mod 2). { apply Z.mod_divide in I2; [| lia]. destruct I2 as [z Hz]. apply (Z.mod_unique b 2 z c); lia. } subst c. split; auto.
      - cbn [fst snd]. split; [lia |]. rewrite Z.sub_diag. split; [reflexivity | apply One].
      - cbn [snd]. lia. }
    intros [r c] [Ec Hr]. cbn [fst snd] in *. subst c. pose proof (Z.mod_pos_bound b 2 ltac:(lia)) as Mb. pose proof (Z.div_mod b 2 ltac:(lia)) as Db. destruct (Z.eqb_spec (b mod 2) 1) as [O | O].
    - rewrite O in *. eapply returns_weaken; [apply (pwr_mul a L R (b - 1) (b - 1) r 1 0 a); auto; try lia; try nia; now apply Self |]. intros c Hc. replace (b - 1 + 1) with b in Hc by ring. eapply pwr_weak; [auto | auto | lia | | exact Hc]. lia.
    - replace (b mod 2) with 0 in * by lia. rewrite Z.sub_0_r in Hr. apply returns_ok. eapply pwr_weak; [auto | auto | lia | | exact Hr]. lia. }
  induction fuel as [| fuel IH]; intros a b L R Wa Na EL ER Hb HB; [apply (Sm 0%nat a b L R); auto; cbn in Hb; lia |].
  destruct (Z_lt_ge_dec b 8) as [B8 | B8]; [apply (Sm (S fuel) a b L R); auto; lia |]. cbn [xpowi_abs]. rewrite (proj2 (Z.ltb_ge b 8)) by lia.
  pose proof (Z.mod_pos_bound b 2 ltac:(lia)) as Mb. pose proof (Z.div_mod b 2 ltac:(lia)) as Db. assert (HR : 1 <= R) by lia. rewrite Nat2Z.inj_succ, Z.pow_succ_r in Hb by lia. set (h := b / 2) in *.
  eapply returns_bind; [apply (IH a h L R); auto; [lia | nia] |]. intros r Hr. rewrite Z.max_r in Hr by lia. eapply returns_bind; [apply (pwr_mul a L R h (2 * h - 1) r h (2 * h - 1) r); auto; try lia; nia |]. intros r2 Hr2.
  destruct (Z.eqb_spec (b mod 2) 1) as [O | O].
  - eapply returns_weaken; [apply (pwr_mul a L R (h + h) (2 * h - 1 + (2 * h - 1) + 1) r2 1 0 a); auto; try lia; try nia; now apply Self |]. intros c Hc. replace (h + h + 1) with b in Hc by lia. eapply pwr_weak; [auto | auto | lia | | exact Hc]. lia.
  - apply returns_ok. replace (h + h) with b in Hr2 by lia. eapply pwr_weak; [auto | auto | lia | | exact Hr2]. lia.
Qed.
Lemma powi_pos a n : xwf a -> xnull a = false -> 0 <= n -> n * (Z.abs (xpow a + 127) + 1) <= 2 ^ 46 -> returns (xpowi a n) (pwr a n (2 * n)).
Proof.
  intros Wa Na Hn H. unfold xpowi. assert (n <= 2 ^ 46) by nia. rewrite sabs_ok by (change (64 - 1) with 63; lia). cbn [bind]. rewrite castw_small by lia. rewrite Z.abs_eq by lia. destruct (Z.ltb_spec n 0); [lia |].
  destruct (powi_abs_ok 64 a n (xpow a + 127) _ Wa Na eq_refl eq_refl ltac:(change (Z.of_nat 64) with 64; lia) H) as (r & -> & Hr). cbn [bind]. apply returns_ok. eapply pwr_weak; [auto | auto | lia | | exact Hr]. lia.
Qed.
Lemma powi_neg a n : xwf a -> xnull a = false -> n < 0 -> Z.abs n * (Z.abs (xpow a + 127) + 1) <= 2 ^ 35 ->
  returns (xpowi a n) (fun c => xwf c /\ xnull c = false /\ xsign c = xsign a && Z.odd n /\ (xmag a ^ n <= xmag c)%Q /\ (xmag c <= xmag a ^ n * (1 + inject_Z (4 * Z.abs n + 10) * uu))%Q).
Proof.
  intros Wa Na Hn H. unfold xpowi. set (b := Z.abs n) in *. assert (Hb : 0 < b) by lia. assert (b <= 2 ^ 35) by nia. rewrite sabs_ok by (change (64 - 1) with 63; lia). cbn [bind]. rewrite castw_small by lia. rewrite (proj2 (Z.ltb_lt n 0)) by lia. fold b.
  destruct (powi_abs_ok 64 a b (xpow a + 127) _ Wa Na eq_refl eq_refl ltac:(change (Z.of_nat 64) with 64; lia) ltac:(lia)) as (r & -> & Hr). cbn [bind]. rewrite Z.max_r in Hr by lia. apply (pwr_weak _ _ _ (2 * b)) in Hr; [| auto | auto | lia | lia].
  pose proof (pwr_exp a b (2 * b) r _ _ Wa Na eq_refl eq_refl ltac:(lia) ltac:(lia) ltac:(lia) Hr) as Xr. destruct Hr as (Wr & Nr & Sr & Lr & Ur).
  eapply returns_weaken; [apply xdiv_main; auto; [split; split; vm_compute; congruence | reflexivity | lia] |]. intros c (Wc & Nc & Sc & Lc & Uc & _). split; auto. split; auto. split.
  { rewrite Sc, Sr. change (xsign xONE) with false. replace (Z.odd b) with (Z.odd n) by (unfold b; destruct (Z.abs_spec n) as [[_ ->] | [_ ->]]; rewrite ?Z.odd_opp; auto). destruct (xsign a && Z.odd n); reflexivity. }
  assert (V1 : (Qabs (xval xONE / xval r) == 1 / xmag r)%Q). { assert (E1 : (xval xONE == 1)%Q) by reflexivity. rewrite E1. unfold Qdiv. rewrite Qabs_Qmult, Qabs_Qinv, (xabs_val r Wr). reflexivity. }
  rewrite V1 in Lc, Uc. rewrite xabs_val in Lc, Uc by auto. assert (Pa := xmag_pos a Wa Na). assert (Pr := xmag_pos r Wr Nr). assert (Pc := xmag_pos c Wc Nc). assert (Pw := Qpower_0_lt (xmag a) b Pa).
  assert (En : (xmag a ^ n == 1 / xmag a ^ b)%Q). { replace n with (- b) by lia. rewrite Qpower_opp. unfold Qdiv. ring. } rewrite En. clear En V1.
  destruct (k_small (2 * b) ltac:(lia)) as [K1 K2]. destruct (xmag_bin c Wc Nc) as [M1 _]. rewrite two_plus in M1. unfold xulp in Uc. assert (Tc := two_pos (xpow c)). assert (T127 : (two 127 == 4 * two 125)%Q) by reflexivity. assert (UU : (two (- 125) * two 125 == 1)%Q) by reflexivity.
  rewrite !inject_Z_plus, !inject_Z_mult. rewrite inject_Z_mult in Lr, K1, K2. change (inject_Z 4) with 4%Q. change (inject_Z 2) with 2%Q in *. change (inject_Z 10) with 10%Q. assert (U : (0 < uu < 1 # 1000)%Q) by (split; reflexivity).
  set (p := (xmag a ^ b)%Q) in *. set (x := xmag r) in *. set (y := xmag c) in *. set (w := two (xpow c)) in *. set (u := uu) in *. set (t := two 125) in *. set (B := inject_Z b) in *. assert (Q70 : ((1 # 2 ^ 70) <= 1 # 1000)%Q) by (vm_compute; discriminate).
  assert (Nw : (9 * w <= (9 # 4) * u * y)%Q). { rewrite T127 in M1. assert ((w * (4 * t)) * u <= y * u)%Q by (apply Qmult_le_r; [lra | auto]). setoid_replace (w * (4 * t) * u)%Q with (4 * w * (u * t))%Q in H1 by ring. rewrite UU in H1. lra. }
  clearbody p x y w u t B. clear - Lr Ur Lc Uc Nw Pw Pr Pc K1 K2 U Q70. set (g := (2 * B * u)%Q) in *. setoid_replace ((4 * B + 10) * u)%Q with (2 * g + 10 * u)%Q by (unfold g; ring). clearbody g. destruct U as [U1 U2].
  split.
  - eapply Qle_trans; [| exact Lc]. apply Qle_shift_div_r; auto. setoid_replace (1 / x * p)%Q with (p / x)%Q by (field; lra). apply Qle_shift_div_l; lra.
  - assert (Q1 : (1 / x <= (1 + 2 * g) / p)%Q). { apply Qle_shift_div_r; auto. setoid_replace ((1 + 2 * g) / p * x)%Q with (x * (1 + 2 * g) / p)%Q by (field; lra). apply Qle_shift_div_l; auto. assert (p * (1 - g) * (1 + 2 * g) <= x * (1 + 2 * g))%Q by (apply Qmult_le_r; lra). nra. }
    assert (Y : (y * (1 - (9 # 4) * u) < (1 + 2 * g) / p)%Q) by lra. setoid_replace (1 / p * (1 + (2 * g + 10 * u)))%Q with ((1 + 2 * g + 10 * u) / p)%Q by (field; lra). apply Qle_shift_div_l; auto.
    assert (Z : (y * p * (1 - (9 # 4) * u) < 1 + 2 * g)%Q). { apply (Qmult_lt_r _ _ p Pw) in Y. setoid_replace ((1 + 2 * g) / p * p)%Q with (1 + 2 * g)%Q in Y by (field; lra). lra. }
    set (z := (y * p)%Q) in *. clearbody z. destruct (Qlt_le_dec (1 + 2 * g + 10 * u) z) as [C |]; auto. exfalso. assert ((1 + 2 * g + 10 * u) * (1 - (9 # 4) * u) < z * (1 - (9 # 4) * u))%Q by (apply Qmult_lt_r; lra). nra.
Qed.
Lemma powi_abs_zero fuel b : 0 < b < 2 ^ Z.of_nat fuel * 8 -> xpowi_abs fuel xZERO b = Ok xZERO.
Proof.
  assert (M : forall a, xmul xZERO a = Ok xZERO) by reflexivity. assert (M' : forall a, xmul a xZERO = Ok xZERO) by (intros; rewrite xmul_comm; reflexivity). revert b.
  induction fuel as [| f IH]; intros b Hb.
  - assert (b = 1 \/ b = 2 \/ b = 3 \/ b = 4 \/ b = 5 \/ b = 6 \/ b = 7) as K by (cbn in Hb; lia). destruct K as [-> | [-> | [-> | [-> | [-> | [-> | ->]]]]]]; reflexivity.
  - destruct (Z_lt_ge_dec b 8). { assert (b = 1 \/ b = 2 \/ b = 3 \/ b = 4 \/ b = 5 \/ b = 6 \/ b = 7) as K by lia. destruct K as [-> | [-> | [-> | [-> | [-> | [-> | ->]]]]]]; reflexivity. }
    cbn [xpowi_abs]. rewrite (proj2 (Z.ltb_ge b 8)) by lia. rewrite Nat2Z.inj_succ, Z.pow_succ_r in Hb by lia. rewrite IH; [| split; [apply Z.div_str_pos; lia | apply Z.div_lt_upper_bound; lia]]. cbn [bind]. rewrite M. cbn [bind]. destruct (_ =? _); reflexivity.
Qed.
