(** F192: multiplication and division by machine integers. *)
From Coq Require Import ZArith QArith Qabs Lqa Lia Bool.
From Verif Require Import Base UBig UStr USpec UAddSub UEq BBig BSpec BEq RBig RSpec REq RIeee FSpec RIeeeP XNum XSpec XP1 XP2.
Local Open Scope Z_scope.

(** ** the product of two significands *)
Definition pdig (D1 D2 : Z) : Z :=
  (D1 / 2 ^ 64) * (D2 / 2 ^ 64) + ((D1 / 2 ^ 64) * (D2 mod 2 ^ 64) / 2 + (D2 / 2 ^ 64) * (D1 mod 2 ^ 64) / 2) / 2 ^ 63.
Lemma hl D : sigr D -> exists h l, D / 2 ^ 64 = h /\ D mod 2 ^ 64 = l /\ D = h * 2 ^ 64 + l /\ 2 ^ 63 <= h < 2 ^ 64 /\ 0 <= l < 2 ^ 64.
Proof.
  intros [H1 H2]. pose proof (Z.div_mod D (2 ^ 64) ltac:(lia)). pose proof (Z.mod_pos_bound D (2 ^ 64) ltac:(lia)). pose proof SIGNM_val.
  exists (D / 2 ^ 64), (D mod 2 ^ 64). splits; auto; lia.
Qed.
Lemma pdig_bounds D1 D2 : sigr D1 -> sigr D2 -> 2 ^ 126 <= pdig D1 D2 < 2 ^ 128 /\ pdig D1 D2 * 2 ^ 128 <= D1 * D2 < (pdig D1 D2 + 2) * 2 ^ 128.
Proof.
  intros H1 H2. unfold pdig. destruct (hl D1 H1) as (h1 & l1 & -> & -> & -> & B1 & C1), (hl D2 H2) as (h2 & l2 & -> & -> & -> & B2 & C2).
  assert (0 <= h1 * l2) by nia. assert (0 <= h2 * l1) by nia.
  pose proof (Z.div_mod (h1 * l2) 2 ltac:(lia)) as E1. pose proof (Z.mod_pos_bound (h1 * l2) 2 ltac:(lia)) as F1. set (x := h1 * l2 / 2) in *.
  pose proof (Z.div_mod (h2 * l1) 2 ltac:(lia)) as E2. pose proof (Z.mod_pos_bound (h2 * l1) 2 ltac:(lia)) as F2. set (y := h2 * l1 / 2) in *.
  pose proof (Z.div_mod (x + y) (2 ^ 63) ltac:(lia)) as E3. pose proof (Z.mod_pos_bound (x + y) (2 ^ 63) ltac:(lia)) as F3. set (z := (x + y) / 2 ^ 63) in *.
  assert (0 <= z) by (apply Z.div_pos; lia).
  assert (P : (h1 * 2 ^ 64 + l1) * (h2 * 2 ^ 64 + l2) = (h1 * h2) * 2 ^ 128 + (h1 * l2 + h2 * l1) * 2 ^ 64 + l1 * l2) by ring.
  assert (L : 0 <= l1 * l2 < 2 ^ 128) by (split; [nia |]; replace (2 ^ 128) with (2 ^ 64 * 2 ^ 64) by reflexivity; nia).
  assert (Lo : 2 ^ 126 <= h1 * h2) by (replace (2 ^ 126) with (2 ^ 63 * 2 ^ 63) by reflexivity; nia).
  assert (Up : (h1 * 2 ^ 64 + l1) * (h2 * 2 ^ 64 + l2) < 2 ^ 128 * 2 ^ 128).
  { apply Z.mul_lt_mono_nonneg; lia. }
  rewrite P in *. set (hh := h1 * h2) in *. set (ll := l1 * l2) in *. clearbody hh ll. clear P. lia.
Qed.
Lemma pdig_comm D1 D2 : pdig D1 D2 = pdig D2 D1.
Proof. unfold pdig. rewrite (Z.mul_comm (D1 / 2 ^ 64)). f_equal. f_equal. apply Z.add_comm. Qed.
Lemma pdig_mono D D' O : sigr D -> sigr D' -> sigr O -> D <= D' -> pdig D O <= pdig D' O.
Proof.
  intros H H' HO L. unfold pdig. destruct (hl D H) as (h & l & -> & -> & -> & B1 & C1), (hl D' H') as (h' & l' & -> & -> & -> & B1' & C1'), (hl O HO) as (g & k & -> & -> & -> & B2 & C2).
  rewrite <- !Z.div_add_l by lia. apply Z.div_le_mono; [lia |].
  destruct (Z.eq_dec h h') as [-> |].
  - assert (g * l / 2 <= g * l' / 2) by (apply Z.div_le_mono; [lia | nia]). lia.
  - assert (h + 1 <= h') by nia. assert (h * k / 2 <= h' * k / 2) by (apply Z.div_le_mono; [lia | nia]).
    assert (g * l / 2 <= g * 2 ^ 63) by (apply Z.div_le_upper_bound; [lia |]; nia). assert (0 <= g * l' / 2) by (apply Z.div_pos; nia).
    assert (h * g + g <= h' * g) by (clear - H0 B2; nia). set (a := h * g) in *. set (b := h' * g) in *. lia.
Qed.
(** across a binade *)
Lemma pdig_top D O : sigr D -> sigr O -> pdig D O <= O - 1.
Proof.
  intros H HO. destruct (pdig_bounds D O H HO) as (_ & P1 & _). destruct H as [_ H]. destruct HO as [HO _]. change (2 ^ 128) with (2 * SIGNM) in *. assert (0 < SIGNM) by reflexivity. nia.
Qed.
Lemma pdig_bot D O : sigr D -> sigr O -> O - 1 <= 2 * pdig D O.
Proof.
  intros H HO. assert (S : sigr SIGNM) by (unfold sigr; assert (0 < SIGNM) by reflexivity; lia).
  apply Z.le_trans with (2 * pdig SIGNM O).
  - unfold pdig. change (SIGNM / 2 ^ 64) with (2 ^ 63). change (SIGNM mod 2 ^ 64) with 0. rewrite Z.mul_0_r. change (0 / 2) with 0. rewrite Z.add_0_r.
    replace (2 ^ 63 * (O mod 2 ^ 64)) with (2 ^ 62 * (O mod 2 ^ 64) * 2) by (change (2 ^ 63) with (2 ^ 62 * 2); ring). rewrite Z.div_mul by lia.
    replace (2 ^ 62 * (O mod 2 ^ 64) / 2 ^ 63) with (O mod 2 ^ 64 / 2).
    2:{ change (2 ^ 63) with (2 ^ 62 * 2). rewrite Z.div_mul_cancel_l by lia. reflexivity. }
    pose proof (Z.div_mod O (2 ^ 64) ltac:(lia)). pose proof (Z.div_mod (O mod 2 ^ 64) 2 ltac:(lia)). pose proof (Z.mod_pos_bound (O mod 2 ^ 64) 2 ltac:(lia)).
    set (o := O mod 2 ^ 64) in *. lia.
  - pose proof (pdig_mono SIGNM D O S H HO ltac:(apply H)). lia.
Qed.

(** the normalised result: digits and how far they were shifted *)
Definition pshift (p : Z) : Z := if p <? 2 ^ 127 then 1 else 0.
Lemma lz_p p : 2 ^ 126 <= p < 2 ^ 128 -> lz128 p = pshift p.
Proof.
  intros H. unfold lz128, pshift. destruct (Z.eqb_spec p 0); [lia |]. destruct (Z.ltb_spec p (2 ^ 127)).
  - rewrite (Z.log2_unique p 126) by lia. reflexivity.
  - rewrite (Z.log2_unique p 127) by lia. reflexivity.
Qed.
Lemma pnorm_sig p : 2 ^ 126 <= p < 2 ^ 128 -> sigr (p * 2 ^ pshift p).
Proof. intros. unfold sigr, pshift. change SIGNM with (2 ^ 127). destruct (Z.ltb_spec p (2 ^ 127)); [change (2 ^ 1) with 2 | change (2 ^ 0) with 1]; lia. Qed.
Definition pexp (e f p : Z) : Z := e + f - EXPC + 128 - pshift p.
Lemma xmul_eq s m e t n f : sigr m -> sigr n -> expr e -> expr f -> xnull (xof s m e) = false -> xnull (xof t n f) = false ->
  EXPC <= e + f < 2 ^ 64 -> e + f - EXPC + 128 < 2 ^ 64 ->
  let p := pdig m n in xmul (xof s m e) (xof t n f) = Ok (xof (xorb s t) (p * 2 ^ pshift p) (pexp e f p)).
Proof.
  intros Hm Hn He Hf N1 N2 L1 L2 p. unfold xmul. rewrite !xis_zero_null, N1, N2. cbn [orb].
  assert (Ex : forall u k g, xe (xof u k g) = g) by reflexivity. rewrite !Ex. rewrite addw_ok by (unfold expr in *; lia). cbn [bind].
  unfold checked_sub. destruct (Z.leb_spec EXPC (e + f)); [| lia]. rewrite addw_ok by lia. cbn [bind].
  unfold xof at 1 2 3 4 5 6. cbn [xd]. rewrite !(xhid_of' s m), !(xhid_of' t n) by auto. rewrite lxor_of by auto.
  rewrite !shrw_ok by lia. cbn [bind].
  destruct (pdig_bounds m n Hm Hn) as [[P1 P2] _]. assert (Ep : pdig m n = p) by reflexivity. rewrite Ep in P1, P2. clearbody p. unfold pdig in Ep.
  destruct (hl m Hm) as (h1 & l1 & Eh1 & El1 & Em & B1 & C1), (hl n Hn) as (h2 & l2 & Eh2 & El2 & En & B2 & C2). rewrite Eh1, El1, Eh2, El2 in *. clear Em En Eh1 El1 Eh2 El2.
  assert (Q64 : 2 ^ 64 * 2 ^ 64 = 2 ^ 128) by reflexivity.
  rewrite !mulw_ok by (rewrite <- Q64; nia). cbn [bind].
  assert (A1 : 0 <= h1 * l2 / 2 < 2 ^ 127) by (split; [apply Z.div_pos; nia | apply Z.div_lt_upper_bound; [lia |]; change (2 * 2 ^ 127) with (2 ^ 64 * 2 ^ 64); nia]).
  assert (A2 : 0 <= h2 * l1 / 2 < 2 ^ 127) by (split; [apply Z.div_pos; nia | apply Z.div_lt_upper_bound; [lia |]; change (2 * 2 ^ 127) with (2 ^ 64 * 2 ^ 64); nia]).
  rewrite addw_ok by lia. cbn [bind]. rewrite shrw_ok by lia. cbn [bind]. unfold checked_add. rewrite Ep. destruct (Z.ltb_spec p (2 ^ 128)); [| lia]. cbn [bind].
  rewrite lz_p by lia. assert (Sh : 0 <= pshift p <= 1) by (unfold pshift; destruct (p <? 2 ^ 127); lia).
  assert (Sg := pnorm_sig p ltac:(lia)). assert (0 < SIGNM) by reflexivity. rewrite shlw_ok by (unfold sigr in Sg; rewrite ?P128; lia). cbn [bind].
  rewrite subw_ok by lia. cbn [bind]. rewrite pack by auto. reflexivity.
Qed.

Lemma xorb_sg s t p q : (sg (xorb s t) (p * q) == sg s p * sg t q)%Q. Proof. unfold sg. destruct s, t; cbn [xorb]; ring. Qed.
Lemma xq_prod m e n f : (xq m e * xq n f == inject_Z (m * n) * two (e + f - EXPC - EXPC))%Q.
Proof. unfold xq. rewrite inject_Z_mult. replace (e + f - EXPC - EXPC) with (e - EXPC + (f - EXPC)) by ring. rewrite two_plus. ring. Qed.
(** the product, scaled to the exponent of the result *)
Lemma xq_result p e f j : 0 <= p -> 0 <= j <= 1 -> (xq (p * 2 ^ j) (e + f - EXPC + 128 - j) == inject_Z (p * 2 ^ 128) * two (e + f - EXPC - EXPC))%Q.
Proof.
  intros Hp Hj. unfold xq. rewrite !inject_Z_mult. rewrite <- !two_Z by lia. replace (e + f - EXPC + 128 - j - EXPC) with (e + f - EXPC - EXPC + 128 + - j) by ring.
  rewrite !two_plus, two_opp. field. apply two_nz.
Qed.
Lemma pshift01 p : 0 <= pshift p <= 1. Proof. unfold pshift. destruct (p <? 2 ^ 127); lia. Qed.
Lemma pexp_expr e f p : EXPC <= e + f < 2 ^ 64 -> e + f - EXPC + 128 < 2 ^ 64 -> expr (pexp e f p) /\ 0 < pexp e f p.
Proof. intros. unfold expr, pexp. pose proof (pshift01 p). lia. Qed.
Lemma xnull_pos s m e : sigr m -> 0 < e -> xnull (xof s m e) = false.
Proof. intros. rewrite xnull_of by auto. destruct (Z.eqb_spec e 0); [lia | apply andb_false_r]. Qed.
Lemma xmul_ok a b : xwf a -> xwf b -> xnull a = false -> xnull b = false -> EXPC <= xe a + xe b < 2 ^ 64 -> xe a + xe b - EXPC + 128 < 2 ^ 64 ->
  returns (xmul a b) (fun c => xbelow 4 (xval a * xval b) c /\ xnull c = false).
Proof.
  intros Wa Wb Na Nb L1 L2. destruct (xwf_cases a Wa) as [-> | (s & m & e & -> & Hm & He & N)]; [discriminate |].
  destruct (xwf_cases b Wb) as [-> | (t & n & f & -> & Hn & Hf & N')]; [discriminate |]. assert (Ex : forall u k g, xe (xof u k g) = g) by reflexivity. rewrite !Ex in *.
  rewrite xmul_eq by auto. apply returns_ok. destruct (pdig_bounds m n Hm Hn) as [PB [P1 P2]]. set (p := pdig m n) in *. clearbody p.
  assert (Sg := pnorm_sig p PB). destruct (pexp_expr e f p L1 L2) as [Xe Xp]. assert (Nn := xnull_pos (xorb s t) _ _ Sg Xp). split; [| exact Nn].
  assert (V : (xval (xof s m e) * xval (xof t n f) == sg (xorb s t) (xq m e * xq n f))%Q) by (rewrite !xval_of by auto; symmetry; apply xorb_sg).
  assert (Pm := xq_pos m e Hm). assert (Pn := xq_pos n f Hn). assert (Pp := xq_pos _ (pexp e f p) Sg). pose proof (pshift01 p) as Sh.
  assert (R := xq_result p e f (pshift p) ltac:(lia) Sh). fold (pexp e f p) in R.
  assert (Cm : (Qabs (xval (xof (xorb s t) (p * 2 ^ pshift p) (pexp e f p))) == inject_Z (p * 2 ^ 128) * two (e + f - EXPC - EXPC))%Q) by (rewrite xval_of, sg_abs, R by (auto; lra); reflexivity).
  assert (Pr : (Qabs (xval (xof s m e) * xval (xof t n f)) == inject_Z (m * n) * two (e + f - EXPC - EXPC))%Q) by (rewrite V, sg_abs, xq_prod by nra; reflexivity).
  unfold xbelow. split; [now apply xof_wf |]. split; [| split].
  - rewrite Cm, Pr. apply tz_le. lia.
  - rewrite V, xval_of by auto. assert (Pmn := Qmult_lt_0_compat _ _ Pm Pn). assert (Pall := Qmult_lt_0_compat _ _ Pp Pmn). unfold sg.
    destruct (xorb s t); [setoid_replace (- xq (p * 2 ^ pshift p) (pexp e f p) * - (xq m e * xq n f))%Q with (xq (p * 2 ^ pshift p) (pexp e f p) * (xq m e * xq n f))%Q by ring |]; lra.
  - rewrite Cm, Pr. unfold xulp, xpow. rewrite Ex. change (2 ^ 48) with EXPC. unfold pexp. set (E := e + f - EXPC - EXPC).
    assert (T : (two (e + f - EXPC + 128 - pshift p - EXPC) == two E * inject_Z (2 ^ 128) * two (- pshift p))%Q).
    { change (inject_Z (2 ^ 128)) with (two 128). rewrite <- !two_plus. replace (E + 128 + - pshift p) with (e + f - EXPC + 128 - pshift p - EXPC) by (unfold E; ring). reflexivity. }
    rewrite T. assert (T2 : (1 # 2 <= two (- pshift p))%Q) by (change (1 # 2)%Q with (two (- (1))); apply two_le; lia).
    assert (TE := two_pos E). rewrite Zlt_Qlt in P2. rewrite (inject_Z_mult (p + 2)), inject_Z_plus in P2. rewrite (inject_Z_mult p).
    set (g := two (- pshift p)) in *. set (x := two E) in *. set (mn := inject_Z (m * n)) in *. set (ip := inject_Z p) in *. set (big := inject_Z (2 ^ 128)) in *.
    assert (Bp : (0 < big)%Q) by reflexivity. change (inject_Z 2) with 2%Q in P2. change (inject_Z 4) with 4%Q. clearbody g x mn ip big.
    setoid_replace (mn * x - ip * big * x)%Q with ((mn - ip * big) * x)%Q by ring. setoid_replace (4 * (x * big * g))%Q with ((4 * big * g) * x)%Q by ring.
    apply Qmult_lt_r; auto. nra.
Qed.
Lemma addw_comm w x y : addw w x y = addw w y x. Proof. unfold addw. now rewrite Z.add_comm. Qed.
Lemma mulw_comm w x y : mulw w x y = mulw w y x. Proof. unfold mulw. now rewrite Z.mul_comm. Qed.
Lemma bind_swap {A B C} (m : res A) (n : res B) (k : A -> B -> res C) : (m <> NoFuel) -> (n <> NoFuel) -> (let* x := m in let* y := n in k x y) = let* y := n in let* x := m in k x y.
Proof. destruct m, n; cbn; congruence || auto. Qed.
Lemma xmul_comm a b : xmul a b = xmul b a.
Proof.
  unfold xmul. rewrite orb_comm. destruct (xis_zero b || xis_zero a); auto. rewrite (addw_comm 64 (xe a)).
  destruct (addw 64 (xe b) (xe a)) as [z0 | |]; cbn [bind]; auto. destruct (checked_sub z0 EXPC) as [z |]; auto. destruct (addw 64 z 128) as [ex | |]; cbn [bind]; auto.
  rewrite !shrw_ok by lia. cbn [bind]. rewrite (Z.lxor_comm (xd a)).
  generalize (Z.lor SIGNM (xd a) / 2 ^ 64) (Z.lor SIGNM (xd b) / 2 ^ 64) (Z.lor SIGNM (xd a) mod 2 ^ 64) (Z.lor SIGNM (xd b) mod 2 ^ 64). intros h1 h2 l1 l2.
  rewrite (mulw_comm 128 h1 h2). destruct (mulw 128 h2 h1); cbn [bind]; auto.
  rewrite bind_swap by (unfold mulw; destruct (_ <? _); discriminate). destruct (mulw 128 h2 l1); cbn [bind]; auto. destruct (mulw 128 h1 l2); cbn [bind]; auto.
  rewrite (addw_comm 128 (a2 / 2)). reflexivity.
Qed.
Lemma xmul_under a b : xis_zero a = false -> xis_zero b = false -> 0 <= xe a -> 0 <= xe b -> xe a + xe b < EXPC -> xmul a b = Ok xZERO.
Proof.
  intros Za Zb Ha Hb L. unfold xmul. rewrite Za, Zb. cbn [orb]. rewrite addw_ok by (unfold EXPC in L; lia). cbn [bind]. unfold checked_sub.
  destruct (Z.leb_spec EXPC (xe a + xe b)); [lia | reflexivity].
Qed.
(** multiplying by one clears the last bit *)
Lemma pdig_one m : sigr m -> pdig m SIGNM = m / 2.
Proof.
  intros Hm. rewrite pdig_comm. unfold pdig. change (SIGNM / 2 ^ 64) with (2 ^ 63). change (SIGNM mod 2 ^ 64) with 0. rewrite Z.mul_0_r. change (0 / 2) with 0. rewrite Z.add_0_r.
  replace (2 ^ 63 * (m mod 2 ^ 64)) with (2 ^ 62 * (m mod 2 ^ 64) * 2) by (change (2 ^ 63) with (2 ^ 62 * 2); ring). rewrite Z.div_mul by lia.
  replace (2 ^ 62 * (m mod 2 ^ 64) / 2 ^ 63) with (m mod 2 ^ 64 / 2).
  2:{ change (2 ^ 63) with (2 ^ 62 * 2). rewrite Z.div_mul_cancel_l by lia. reflexivity. }
  pose proof (Z.div_mod m (2 ^ 64) ltac:(lia)) as E. set (o := m mod 2 ^ 64) in *. set (h := m / 2 ^ 64) in *. clearbody o h. subst m.
  replace (2 ^ 64 * h + o) with (o + (2 ^ 63 * h) * 2) by (change (2 ^ 64) with (2 ^ 63 * 2); ring). rewrite Z.div_add by lia. ring.
Qed.
Lemma xmul_one a : xwf a -> xnull a = false -> 127 <= xe a -> xe a + EXPC + 1 < 2 ^ 64 -> xmul a xONE = Ok (mkX (xd a - xd a mod 2) (xe a)).
Proof.
  intros Wa Na L1 L2. destruct (xwf_cases a Wa) as [-> | (s & m & e & -> & Hm & He & N)]; [discriminate |]. assert (Ex : forall u k g, xe (xof u k g) = g) by reflexivity. rewrite !Ex in *.
  assert (S1 : sigr SIGNM) by (unfold sigr; assert (0 < SIGNM) by reflexivity; lia).
  change xONE with (xof false SIGNM (EXPC - 127)). rewrite xmul_eq; auto; [| unfold expr, EXPC; lia | lia | unfold EXPC in *; lia].
  rewrite pdig_one by auto. rewrite xorb_false_r. assert (Hm' := Hm). destruct Hm' as [M1 M2].
  assert (Sh : pshift (m / 2) = 1). { unfold pshift. destruct (Z.ltb_spec (m / 2) (2 ^ 127)); auto. change (2 ^ 127) with SIGNM in *. pose proof (Z.mul_div_le m 2 ltac:(lia)). lia. }
  unfold pexp. rewrite Sh. change (2 ^ 1) with 2. replace (e + (EXPC - 127) - EXPC + 128 - 1) with e by ring. unfold xof. cbn [xd].
  pose proof (Z.div_mod m 2 ltac:(lia)) as DM. do 2 f_equal. destruct s; [lia |].
  replace ((m - SIGNM) mod 2) with (m mod 2); [lia |]. replace m with (m - SIGNM + 2 ^ 126 * 2) at 1 by (change SIGNM with (2 ^ 126 * 2); ring). apply Z.mod_add. lia.
Qed.

(** ** products grow with the factor *)
Lemma xmul_mono o n f m e m' e' : sigr n -> sigr m -> sigr m' -> (e < e' \/ e = e' /\ m <= m') ->
  let p := pdig m n in let p' := pdig m' n in (inject_Z (p * 2 ^ 128) * two (e + f - o) <= inject_Z (p' * 2 ^ 128) * two (e' + f - o))%Q.
Proof.
  intros Hn Hm Hm' [L | [-> L]] p p'.
  - pose proof (pdig_top m n Hm Hn) as T. pose proof (pdig_bot m' n Hm' Hn) as B. fold p in T. fold p' in B. destruct (pdig_bounds m' n Hm' Hn) as [PB _]. fold p' in PB.
    rewrite (tz_to (p' * 2 ^ 128) (e' + f - o) (e + f - o)) by lia. apply tz_le. replace (e' + f - o - (e + f - o)) with (Z.succ (e' - e - 1)) by lia. rewrite Z.pow_succ_r by lia.
    assert (1 <= 2 ^ (e' - e - 1)) by (apply Z.lt_pred_le, Z.pow_pos_nonneg; lia). nia.
  - apply tz_le. pose proof (pdig_mono m m' n Hm Hm' Hn L). fold p p' in H. lia.
Qed.

(** ** the normalising loop *)
Lemma xnorm_ok d r e k : SIGNM <= d * 2 ^ k < 2 * SIGNM -> 0 < d -> 0 <= r -> r * 2 ^ k < 2 ^ 128 -> 0 <= k <= e -> k < 256 ->
  (forall j, 0 <= j < k -> d * 2 ^ j < SIGNM) ->
  loopn 8 xnorm (d, r, e) = Ok (d * 2 ^ k, r * 2 ^ k, e - k).
Proof.
  intros Hd D0 R0 Hr Hk K8 Hj.
  assert (L : returns (loopn 8 xnorm (d, r, e)) (fun s => s = (d * 2 ^ k, r * 2 ^ k, e - k))).
  { apply (loopn_spec xnorm (fun s => exists j, 0 <= j <= k /\ s = (d * 2 ^ j, r * 2 ^ j, e - j)) (fun _ s => s = (d * 2 ^ k, r * 2 ^ k, e - k)) (fun s => snd s - (e - k))).
    2:{ exists 0. split; [lia |]. now rewrite !Z.mul_1_r, Z.sub_0_r. }
    2:{ cbn [snd]. change (2 ^ Z.of_nat 8) with 256. lia. }
    intros g s (j & Jk & ->) IH. unfold xnorm. destruct (Z.ltb_spec (d * 2 ^ j) SIGNM) as [C | C].
    - assert (j < k). { destruct (Z.eq_dec j k) as [-> |]; lia. }
      assert (E2 : 2 ^ (j + 1) = 2 * 2 ^ j) by (rewrite Z.pow_add_r by lia; change (2 ^ 1) with 2; ring). assert (0 < 2 ^ j) by (apply Z.pow_pos_nonneg; lia).
      assert (2 * 2 ^ j <= 2 ^ k) by (rewrite <- E2; apply Z.pow_le_mono_r; lia).
      rewrite mulw_ok by (rewrite P128; nia). cbn [bind]. rewrite mulw_ok by nia. cbn [bind]. rewrite subw_ok by lia. cbn [bind].
      apply IH; [| cbn [snd]; lia]. exists (j + 1). split; [lia |]. rewrite E2. f_equal; [f_equal; ring | ring].
    - assert (j = k). { destruct (Z.eq_dec j k); auto. specialize (Hj j ltac:(lia)). lia. } subst j. now apply returns_ok. }
  destruct L as (s & -> & ->). reflexivity.
Qed.
(** the shift that normalises a positive number below 2^128 *)
Definition nshift (d : Z) : Z := if d <? SIGNM then 127 - Z.log2 d else 0.
Lemma nshift_ok d : 0 < d < 2 * SIGNM -> SIGNM <= d * 2 ^ nshift d < 2 * SIGNM /\ 0 <= nshift d <= 127 /\ (forall j, 0 <= j < nshift d -> d * 2 ^ j < SIGNM).
Proof.
  intros H. unfold nshift. destruct (Z.ltb_spec d SIGNM) as [L | L].
  - pose proof (Z.log2_spec d ltac:(lia)) as S. pose proof (Z.log2_nonneg d) as N. assert (U : Z.log2 d < 127) by (apply Z.log2_lt_pow2; [lia | exact L]).
    assert (E : 2 ^ Z.log2 d * 2 ^ (127 - Z.log2 d) = SIGNM) by (rewrite <- Z.pow_add_r by lia; replace (Z.log2 d + (127 - Z.log2 d)) with 127 by ring; reflexivity).
    assert (E' : 2 ^ Z.succ (Z.log2 d) * 2 ^ (127 - Z.log2 d) = 2 * SIGNM) by (rewrite Z.pow_succ_r, <- Z.mul_assoc, E by lia; ring).
    assert (P : 0 < 2 ^ (127 - Z.log2 d)) by (apply Z.pow_pos_nonneg; lia). splits; try lia.
    + rewrite <- E. apply Z.mul_le_mono_nonneg_r; lia.
    + rewrite <- E'. apply Z.mul_lt_mono_pos_r; lia.
    + intros j Hj. assert (Lj : 2 ^ j * 2 <= 2 ^ (127 - Z.log2 d)) by (rewrite Z.mul_comm, <- Z.pow_succ_r by lia; apply Z.pow_le_mono_r; lia).
      assert (0 < 2 ^ j) by (apply Z.pow_pos_nonneg; lia). nia.
  - rewrite Z.mul_1_r. splits; try lia. 
Qed.

(** ** multiplication and division by an i32 *)
Lemma sign_xor (s : bool) a : negb (Bool.eqb s (a <? 0)) = xorb s (a <? 0). Proof. destruct s, (a <? 0); reflexivity. Qed.
Lemma sg_int a : (inject_Z a == sg (a <? 0) (inject_Z (Z.abs a)))%Q.
Proof. unfold sg. destruct (Z.ltb_spec a 0); [rewrite <- inject_Z_opp, Z.abs_neq, Z.opp_involutive by lia | rewrite Z.abs_eq by lia]; reflexivity. Qed.
Lemma xhid_xof s m e : sigr m -> xhid (xd (xof s m e)) = m. Proof. apply xhid_of. Qed.
Lemma castw_small w z : 0 <= z < 2 ^ w -> castw w z = z. Proof. intros. unfold castw. now apply Z.mod_small. Qed.
Lemma xmul_i32_ok s a : xwf s -> xnull s = false -> a <> 0 -> i32r a -> 0 < xe s -> xe s + 32 < 2 ^ 64 ->
  let k := nshift ((xsig s / 2 ^ 32) * Z.abs a) in
  (xsig s * Z.abs a * 2 ^ k < 2 ^ 160 -> returns (xmul_i32 s a) (xrounds_down (xval s * inject_Z a))) /\
  (2 ^ 160 <= xsig s * Z.abs a * 2 ^ k -> xmul_i32 s a = Panic).
Proof.
  intros W N Na Ha Le Lu. destruct (xwf_cases s W) as [-> | (u & m & e & -> & Hm & He & N')]; [discriminate |]. assert (Ex : forall u k g, xe (xof u k g) = g) by reflexivity. rewrite !Ex in *.
  rewrite xsig_of by auto. set (A := Z.abs a). assert (HA : 0 < A < 2 ^ 31) by (unfold A, i32r in *; lia). intros k.
  assert (P0 : 0 < SIGNM) by reflexivity. assert (PS : SIGNM = 2 ^ 127) by reflexivity.
  pose proof (Z.div_mod m (2 ^ 32) ltac:(lia)) as DM. pose proof (Z.mod_pos_bound m (2 ^ 32) ltac:(lia)) as MB. set (h := m / 2 ^ 32) in *. set (l := m mod 2 ^ 32) in *.
  assert (Hh : 2 ^ 95 <= h < 2 ^ 96) by (unfold sigr in Hm; rewrite PS in Hm; lia).
  assert (HD : 2 ^ 95 <= h * A < 2 ^ 127) by (change (2 ^ 127) with (2 ^ 96 * 2 ^ 31); nia).
  destruct (nshift_ok (h * A) ltac:(rewrite PS; lia)) as (K1 & K2 & K3). fold k in K1, K2, K3.
  assert (K4 : k <= 32).
  { destruct (Z_le_gt_dec k 32) as [| G]; auto. specialize (K3 32 ltac:(lia)). rewrite PS in K3. change (2 ^ 127) with (2 ^ 95 * 2 ^ 32) in K3. nia. }
  assert (Pk : 0 < 2 ^ k) by (apply Z.pow_pos_nonneg; lia). assert (Pk2 : 2 ^ k <= 2 ^ 32) by (apply Z.pow_le_mono_r; lia).
  assert (Tot : m * A * 2 ^ k = (h * A * 2 ^ k) * 2 ^ 32 + l * A * 2 ^ k) by (rewrite DM at 1; ring).
  assert (LA : 0 <= l * A < 2 ^ 63) by (split; [nia | change (2 ^ 63) with (2 ^ 32 * 2 ^ 31); nia]).
  assert (LK : 0 <= l * A * 2 ^ k < 2 ^ 95) by (split; [nia | change (2 ^ 95) with (2 ^ 63 * 2 ^ 32); nia]).
  pose proof (Z.div_mod (l * A * 2 ^ k) (2 ^ 32) ltac:(lia)) as DQ. pose proof (Z.mod_pos_bound (l * A * 2 ^ k) (2 ^ 32) ltac:(lia)) as MQ. pose proof (Z.div_pos (l * A * 2 ^ k) (2 ^ 32) ltac:(lia) ltac:(lia)) as PQ.
  assert (Run : xmul_i32 (xof u m e) a = let* digits := addw 128 (h * A * 2 ^ k) (l * A * 2 ^ k / 2 ^ 32) in
      Ok (mkX (Z.lor (xlow digits) (xbit (xorb u (a <? 0)))) (e + 32 - k))).
  { unfold xmul_i32. rewrite xis_zero_null, N'. destruct (Z.eqb_spec a 0); [contradiction |]. cbn [orb]. rewrite !Ex. rewrite xhid_xof by auto.
    rewrite sabs_ok by (unfold i32r in Ha; change (32 - 1) with 31; lia). cbn [bind]. fold A. rewrite castw_small by lia.
    fold l. rewrite mulw_ok by lia. cbn [bind]. rewrite shrw_ok by lia. cbn [bind]. fold h. rewrite mulw_ok by lia. cbn [bind]. rewrite addw_ok by lia. cbn [bind].
    rewrite (xnorm_ok _ _ _ k); auto; try lia. cbn [bind]. rewrite shrw_ok by lia. cbn [bind]. rewrite xneg_of by auto. rewrite sign_xor. reflexivity. }
  rewrite Run. clear Run. set (hA := h * A * 2 ^ k) in *. set (lA := l * A * 2 ^ k) in *. set (r := lA / 2 ^ 32) in *.
  split; intros Lim.
  - rewrite addw_ok by (rewrite Tot in Lim; lia). cbn [bind]. apply returns_ok.
    assert (Sg : sigr (hA + r)) by (unfold sigr in *; rewrite Tot in Lim; rewrite PS in *; lia). rewrite pack by auto.
    assert (Pm := xq_pos m e Hm).
    assert (PA : (0 < inject_Z A)%Q) by (change 0%Q with (inject_Z 0); rewrite <- Zlt_Qlt; lia).
    apply (xrounds_down_wd (sg (xorb u (a <? 0)) (xq m e * inject_Z A))).
    { rewrite xval_of by auto. rewrite (sg_int a). apply xorb_sg. }
    assert (Sc : (xq m e * inject_Z A == inject_Z (m * A * 2 ^ k) * two (e - k - EXPC))%Q).
    { unfold xq. rewrite !inject_Z_mult, <- two_Z by lia. replace (e - k - EXPC) with (e - EXPC + - k) by ring. rewrite two_plus, two_opp. field. apply two_nz. }
    assert (Sr : forall z, (xq z (e + 32 - k) == inject_Z (z * 2 ^ 32) * two (e - k - EXPC))%Q).
    { intros z. unfold xq. rewrite inject_Z_mult, <- two_Z by lia. replace (e + 32 - k - EXPC) with (e - k - EXPC + 32) by ring. rewrite two_plus. ring. }
    apply trunc_best; auto; [unfold expr in *; lia | apply xnull_pos; auto; lia | |].
    + rewrite Sc, Sr. apply tz_le. rewrite Tot. lia.
    + rewrite Sc, Sr. apply tz_lt. rewrite Tot. lia.
  - unfold addw. destruct (Z.ltb_spec (hA + r) (2 ^ 128)); [| reflexivity]. rewrite Tot in Lim. lia.
Qed.
Lemma xdiv_i32_ok s a : xwf s -> xnull s = false -> a <> 0 -> i32r a -> 31 < xe s ->
  returns (xdiv_i32 s a) (xrounds_down (xval s / inject_Z a)).
Proof.
  intros W N Na Ha Le. destruct (xwf_cases s W) as [-> | (u & m & e & -> & Hm & He & N')]; [discriminate |]. assert (Ex : forall u k g, xe (xof u k g) = g) by reflexivity. rewrite !Ex in *.
  set (A := Z.abs a). assert (HA : 0 < A < 2 ^ 31) by (unfold A, i32r in *; lia).
  assert (P0 : 0 < SIGNM) by reflexivity. assert (PS : SIGNM = 2 ^ 127) by reflexivity.
  pose proof (Z.div_mod m A ltac:(lia)) as DM. pose proof (Z.mod_pos_bound m A ltac:(lia)) as MB. set (h := m / A) in *. set (l := m mod A) in *.
  assert (Hh : 2 ^ 96 <= h < 2 * SIGNM).
  { unfold sigr in Hm. split; [| nia]. destruct (Z_le_gt_dec (2 ^ 96) h); auto. exfalso. rewrite PS in Hm. change (2 ^ 127) with (2 ^ 96 * 2 ^ 31) in Hm. nia. }
  destruct (nshift_ok h ltac:(lia)) as (K1 & K2 & K3). set (k := nshift h) in *.
  assert (K4 : k <= 31).
  { destruct (Z_le_gt_dec k 31) as [| G]; auto. specialize (K3 31 ltac:(lia)). rewrite PS in K3. change (2 ^ 127) with (2 ^ 96 * 2 ^ 31) in K3. nia. }
  assert (Pk : 0 < 2 ^ k) by (apply Z.pow_pos_nonneg; lia). assert (Pk2 : 2 ^ k <= 2 ^ 31) by (apply Z.pow_le_mono_r; lia).
  assert (LK : 0 <= l * 2 ^ k < 2 ^ 62) by (split; [nia | change (2 ^ 62) with (2 ^ 31 * 2 ^ 31); nia]).
  assert (Tot : m * 2 ^ k = A * (h * 2 ^ k) + l * 2 ^ k) by (rewrite DM at 1; ring).
  pose proof (Z.div_mod (l * 2 ^ k) A ltac:(lia)) as DQ. pose proof (Z.mod_pos_bound (l * 2 ^ k) A ltac:(lia)) as MQ. pose proof (Z.div_pos (l * 2 ^ k) A ltac:(lia) ltac:(lia)) as PQ.
  set (r := l * 2 ^ k / A) in *.
  assert (Hr : r < 2 ^ k) by (apply Z.div_lt_upper_bound; nia).
  assert (Hs : h * 2 ^ k + 2 ^ k <= 2 * SIGNM).
  { assert (E : 2 * SIGNM = 2 ^ (128 - k) * 2 ^ k) by (rewrite <- Z.pow_add_r by lia; replace (128 - k + k) with 128 by ring; reflexivity). clear - K1 E Pk.
    assert (h < 2 ^ (128 - k)) by (apply (Z.mul_lt_mono_pos_r (2 ^ k)); lia). rewrite E. replace (h * 2 ^ k + 2 ^ k) with ((h + 1) * 2 ^ k) by ring. apply Z.mul_le_mono_nonneg_r; lia. }
  unfold xdiv_i32. destruct (Z.eqb_spec a 0); [contradiction |]. rewrite xis_zero_null, N'. rewrite !Ex. rewrite xhid_xof by auto.
  rewrite sabs_ok by (unfold i32r in Ha; change (32 - 1) with 31; lia). cbn [bind]. fold A. rewrite castw_small by lia.
  rewrite remw_ok by lia. cbn [bind]. rewrite divw_ok by lia. cbn [bind]. fold l h.
  rewrite (xnorm_ok _ _ _ k); auto; try lia. cbn [bind]. rewrite divw_ok by lia. cbn [bind]. fold r.
  assert (Sg : sigr (h * 2 ^ k + r)) by (unfold sigr in *; lia).
  rewrite addw_ok by (rewrite P128; lia). cbn [bind]. apply returns_ok. rewrite xneg_of, sign_xor, pack by auto.
  assert (Pm := xq_pos m e Hm). assert (PA : (0 < inject_Z A)%Q) by (change 0%Q with (inject_Z 0); rewrite <- Zlt_Qlt; lia).
  apply (xrounds_down_wd (sg (xorb u (a <? 0)) (xq m e / inject_Z A))).
  { rewrite xval_of by auto. rewrite (sg_int a). fold A. assert (NA : ~ (inject_Z A == 0)%Q) by lra. revert NA. generalize (inject_Z A) (xq m e). intros x y NA. unfold sg. destruct u, (a <? 0); cbn [xorb]; field; auto; intros C; apply NA; lra. }
  assert (Sc : (xq m e / inject_Z A == inject_Z (m * 2 ^ k) * two (e - k - EXPC) / inject_Z A)%Q).
  { unfold xq. rewrite !inject_Z_mult, <- two_Z by lia. replace (e - k - EXPC) with (e - EXPC + - k) by ring. rewrite two_plus, two_opp. field. split; [apply two_nz | lra]. }
  apply trunc_best; auto; [unfold expr in *; lia | apply xnull_pos; auto; lia | |]; rewrite Sc.
  - apply Qle_shift_div_l; auto. unfold xq. setoid_replace (inject_Z (h * 2 ^ k + r) * two (e - k - EXPC) * inject_Z A)%Q with (inject_Z ((h * 2 ^ k + r) * A) * two (e - k - EXPC))%Q by (rewrite (inject_Z_mult _ A); ring).
    apply tz_le. replace ((h * 2 ^ k + r) * A) with (A * (h * 2 ^ k) + A * r) by ring. rewrite Tot. set (x := A * (h * 2 ^ k)) in *. lia.
  - apply Qlt_shift_div_r; auto. unfold xq. setoid_replace (inject_Z (h * 2 ^ k + r + 1) * two (e - k - EXPC) * inject_Z A)%Q with (inject_Z ((h * 2 ^ k + r + 1) * A) * two (e - k - EXPC))%Q by (rewrite (inject_Z_mult _ A); ring).
    apply tz_lt. replace ((h * 2 ^ k + r + 1) * A) with (A * (h * 2 ^ k) + A * r + A) by ring. rewrite Tot. set (x := A * (h * 2 ^ k)) in *. lia.
Qed.
