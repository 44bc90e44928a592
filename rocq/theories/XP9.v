(** F192: conversions to and from the binary floats. *)
From Coq Require Import ZArith QArith Qabs Lqa Lia Bool List.
From Verif Require Import Base UBig UStr USpec UAddSub UEq BBig BSpec BEq RBig RSpec REq RIeee FSpec RIeeeP XNum XSpec XP1 XP2 XP3 XP7.
Local Open Scope Z_scope.

Section Fl.
Variable F : fmt.
Hypothesis HF : fok F.
Let W := fw F. Let M := fm F. Let bias := fbias F. Let Eb := ebits W M.
Let Hb : 2 * (bias + 1) = 2 ^ Eb. Proof. apply (fok_facts F HF). Qed.
Let Hb' : bias = ebias W M. Proof. apply (fok_facts F HF). Qed.
Let HM : 23 <= M. Proof. apply (fok_facts F HF). Qed.
Let HM' : M <= 52. Proof. destruct (fok_facts F HF) as (_ & _ & _ & _ & _ & _ & _ & _ & C & _). unfold M. lia. Qed.
Let HW : M + 9 <= W. Proof. apply (fok_facts F HF). Qed.
Let HB : 127 <= bias <= 1023. Proof. apply (fok_facts F HF). Qed.
Let HE : Eb + M = W - 1. Proof. apply (fok_facts F HF). Qed.
Let HW' : W <= 64. Proof. apply (fok_facts F HF). Qed.
Let PM : 0 < 2 ^ M. Proof. apply Z.pow_pos_nonneg; lia. Qed.
Let SM : SIGNM = 2 ^ (127 - M) * 2 ^ M. Proof. rewrite <- Z.pow_add_r by lia. unfold SIGNM. f_equal. lia. Qed.
Let PS' : 0 < 2 ^ (127 - M). Proof. apply Z.pow_pos_nonneg; lia. Qed.

(** ** float to F192 *)
Definition fx (s : bool) (e f : Z) : f192 := xof s (SIGNM + f * 2 ^ (127 - M)) (e + EXPC - 127).
Lemma fx_ok s e f : 0 <= f < 2 ^ M -> Z.abs e < 2 ^ 20 -> xwf (fx s e f) /\ xnull (fx s e f) = false /\ (xval (fx s e f) == (if s then - (1) else 1) * (inject_Z (2 ^ M + f) * two (e - M)))%Q /\ sigr (SIGNM + f * 2 ^ (127 - M)).
Proof.
  intros Hf He. pose proof P48. assert (Sg : sigr (SIGNM + f * 2 ^ (127 - M))) by (unfold sigr; rewrite SM; nia). assert (X : expr (e + EXPC - 127)) by (unfold expr; lia).
  assert (N := xnull_pos s _ (e + EXPC - 127) Sg ltac:(lia)). split; [now apply xof_wf |]. split; [exact N |]. split; [| exact Sg]. unfold fx. rewrite xval_of by auto. unfold xq.
  assert (V : (inject_Z (SIGNM + f * 2 ^ (127 - M)) * two (e + EXPC - 127 - EXPC) == inject_Z (2 ^ M + f) * two (e - M))%Q).
  { replace (SIGNM + f * 2 ^ (127 - M)) with ((2 ^ M + f) * 2 ^ (127 - M)) by (rewrite SM; ring). rewrite inject_Z_mult, <- (two_Z (127 - M)) by lia. rewrite <- Qmult_assoc, <- two_plus. replace (127 - M + (e + EXPC - 127 - EXPC)) with (e - M) by ring. reflexivity. }
  unfold sg. destruct s; rewrite V; ring.
Qed.
Lemma xfrom_fields (s : bool) (e f : Z) : 0 <= f < 2 ^ M -> Z.abs e < 2 ^ 20 ->
  (let* g := shlw 128 f (127 - fm F) in let* x := sadd 64 e EXPC in let* x := subw (castw 64 x) 127 in Ok (ROk (E := cerr) (mkX (Z.lor g (xbit s)) x))) = Ok (ROk (fx s e f)).
Proof.
  intros Hf He. pose proof P48. destruct (fx_ok s e f Hf He) as (_ & _ & _ & Sg). fold M. rewrite shlw_ok; [| lia | unfold sigr in Sg; rewrite P128; pose proof PS; nia]. cbn [bind].
  unfold sadd. rewrite sres_ok by (change (64 - 1) with 63; lia). cbn [bind]. rewrite castw_small by lia. rewrite subw_ok by lia. cbn [bind]. do 2 f_equal. unfold fx, xof.
  rewrite <- (lor_bit s (SIGNM + f * 2 ^ (127 - M)) Sg). do 2 f_equal. ring.
Qed.
Lemma insp_cases n : 0 <= n < 2 ^ W -> insp F n = (if fexpo W M n =? 2 ^ Eb - 1 then RErr (if ffrac M n =? 0 then if fsign W n then NegInfinity else Infinity else NotANumber)
  else if (fexpo W M n =? 0) && (ffrac M n =? 0) then ROk (false, - 2 ^ 31, 0) else
    if fexpo W M n =? 0 then let k := M - Z.log2 (ffrac M n) in ROk (fsign W n, 1 - bias - k, ffrac M n * 2 ^ k - 2 ^ M) else ROk (fsign W n, fexpo W M n - bias, ffrac M n)).
Proof.
  intros Hn. unfold insp. fold W M bias Eb. assert (2 ^ 1 < 2 ^ Eb) by (apply Z.pow_lt_mono_r; lia). destruct (Z.eqb_spec (fexpo W M n) 0) as [Z0 | nz].
  - rewrite Z0. destruct (Z.eqb_spec 0 (2 ^ Eb - 1)); [lia |]. cbn [andb]. destruct (ffrac M n =? 0); reflexivity.
  - cbn [andb]. destruct (_ =? 2 ^ Eb - 1); [| reflexivity]. destruct (ffrac M n =? 0); reflexivity.
Qed.
Lemma xfrom_float_ok n : 0 <= n < 2 ^ W -> ffinite W M n -> returns (xtry_from_float F n) (fun r => exists c, r = ROk c /\ xwf c /\ (xval c == fvalue W M n)%Q).
Proof.
  intros Hn Fin. pose proof P48. unfold xtry_from_float. rewrite (inspect_ok F HF n Hn). rewrite insp_cases by auto. unfold ffinite in Fin. fold Eb in Fin. destruct (Z.eqb_spec (fexpo W M n) (2 ^ Eb - 1)); [contradiction |].
  destruct (fields F HF n Hn) as (_ & HX & HR). fold W M in HX, HR. fold Eb in HX.
  destruct (Z.eqb_spec (fexpo W M n) 0) as [X0 | X0]; cbn [andb].
  - destruct (Z.eqb_spec (ffrac M n) 0) as [F0 | F0].
    + cbn [rbind bind Z.eqb Pos.eqb andb negb]. rewrite Z.eqb_refl. cbn [andb]. apply returns_ok. exists xZERO. split; [reflexivity |]. split; [apply xwf_zero |]. rewrite xval_zero. unfold fvalue, fabs. rewrite X0, F0. cbn [Z.eqb]. change (inject_Z 0) with 0%Q. destruct (fsign W n); ring.
    + cbv zeta. destruct (log2_frac F HF (ffrac M n) ltac:(fold M; lia)) as [L1 L2]. fold M in L1, L2. set (f := ffrac M n) in *. set (k := M - Z.log2 f) in *. cbn [rbind bind].
      destruct (Z.eqb_spec (1 - bias - k) (- 2 ^ 31)); [lia |]. cbn [andb]. assert (2 ^ (M + 1) = 2 * 2 ^ M) by (rewrite Z.add_1_r, Z.pow_succ_r; lia).
      rewrite xfrom_fields by lia. apply returns_ok. eexists. split; [reflexivity |]. destruct (fx_ok (fsign W n) (1 - bias - k) (f * 2 ^ k - 2 ^ M)) as (Wc & _ & V & _); [lia | lia |]. split; [auto |]. rewrite V.
      unfold fvalue, fabs. rewrite X0. cbn [Z.eqb]. rewrite <- Hb'. fold f. replace (2 ^ M + (f * 2 ^ k - 2 ^ M)) with (f * 2 ^ k) by ring. rewrite inject_Z_mult, <- (two_Z k) by lia.
      assert (T : (two k * two (1 - bias - k - M) == two (1 - bias - M))%Q) by (rewrite <- two_plus; replace (k + (1 - bias - k - M)) with (1 - bias - M) by ring; reflexivity).
      destruct (fsign W n); rewrite <- T; ring.
  - assert (E1 : 2 ^ Eb <= 2048) by lia. cbn [rbind bind]. destruct (Z.eqb_spec (fexpo W M n - bias) (- 2 ^ 31)); [lia |]. cbn [andb].
    rewrite xfrom_fields by lia. apply returns_ok. eexists. split; [reflexivity |]. destruct (fx_ok (fsign W n) (fexpo W M n - bias) (ffrac M n)) as (Wc & _ & V & _); [lia | lia |]. split; [auto |]. rewrite V.
    unfold fvalue, fabs. destruct (Z.eqb_spec (fexpo W M n) 0); [lia |]. rewrite <- Hb'. destruct (fsign W n); ring.
Qed.
Lemma xfrom_float_err n : 0 <= n < 2 ^ W -> ~ ffinite W M n -> xtry_from_float F n = Ok (RErr (if ffrac M n =? 0 then if fsign W n then NegInfinity else Infinity else NotANumber)).
Proof.
  intros Hn Fin. unfold xtry_from_float. rewrite (inspect_ok F HF n Hn). rewrite insp_cases by auto. unfold ffinite in Fin. fold Eb in Fin. destruct (Z.eqb_spec (fexpo W M n) (2 ^ Eb - 1)); [reflexivity | lia].
Qed.

(** ** F192 to float *)
Definition frnd (m : Z) : Z := let x := (m - SIGNM) / 2 ^ (122 - M) in if 15 <? x mod 32 then x / 32 + 1 else x / 32.
Lemma frnd_ok m : sigr m -> 0 <= frnd m <= 2 ^ M /\ - 2 ^ (126 - M) < frnd m * 2 ^ (127 - M) - (m - SIGNM) <= 2 ^ (126 - M).
Proof.
  intros [H1 H2]. unfold frnd. set (l := m - SIGNM) in *. assert (Bl : 0 <= l < SIGNM) by lia. set (h := 2 ^ (122 - M)). assert (Ph : 0 < h) by (apply Z.pow_pos_nonneg; lia).
  assert (E1 : 2 ^ (126 - M) = 16 * h) by (change 16 with (2 ^ 4); unfold h; rewrite <- Z.pow_add_r by lia; f_equal; lia). assert (E2 : 2 ^ (127 - M) = 32 * h) by (change 32 with (2 ^ 5); unfold h; rewrite <- Z.pow_add_r by lia; f_equal; lia).
  rewrite E1, E2. pose proof SM as SM'. rewrite E2 in SM'. pose proof (Z.div_mod l h ltac:(lia)) as D1. pose proof (Z.mod_pos_bound l h Ph) as B1. set (x := l / h) in *. set (r := l mod h) in *.
  pose proof (Z.div_mod x 32 ltac:(lia)) as D2. pose proof (Z.mod_pos_bound x 32 ltac:(lia)) as B2. set (q := x / 32) in *. set (w := x mod 32) in *.
  assert (0 <= x) by (apply Z.div_pos; lia). assert (0 <= q) by (apply Z.div_pos; lia). assert (q < 2 ^ M) by (clearbody h x r q w; clear E1 E2; nia).
  clearbody h x r q w. destruct (Z.ltb_spec 15 w); split; try lia; nia.
Qed.
Definition ffin (s : bool) (x R : Z) : Z :=
  if x <? 0 then 0 else if 2 * bias + 1 <? x then (if s then 2 ^ (W - 1) + (2 * bias + 1) * 2 ^ M else (2 * bias + 1) * 2 ^ M) else enc F s x R.
Lemma xto_float_eq s m e : sigr m -> 0 <= e < 2 ^ 63 - 2 ^ 20 ->
  xto_float F (xof s m e) = Ok (let x := e - EXPC + 127 + bias in if frnd m =? 2 ^ M then ffin s (x + 1) 0 else ffin s x (frnd m)).
Proof.
  intros Sg He. pose proof P48. assert (Hs := Sg). destruct Sg as [S1 S2]. unfold xto_float. fold M W bias. change (xe (xof s m e)) with e. rewrite xneg_of by auto.
  assert (Mq : (xd (xof s m e) / 2 ^ (122 - M)) mod 2 ^ (M + 5) = (m - SIGNM) / 2 ^ (122 - M)).
  { unfold xof. cbn [xd]. set (h := 2 ^ (122 - M)). assert (Ph : 0 < h) by (apply Z.pow_pos_nonneg; lia). assert (SP : SIGNM = 2 ^ (M + 5) * h) by (unfold h; rewrite <- Z.pow_add_r by lia; unfold SIGNM; f_equal; lia).
    assert (B : 0 <= (m - SIGNM) / h < 2 ^ (M + 5)) by (split; [apply Z.div_pos; lia | apply Z.div_lt_upper_bound; lia]). destruct s.
    - replace m with (m - SIGNM + 2 ^ (M + 5) * h) at 1 by lia. rewrite Z.div_add by lia. replace ((m - SIGNM) / h + 2 ^ (M + 5)) with ((m - SIGNM) / h + 1 * 2 ^ (M + 5)) by ring. rewrite Z.mod_add by lia. apply Z.mod_small. auto.
    - apply Z.mod_small. auto. }
  rewrite Mq. set (x := (m - SIGNM) / 2 ^ (122 - M)). rewrite xei_ok by (split; [apply xof_wf; auto; unfold expr; lia | change (xe (xof s m e)) with e; lia]). cbn [bind]. change (xe (xof s m e)) with e.
  unfold sadd at 1. rewrite sres_ok by (change (64 - 1) with 63; lia). cbn [bind]. destruct (frnd_ok m Hs) as [FB _]. unfold frnd in *. fold x in FB |- *. cbv zeta in *.
  assert (PM52 : 2 ^ M <= 2 ^ 52) by (apply Z.pow_le_mono_r; lia). assert (Q0 : 0 <= x / 32 < 2 ^ M). { destruct (15 <? x mod 32); [| destruct (Z.eq_dec (x / 32) (2 ^ M)) as [K |]; [| lia]]. 1: assert (0 <= x) by (apply Z.div_pos; [lia | apply Z.pow_pos_nonneg; lia]); pose proof (Z.div_pos x 32 ltac:(lia) ltac:(lia)); lia.
    exfalso. assert (K2 : x < 2 ^ M * 32). { unfold x. apply Z.div_lt_upper_bound; [apply Z.pow_pos_nonneg; lia |]. replace (2 ^ (122 - M) * (2 ^ M * 32)) with SIGNM; [lia |]. unfold SIGNM. change 32 with (2 ^ 5). rewrite <- !Z.pow_add_r by lia. f_equal. lia. } pose proof (Z.div_mod x 32 ltac:(lia)). pose proof (Z.mod_pos_bound x 32 ltac:(lia)). lia. }
  assert (Fin : forall (s : bool) x R, 0 <= R < 2 ^ M -> Z.abs x < 2 ^ 63 -> (if x <? 0 then Ok 0 else if 2 * bias + 1 <? x then Ok (if s then 2 ^ (W - 1) + (2 * bias + 1) * 2 ^ M else (2 * bias + 1) * 2 ^ M)
     else Ok (Z.lor (Z.lor (Z.b2z s * 2 ^ (W - 1)) (castw W x mod (2 * bias + 2) * 2 ^ M)) (castw W R))) = Ok (ffin s x R)).
  { clear - HB HE HW HM PM Hb HF. intros s x R HR Hx. unfold ffin. destruct (Z.ltb_spec x 0); [reflexivity |]. destruct (Z.ltb_spec (2 * bias + 1) x); [reflexivity |]. 
    assert (2 ^ M < 2 ^ W) by (apply Z.pow_lt_mono_r; lia). assert (2 ^ Eb < 2 ^ W) by (apply Z.pow_lt_mono_r; lia). rewrite !castw_small by lia. rewrite Z.mod_small by lia.
    rewrite <- (lor_enc F HF s x R); auto. fold Eb W M. split; [lia |]. unfold W, M in Hb. fold W M in Hb. fold Eb. lia. }
  destruct (Z.ltb_spec 15 (x mod 32)).
  - rewrite addw_ok by (clear - Q0 PM52; lia). cbn [bind]. destruct (Z.eqb_spec (x / 32 + 1) (2 ^ M)).
    + unfold sadd. rewrite sres_ok by (change (64 - 1) with 63; clear - He H HB; lia). cbn [bind]. rewrite Fin by (clear - Q0 He H HB PM; lia). do 2 f_equal. ring.
    + cbn [bind]. rewrite Fin by (clear - n Q0 He H HB; lia). do 2 f_equal. ring.
  - cbn [bind]. rewrite Fin by (clear - Q0 He H HB; lia). destruct (Z.eqb_spec (x / 32) (2 ^ M)); [lia |]. do 2 f_equal. ring.
Qed.
(** round trip of the normal floats *)
Lemma xfloat_round n : 0 <= n < 2 ^ W -> 0 < fexpo W M n < 2 ^ Eb - 1 -> exists c, xtry_from_float F n = Ok (ROk c) /\ xto_float F c = Ok n.
Proof.
  intros Hn Hx. pose proof P48. destruct (fields F HF n Hn) as (En & HX & HR). fold W M in En, HX, HR. fold Eb in HX. exists (fx (fsign W n) (fexpo W M n - bias) (ffrac M n)). split.
  - unfold xtry_from_float. rewrite (inspect_ok F HF n Hn), insp_cases by auto. destruct (Z.eqb_spec (fexpo W M n) (2 ^ Eb - 1)); [lia |]. destruct (Z.eqb_spec (fexpo W M n) 0); [lia |]. cbn [andb rbind bind].
    destruct (Z.eqb_spec (fexpo W M n - bias) (- 2 ^ 31)); [lia |]. cbn [andb]. apply xfrom_fields; lia.
  - destruct (fx_ok (fsign W n) (fexpo W M n - bias) (ffrac M n)) as (_ & _ & _ & Sg); [lia | lia |]. unfold fx. rewrite xto_float_eq by (auto; lia). f_equal. cbv zeta.
    set (m := SIGNM + ffrac M n * 2 ^ (127 - M)) in *. destruct (frnd_ok m Sg) as [B1 B2]. assert (R : frnd m = ffrac M n).
    { assert (Em : m - SIGNM = ffrac M n * 2 ^ (127 - M)) by (unfold m; ring). rewrite Em in B2. assert (E2 : 2 ^ (127 - M) = 2 * 2 ^ (126 - M)) by (rewrite <- Z.pow_succ_r by lia; f_equal; lia). rewrite E2 in B2. assert (0 < 2 ^ (126 - M)) by (apply Z.pow_pos_nonneg; lia).
      set (h := 2 ^ (126 - M)) in *. set (r := frnd m) in *. set (f := ffrac M n) in *. clearbody h r f. clear - B2 H0. assert (h * (2 * (r - f)) < h * 2) by lia. assert (h * (- 2) < h * (2 * (r - f))) by lia. rewrite <- Z.mul_lt_mono_pos_l in * by auto. lia. }
    rewrite R. destruct (Z.eqb_spec (ffrac M n) (2 ^ M)); [lia |]. unfold ffin. replace (fexpo W M n - bias + EXPC - 127 - EXPC + 127 + bias) with (fexpo W M n) by ring.
    destruct (Z.ltb_spec (fexpo W M n) 0); [lia |]. destruct (Z.ltb_spec (2 * bias + 1) (fexpo W M n)); [lia |]. unfold enc. fold W M. lia.
Qed.
(** in the range of the normal floats: nearest, ties away from zero; infinity exactly when rounding leaves the range *)
Lemma fdiff (s : bool) m E0 R (v : Q) : sigr m -> R = frnd m -> (v == (if s then - (1) else 1) * (inject_Z (2 ^ M + R) * two (E0 - M)))%Q ->
  let a := sg s (inject_Z m * two (E0 - 127)) in (Qabs (v - a) <= (1 # 2) * two (E0 - M))%Q /\ ((Qabs (v - a) == (1 # 2) * two (E0 - M))%Q -> (Qabs a <= Qabs v)%Q).
Proof.
  intros Sg -> V a. destruct (frnd_ok m Sg) as [B1 [B2 B3]]. assert (T := two_pos (E0 - 127)).
  assert (E1 : (two (E0 - M) == inject_Z (2 ^ (127 - M)) * two (E0 - 127))%Q) by (rewrite <- two_Z, <- two_plus by lia; replace (127 - M + (E0 - 127)) with (E0 - M) by ring; reflexivity).
  assert (E2 : ((1 # 2) * two (E0 - M) == inject_Z (2 ^ (126 - M)) * two (E0 - 127))%Q).
  { rewrite E1. replace (2 ^ (127 - M)) with (2 * 2 ^ (126 - M)) by (rewrite <- Z.pow_succ_r by lia; f_equal; lia). rewrite inject_Z_mult. change (inject_Z 2) with 2%Q. field. }
  set (d := frnd m * 2 ^ (127 - M) - (m - SIGNM)) in *.
  assert (D : (inject_Z (2 ^ M + frnd m) * two (E0 - M) == (inject_Z m + inject_Z d) * two (E0 - 127))%Q).
  { rewrite E1, Qmult_assoc, <- inject_Z_mult, <- inject_Z_plus. replace ((2 ^ M + frnd m) * 2 ^ (127 - M)) with (m + d) by (unfold d; rewrite SM; ring). reflexivity. }
  assert (Mp : (0 < inject_Z m)%Q) by (change 0%Q with (inject_Z 0); rewrite <- Zlt_Qlt; unfold sigr in Sg; pose proof PS; lia). set (t := two (E0 - 127)) in *.
  assert (Vp : (v == sg s ((inject_Z m + inject_Z d) * t))%Q) by (rewrite V, D; unfold sg; destruct s; ring).
  assert (Df : (Qabs (v - a) == Qabs (inject_Z d) * t)%Q).
  { rewrite Vp. unfold a. rewrite sg_diff. setoid_replace ((inject_Z m + inject_Z d) * t - inject_Z m * t)%Q with (inject_Z d * t)%Q by ring. rewrite Qabs_Qmult. rewrite (Qabs_pos t) by lra. reflexivity. }
  rewrite Df, E2. rewrite Zlt_Qlt in B2. rewrite Zle_Qle in B3. rewrite inject_Z_opp in B2. split.
  - apply Qmult_le_r; auto. apply Qabs_le_iff. lra.
  - intros K. assert (K2 : (Qabs (inject_Z d) == inject_Z (2 ^ (126 - M)))%Q) by (apply Qmult_inj_r with t; auto; lra).
    assert (Dp : (0 <= inject_Z d)%Q). { revert K2. apply Qabs_case; intros; lra. }
    unfold a. rewrite Vp, !sg_abs by nra. nra.
Qed.
Lemma xto_float_near a : xwf a -> xnull a = false -> 1 - bias <= xpow a + 127 <= bias ->
  returns (xto_float F a) (fun n => 0 <= n < 2 ^ W /\ fsign W n = xsign a /\
    ((ffinite W M n /\ (Qabs (fvalue W M n - xval a) <= (1 # 2) * two (xpow a + 127 - M))%Q /\ ((Qabs (fvalue W M n - xval a) == (1 # 2) * two (xpow a + 127 - M))%Q -> (Qabs (xval a) <= Qabs (fvalue W M n))%Q)) \/
     (~ ffinite W M n /\ ffrac M n = 0 /\ (two (bias + 1) - (1 # 2) * two (bias - M) <= Qabs (xval a))%Q))).
Proof.
  intros Wa N P. pose proof P48. destruct (xof_of a Wa) as (Ea & Sg & X). set (s := xsign a) in *. set (m := xsig a) in *. assert (Xe : xe a = xpow a + 127 + (EXPC - 127)) by (unfold xpow; change (2 ^ 48) with EXPC; ring).
  set (E0 := xpow a + 127) in *. assert (Va : xval a = sg s (inject_Z m * two (E0 - 127))) by (unfold xval, xmag; rewrite N; fold s m; unfold E0; replace (xpow a + 127 - 127) with (xpow a) by ring; reflexivity).
  rewrite Va. rewrite Ea, Xe. rewrite xto_float_eq by (auto; lia). apply returns_ok. cbv zeta. replace (E0 + (EXPC - 127) - EXPC + 127 + bias) with (E0 + bias) by ring. destruct (frnd_ok m Sg) as [B1 B2].
  clearbody E0 m s. clear Ea Xe Va.
  assert (Nv : forall x R, 0 < x < 2 ^ Eb - 1 -> 0 <= R < 2 ^ M -> 0 <= enc F s x R < 2 ^ W /\ fsign W (enc F s x R) = s /\ ffinite W M (enc F s x R) /\ (fvalue W M (enc F s x R) == (if s then - (1) else 1) * (inject_Z (2 ^ M + R) * two (x - bias - M)))%Q).
  { intros x R Hx HR. destruct (norm_value F HF s x R Hx HR) as (A1 & A2 & A3). destruct (enc_ok F HF s x R ltac:(fold W M Eb; lia) HR) as (_ & A4 & _). auto. }
  assert (Fx : forall x R, 0 <= x <= 2 * bias + 1 -> ffin s x R = enc F s x R) by (intros x R Hx; unfold ffin; destruct (Z.ltb_spec x 0); [lia |]; destruct (Z.ltb_spec (2 * bias + 1) x); [lia | reflexivity]).
  destruct (Z.eqb_spec (frnd m) (2 ^ M)) as [C | C].
  - destruct (Z.eq_dec E0 bias) as [-> | ne].
    + rewrite Fx by lia. destruct (enc_ok F HF s (bias + bias + 1) 0 ltac:(fold W M Eb; lia) ltac:(fold M; lia)) as (A1 & A2 & A3 & A4). fold W M in A1, A2, A3, A4. split; [auto |]. split; [auto |]. right.
      unfold ffinite. fold Eb. rewrite A3. split; [intros K; apply K; lia |]. split; [exact A4 |].
      destruct (fdiff s m bias (frnd m) _ Sg eq_refl (Qeq_refl _)) as [D _]. cbv zeta in D. revert D. set (q := (inject_Z m * two (bias - 127))%Q). assert (Qp : (0 <= q)%Q) by (unfold q; apply Qmult_le_0_compat; [change 0%Q with (inject_Z 0); rewrite <- Zle_Qle; unfold sigr in Sg; pose proof PS; lia | pose proof (two_pos (bias - 127)); lra]).
      rewrite C. assert (E1 : (inject_Z (2 ^ M + 2 ^ M) * two (bias - M) == two (bias + 1))%Q) by (replace (2 ^ M + 2 ^ M) with (2 ^ (M + 1)) by (rewrite Z.add_1_r, Z.pow_succ_r; lia); rewrite <- two_Z, <- two_plus by lia; replace (M + 1 + (bias - M)) with (bias + 1) by ring; reflexivity).
      rewrite E1. rewrite sg_abs by auto. intros D. apply Qabs_le_iff in D. unfold sg in D. destruct s; lra.
    + rewrite Fx by lia. destruct (Nv (E0 + bias + 1) 0) as (A1 & A2 & A3 & A4); [lia | lia |]. split; [auto |]. split; [auto |]. left. split; [auto |]. apply (fdiff s m E0 (frnd m)); auto. rewrite A4, C.
      rewrite Z.add_0_r. assert (E1 : (inject_Z (2 ^ M) * two (E0 + bias + 1 - bias - M) == inject_Z (2 ^ M + 2 ^ M) * two (E0 - M))%Q).
      { replace (E0 + bias + 1 - bias - M) with (E0 - M + 1) by ring. rewrite two_S, inject_Z_plus. ring. } rewrite E1. reflexivity.
  - rewrite Fx by lia. destruct (Nv (E0 + bias) (frnd m)) as (A1 & A2 & A3 & A4); [lia | lia |]. split; [auto |]. split; [auto |]. left. split; [auto |]. apply (fdiff s m E0 (frnd m)); auto. rewrite A4. replace (E0 + bias - bias - M) with (E0 - M) by ring. reflexivity.
Qed.
(** outside: below the smallest normal binade but one the result is zero; from 2^(bias+2) up it is infinite *)
Lemma xto_float_under a : xwf a -> xe a < 2 ^ 63 - 2 ^ 20 -> xpow a + 128 < - bias -> xto_float F a = Ok 0.
Proof.
  intros Wa L P. destruct (xof_of a Wa) as (Ea & Sg & X). rewrite Ea. rewrite xto_float_eq by (auto; unfold expr in X; lia). f_equal. cbv zeta. unfold xpow in P. change (2 ^ 48) with EXPC in P.
  unfold ffin. destruct (_ =? _); zb; lia.
Qed.
Lemma xto_float_over a : xwf a -> xe a < 2 ^ 63 - 2 ^ 20 -> bias + 1 < xpow a + 127 -> exists n, xto_float F a = Ok n /\ 0 <= n < 2 ^ W /\ ~ ffinite W M n /\ ffrac M n = 0 /\ fsign W n = xsign a.
Proof.
  intros Wa L P. destruct (xof_of a Wa) as (Ea & Sg & X). pose proof (xto_float_eq (xsign a) (xsig a) (xe a) Sg ltac:(unfold expr in X; lia)) as K0. rewrite <- Ea in K0. rewrite K0. eexists. split; [reflexivity |]. cbv zeta. unfold xpow in P. change (2 ^ 48) with EXPC in P.
  assert (K : forall x R, 2 * bias + 1 < x -> ffin (xsign a) x R = enc F (xsign a) (2 * bias + 1) 0). { intros x R Hx. unfold ffin, enc. fold W M. destruct (Z.ltb_spec x 0); [lia |]. destruct (Z.ltb_spec (2 * bias + 1) x); [| lia]. destruct (xsign a); cbn [Z.b2z]; ring. }
  destruct (enc_ok F HF (xsign a) (2 * bias + 1) 0 ltac:(fold W M Eb; lia) ltac:(fold M; lia)) as (A1 & A2 & A3 & A4). fold W M in A1, A2, A3, A4.
  assert (Inf : ~ ffinite W M (enc F (xsign a) (2 * bias + 1) 0)) by (unfold ffinite; fold Eb; rewrite A3; intros C; apply C; lia).
  destruct (_ =? _); rewrite K by lia; auto.
Qed.
End Fl.
