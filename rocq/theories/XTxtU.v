(** Reading F192 numbers from text: base prefixes. *)
From Coq Require Import ZArith QArith Qabs Lqa Lia Bool List Qfield Qpower.
From Verif Require Import Base UBig UStr SSpec USpec UEq BBig BSpec BEq RBig RIeee FSpec RIeeeP XNum XSpec XP1 XP2 XP3 XP6 XP7 XFun XC13 XPow XTxt XTxtS XTxtP XTxtQ XTxtR XTxtT Props_X1.
Local Open Scope Z_scope.
(** digit [n] comes as [n + 32]; [pend] are the pending digits *)
Lemma base_loop_ok w ns : (w = 1 \/ w = 3 \/ w = 4) -> Forall (fun n => 0 <= n < 2 ^ w) ns -> forall K j V k curr r, binv K j V r -> 0 <= j -> 0 <= K -> 0 <= k -> w * k <= 56 -> 0 <= curr < 2 ^ (w * k) -> 57 * j <= K -> K + w * (k + Z.of_nat (length ns)) <= 2 ^ 40 ->
  returns (base_loop (2 ^ w) (map (fun n => n + 32) ns) (curr, 2 ^ (w * k), r)) (fun s => let '(c', e', r') := s in exists K' j' V' k', binv K' j' V' r' /\ 0 <= j' /\ 57 * j' <= K' /\ 0 <= k' /\ w * k' <= 56 /\ 0 <= c' < 2 ^ (w * k') /\ e' = 2 ^ (w * k') /\
    K' + w * k' = K + w * (k + Z.of_nat (length ns)) /\ V' * 2 ^ (w * k') + c' = bfold (2 ^ w) ns (V * 2 ^ (w * k) + curr)).
Proof.
  intros Hw. induction 1 as [| n t Hn Ht IH]; intros K j V k curr r I Hj HK Hk Hwk Hc H57 HB.
  { cbn [map base_loop length]. apply returns_ok. exists K, j, V, k. repeat (split; [auto; lia |]). reflexivity. }
  assert (Hw4 : 1 <= w <= 4) by lia. cbn [map base_loop length] in *. rewrite Nat2Z.inj_succ in *. unfold base_step at 1. rewrite subw_ok by lia. cbn [bind]. replace (n + 32 - 32) with n by ring.
  assert (E1 : 2 ^ (w * k) * 2 ^ w = 2 ^ (w * (k + 1))) by (rewrite <- Z.pow_add_r by nia; f_equal; ring). assert (P60 : 0 < 2 ^ (w * (k + 1)) <= 2 ^ 60) by (split; [apply Z.pow_pos_nonneg; nia | apply Z.pow_le_mono_r; nia]). assert (PW : 0 < 2 ^ w <= 16) by (split; [apply Z.pow_pos_nonneg; lia | change 16 with (2 ^ 4); apply Z.pow_le_mono_r; lia]).
  rewrite mulw_ok by (rewrite E1; lia). cbn [bind]. rewrite E1. assert (C1 : 0 <= curr * 2 ^ w + n < 2 ^ (w * (k + 1))) by (rewrite <- E1; nia). rewrite mulw_ok by nia. cbn [bind]. rewrite addw_ok by nia. cbn [bind].
  assert (FB : bfold (2 ^ w) (n :: t) (V * 2 ^ (w * k) + curr) = bfold (2 ^ w) t (V * 2 ^ (w * (k + 1)) + (curr * 2 ^ w + n))) by (unfold bfold; cbn [fold_left]; rewrite <- E1; f_equal; ring). rewrite FB.
  destruct (Z.ltb_spec (2 ^ 56) (2 ^ (w * (k + 1)))) as [G | G].
  - apply Z.pow_lt_mono_r_iff in G; [| lia | nia]. assert (HE : 1 <= w * (k + 1) <= 60) by nia. destruct (flush_ok K j V r (w * (k + 1)) (curr * 2 ^ w + n) I ltac:(nia) ltac:(nia) HE C1) as (r' & Er & I').
    unfold flush in Er. destruct (xfrom_prim U64 (2 ^ (w * (k + 1)))) as [e | |]; try discriminate. cbn [bind] in Er |- *. destruct (xmul r e) as [m | |]; try discriminate. cbn [bind] in Er |- *. destruct (xfrom_prim U64 (curr * 2 ^ w + n)) as [d | |]; try discriminate. cbn [bind] in Er |- *. rewrite Er. cbn [bind].
    specialize (IH (K + w * (k + 1)) (j + 1) (V * 2 ^ (w * (k + 1)) + (curr * 2 ^ w + n)) 0 0 r' I'). rewrite !Z.mul_0_r in IH. change (2 ^ 0) with 1 in IH. rewrite Z.mul_1_r, Z.add_0_r in IH.
    eapply returns_weaken; [apply IH; nia |]. intros [[c' e'] r''] (K' & j' & V' & k' & H). exists K', j', V', k'. destruct H as (A1 & A2 & A3 & A4 & A5 & A6 & A7 & A8 & A9). repeat (split; [auto; nia |]). auto.
  - apply Z.pow_le_mono_r_iff in G; [| lia | nia]. eapply returns_weaken; [apply (IH K j V (k + 1) (curr * 2 ^ w + n) r I); nia |]. intros [[c' e'] r''] (K' & j' & V' & k' & H). exists K', j', V', k'. destruct H as (A1 & A2 & A3 & A4 & A5 & A6 & A7 & A8 & A9). repeat (split; [auto; nia |]). auto.
Qed.
Lemma base_value_ok w ns : (w = 1 \/ w = 3 \/ w = 4) -> Forall (fun n => 0 <= n < 2 ^ w) ns -> w * Z.of_nat (length ns) <= 2 ^ 39 ->
  returns (base_value (2 ^ w) (map (fun n => n + 32) ns)) (fun c => xwf c /\ (inject_Z (bfold (2 ^ w) ns 0) * (1 - inject_Z (2 * (w * Z.of_nat (length ns) / 57 + 1)) * two (- 125)) <= xval c <= inject_Z (bfold (2 ^ w) ns 0))%Q /\ (w * Z.of_nat (length ns) <= 114 -> (xval c == inject_Z (bfold (2 ^ w) ns 0))%Q)).
Proof.
  intros Hw F HL. unfold base_value. assert (I0 : binv 0 0 0 xZERO). { split; [apply xwf_zero |]. rewrite xval_zero. change (inject_Z 0) with 0%Q. split; [lra |]. split; [lia |]. split; auto. split; [lia |]. intros _. split; [apply xwf_zero | reflexivity]. }
  destruct (base_loop_ok w ns Hw F 0 0 0 0 0 xZERO I0 ltac:(lia) ltac:(lia) ltac:(lia) ltac:(lia) ltac:(rewrite Z.mul_0_r; cbn; lia) ltac:(lia) ltac:(lia)) as ([[c' e'] r'] & EL & K' & j' & V' & k' & I & Hj & H57 & Hk & Hwk & Hc & -> & HK & HF). rewrite Z.mul_0_r in EL. change (2 ^ 0) with 1 in EL. rewrite EL. cbn [bind]. clear EL.
  rewrite Z.mul_0_r in HF. cbn [Z.mul Z.add] in HF, HK. set (T := bfold (2 ^ w) ns 0) in *. set (L := w * Z.of_nat (length ns)) in *. assert (HK' : 0 <= K') by nia.
  assert (LE : forall j V r, binv K' j V r \/ binv (K' + w * k') j V r -> V = T -> 0 <= j <= L / 57 + 1 -> (L <= 114 -> j <= 2) -> xwf r /\ (inject_Z T * (1 - inject_Z (2 * (L / 57 + 1)) * two (- 125)) <= xval r <= inject_Z T)%Q /\ (L <= 114 -> (xval r == inject_Z T)%Q)).
  { intros j V r Bi -> Hj2 Hex. assert (Bx : exists K, binv K j T r) by (destruct Bi; eauto). destruct Bx as (K & W & B & HV & _ & _ & E2). split; auto. split.
    - split; [| apply B]. eapply Qle_trans; [| apply B]. rewrite !(Qmult_comm (inject_Z T)). apply Qmult_le_compat_r; [| change 0%Q with (inject_Z 0); rewrite <- Zle_Qle; lia]. assert (inject_Z (2 * j) <= inject_Z (2 * (L / 57 + 1)))%Q by (rewrite <- Zle_Qle; lia). assert (inject_Z (2 * j) * uu <= inject_Z (2 * (L / 57 + 1)) * uu)%Q by (apply Qmult_le_compat_r; [auto | apply Qlt_le_weak, two_pos]). lra.
    - intros HL2. apply E2. auto. }
  assert (JL : 57 * j' + w * k' <= L) by lia. assert (J2 : j' <= L / 57) by (apply Z.div_le_lower_bound; nia).
  destruct (Z.ltb_spec 1 (2 ^ (w * k'))) as [G | G].
  - assert (HE : 1 <= w * k' <= 60). { destruct (Z.eq_dec k' 0) as [-> |]; [rewrite Z.mul_0_r in G; cbn in G; lia | nia]. } destruct (flush_ok K' j' V' r' (w * k') c' I ltac:(nia) ltac:(nia) HE Hc) as (r2 & Er & I2). unfold flush in Er.
    destruct (xfrom_prim U64 (2 ^ (w * k'))) as [e | |]; try discriminate. cbn [bind] in Er |- *. destruct (xmul r' e) as [m | |]; try discriminate. cbn [bind] in Er |- *. destruct (xfrom_prim U64 c') as [d | |]; try discriminate. cbn [bind] in Er |- *. rewrite Er. apply returns_ok. apply (LE (j' + 1) (V' * 2 ^ (w * k') + c')); auto; lia.
  - assert (W0 : w * k' = 0). { destruct (Z.eq_dec (w * k') 0); auto. assert (2 ^ 1 <= 2 ^ (w * k')) by (apply Z.pow_le_mono_r; nia). lia. } rewrite W0 in HF, Hc. change (2 ^ 0) with 1 in HF, Hc. apply returns_ok. apply (LE j' V'); auto; lia.
Qed.
Lemma from_base neg c l b w V : prefix_base c = Some b -> b = 2 ^ w -> (w = 1 \/ w = 3 \/ w = 4) -> dvalue b 0 (no_us l) = Some V -> w * Z.of_nat (length (no_us l)) <= 2 ^ 39 ->
  returns (xfrom_str (base_text neg c l)) (fun o => exists r, o = ROk r /\ xwf r /\ (inject_Z V * (1 - inject_Z (2 * (w * Z.of_nat (length (no_us l)) / 57 + 1)) * two (- 125)) <= xval r <= inject_Z V)%Q /\ (w * Z.of_nat (length (no_us l)) <= 114 -> (xval r == inject_Z V)%Q)).
Proof.
  intros Hp Eb Hw HV HL. unfold xfrom_str, base_text. rewrite pscan_app. assert (S0 : pscan (sign_text neg) (PInit, false, [], 0, []) = Ok (ROk (PInit, neg, [], 0, []))) by (destruct neg; reflexivity). rewrite S0. unfold rbind at 2. cbn [bind pscan].
  change (pstep (PInit, neg, [], 0, []) 48) with (Ok (ROk (PInitZero, neg, [], 0, [])) : res (rslt pvars cerr)). unfold rbind at 2. cbn [bind].
  assert (S1 : pstep (PInitZero, neg, [], 0, []) c = Ok (ROk (PReadBase b, neg, [], 0, []))).
  { unfold prefix_base in Hp. unfold pstep. destruct ((c =? 120) || (c =? 88)); [inversion Hp; reflexivity |]. destruct ((c =? 98) || (c =? 66)) eqn:B2; [| destruct ((c =? 111) || (c =? 79)); inversion Hp; reflexivity]. inversion Hp. assert (((c =? 111) || (c =? 79)) = false) by lia. rewrite H. reflexivity. }
  rewrite S1. unfold rbind at 2. cbn [bind]. assert (Hb : 0 < b <= 16) by (subst b; destruct Hw as [-> | [-> | ->]]; cbn; lia). destruct (scan_base b Hb l neg [] 0 [] 0 V HV) as (ns & F & E & L & S). rewrite S. unfold rbind. cbn [bind pfinish app]. rewrite <- L in *. subst b V.
  destruct (base_value_ok w ns Hw F HL) as (r & Er & H). rewrite Er. cbn [bind]. apply returns_ok. exists r. auto.
Qed.

(** ** nothing else is accepted *)
Definition xlet (x : option (Z * list Z)) : Prop := match x with None => True | Some (c, _) => c = 101 \/ c = 69 end.
Definition vbuf (v : pvars) : list Z := let '(_, _, _, _, eb) := v in eb.
Ltac rb H := unfold rbind in H; cbn [bind] in H.
Lemma inv_exp s neg ds e v : pscan s (PReadExp, neg, ds, e, []) = Ok (ROk v) -> vbuf v = s.
Proof. rewrite scan_exp. intros H. inversion H. reflexivity. Qed.
Lemma inv_sub s : forall neg ds e v, pscan s (PReadSub, neg, ds, e, []) = Ok (ROk v) -> exists l x, s = l ++ exp_part x /\ Forall dch l /\ xlet x /\ vbuf v = ebuf_of x.
Proof.
  induction s as [| c t IH]; intros neg ds e v H; cbn [pscan] in H; [inversion H; exists [], None; cbn; auto |]. unfold pstep in H. destruct (is_digit c) eqn:D.
  - apply is_digit_spec in D. destruct (ssub 64 e 1) as [e1 | |]; rb H; try discriminate. destruct (IH _ _ _ _ H) as (l & x & -> & F & X & B). exists (c :: l), x. split; auto. split; [constructor; [left; auto | auto] | auto].
  - destruct (Z.eqb_spec c 95) as [-> |]; rb H; [destruct (IH _ _ _ _ H) as (l & x & -> & F & X & B); exists (95 :: l), x; split; auto; split; [constructor; [right; auto | auto] | auto] |].
    destruct (is_exp c) eqn:E; [| discriminate]. apply is_exp_spec in E. apply inv_exp in H. exists [], (Some (c, t)). cbn. auto.
Qed.
Lemma inv_digit s : forall neg ds e v, pscan s (PReadDigit, neg, ds, e, []) = Ok (ROk v) -> exists l f x, s = l ++ frac_text f ++ exp_part x /\ Forall dch l /\ frac_part f /\ xlet x /\ vbuf v = ebuf_of x.
Proof.
  induction s as [| c t IH]; intros neg ds e v H; cbn [pscan] in H; [inversion H; exists [], None, None; cbn; auto |]. unfold pstep in H. destruct (is_digit c) eqn:D.
  - apply is_digit_spec in D. rb H. destruct (IH _ _ _ _ H) as (l & f & x & -> & F & X). exists (c :: l), f, x. split; auto. split; [constructor; [left; auto | auto] | auto].
  - destruct (Z.eqb_spec c 95) as [-> |]; rb H; [destruct (IH _ _ _ _ H) as (l & f & x & -> & F & X); exists (95 :: l), f, x; split; auto; split; [constructor; [right; auto | auto] | auto] |].
    destruct (Z.eqb_spec c 46) as [-> |]. { apply inv_sub in H. destruct H as (l & x & -> & F & X & B). exists [], (Some l), x. cbn. auto. }
    destruct (is_exp c) eqn:E; [| discriminate]. apply is_exp_spec in E. apply inv_exp in H. exists [], None, (Some (c, t)). cbn. auto.
Qed.
Lemma inv_base b s : 0 < b <= 16 -> forall neg ds e v a, pscan s (PReadBase b, neg, ds, e, []) = Ok (ROk v) -> exists V, dvalue b a (no_us s) = Some V.
Proof.
  intros Hb. induction s as [| c t IH]; intros neg ds e v a H; [cbn; eauto |]. cbn [pscan] in H. unfold pstep in H. rewrite to_digit_bdig in H by lia. rewrite no_us_cons. destruct (bdig b c) as [d |] eqn:D.
  - pose proof (bdig_range b c d D) as R. rewrite castw_small, addw_ok in H by lia. rb H. destruct (Z.eqb_spec c 95) as [-> |]; [discriminate |]. cbn [dvalue]. rewrite D. eapply IH; eauto.
  - destruct (Z.eqb_spec c 95) as [-> |]; rb H; [eapply IH; eauto | discriminate].
Qed.
Definition accepted (s : list Z) : Prop :=
  (exists neg i f x e, s = float_text neg i f x /\ float_ok i f x e) \/ (exists neg p l b V, s = base_text neg p l /\ prefix_base p = Some b /\ dvalue b 0 (no_us l) = Some V).
Lemma fin_exp st neg ds e x c : pfinish (st, neg, ds, e, ebuf_of x) = Ok (ROk c) -> (st = PReadDigit \/ st = PReadSub \/ st = PReadExp) -> xlet x -> exists n, exp_value x n.
Proof.
  intros H Hs X. destruct x as [[l t] |]; [| exists 0; reflexivity]. cbn [ebuf_of xlet] in *. destruct t as [| a t]; [exists 0; cbn [exp_value]; split; auto; split; [lia | auto] |].
  destruct (parse_i64 (a :: t)) as [n |] eqn:P.
  - apply parse_inv in P. destruct P as [R (d & m & Hd)]. exists n. cbn [exp_value]. split; auto. split; auto. right. exists d, m. auto.
  - exfalso. unfold pfinish in H. rewrite P in H. destruct Hs as [-> | [-> | ->]]; discriminate.
Qed.
Definition vst (v : pvars) : pst := let '(st, _, _, _, _) := v in st.
Lemma st_exp s : forall neg ds e eb v, pscan s (PReadExp, neg, ds, e, eb) = Ok (ROk v) -> vst v = PReadExp.
Proof. intros. rewrite scan_exp in H. inversion H. reflexivity. Qed.
Lemma st_sub s : forall neg ds e eb v, pscan s (PReadSub, neg, ds, e, eb) = Ok (ROk v) -> vst v = PReadSub \/ vst v = PReadExp.
Proof.
  induction s as [| c t IH]; intros neg ds e eb v H; cbn [pscan] in H; [inversion H; auto |]. unfold pstep in H. destruct (is_digit c). { destruct (ssub 64 e 1); rb H; try discriminate. eauto. } destruct (c =? 95); rb H; eauto. destruct (is_exp c); [apply st_exp in H; auto | discriminate].
Qed.
Lemma st_digit s : forall neg ds e eb v, pscan s (PReadDigit, neg, ds, e, eb) = Ok (ROk v) -> vst v = PReadDigit \/ vst v = PReadSub \/ vst v = PReadExp.
Proof.
  induction s as [| c t IH]; intros neg ds e eb v H; cbn [pscan] in H; [inversion H; auto |]. unfold pstep in H. destruct (is_digit c); rb H; eauto. destruct (c =? 95); rb H; eauto. destruct (c =? 46); [apply st_sub in H; tauto |]. destruct (is_exp c); [apply st_exp in H; auto | discriminate].
Qed.
Lemma accepts_go s neg c : rbind (pscan s (PInit, neg, [], 0, [])) pfinish = Ok (ROk c) -> (exists i f x e, s = i ++ frac_text f ++ exp_part x /\ float_ok i f x e) \/ (exists p l b V, s = 48 :: p :: l /\ prefix_base p = Some b /\ dvalue b 0 (no_us l) = Some V) \/ exists t, s = 45 :: t.
Proof.
  intros H. destruct s as [| a t]; [discriminate |]. destruct (Z.eq_dec a 45) as [-> | Na]; [right; right; eauto |]. unfold rbind in H. destruct (pscan (a :: t) (PInit, neg, [], 0, [])) as [[v | er] | |] eqn:S; cbn [bind] in H; try discriminate. cbn [pscan] in S. unfold pstep in S.
  destruct (Z.eqb_spec a 45) as [| _]; [contradiction |]. destruct (Z.eqb_spec a 48) as [-> | N48]; rb S.
  - destruct t as [| p l]; [cbn [pscan] in S; inversion S; left; exists [48], None, None, 0; split; auto; split; [left; auto | split; [exact I | reflexivity]] |]. cbn [pscan] in S. unfold pstep in S.
    assert (PB : forall b, prefix_base p = Some b -> 0 < b <= 16 -> pscan l (PReadBase b, neg, [], 0, []) = Ok (ROk v) -> exists p0 l0 b0 V, 48 :: p :: l = 48 :: p0 :: l0 /\ prefix_base p0 = Some b0 /\ dvalue b0 0 (no_us l0) = Some V).
    { intros b Hp Hb Hs. destruct (inv_base b l Hb neg [] 0 v 0 Hs) as [V HV]. exists p, l, b, V. auto. }
    destruct ((p =? 120) || (p =? 88)) eqn:P1; rb S; [right; left; apply (PB 16); auto; [unfold prefix_base; rewrite P1; reflexivity | lia] |].
    destruct ((p =? 111) || (p =? 79)) eqn:P2; rb S; [right; left; apply (PB 8); auto; [unfold prefix_base; rewrite P1, P2; assert (((p =? 98) || (p =? 66)) = false) by lia; rewrite H0; reflexivity | lia] |].
    destruct ((p =? 98) || (p =? 66)) eqn:P3; rb S; [right; left; apply (PB 2); auto; [unfold prefix_base; rewrite P1, P3; reflexivity | lia] |]. clear PB. left.
    destruct (is_exp p) eqn:P4; rb S. { apply is_exp_spec in P4. pose proof (st_exp _ _ _ _ _ _ S) as St. pose proof (inv_exp _ _ _ _ _ S) as B. destruct v as [[[[st ng] ds] ee] eb]. cbn [vst vbuf] in *. subst eb. destruct (fin_exp st ng ds ee (Some (p, l)) c H ltac:(auto) P4) as [n Hn]. exists [48], None, (Some (p, l)), n. split; auto. split; [left; auto | split; [exact I | exact Hn]]. }
    destruct (Z.eqb_spec p 46) as [-> |]; rb S; [| discriminate]. pose proof (st_sub _ _ _ _ _ _ S) as St. destruct (inv_sub _ _ _ _ _ S) as (l1 & x & -> & F & X & B). destruct v as [[[[st ng] ds] ee] eb]. cbn [vst vbuf] in *. subst eb. destruct (fin_exp st ng ds ee x c H ltac:(tauto) X) as [n Hn]. exists [48], (Some l1), x, n. split; auto. split; [left; auto | split; [exact F | exact Hn]].
  - destruct (is_digit a) eqn:D; rb S; [| discriminate]. apply is_digit_spec in D. left. pose proof (st_digit _ _ _ _ _ _ S) as St. destruct (inv_digit _ _ _ _ _ S) as (l1 & f & x & -> & F & Ff & X & B). destruct v as [[[[st ng] ds] ee] eb]. cbn [vst vbuf] in *. subst eb. destruct (fin_exp st ng ds ee x c H ltac:(tauto) X) as [n Hn]. exists (a :: l1), f, x, n. split; auto. split; [right; exists a, l1; split; auto; split; [lia | auto] | split; auto].
Qed.
Lemma accepts s c : xfrom_str s = Ok (ROk c) -> accepted s.
Proof.
  intros H. unfold xfrom_str in H. destruct (accepts_go s false c H) as [(i & f & x & e & -> & O) | [(p & l & b & V & -> & P & D) | (t & ->)]].
  - left. exists false, i, f, x, e. auto.
  - right. exists false, p, l, b, V. auto.
  - cbn [pscan] in H. change (pstep (PInit, false, [], 0, []) 45) with (Ok (ROk (PInit, true, [], 0, [])) : res (rslt pvars cerr)) in H. unfold rbind at 2 in H. cbn [bind] in H. destruct (accepts_go t true c H) as [(i & f & x & e & -> & O) | [(p & l & b & V & -> & P & D) | (t' & ->)]].
    + left. exists true, i, f, x, e. auto.
    + right. exists true, p, l, b, V. auto.
    + discriminate.
Qed.
