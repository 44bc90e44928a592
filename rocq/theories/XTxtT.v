(** Reading F192 numbers from text: the results. *)
From Coq Require Import ZArith QArith Qabs Lqa Lia Bool List Qfield Qpower.
From Verif Require Import Base UBig UStr SSpec USpec UEq BBig BSpec BEq RBig RIeee FSpec RIeeeP XNum XSpec XP1 XP2 XP3 XP6 XP7 XFun XC13 XPow XTxt XTxtS XTxtP XTxtQ XTxtR Props_X1.
Local Open Scope Z_scope.

(** ** decimal texts *)
Lemma zero_post neg E : fin_post neg 0 E (ROk xZERO).
Proof.
  exists xZERO. split; auto. split; [apply xwf_zero |]. rewrite xval_zero. change (inject_Z 0) with 0%Q. split.
  - assert (Z0 : (Qabs (0 - sgq neg (0 * 10 ^ E)) == 0)%Q) by (unfold sgq; destruct neg; rewrite Qmult_0_l; reflexivity). rewrite Z0, Qmult_0_l, Qmult_0_r. lra.
  - intros _. unfold sgq. destruct neg; rewrite Qmult_0_l; reflexivity.
Qed.
(** what follows the scan, on the collected variables *)
Definition fin_all (neg : bool) (ds : list Z) (exp : Z) (eb : list Z) : res (rslt f192 cerr) := pfinish (PReadExp, neg, ds, exp, eb).
Lemma fin_all_ok b neg ds nf x e : exp_value x e -> Forall (fun c => 48 <= c <= 57) ds -> 0 <= nf <= 2 ^ 62 -> Z.of_nat (length ds) < 2 ^ 63 -> - 2 ^ 32 <= e - nf -> e - nf + Z.max 0 (Z.of_nat (length ds) - 39) <= 2 ^ 32 -> (b = true -> (length ds <= 29)%nat) ->
  pret b (fin_all neg ds (- nf) (ebuf_of x)) (fin_post neg (dec_run (firstn 39 ds)) (e - nf + Z.max 0 (Z.of_nat (length ds) - 39))).
Proof.
  intros Hx Hd Hnf HL HE1 HE2 Hb. unfold fin_all, pfinish. pose proof (exp_of_ok x e Hx) as Hp. unfold exp_of in Hp.
  assert (S1 : match ebuf_of x with [] => Ok (ROk (- nf)) | _ => match parse_i64 (ebuf_of x) with Some e0 => let* e1 := sadd 64 (- nf) e0 in Ok (ROk e1) | None => Ok (RErr TryFromIntError) end end = Ok (ROk (e - nf)) :> res (rslt Z cerr)).
  { destruct (ebuf_of x) eqn:Eb; [inversion Hp; do 2 f_equal; lia |]. rewrite Hp. rewrite sadd_ok by (change (64 - 1) with 63; lia). cbn [bind]. do 2 f_equal. lia. }
  match goal with |- pret b (rbind ?m ?k) _ => replace m with (Ok (ROk (e - nf)) : res (rslt Z cerr)) end. unfold rbind. cbn [bind].
  destruct (negb match ebuf_of x with [] => true | _ => false end && match ds with [] => true | _ => false end) eqn:Z1.
  { apply andb_true_iff in Z1. destruct ds; [| destruct Z1; discriminate]. apply pret_ret, returns_ok. apply zero_post. }
  destruct (Z.ltb_spec (e - nf) (- EXPC)); [unfold EXPC in *; lia |]. destruct (Nat.ltb_spec 39 (length ds)) as [G | G].
  - rewrite ssub_ok by (change (64 - 1) with 63; lia). cbn [bind]. rewrite sadd_ok by (change (64 - 1) with 63; lia). cbn [bind]. replace (e - nf + (Z.of_nat (length ds) - 39)) with (e - nf + Z.max 0 (Z.of_nat (length ds) - 39)) by lia. set (E := e - nf + Z.max 0 (Z.of_nat (length ds) - 39)) in *.
    change (pret b (fin_dec neg E (firstn 39 ds)) (fin_post neg (dec_run (firstn 39 ds)) E)). apply fin_dec_ok; [| rewrite firstn_length; lia | intros B; specialize (Hb B); lia | lia]. rewrite Forall_forall in *. intros c Hc. apply Hd. rewrite <- (firstn_skipn 39 ds). apply in_or_app. auto.
  - cbn [bind]. rewrite firstn_all2 by lia. replace (Z.max 0 (Z.of_nat (length ds) - 39)) with 0 in * by lia. rewrite Z.add_0_r in *. change (pret b (fin_dec neg (e - nf) ds) (fin_post neg (dec_run ds) (e - nf))). apply fin_dec_ok; auto.
Qed.
Lemma after_fin i f x neg ds exp : (after (st_int i f) x = PInitZero /\ i = [48] /\ f = None /\ x = None) \/ pfinish (after (st_int i f) x, neg, ds, exp, ebuf_of x) = fin_all neg ds exp (ebuf_of x).
Proof.
  unfold fin_all. destruct x as [[c l] |]; cbn [after]; [right; reflexivity |]. destruct f as [l |]; cbn [st_int]; [right; reflexivity |]. destruct i as [| c t]; [right; reflexivity |]. destruct (Z.eq_dec c 48) as [-> |].
  - destruct t; [left; auto | right; reflexivity].
  - right. destruct t; [destruct c as [| p | p]; try reflexivity; do 6 (destruct p as [p | p |]; try reflexivity); contradiction n; reflexivity | destruct c as [| p | p]; try reflexivity; do 6 (destruct p as [p | p |]; try reflexivity)].
Qed.
Lemma from_text b neg i f x e : float_ok i f x e -> Z.of_nat (length (digits i f)) <= 2 ^ 62 ->
  - 2 ^ 32 <= e - Z.of_nat (length (frac_digits f)) -> e - Z.of_nat (length (frac_digits f)) + Z.max 0 (Z.of_nat (length (digits i f)) - 39) <= 2 ^ 32 -> (b = true -> (length (digits i f) <= 29)%nat) ->
  pret b (xfrom_str (float_text neg i f x)) (fin_post neg (dec_run (firstn 39 (digits i f))) (e - Z.of_nat (length (frac_digits f)) + Z.max 0 (Z.of_nat (length (digits i f)) - 39))).
Proof.
  intros O HL H1 H2 Hb. assert (LF : (length (frac_digits f) <= length (digits i f))%nat) by (unfold digits; rewrite app_length; lia). unfold xfrom_str. rewrite (scan_text neg i f x e O) by lia. unfold rbind at 1. cbn [bind].
  destruct O as (Hi & Hf & Hx). destruct (after_fin i f x neg (digits i f) (- Z.of_nat (length (frac_digits f)))) as [(Ea & -> & -> & ->) | ->].
  - apply pret_ret, returns_ok. apply zero_post.
  - apply fin_all_ok; auto; try lia. now apply digits_ok.
Qed.
(** below 10^(-2^48) *)
Lemma from_tiny neg i f x e : float_ok i f x e -> Z.of_nat (length (frac_digits f)) <= 2 ^ 62 -> - 2 ^ 63 <= e - Z.of_nat (length (frac_digits f)) < - 2 ^ 48 -> xfrom_str (float_text neg i f x) = Ok (ROk xZERO).
Proof.
  intros O HL H. unfold xfrom_str. rewrite (scan_text neg i f x e O) by lia. unfold rbind at 1. cbn [bind]. destruct O as (Hi & Hf & Hx). set (nf := Z.of_nat (length (frac_digits f))) in *.
  destruct (after_fin i f x neg (digits i f) (- nf)) as [(Ea & -> & -> & ->) | ->]; [reflexivity |]. unfold fin_all, pfinish. pose proof (exp_of_ok x e Hx) as Hp. unfold exp_of in Hp.
  assert (S1 : match ebuf_of x with [] => Ok (ROk (- nf)) | _ => match parse_i64 (ebuf_of x) with Some e0 => let* e1 := sadd 64 (- nf) e0 in Ok (ROk e1) | None => Ok (RErr TryFromIntError) end end = Ok (ROk (e - nf)) :> res (rslt Z cerr)).
  { destruct (ebuf_of x) eqn:Eb; [inversion Hp; do 2 f_equal; lia |]. rewrite Hp. rewrite sadd_ok by (change (64 - 1) with 63; lia). cbn [bind]. do 2 f_equal. lia. }
  match goal with |- rbind ?m ?k = _ => replace m with (Ok (ROk (e - nf)) : res (rslt Z cerr)) end. unfold rbind. cbn [bind]. destruct (negb _ && _); [reflexivity |]. destruct (Z.ltb_spec (e - nf) (- EXPC)); [reflexivity | unfold EXPC in *; lia].
Qed.
(** an exponent that is not a 64 bit integer *)
Lemma from_bad_exp neg i f c l : int_part i -> frac_part f -> Z.of_nat (length (frac_digits f)) <= 2 ^ 62 -> c = 101 \/ c = 69 -> l <> [] -> (forall e, ~ exp_value (Some (c, l)) e) -> xfrom_str (float_text neg i f (Some (c, l))) = Ok (RErr TryFromIntError).
Proof.
  intros Hi Hf HL Hc Hl Hn. assert (S : pscan (float_text neg i f (Some (c, [])))  (PInit, false, [], 0, []) = Ok (ROk (PReadExp, neg, digits i f, - Z.of_nat (length (frac_digits f)), []))).
  { apply (scan_text neg i f (Some (c, [])) 0); auto. split; auto. split; auto. cbn [exp_value]. split; auto. split; [lia | auto]. }
  unfold xfrom_str. replace (float_text neg i f (Some (c, l))) with (float_text neg i f (Some (c, [])) ++ l) by (unfold float_text; cbn [exp_part]; rewrite <- !app_assoc; reflexivity). rewrite pscan_app, S. unfold rbind at 2. cbn [bind]. rewrite scan_exp. unfold rbind. cbn [bind app]. unfold pfinish.
  destruct l as [| a t]; [contradiction |]. destruct (parse_i64 (a :: t)) as [e |] eqn:P; [| reflexivity]. exfalso. apply (Hn e). cbn [exp_value]. apply parse_inv in P. destruct P as [R (d & n & H)]. split; auto. split; auto. right. exists d, n. exact H.
Qed.

(** ** texts with a base prefix *)
Lemma to_digit_bdig b c : b <= 16 -> to_digit b c = bdig b c.
Proof.
  intros H. unfold to_digit, bdig, cdig. destruct (Z.leb_spec 48 c), (Z.leb_spec c 57), (Z.leb_spec 97 c), (Z.leb_spec c 122), (Z.leb_spec 65 c), (Z.leb_spec c 90), (Z.leb_spec c 102), (Z.leb_spec c 70); cbn [andb]; try lia; try reflexivity; destruct (Z.ltb_spec (c - 87) b), (Z.ltb_spec (c - 55) b), (Z.ltb_spec 1000 b); try lia; try reflexivity.
Qed.
Lemma bdig_range b c d : bdig b c = Some d -> 0 <= d < b.
Proof. unfold bdig, cdig. destruct (Z.leb_spec 48 c), (Z.leb_spec c 57), (Z.leb_spec 97 c), (Z.leb_spec c 102), (Z.leb_spec 65 c), (Z.leb_spec c 70); cbn [andb]; try discriminate; destruct (Z.ltb_spec (c - 48) b), (Z.ltb_spec (c - 87) b), (Z.ltb_spec (c - 55) b); intros E; inversion E; lia. Qed.
Definition bfold (b : Z) (ns : list Z) (a : Z) : Z := fold_left (fun a n => a * b + n) ns a.
Lemma scan_base b : 0 < b <= 16 -> forall l neg ds e eb a V, dvalue b a (no_us l) = Some V -> exists ns, Forall (fun n => 0 <= n < b) ns /\ V = bfold b ns a /\ length ns = length (no_us l) /\
  pscan l (PReadBase b, neg, ds, e, eb) = Ok (ROk (PReadBase b, neg, ds ++ map (fun n => n + 32) ns, e, eb)).
Proof.
  intros Hb. induction l as [| c t IH]; intros neg ds e eb a V H; [cbn [no_us filter dvalue] in H; inversion H; exists []; cbn [map pscan]; rewrite app_nil_r; auto |]. rewrite no_us_cons in H |- *. destruct (Z.eqb_spec c 95) as [-> | N].
  - destruct (IH neg ds e eb a V H) as (ns & F & E & L & S). exists ns. repeat split; auto. cbn [pscan]. unfold pstep. rewrite to_digit_bdig by lia. replace (bdig b 95) with (@None Z) by reflexivity. cbn [Z.eqb Pos.eqb]. unfold rbind. cbn [bind]. exact S.
  - cbn [dvalue] in H. destruct (bdig b c) as [d |] eqn:D; [| discriminate]. pose proof (bdig_range b c d D) as R. destruct (IH neg (ds ++ [d + 32]) e eb (a * b + d) V H) as (ns & F & E & L & S). exists (d :: ns). split; [constructor; auto |]. split; [exact E |]. split; [cbn [length]; congruence |].
    cbn [pscan]. unfold pstep. rewrite to_digit_bdig, D by lia. rewrite castw_small by lia. rewrite addw_ok by lia. unfold rbind. cbn [bind map]. rewrite S, <- app_assoc. reflexivity.
Qed.
Lemma add_down s d t : xwf s -> (xval s == 0 \/ 1 # 2 <= xval s)%Q -> xe s + 1 < 2 ^ 64 -> isint d t -> 0 <= d < 2 ^ 64 ->
  returns (xadd s t) (fun c => xwf c /\ (forall n, 0 <= n -> isint n s -> n + d < 2 ^ 128 -> isint (n + d) c) /\ ((xval s + inject_Z d) * (1 - u127) <= xval c <= xval s + inject_Z d)%Q).
Proof.
  intros W B Xs It Hd. assert (U : (0 < u127 < 1)%Q) by (split; reflexivity). assert (P : (0 <= xval s)%Q) by (destruct B as [B | B]; lra). assert (Hd0 : (0 <= inject_Z d)%Q) by (change 0%Q with (inject_Z 0); rewrite <- Zle_Qle; lia).
  assert (Ls := pos_lowest s W P). assert (Lt := int_lowest d t It ltac:(lia)). destruct (Z.eq_dec d 0) as [-> | Dz].
  { rewrite (int_zero t It), xadd_zero_r by auto. apply returns_ok. split; auto. split; [intros n _ I _; rewrite Z.add_0_r; auto |]. change (inject_Z 0) with 0%Q. rewrite Qplus_0_r. split; [nra | lra]. }
  destruct (int_pos d t It ltac:(lia)) as [Nt St]. destruct (int_pow d t 64 It ltac:(lia) ltac:(lia)) as [T1 T2]. destruct B as [B | B].
  { assert (s = xZERO) by (apply xval_inj; [auto | apply xwf_zero | rewrite B, xval_zero; reflexivity]). subst s. rewrite xadd_zero_l by (auto; apply It). apply returns_ok. split; [apply It |]. split.
    - intros n Hn [_ V] _. rewrite xval_zero in V. change 0%Q with (inject_Z 0) in V. apply (proj1 (inject_Z_injective _ _)) in V. subst n. exact It.
    - rewrite xval_zero, (proj2 It), Qplus_0_l. split; [nra | lra]. }
  assert (H2 : (1 <= inject_Z d)%Q) by (change 1%Q with (inject_Z 1); rewrite <- Zle_Qle; lia).
  assert (Ns : xnull s = false). { destruct (xnull s) eqn:N; auto. rewrite (xnull_zero s N), xval_zero in B. lra. } assert (Ss : xsign s = false). { destruct (xsign s) eqn:S; auto. pose proof (xval_neg s W S). lra. }
  unfold xpow in T1, T2. eapply returns_weaken; [apply C45_add_same_sign; auto; try congruence; try lia; apply It |]. intros c H. assert (Wc := proj1 H). split; auto. split.
  - intros n Hn Is L. destruct (int_rep (n + d)) as (y & Wy & Vy); [lia |]. split; auto. assert (E : (xval s + xval t == inject_Z (n + d))%Q) by (rewrite inject_Z_plus, (proj2 Is), (proj2 It); reflexivity). rewrite (down_exact _ c y H Wy); [exact E | rewrite Vy, E; reflexivity].
  - assert (Vt := proj2 It). assert (X := down_rel _ c H ltac:(lra)). rewrite Vt in X. exact X.
Qed.
(** the accumulator of [base_loop] before flush number j + 1: [V] is the number read so far without the pending digits *)
Definition binv (K j V : Z) (r : f192) : Prop :=
  xwf r /\ (inject_Z V * (1 - inject_Z (2 * j) * uu) <= xval r <= inject_Z V)%Q /\ 0 <= V < 2 ^ K /\ (j = 0 -> V = 0) /\ (j <= 1 -> V < 2 ^ 60) /\ (j <= 2 -> isint V r).
Definition flush (exp curr : Z) (r : f192) : res f192 :=
  let* e := xfrom_prim U64 exp in let* r := xmul r e in let* d := xfrom_prim U64 curr in xadd r d.
Lemma flush_ok K j V r E curr : binv K j V r -> 0 <= j <= 2 ^ 40 -> 0 <= K <= 2 ^ 40 -> 1 <= E <= 60 -> 0 <= curr < 2 ^ E -> returns (flush (2 ^ E) curr r) (binv (K + E) (j + 1) (V * 2 ^ E + curr)).
Proof.
  intros (W & B & HV & J0 & J1 & J2) Hj HK HE Hc. unfold flush. assert (PE : 0 < 2 ^ E <= 2 ^ 60) by (split; [apply Z.pow_pos_nonneg; lia | apply Z.pow_le_mono_r; lia]). assert (PK : 0 < 2 ^ K) by (apply Z.pow_pos_nonneg; lia).
  destruct (k_small (2 * j) ltac:(lia)) as [K1 K2]. assert (Q70 : ((1 # 2 ^ 70) <= 1 # 4)%Q) by (vm_compute; discriminate). assert (UB : (0 < uu < 1 # 4)%Q) by (split; reflexivity). assert (UV : (uu == 4 * u127)%Q) by reflexivity.
  eapply returns_bind. { apply (xfrom_prim_ok U64 (2 ^ E)); [cbn [pmin pmax]; lia | lia]. } intros e Ie. destruct (int_pos _ e Ie ltac:(lia)) as [Ne Se]. destruct (int_pow _ e (E + 1) Ie ltac:(rewrite Z.pow_add_r by lia; lia) ltac:(lia)) as [Xe1 Xe2].
  assert (HVQ : (0 <= inject_Z V)%Q) by (change 0%Q with (inject_Z 0); rewrite <- Zle_Qle; lia). set (kk := (inject_Z (2 * j) * uu)%Q) in *.
  assert (EQ : (inject_Z (2 * (j + 1)) * uu == kk + 2 * uu)%Q) by (unfold kk; rewrite !inject_Z_mult, inject_Z_plus; change (inject_Z 2) with 2%Q; change (inject_Z 1) with 1%Q; ring).
  (* the product *)
  assert (M : returns (xmul r e) (fun m => xwf m /\ (xval m == 0 \/ 1 # 2 <= xval m)%Q /\ xe m + 1 < 2 ^ 64 /\ (inject_Z (V * 2 ^ E) * (1 - (kk + uu)) <= xval m <= inject_Z (V * 2 ^ E))%Q /\ (j <= 1 -> isint (V * 2 ^ E) m))).
  { destruct (Z.eq_dec V 0) as [Vz | Vz].
    - assert (r = xZERO). { apply xval_inj; [auto | apply xwf_zero |]. rewrite xval_zero. rewrite Vz in B. change (inject_Z 0) with 0%Q in B. lra. } subst r. rewrite (proj2 (C46_zero e)). apply returns_ok. rewrite Vz. cbn [Z.mul]. change (inject_Z 0) with 0%Q. rewrite xval_zero. split; [apply xwf_zero |]. split; [left; reflexivity |]. split; [reflexivity |]. split; [lra |]. intros _. split; [apply xwf_zero | reflexivity].
    - assert (H1 : (1 <= inject_Z V)%Q) by (change 1%Q with (inject_Z 1); rewrite <- Zle_Qle; lia). assert (R2 : (1 # 2 <= xval r)%Q) by nra. assert (Nr : xnull r = false). { destruct (xnull r) eqn:N; auto. rewrite (xnull_zero r N), xval_zero in R2. lra. } assert (Sr : xsign r = false). { destruct (xsign r) eqn:S; auto. pose proof (xval_neg r W S). lra. }
      assert (Mr : (xmag r == xval r)%Q) by (unfold xval; rewrite Sr; reflexivity). assert (Hp1 : - 129 < xpow r). { assert (HH : - (1) < xpow r + 128); [| lia]. apply (xpow_large r (- (1))); auto. rewrite Mr. exact R2. } assert (Hp2 : xpow r + 127 < K). { apply xpow_small; auto. rewrite Mr, two_Z by lia. apply Qle_lt_trans with (inject_Z V); [apply B | rewrite <- Zlt_Qlt; apply HV]. }
      destruct (mul_step r e W (proj1 Ie) Nr Ne ltac:(lia)) as (m & Em & Wm & Nm & Sm & Lm & Um). rewrite Em. apply returns_ok. rewrite Sr, Se in Sm. cbn [xorb] in Sm. assert (Mm : (xval m == xmag m)%Q) by (unfold xval; rewrite Sm; reflexivity). rewrite Mr in Lm, Um. rewrite (int_mag _ e Ie) in Lm, Um by lia. rewrite <- Mm in Lm, Um.
      assert (HE1 : (1 <= inject_Z (2 ^ E))%Q) by (change 1%Q with (inject_Z 1); rewrite <- Zle_Qle; lia). rewrite inject_Z_mult. set (v := inject_Z V) in *. set (ee := inject_Z (2 ^ E)) in *. set (x := xval r) in *. set (y := xval m) in *.
      assert (A0 : (0 <= x * ee)%Q) by (apply Qmult_le_0_compat; lra). assert (A1 : (v * (1 - kk) * ee <= x * ee)%Q) by (apply Qmult_le_compat_r; lra). assert (A2 : (x * ee <= v * ee)%Q) by (apply Qmult_le_compat_r; lra). assert (A3 : (0 <= v * ee)%Q) by (apply Qmult_le_0_compat; lra).
      assert (A4 : (v * (1 - kk) * ee * (1 - uu) <= x * ee * (1 - uu))%Q) by (apply Qmult_le_compat_r; lra). assert (A5 : (0 <= v * ee * (kk * uu))%Q) by (apply Qmult_le_0_compat; [auto | apply Qmult_le_0_compat; lra]).
      split; auto. split. { right. assert (1 # 2 <= x * ee)%Q by nra. assert (X : (1 <= v * ee)%Q) by nra. apply Qle_trans with (v * ee * (1 - kk - uu))%Q; [nra |]. setoid_replace (v * ee * (1 - kk - uu))%Q with (v * (1 - kk) * ee * (1 - uu) - v * ee * (kk * uu))%Q by ring. lra. }
      split. { assert (S3 : xpow m + 127 < K + E). { apply xpow_small; auto. rewrite <- Mm, two_plus, !two_Z by lia. apply Qle_lt_trans with (v * ee)%Q; [fold y; lra |]. fold ee. apply Qmult_lt_compat_r; [lra |]. unfold v. rewrite <- Zlt_Qlt. lia. } unfold xpow in S3. lia. }
      split. { split; [| lra]. setoid_replace (v * ee * (1 - (kk + uu)))%Q with (v * (1 - kk) * ee * (1 - uu) - v * ee * (kk * uu))%Q by ring. lra. }
      intros Hj1. specialize (J1 Hj1). assert (Ir := J2 ltac:(lia)). assert (Sh1 : xd e mod 2 ^ 64 = 0) by (apply (int_short (2 ^ E) 1 E 64 e Ie); lia). assert (Sh2 : xd r mod 2 ^ 64 = 0) by (apply (int_short V V 0 64 r Ir); lia).
      unfold xpow in *. destruct (C46_mul_exact r e W (proj1 Ie) Nr Ne ltac:(unfold EXPC; lia) ltac:(unfold EXPC; lia) Sh2 Sh1) as (m' & Em' & _ & V'). assert (m' = m) by congruence. subst m'. split; auto. rewrite V', inject_Z_mult, (proj2 Ir), (proj2 Ie). reflexivity. }
  eapply returns_bind; [exact M |]. clear M. intros m (Wm & Zm & Xm & Bm & Im). eapply returns_bind. { apply (xfrom_prim_ok U64 curr); [cbn [pmin pmax]; lia | lia]. } intros d Id.
  eapply returns_weaken; [apply (add_down m curr d); auto; lia |]. intros c (Wc & Ic & Bc). assert (HcQ : (0 <= inject_Z curr)%Q) by (change 0%Q with (inject_Z 0); rewrite <- Zle_Qle; lia). assert (HVE : (0 <= inject_Z (V * 2 ^ E))%Q) by (change 0%Q with (inject_Z 0); rewrite <- Zle_Qle; nia).
  split; auto. split. { rewrite EQ, inject_Z_plus. set (p := inject_Z (V * 2 ^ E)) in *. set (q := inject_Z curr) in *. set (x := xval m) in *. set (y := xval c) in *. rewrite UV in *. set (u := u127) in *. clearbody p q x y u kk. clear - Bm Bc HcQ HVE K1 K2 Q70 UB. assert (U4 : (0 < u < 1 # 4)%Q) by lra. split; [| lra].
    assert (A1 : ((p * (1 - (kk + 4 * u)) + q) * (1 - u) <= (x + q) * (1 - u))%Q) by (apply Qmult_le_compat_r; lra). assert (0 <= p * (kk * u))%Q by (apply Qmult_le_0_compat; [auto | apply Qmult_le_0_compat; lra]). assert (0 <= p * (u * u))%Q by (apply Qmult_le_0_compat; [auto | apply Qmult_le_0_compat; lra]). assert (0 <= q * kk)%Q by (apply Qmult_le_0_compat; lra). assert (0 <= q * u)%Q by (apply Qmult_le_0_compat; lra). assert (0 <= p * u)%Q by (apply Qmult_le_0_compat; lra). lra. }
  split. { rewrite Z.pow_add_r by lia. nia. } split; [lia |]. split. { intros. assert (V = 0) by (apply J0; lia). subst V. lia. }
  intros Hj2. apply Ic; [nia | apply Im; lia |]. specialize (J1 ltac:(lia)). assert (2 ^ 60 * 2 ^ 60 = 2 ^ 120) by reflexivity. nia.
Qed.
