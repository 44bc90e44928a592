(** Reading F192 numbers from text: which texts the scan accepts and what it collects. *)
From Coq Require Import ZArith QArith Qabs Lqa Lia Bool List Qfield Qpower.
From Verif Require Import Base UBig UStr SSpec USpec UEq BBig BSpec BEq RBig RIeee FSpec RIeeeP XNum XSpec XP1 XP2 XP3 XP6 XP7 XFun XC13 XPow XTxt XTxtS XTxtP XTxtQ Props_X1.
Local Open Scope Z_scope.

Lemma is_digit_spec c : is_digit c = true <-> 48 <= c <= 57. Proof. unfold is_digit. lia. Qed.
Lemma pscan_app s t v : pscan (s ++ t) v = rbind (pscan s v) (pscan t).
Proof.
  revert v. induction s as [| c s IH]; intros v; cbn [app pscan]; [reflexivity |]. unfold rbind. destruct (pstep v c) as [[v' | e] | |]; cbn [bind]; auto. rewrite IH. reflexivity.
Qed.
Lemma no_us_cons c l : no_us (c :: l) = if c =? 95 then no_us l else c :: no_us l.
Proof. unfold no_us. cbn [filter]. destruct (c =? 95); reflexivity. Qed.
Ltac eqs := repeat match goal with |- context [?a =? ?b] => destruct (Z.eqb_spec a b) end; cbn [orb andb negb].
(** each state reads its run of characters *)
Lemma scan_digit l : Forall dch l -> forall neg ds e eb, pscan l (PReadDigit, neg, ds, e, eb) = Ok (ROk (PReadDigit, neg, ds ++ no_us l, e, eb)).
Proof.
  induction 1 as [| c t Hc Ht IH]; intros neg ds e eb; cbn [pscan]; [now rewrite app_nil_r |]. unfold pstep. rewrite no_us_cons. destruct (is_digit c) eqn:D.
  - apply is_digit_spec in D. unfold rbind. cbn [bind]. rewrite IH. destruct (Z.eqb_spec c 95); [lia |]. now rewrite <- app_assoc.
  - assert (c = 95). { destruct Hc as [Hc | Hc]; auto. apply is_digit_spec in Hc. congruence. } subst c. unfold rbind. cbn [bind Z.eqb Pos.eqb]. apply IH.
Qed.
Lemma scan_sub l : Forall dch l -> forall neg ds e eb, - 2 ^ 63 + Z.of_nat (length (no_us l)) <= e < 2 ^ 63 -> pscan l (PReadSub, neg, ds, e, eb) = Ok (ROk (PReadSub, neg, ds ++ no_us l, e - Z.of_nat (length (no_us l)), eb)).
Proof.
  induction 1 as [| c t Hc Ht IH]; intros neg ds e eb He; cbn [pscan]; [rewrite app_nil_r; cbn [no_us filter length] in *; do 3 f_equal; f_equal; f_equal; lia |]. unfold pstep. rewrite no_us_cons in *. destruct (is_digit c) eqn:D.
  - apply is_digit_spec in D. destruct (Z.eqb_spec c 95); [lia |]. cbn [length] in *. rewrite Nat2Z.inj_succ in *. rewrite ssub_ok by (change (64 - 1) with 63; lia). unfold rbind. cbn [bind]. rewrite IH by lia. rewrite <- app_assoc. do 3 f_equal. f_equal. lia.
  - assert (c = 95). { destruct Hc as [Hc | Hc]; auto. apply is_digit_spec in Hc. congruence. } subst c. unfold rbind. cbn [bind Z.eqb Pos.eqb] in *. apply IH. auto.
Qed.
Lemma scan_exp l : forall neg ds e eb, pscan l (PReadExp, neg, ds, e, eb) = Ok (ROk (PReadExp, neg, ds, e, eb ++ l)).
Proof. induction l as [| c t IH]; intros neg ds e eb; cbn [pscan]; [now rewrite app_nil_r |]. unfold pstep, rbind. cbn [bind]. rewrite IH, <- app_assoc. reflexivity. Qed.
Lemma is_exp_spec c : is_exp c = true <-> c = 101 \/ c = 69. Proof. unfold is_exp. rewrite orb_true_iff, !Z.eqb_eq. tauto. Qed.
Lemma exp_not c : c = 101 \/ c = 69 -> is_digit c = false /\ (c =? 95) = false /\ (c =? 46) = false /\ is_exp c = true /\ ((c =? 120) || (c =? 88)) = false /\ ((c =? 111) || (c =? 79)) = false /\ ((c =? 98) || (c =? 66)) = false.
Proof. intros [-> | ->]; repeat split. Qed.
(** the variables after a decimal text *)
Definition after (st : pst) (x : option (Z * list Z)) : pst := match x with None => st | Some _ => PReadExp end.
Definition ebuf_of (x : option (Z * list Z)) : list Z := match x with None => [] | Some (_, l) => l end.
Definition st_int (i : list Z) (f : option (list Z)) : pst := match f with Some _ => PReadSub | None => match i with [48] => PInitZero | _ => PReadDigit end end.
Lemma scan_text neg i f x e : float_ok i f x e -> Z.of_nat (length (frac_digits f)) <= 2 ^ 62 ->
  pscan (float_text neg i f x) (PInit, false, [], 0, []) = Ok (ROk (after (st_int i f) x, neg, digits i f, - Z.of_nat (length (frac_digits f)), ebuf_of x)).
Proof.
  intros (Hi & Hf & Hx) HL. unfold float_text. rewrite pscan_app.
  assert (S0 : pscan (sign_text neg) (PInit, false, [], 0, []) = Ok (ROk (PInit, neg, [], 0, []))) by (destruct neg; reflexivity). rewrite S0. unfold rbind at 1. cbn [bind]. rewrite pscan_app.
  set (d0 := match i with [48] => [] | _ => no_us i end). set (s0 := match i with [48] => PInitZero | _ => PReadDigit end).
  assert (S1 : pscan i (PInit, neg, [], 0, []) = Ok (ROk (s0, neg, d0, 0, [])) /\ (s0 = PInitZero \/ s0 = PReadDigit)).
  { destruct Hi as [-> | (c & t & -> & Hc & Ht)]; [split; [reflexivity | left; reflexivity] |]. assert (E1 : (c =? 45) = false) by lia. assert (E2 : (c =? 48) = false) by lia. assert (E3 : is_digit c = true) by (apply is_digit_spec; lia).
    assert (X : d0 = no_us (c :: t) /\ s0 = PReadDigit). { unfold d0, s0. destruct t as [| c2 t2]; [destruct c as [| p | p]; auto; do 6 (destruct p as [p | p |]; auto); lia | destruct c as [| p | p]; auto; do 6 (destruct p as [p | p |]; auto)]. } destruct X as [-> ->].
    split; auto. cbn [pscan]. unfold pstep. rewrite E1, E2, E3. unfold rbind. cbn [bind app]. rewrite scan_digit by auto. rewrite no_us_cons. destruct (Z.eqb_spec c 95); [lia |]. reflexivity. }
  destruct S1 as [S1 S1']. rewrite S1. unfold rbind at 1. cbn [bind]. rewrite pscan_app. unfold digits. fold d0.
  assert (S2 : pscan (frac_text f) (s0, neg, d0, 0, []) = Ok (ROk (st_int i f, neg, d0 ++ frac_digits f, - Z.of_nat (length (frac_digits f)), [])) /\ (st_int i f = PInitZero \/ st_int i f = PReadDigit \/ st_int i f = PReadSub)).
  { destruct f as [l |]; cbn [frac_text frac_digits st_int frac_part] in *; [| cbn [pscan]; rewrite app_nil_r; fold s0; split; [reflexivity | tauto]]. split; [| auto]. cbn [pscan]. assert (P : pstep (s0, neg, d0, 0, []) 46 = Ok (ROk (PReadSub, neg, d0, 0, []))) by (destruct S1' as [-> | ->]; reflexivity). rewrite P. unfold rbind. cbn [bind]. rewrite scan_sub by (auto; lia). rewrite Z.sub_0_l. reflexivity. }
  destruct S2 as [S2 S2']. rewrite S2. unfold rbind. cbn [bind]. destruct x as [[c l] |]; cbn [exp_part after ebuf_of exp_value] in *; [| reflexivity]. destruct Hx as (Hc & _). destruct (exp_not c Hc) as (X1 & X2 & X3 & X4 & X5 & X6 & X7). cbn [pscan].
  assert (P : forall ds e', pstep (st_int i f, neg, ds, e', []) c = Ok (ROk (PReadExp, neg, ds, e', []))) by (intros ds e'; unfold pstep; destruct S2' as [-> | [-> | ->]]; rewrite ?X1, ?X2, ?X3, ?X4, ?X5, ?X6, ?X7; reflexivity).
  rewrite P. unfold rbind. cbn [bind]. rewrite scan_exp. reflexivity.
Qed.
Lemma bdig10 c d : bdig 10 c = Some d -> 48 <= c <= 57 /\ d = c - 48.
Proof. unfold bdig, cdig. destruct (Z.leb_spec 48 c), (Z.leb_spec c 57), (Z.leb_spec 97 c), (Z.leb_spec c 102), (Z.leb_spec 65 c), (Z.leb_spec c 70); cbn [andb]; try discriminate; destruct (Z.ltb_spec (c - 48) 10), (Z.ltb_spec (c - 87) 10), (Z.ltb_spec (c - 55) 10); intros E; inversion E; lia. Qed.
Lemma digit_bdig c : 48 <= c <= 57 -> bdig 10 c = Some (c - 48).
Proof. intros H. unfold bdig, cdig. destruct (Z.leb_spec 48 c), (Z.leb_spec c 57); try lia. cbn [andb]. destruct (Z.ltb_spec (c - 48) 10); [reflexivity | lia]. Qed.
Lemma dvalue_run l : forall a n, dvalue 10 a l = Some n -> Forall (fun c => 48 <= c <= 57) l /\ n = fold_left (fun a c => a * 10 + (c - 48)) l a.
Proof. induction l as [| c t IH]; cbn [dvalue fold_left]; intros a n H; [inversion H; auto |]. destruct (bdig 10 c) as [d |] eqn:E; [| discriminate]. apply bdig10 in E. destruct E as [E ->]. destruct (IH _ _ H) as [F ->]. auto. Qed.
Lemma run_dvalue l : Forall (fun c => 48 <= c <= 57) l -> forall a, dvalue 10 a l = Some (fold_left (fun a c => a * 10 + (c - 48)) l a).
Proof. induction 1 as [| c t Hc Ht IH]; intros a; cbn [dvalue fold_left]; auto. rewrite digit_bdig by auto. apply IH. Qed.
Lemma dch_no_us l : Forall dch l -> Forall (fun c => 48 <= c <= 57) (no_us l).
Proof. induction 1 as [| c t Hc Ht IH]; [constructor |]. rewrite no_us_cons. destruct (Z.eqb_spec c 95); auto. constructor; auto. destruct Hc; [auto | contradiction]. Qed.
Lemma digits_ok i f : int_part i -> frac_part f -> Forall (fun c => 48 <= c <= 57) (digits i f).
Proof.
  intros Hi Hf. unfold digits. apply Forall_app. split.
  - destruct Hi as [-> | (c & t & -> & Hc & Ht)]; [constructor |]. assert (F : Forall (fun c => 48 <= c <= 57) (no_us (c :: t))) by (apply dch_no_us; constructor; [left; lia | auto]). destruct c as [| p | p]; auto; do 6 (destruct p as [p | p |]; auto); destruct t; auto; constructor.
  - destruct f as [l |]; cbn [frac_digits frac_part] in *; [now apply dch_no_us | constructor].
Qed.
Lemma forall_digit d : forallb is_digit d = true <-> Forall (fun c => 48 <= c <= 57) d.
Proof. rewrite forallb_forall, Forall_forall. split; intros H x Hx; apply is_digit_spec; auto. Qed.
(** the exponent text *)
Definition exp_of (x : option (Z * list Z)) : option Z := match ebuf_of x with [] => Some 0 | l => parse_i64 l end.
Lemma parse_ok d n : d <> [] -> dvalue 10 0 d = Some n -> forall l e, (l = d /\ e = n \/ l = 43 :: d /\ e = n \/ l = 45 :: d /\ e = - n) -> - 2 ^ 63 <= e < 2 ^ 63 -> parse_i64 l = Some e.
Proof.
  intros Nd Hd l e H R. destruct (dvalue_run d 0 n Hd) as [F En]. fold (dec_run d) in En. pose proof (proj2 (forall_digit d) F) as FB. unfold parse_i64. destruct H as [[-> ->] | [[-> ->] | [-> ->]]].
  - destruct d as [| c t]; [contradiction |]. inversion F as [| ? ? Hc Ht]; subst. destruct (Z.eqb_spec c 43); [lia |]. destruct (Z.eqb_spec c 45); [lia |]. rewrite FB, (proj2 (Z.leb_le _ _)), (proj2 (Z.ltb_lt _ _)) by lia. reflexivity.
  - cbn [Z.eqb Pos.eqb]. destruct d as [| c t]; [contradiction |]. rewrite FB. subst n. rewrite (proj2 (Z.leb_le _ _)), (proj2 (Z.ltb_lt _ _)) by lia. reflexivity.
  - cbn [Z.eqb Pos.eqb]. destruct d as [| c t]; [contradiction |]. rewrite FB. subst n. rewrite (proj2 (Z.leb_le _ _)), (proj2 (Z.ltb_lt _ _)) by lia. reflexivity.
Qed.
Lemma exp_of_ok x e : exp_value x e -> exp_of x = Some e.
Proof.
  unfold exp_of. destruct x as [[c l] |]; cbn [exp_value ebuf_of]; [| now intros ->]. intros (_ & R & [[-> ->] | (d & n & Nd & Hd & H)]); [reflexivity |]. pose proof (parse_ok d n Nd Hd l e H R) as P. destruct l; [| exact P]. destruct H as [[<- _] | [[H _] | [H _]]]; [contradiction | discriminate | discriminate].
Qed.
Lemma parse_inv l e : parse_i64 l = Some e -> - 2 ^ 63 <= e < 2 ^ 63 /\ exists d n, d <> [] /\ dvalue 10 0 d = Some n /\ (l = d /\ e = n \/ l = 43 :: d /\ e = n \/ l = 45 :: d /\ e = - n).
Proof.
  assert (G : forall (neg : bool) d, match d with [] => None | _ => if forallb is_digit d then let n := if neg then - dec_run d else dec_run d in if (- 2 ^ 63 <=? n) && (n <? 2 ^ 63) then Some n else None else None end = Some e ->
    d <> [] /\ dvalue 10 0 d = Some (dec_run d) /\ e = (if neg then - dec_run d else dec_run d) /\ - 2 ^ 63 <= e < 2 ^ 63).
  { intros neg d H. destruct d as [| c t] eqn:Ed; [discriminate |]. rewrite <- Ed in *. assert (d <> []) by (subst; discriminate). destruct (forallb is_digit d) eqn:F; [| discriminate]. apply forall_digit in F. split; auto. split; [apply run_dvalue; auto |]. cbn zeta in H. destruct (Z.leb_spec (- 2 ^ 63) (if neg then - dec_run d else dec_run d)); cbn [andb] in H; [| discriminate]. destruct (Z.ltb_spec (if neg then - dec_run d else dec_run d) (2 ^ 63)); [| discriminate]. inversion H. lia. }
  unfold parse_i64. destruct l as [| c t]; [discriminate |]. destruct (Z.eqb_spec c 43) as [-> |]; [| destruct (Z.eqb_spec c 45) as [-> |]]; intros H.
  - destruct (G false t H) as (N & V & -> & R). split; auto. exists t, (dec_run t). tauto.
  - destruct (G true t H) as (N & V & -> & R). split; auto. exists t, (dec_run t). tauto.
  - destruct (G false (c :: t) H) as (N & V & -> & R). split; auto. exists (c :: t), (dec_run (c :: t)). tauto.
Qed.
