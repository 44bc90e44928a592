(** Property theorems for the texts of Ratio. *)
From Verif Require Import Base USpec SSpec UFacts UBig UStr UStrP UEq Props_U2 BBig BSpec BEq Props_B RBig RSpec REq RStr RStrP.
Local Open Scope Z_scope.

(** ** C29 text *)
(** Full claim: every text is decided by [rread].  Missing: texts with an underscore before the first non-zero digit and
    an exponent of -2^31 (both refuted below), and texts of 2^32 characters or more (limb counts are cast to u32). *)
Theorem C29_parse_partial : forall s, Z.of_nat (length s) < 2 ^ 32 -> early_us s = false ->
  (forall a b, cut is_e s = Some (a, b) -> bread b <> Some (- 2 ^ 31)) ->
  match rread s with
  | Some q => returns (rfrom_string s) (fun r => exists x, r = ROk x /\ rwf x /\ (rval x == q)%Q)
  | None => exists e, rfrom_string s = Ok (RErr e)
  end.
Proof.
  intros s H1 H2 H3. pose proof (Rfrom_string s H1 H2 H3) as H. unfold decided in H. destruct (rread s) as [q |]; auto.
  rewrite H. apply returns_ok. exists (rof q). split; auto. split; [apply rof_wf | apply rof_val].
Qed.
(** what [rread] says about plain decimals: "i.f" is i + f / 10^|f| *)
Theorem C29_plain_decimal : forall c i f z n, 49 <= c <= 57 -> Forall (fun d => 48 <= d <= 57) i -> Forall (fun d => 48 <= d <= 57) f ->
  dvalue 10 0 (c :: i) = Some z -> dvalue 10 0 f = Some n -> Z.of_nat (length i) + Z.of_nat (length f) < 2 ^ 31 ->
  returns (rfrom_string (c :: i ++ 46 :: f)) (fun r => exists x, r = ROk x /\ rwf x /\ (rval x == inject_Z z + inject_Z n / inject_Z (10 ^ Z.of_nat (length f)))%Q) /\
  returns (rfrom_string (45 :: c :: i ++ 46 :: f)) (fun r => exists x, r = ROk x /\ rwf x /\ (rval x == - (inject_Z z + inject_Z n / inject_Z (10 ^ Z.of_nat (length f))))%Q).
Proof.
  intros c i f z n Hc Hi Hf Hz Hn HL.
  assert (DIG : forall l, Forall (fun d => 48 <= d <= 57) l -> no_us l = l /\ forallb dec_char l = true /\ cut is_e l = None).
  { induction 1 as [| d l Hd Hl (IH1 & IH2 & IH3)]; cbn [no_us filter forallb cut]; auto. fold (no_us l).
    replace (d =? 95) with false by lia. cbn [negb]. rewrite IH1, IH2, IH3.
    replace (dec_char d) with true by (unfold dec_char; lia). replace (is_e d) with false by (unfold is_e; lia). auto. }
  destruct (DIG i Hi) as (I1 & I2 & I3). destruct (DIG f Hf) as (F1 & F2 & F3).
  assert (CD : cut is_dot (c :: i ++ 46 :: f) = Some (c :: i, f)).
  { apply (cut_app is_dot (c :: i) 46 f); [reflexivity |]. intros x [<- | Hx]; [unfold is_dot; lia |]. rewrite Forall_forall in Hi. apply Hi in Hx. unfold is_dot. lia. }
  assert (CE : cut is_e (c :: i ++ 46 :: f) = None).
  { apply cut_none. intros x [<- | Hx]; [unfold is_e; lia |]. apply in_app_or in Hx. rewrite Forall_forall in Hi, Hf.
    destruct Hx as [Hx | [<- | Hx]]; [apply Hi in Hx; unfold is_e; lia | reflexivity | apply Hf in Hx; unfold is_e; lia]. }
  assert (EU : early_us (c :: i ++ 46 :: f) = false). { cbn [early_us]. replace (c =? 95) with false by lia. replace ((c =? 45) || (c =? 48) || (c =? 46)) with false by lia. reflexivity. }
  assert (DR : uread (c :: i) = Some z). { rewrite uread_cons by lia. replace (c =? 48) with false by lia. now rewrite I1. }
  assert (DC : forallb dec_char (c :: i) = true). { cbn [forallb]. rewrite I2. replace (dec_char c) with true by (unfold dec_char; lia). reflexivity. }
  set (fr := (inject_Z n / inject_Z (10 ^ Z.of_nat (length f)))%Q).
  assert (R1 : exists q, rread (c :: i ++ 46 :: f) = Some q /\ (q == inject_Z z + fr)%Q).
  { unfold rread. rewrite CD, F3. unfold dec_value, dread. rewrite DC. cbn [bread]. replace (c =? 45) with false by lia. rewrite DR, F1, Hn.
    change (bread [48]) with (Some 0). cbn -[Qpower Qdiv Qplus Qmult]. eexists. split; [reflexivity |]. unfold fr. change (inject_Z 10 ^ 0)%Q with 1%Q. ring. }
  assert (R2 : exists q, rread (45 :: c :: i ++ 46 :: f) = Some q /\ (q == - (inject_Z z + fr))%Q).
  { unfold rread. change (cut is_dot (45 :: c :: i ++ 46 :: f)) with (match cut is_dot (c :: i ++ 46 :: f) with Some (a, b) => Some (45 :: a, b) | None => None end).
    rewrite CD, F3. unfold dec_value, dread. change (forallb dec_char (45 :: c :: i)) with (forallb dec_char (c :: i)). rewrite DC.
    unfold bread at 1. change (45 =? 45) with true. cbv iota. rewrite DR, F1, Hn.
    change (bread [48]) with (Some 0). cbn -[Qpower Qdiv Qplus Qmult Qminus]. eexists. split; [reflexivity |]. unfold fr. change (inject_Z 10 ^ 0)%Q with 1%Q. rewrite inject_Z_opp. ring. }
  assert (LEN : Z.of_nat (length (45 :: c :: i ++ 46 :: f)) < 2 ^ 32). { cbn [length]. rewrite app_length. cbn [length]. lia. }
  split.
  - destruct R1 as (q & E & Eq). pose proof (C29_parse_partial (c :: i ++ 46 :: f)) as P. rewrite E in P. eapply returns_weaken; [apply P; auto |].
    + cbn [length] in *. lia.
    + rewrite CE. discriminate.
    + intros r (x & -> & W & V). exists x. split; auto. split; auto. now rewrite V.
  - destruct R2 as (q & E & Eq). pose proof (C29_parse_partial (45 :: c :: i ++ 46 :: f)) as P. rewrite E in P. eapply returns_weaken; [apply P; auto |].
    + change (cut is_e (45 :: c :: i ++ 46 :: f)) with (match cut is_e (c :: i ++ 46 :: f) with Some (a, b) => Some (45 :: a, b) | None => None end). rewrite CE. discriminate.
    + intros r (x & -> & W & V). exists x. split; auto. split; auto. now rewrite V.
Qed.
(** "0_.5": the documented underscore is refused before the first non-zero digit of a decimal *)
Theorem C29_early_underscore_refuted : exists q, rread [48; 95; 46; 53] = Some q /\ (q == 1 # 2)%Q /\ rfrom_string [48; 95; 46; 53] = Ok (RErr (InvalidChar 95)).
Proof. eexists. split; [reflexivity |]. split; vm_compute; reflexivity. Qed.
(** "0e-2147483648": the exponent -2^31 is in range but its absolute value overflows *)
Theorem C29_min_exponent_refuted : exists q, rread [48; 101; 45; 50; 49; 52; 55; 52; 56; 51; 54; 52; 56] = Some q /\
  rfrom_string [48; 101; 45; 50; 49; 52; 55; 52; 56; 51; 54; 52; 56] = Panic.
Proof. eexists. split; [reflexivity |]. vm_compute. reflexivity. Qed.

Lemma rfrom_plain s : s <> [] -> (forall c, In c s -> c <> 46 /\ is_e c = false) -> rfrom_string s = rbind (bfrom_string s) (fun n => Ok (ROk (rfrom_bi n))).
Proof.
  intros N H. unfold rfrom_string. pose proof (cut_dot_sfind s) as K1. pose proof (cut_e_sfind s) as K2. destruct s as [| c t]; [congruence |].
  destruct (sfind (fun c0 => c0 =? 46) (c :: t)).
  { destruct K1 as (a & b & E & _). rewrite E in H. destruct (H 46) as [? _]; [apply in_elt | lia]. }
  destruct (sfind (fun c0 => ascii_lower c0 =? 101) (c :: t)).
  { destruct K2 as (a & x & b & E & _ & Hx & _). rewrite E in H. destruct (H x) as [_ C]; [apply in_elt | congruence]. }
  destruct (non_decimal (c :: t)) as [x |]; [destruct (negb (ascii_lower x =? 120)) |]; reflexivity.
Qed.
Lemma snumeral_chars n s : snumeral 10 [] n s -> s <> [] /\ forall c, In c s -> c = 45 \/ 48 <= c <= 57.
Proof.
  intros (d & -> & Nn & Hv & Hf & _). cbn [app].
  assert (K : forall c, In c d -> 48 <= c <= 57).
  { intros c Hc. destruct (dvalue_chars _ _ _ _ Hv c Hc) as [x Hx]. now apply bdig10_char in Hx. }
  destruct (n <? 0); cbn [app]; (split; [auto; discriminate |]); intros c Hc; [destruct Hc as [<- | Hc]; auto |]; right; auto.
Qed.
(** Full claim: from_string(to_ratio_string(x)) = x for all x.  Missing: non-integers (refuted next), 2^32 limbs. *)
Theorem C29_integer_round_trip_partial : forall x, rwf x -> bval (rden x) = 1 -> Z.of_nat (length (bmag (rnum x))) < 2 ^ 32 ->
  returns (rto_ratio_string x) (fun s => snumeral 10 [] (bval (rnum x)) s /\ rfrom_string s = Ok (ROk x)).
Proof.
  intros [d n] (Wd & Wn & Hd & HG) H1 HL. cbn [rden rnum] in *. unfold rto_ratio_string. cbn [rden rnum].
  rewrite <- (bof_bval d Wd), H1. change (bis_one (bof 1)) with true. cbv iota.
  destruct (C23_print n true Wn) as (P & _). destruct (P HL) as (s & -> & HS). apply returns_ok. split; auto.
  destruct (snumeral_chars _ _ HS) as [Ns Cs]. rewrite rfrom_plain; auto.
  - pose proof (Bfrom_string s) as K. rewrite (bread_snumeral10 _ _ HS) in K. rewrite K. cbn [rbind bind]. rewrite bof_bval by auto. reflexivity.
  - intros c Hc. apply Cs in Hc. unfold is_e. split; lia.
Qed.
(** the printed text of every ratio that is not an integer is rejected *)
Theorem C29_fraction_round_trip_refuted : forall x, rwf x -> bval (rden x) <> 1 ->
  Z.of_nat (length (bmag (rnum x))) < 2 ^ 32 -> Z.of_nat (length (bmag (rden x))) < 2 ^ 32 ->
  exists a b e, rto_ratio_string x = Ok (a ++ [47] ++ b) /\ snumeral 10 [] (bval (rnum x)) a /\ snumeral 10 [] (bval (rden x)) b /\
  rfrom_string (a ++ [47] ++ b) = Ok (RErr e).
Proof.
  intros [d n] (Wd & Wn & Hd & HG) H1 HLn HLd. cbn [rden rnum] in *. unfold rto_ratio_string. cbn [rden rnum].
  assert (E1 : bis_one d = false). { rewrite <- (bof_bval d Wd), Bis_one. lia. }
  rewrite E1. destruct (C23_print n true Wn) as (P & _). destruct (P HLn) as (a & -> & Ha). destruct (C23_print d true Wd) as (P' & _). destruct (P' HLd) as (b & -> & Hb).
  cbn [bind]. destruct (snumeral_chars _ _ Ha) as [Na Ca]. destruct (snumeral_chars _ _ Hb) as [Nb Cb].
  assert (BR : bread (a ++ [47] ++ b) = None).
  { assert (U : forall t w, (forall c, In c t -> c = 45 \/ 48 <= c <= 57) -> uread (t ++ 47 :: w) = None).
    { intros t w Ht. destruct t as [| c t]; [reflexivity |]. cbn [app]. rewrite uread_cons by (destruct (Ht c); [left; auto | lia | lia]).
      assert (Hin : In 47 (no_us (t ++ 47 :: w))) by (apply in_no_us; [apply in_elt | lia]).
      destruct (Z.eqb_spec c 48); [| apply dvalue_foreign with 47; [reflexivity | now right]].
      destruct (no_us (t ++ 47 :: w)) as [| p rest] eqn:Et; [destruct Hin |]. destruct (prefix_base p) as [bs |] eqn:Ep; auto.
      destruct t as [| p' t]; cbn [app no_us filter] in Et.
      - change (47 =? 95) with false in Et. cbn [negb] in Et. inversion Et; subst p. discriminate.
      - assert (p' = 45 \/ 48 <= p' <= 57) by (apply Ht; right; left; auto). replace (p' =? 95) with false in Et by lia. cbn [negb] in Et. inversion Et; subst p'.
        exfalso. unfold prefix_base in Ep. replace ((p =? 120) || (p =? 88)) with false in Ep by lia. replace ((p =? 98) || (p =? 66)) with false in Ep by lia.
        replace ((p =? 111) || (p =? 79)) with false in Ep by lia. discriminate. }
    cbn [app]. destruct a as [| c a]; [congruence |]. cbn [app bread]. destruct (c =? 45).
    - rewrite U; auto. intros x Hx. apply Ca. now right.
    - apply (U (c :: a)). exact Ca. }
  pose proof (Bfrom_string (a ++ [47] ++ b)) as K. rewrite BR in K. destruct K as (e & K). exists a, b, e. split; [reflexivity |]. split; auto. split; auto.
  rewrite rfrom_plain.
  - rewrite K. reflexivity.
  - destruct a; discriminate.
  - intros c Hc. apply in_app_or in Hc. unfold is_e. destruct Hc as [Hc | [<- | Hc]]; [apply Ca in Hc | | apply Cb in Hc]; lia.
Qed.
(** "-12.34e-1" is -1.234, "1/2" is refused, 1/2 prints as "1/2" *)
Example C29_ex : rfrom_string [45; 49; 50; 46; 51; 52; 101; 45; 49] = Ok (ROk (rof (-1234 # 1000))) /\
  rto_ratio_string (rof (1 # 2)) = Ok [49; 47; 50] /\ rfrom_string [49; 47; 50] = Ok (RErr (InvalidChar 47)).
Proof. repeat apply conj; vm_compute; reflexivity. Qed.
Example C29_hypotheses_met : let s := [45; 49; 50; 46; 51; 52; 101; 45; 49] in
  Z.of_nat (length s) < 2 ^ 32 /\ early_us s = false /\ (forall a b, cut is_e s = Some (a, b) -> bread b <> Some (- 2 ^ 31)) /\ rread s <> None.
Proof.
  cbv zeta. split; [cbn; lia |]. split; [reflexivity |]. split; [| discriminate]. intros a b E. inversion E; subst. discriminate.
Qed.
Print Assumptions C29_parse_partial.
Print Assumptions C29_fraction_round_trip_refuted.
