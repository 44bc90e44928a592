(** Property C76: reading F192 numbers from text; and when mul_i32 panics. *)
From Coq Require Import ZArith QArith Qabs Lqa Lia Bool List Qpower String Ascii.
From Verif Require Import Base UStr SSpec RBig FSpec XNum XSpec XP1 XP3 XFun XTxt XTxtS XTxtP XTxtQ XTxtR XTxtT XTxtU.
Local Open Scope Z_scope.
Local Open Scope list_scope.

(** ** C46 mul_i32: it panics exactly when the low 32 bits carry the product over a power of two *)
Theorem C46_mul_i32_panics : forall s a, xwf s -> xnull s = false -> a <> 0 -> - 2 ^ 31 < a < 2 ^ 31 -> 0 < xe s -> xe s + 32 < 2 ^ 64 ->
  (xmul_i32 s a = Panic <-> Z.log2 (xsig s / 2 ^ 32 * Z.abs a) + 32 < Z.log2 (xsig s * Z.abs a)).
Proof.
  intros s a W N Ha Ra X1 X2. destruct (xmul_i32_ok s a W N Ha Ra X1 X2) as [K1 K2]. destruct (xof_of s W) as (_ & [S1 S2] & _). change SIGNM with (2 ^ 127) in *. set (h := xsig s / 2 ^ 32) in *. assert (H95 : 2 ^ 95 <= h < 2 ^ 96) by (unfold h; split; [apply Z.div_le_lower_bound; lia | apply Z.div_lt_upper_bound; lia]).
  assert (HA : 0 < h * Z.abs a < 2 ^ 127) by nia. unfold nshift in *. rewrite (proj2 (Z.ltb_lt _ SIGNM)) in * by (change SIGNM with (2 ^ 127); lia). set (l := Z.log2 (h * Z.abs a)) in *. assert (L : l < 127) by (apply Z.log2_lt_pow2; lia). assert (L0 : 0 <= l) by apply Z.log2_nonneg. set (p := xsig s * Z.abs a) in *. assert (Pp : 0 < p) by (unfold p; nia).
  assert (E : 2 ^ (l + 33) * 2 ^ (127 - l) = 2 ^ 160) by (rewrite <- Z.pow_add_r by lia; f_equal; lia). assert (P1 : 0 < 2 ^ (127 - l)) by (apply Z.pow_pos_nonneg; lia).
  destruct (Z_lt_le_dec (p * 2 ^ (127 - l)) (2 ^ 160)) as [C | C].
  - assert (p < 2 ^ (l + 33)) by nia. assert (Z.log2 p < l + 33) by (apply Z.log2_lt_pow2; auto). split; [| lia]. intros HP. destruct (K1 C) as (c & Ec & _). congruence.
  - split; [| auto]. intros _. assert (2 ^ (l + 33) <= p) by nia. assert (l + 33 <= Z.log2 p) by (apply Z.log2_le_pow2; auto). lia.
Qed.

(** ** C76 texts *)
(** at most 39 digits: within (4 |E| + 12) 2^-125 of the number D 10^E the text denotes, and equal to it when it is an integer D < 2^128, or D < 2^64 times a power of ten up to 10^27.
    With up to 29 digits the conversion does not panic. *)
Theorem C76_decimal : forall neg i f x e D, float_ok i f x e -> dvalue 10 0 (digits i f) = Some D -> (length (digits i f) <= 39)%nat -> let E := e - Z.of_nat (length (frac_digits f)) in - 2 ^ 32 <= E <= 2 ^ 32 ->
  let Q o := exists c, o = ROk c /\ xwf c /\ (Qabs (xval c - sgq neg (inject_Z D * 10 ^ E)) <= inject_Z (4 * Z.abs E + 12) * two (- 125) * (inject_Z D * 10 ^ E))%Q /\
    (E = 0 /\ D < 2 ^ 128 \/ 0 <= E <= 27 /\ D < 2 ^ 64 -> (xval c == sgq neg (inject_Z D * 10 ^ E))%Q) in
  (xfrom_str (float_text neg i f x) = Panic \/ returns (xfrom_str (float_text neg i f x)) Q) /\ ((length (digits i f) <= 29)%nat -> returns (xfrom_str (float_text neg i f x)) Q).
Proof.
  intros neg i f x e D O HD HL E HE Q. destruct (dvalue_run _ _ _ HD) as [_ ED]. assert (R : forall b : bool, (b = true -> (length (digits i f) <= 29)%nat) -> pret b (xfrom_str (float_text neg i f x)) Q).
  { intros b Hb. pose proof (from_text b neg i f x e O) as T. rewrite firstn_all2 in T by lia. replace (Z.max 0 (Z.of_nat (length (digits i f)) - 39)) with 0 in T by lia. rewrite Z.add_0_r in T. fold E in T. fold (dec_run (digits i f)) in ED. rewrite <- ED in T. apply T; auto; lia. }
  split; [destruct (R false ltac:(discriminate)) as [[_ H] | H]; auto |]. intros H. destruct (R true ltac:(auto)) as [[? _] | ?]; [discriminate | auto].
Qed.
(** longer texts: the digits after the 39th are dropped, the error is relative to what is left *)
Theorem C76_long : forall neg i f x e D, float_ok i f x e -> dvalue 10 0 (firstn 39 (digits i f)) = Some D -> 39 < Z.of_nat (length (digits i f)) <= 2 ^ 62 -> let E0 := e - Z.of_nat (length (frac_digits f)) in let E := E0 + (Z.of_nat (length (digits i f)) - 39) in - 2 ^ 32 <= E0 -> E <= 2 ^ 32 ->
  xfrom_str (float_text neg i f x) = Panic \/
  returns (xfrom_str (float_text neg i f x)) (fun o => exists c, o = ROk c /\ xwf c /\ (Qabs (xval c - sgq neg (inject_Z D * 10 ^ E)) <= inject_Z (4 * Z.abs E + 12) * two (- 125) * (inject_Z D * 10 ^ E))%Q).
Proof.
  intros neg i f x e D O HD HL E0 E H1 H2. destruct (dvalue_run _ _ _ HD) as [_ ED]. fold (dec_run (firstn 39 (digits i f))) in ED. pose proof (from_text false neg i f x e O ltac:(lia)) as T. replace (Z.max 0 (Z.of_nat (length (digits i f)) - 39)) with (Z.of_nat (length (digits i f)) - 39) in T by lia. fold E0 E in T. rewrite <- ED in T.
  destruct (T H1 H2 ltac:(discriminate)) as [[_ H] | H]; auto. right. eapply returns_weaken; [exact H |]. intros o (c & A & B & C & _). eauto.
Qed.
(** numbers below 10^(-2^48) are zero *)
Theorem C76_tiny : forall neg i f x e, float_ok i f x e -> Z.of_nat (length (frac_digits f)) <= 2 ^ 62 -> - 2 ^ 63 <= e - Z.of_nat (length (frac_digits f)) < - 2 ^ 48 -> xfrom_str (float_text neg i f x) = Ok (ROk xZERO).
Proof. exact from_tiny. Qed.
(** after 0x, 0o, 0b: never above the number, off by at most 2 units of 2^-125 per 57 bits, exact up to 114 bits; the sign of the text is not looked at *)
Theorem C76_base : forall neg c l b w V, prefix_base c = Some b -> b = 2 ^ w -> 0 <= w -> dvalue b 0 (no_us l) = Some V -> let n := w * Z.of_nat (length (no_us l)) in n <= 2 ^ 39 ->
  returns (xfrom_str (base_text neg c l)) (fun o => exists r, o = ROk r /\ xwf r /\ (inject_Z V * (1 - inject_Z (2 * (n / 57 + 1)) * two (- 125)) <= xval r <= inject_Z V)%Q /\ (n <= 114 -> (xval r == inject_Z V)%Q)).
Proof.
  intros neg c l b w V Hp Eb Hw HV n HL. apply (from_base neg c l b w V); auto. assert (K : b = 2 ^ 4 \/ b = 2 ^ 1 \/ b = 2 ^ 3) by (unfold prefix_base in Hp; destruct ((c =? 120) || (c =? 88)); [inversion Hp; auto |]; destruct ((c =? 98) || (c =? 66)); [inversion Hp; auto |]; destruct ((c =? 111) || (c =? 79)); inversion Hp; auto).
  rewrite Eb in K. destruct K as [K | [K | K]]; apply Z.pow_inj_r in K; lia.
Qed.
(** only these texts are accepted *)
Theorem C76_grammar : forall s c, xfrom_str s = Ok (ROk c) ->
  (exists neg i f x e, s = float_text neg i f x /\ float_ok i f x e) \/ (exists neg p l b V, s = base_text neg p l /\ prefix_base p = Some b /\ dvalue b 0 (no_us l) = Some V).
Proof. exact accepts. Qed.
Theorem C76_bad_exponent : forall neg i f c l, int_part i -> frac_part f -> Z.of_nat (length (frac_digits f)) <= 2 ^ 62 -> c = 101 \/ c = 69 -> l <> [] -> (forall e, ~ exp_value (Some (c, l)) e) -> xfrom_str (float_text neg i f (Some (c, l))) = Ok (RErr TryFromIntError).
Proof. exact from_bad_exp. Qed.
Theorem C76_empty : xfrom_str [] = Ok (RErr NoData) /\ xfrom_str [45] = Ok (RErr NoData).
Proof. split; reflexivity. Qed.

(** what goes wrong: a 31 digit text panics, small numbers written without an exponent are zero, a base prefix drops the sign *)
Definition txt (s : string) : list Z := map (fun a => Z.of_nat (nat_of_ascii a)) (list_ascii_of_string s).
Theorem C76_panic_refuted : exists i D, float_ok i None None 0 /\ dvalue 10 0 (digits i None) = Some D /\ (length (digits i None) = 31)%nat /\ D < 2 ^ 103 /\ xfrom_str (float_text false i None None) = Panic.
Proof.
  exists (txt "5070602400912917605986812821510"), 5070602400912917605986812821510. split; [| repeat split; vm_compute; reflexivity]. split; [| split; [exact I | reflexivity]]. right. exists 53, (txt "070602400912917605986812821510"). split; [reflexivity |]. split; [lia |]. repeat constructor; unfold dch; cbn; lia.
Qed.
Theorem C76_small_refuted : exists f D, float_ok [48] (Some f) None 0 /\ dvalue 10 0 (digits [48] (Some f)) = Some D /\ D = 1 /\ (length f = 40)%nat /\ xfrom_str (float_text false [48] (Some f) None) = Ok (ROk xZERO).
Proof.
  exists (txt "0000000000000000000000000000000000000001"), 1. split; [| repeat split; vm_compute; reflexivity]. split; [left; reflexivity |]. split; [| reflexivity]. cbn [frac_part]. repeat constructor; unfold dch; cbn; lia.
Qed.
Theorem C76_sign_refuted : exists c, xfrom_str (txt "-0x10") = Ok (ROk c) /\ (xval c == 16)%Q.
Proof. eexists. split; [vm_compute; reflexivity | reflexivity]. Qed.
(** the hypotheses hold for real texts *)
Example C76_case : (exists c, xfrom_str (txt "-1_250.75e-3") = Ok (ROk c) /\ (Qabs (xval c - (- (125075 # 100000))) < two (- 120))%Q) /\ txt "-1_250.75e-3" = float_text true (txt "1_250") (Some (txt "75")) (Some (101, txt "-3")) /\
  float_ok (txt "1_250") (Some (txt "75")) (Some (101, txt "-3")) (- 3) /\ dvalue 10 0 (digits (txt "1_250") (Some (txt "75"))) = Some 125075.
Proof.
  split; [eexists; split; [vm_compute; reflexivity | vm_compute; reflexivity] |]. split; [reflexivity |]. split; [| reflexivity]. split; [right; exists 49, (txt "_250"); split; [reflexivity |]; split; [lia |]; repeat constructor; unfold dch; cbn; lia |]. split; [cbn [frac_part]; repeat constructor; unfold dch; cbn; lia |].
  cbn [exp_value]. split; [auto |]. split; [lia |]. right. exists (txt "3"), 3. split; [discriminate |]. split; [reflexivity |]. right. right. split; reflexivity.
Qed.
Example C76_base_case : exists c, xfrom_str (txt "0xDEAD_BEEF_0123456789abcdef01") = Ok (ROk c) /\ (xval c == inject_Z 0xDEADBEEF0123456789abcdef01)%Q.
Proof. eexists. split; [vm_compute; reflexivity | vm_compute; reflexivity]. Qed.
Example C46_panics_case : exists s, xwf s /\ xpow s = 0 /\ Z.log2 (xsig s / 2 ^ 32 * 3) + 32 < Z.log2 (xsig s * 3).
Proof. exists (mkX (2 ^ 129 / 3 + 1 - 2 ^ 127) EXPC). split; [split; vm_compute; split; congruence |]. split; vm_compute; reflexivity. Qed.
Print Assumptions C46_mul_i32_panics.
Print Assumptions C76_decimal.
Print Assumptions C76_long.
Print Assumptions C76_tiny.
Print Assumptions C76_base.
Print Assumptions C76_grammar.
Print Assumptions C76_bad_exponent.
Print Assumptions C76_empty.
Print Assumptions C76_panic_refuted.
Print Assumptions C76_small_refuted.
Print Assumptions C76_sign_refuted.
