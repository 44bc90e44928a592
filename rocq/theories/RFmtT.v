(** Approximate texts of rationals: what the printed texts denote. *)
From Coq Require Import Zquot Qpower Qfield.
From Verif Require Import Base USpec SSpec UFacts UBig UFun UStr UStrP UEq USci BBig BSpec BEq RBig RSpec REq RShrink RStr RStrP XFun RFmt.
Local Open Scope Z_scope.

Definition sg (neg : bool) : list Z := if neg then [45] else [].
Definition digit (d : Z) : Prop := 0 <= d < 10.
(** value of a digit string with the point behind the first digit and an exponent *)
Definition qsg (neg : bool) : Q := if neg then (-1)%Q else 1%Q.

Lemma fmt_digit d : digit d -> fmt_sint d = [dchar d].
Proof.
  intros H. unfold fmt_sint. destruct (Z.ltb_spec d 0); [unfold digit in H; lia |]. unfold fmt_uint.
  rewrite zdigits_eq by (unfold digit in H; lia). destruct (Z.ltb_spec d 10); [reflexivity | unfold digit in H; lia].
Qed.
Lemma concat_digits ds : Forall digit ds -> concat (map fmt_sint ds) = map dchar ds.
Proof. induction 1 as [| d t H T IH]; auto. cbn [map concat]. rewrite fmt_digit by auto. now rewrite IH. Qed.
Lemma dchar_dec d : digit d -> 48 <= dchar d <= 57.
Proof. unfold digit, dchar. intros. destruct (Z.ltb_spec d 10); lia. Qed.
Lemma dchars_dec ds : Forall digit ds -> Forall (fun c => 48 <= c <= 57) (map dchar ds).
Proof. induction 1; cbn [map]; constructor; auto using dchar_dec. Qed.
Lemma fmt_dec n : 0 <= n -> Forall (fun c => 48 <= c <= 57) (fmt_uint 10 n).
Proof. intros H. apply dchars_dec. eapply Forall_impl; [| apply zdigits_digits; lia]. auto. Qed.
Lemma fmt_nonnil n : 0 <= n -> fmt_uint 10 n <> [].
Proof. intros H C. unfold fmt_uint in C. apply map_nil in C. revert C. apply zdigits_nonnil; lia. Qed.
Lemma fmt_sint_bread e : bread (fmt_sint e) = Some e.
Proof.
  unfold fmt_sint. destruct (Z.ltb_spec e 0).
  - cbn [bread]. rewrite Z.eqb_refl, (uread_dec (- e)) by (apply fmt_numeral; lia). now rewrite Z.opp_involutive.
  - pose proof (fmt_dec e ltac:(lia)) as D. pose proof (fmt_nonnil e ltac:(lia)) as N. unfold bread. destruct (fmt_uint 10 e) as [| c t] eqn:E; [congruence |].
    inversion D; subst. destruct (Z.eqb_spec c 45); [lia |]. rewrite <- E. apply uread_dec, fmt_numeral; lia.
Qed.
Lemma sg_bread neg z : 0 <= z -> bread (sg neg ++ fmt_uint 10 z) = Some (if neg then - z else z).
Proof.
  intros H. destruct neg; cbn [sg app].
  - cbn [bread]. rewrite Z.eqb_refl, (uread_dec z) by (apply fmt_numeral; lia). reflexivity.
  - pose proof (fmt_sint_bread z) as E. unfold fmt_sint in E. destruct (Z.ltb_spec z 0); [lia | exact E].
Qed.
Lemma sg_dread neg z : 0 <= z -> dread (sg neg ++ fmt_uint 10 z) = Some (if neg then - z else z).
Proof.
  intros H. unfold dread. rewrite sg_bread by auto.
  assert (F : forallb dec_char (fmt_uint 10 z) = true).
  { apply forallb_forall. intros c Hc. pose proof (fmt_dec z H) as D. rewrite Forall_forall in D. specialize (D c Hc). unfold dec_char. lia. }
  destruct neg; cbn [sg app forallb]; rewrite F; reflexivity.
Qed.
Lemma no_us_digits ds : Forall digit ds -> no_us (map dchar ds) = map dchar ds.
Proof.
  intros H. apply no_us_numeral. eapply Forall_impl; [| apply dchars_dec; exact H]. cbn beta. lia.
Qed.
Lemma dec_value_ok neg z ds xs e : 0 <= z -> Forall digit ds -> bread xs = Some e -> - 2 ^ 31 <= e < 2 ^ 31 ->
  exists q, dec_value (sg neg ++ fmt_uint 10 z) (map dchar ds) xs = Some q /\
    (q == qsg neg * (inject_Z z + inject_Z (zval 10 0 ds) / inject_Z (10 ^ Z.of_nat (length ds))) * inject_Z 10 ^ e)%Q.
Proof.
  intros Hz Hd Hx He. unfold dec_value. rewrite sg_dread, no_us_digits, Hx by auto.
  rewrite (dvalue_map 10 ds) by (auto; lia).
  destruct (Z.leb_spec (- 2 ^ 31) e); [| lia]. destruct (Z.ltb_spec e (2 ^ 31)); [| lia]. cbn [andb]. rewrite map_length.
  eexists. split; [reflexivity |]. pose proof (fmt_nonnil z Hz) as N. pose proof (fmt_dec z Hz) as D.
  destruct neg; cbn [sg app qsg].
  - cbn [Z.eqb Pos.eqb]. rewrite inject_Z_opp. ring.
  - destruct (fmt_uint 10 z) as [| c t] eqn:E; [congruence |]. inversion D; subst. destruct (Z.eqb_spec c 45); [lia |]. ring.
Qed.
Lemma sg_chars neg c : In c (sg neg) -> c = 45.
Proof. destruct neg; cbn; intuition. Qed.
Lemma int_chars neg z c : 0 <= z -> In c (sg neg ++ fmt_uint 10 z) -> c = 45 \/ 48 <= c <= 57.
Proof.
  intros Hz Hc. apply in_app_or in Hc as [Hc | Hc]; [left; eauto using sg_chars |]. right.
  pose proof (fmt_dec z Hz) as D. rewrite Forall_forall in D. auto.
Qed.
Lemma digits_chars ds c : Forall digit ds -> In c (map dchar ds) -> 48 <= c <= 57.
Proof. intros H Hc. pose proof (dchars_dec ds H) as D. rewrite Forall_forall in D. auto. Qed.
Lemma sint_chars e c : In c (fmt_sint e) -> c = 45 \/ 48 <= c <= 57.
Proof.
  unfold fmt_sint. destruct (Z.ltb_spec e 0).
  - intros [<- | Hc]; [now left |]. right. pose proof (fmt_dec (- e) ltac:(lia)) as D. rewrite Forall_forall in D. auto.
  - intros Hc. right. pose proof (fmt_dec e ltac:(lia)) as D. rewrite Forall_forall in D. auto.
Qed.

(** integer part, point, digits *)
Lemma rread_fixed neg z ds : 0 <= z -> Forall digit ds ->
  exists q, rread (sg neg ++ fmt_uint 10 z ++ 46 :: map dchar ds) = Some q /\
    (q == qsg neg * (inject_Z z + inject_Z (zval 10 0 ds) / inject_Z (10 ^ Z.of_nat (length ds))))%Q.
Proof.
  intros Hz Hd. unfold rread. rewrite app_assoc, cut_app; [| reflexivity |].
  2: { intros c Hc. apply int_chars in Hc; auto. unfold is_dot. lia. }
  rewrite cut_none. 2: { intros c Hc. apply digits_chars in Hc; auto. unfold is_e. lia. }
  destruct (dec_value_ok neg z ds [48] 0 Hz Hd eq_refl ltac:(lia)) as (q & E & V). exists q. split; [exact E |].
  rewrite V. change (inject_Z 10 ^ 0)%Q with 1%Q. ring.
Qed.
Lemma rread_int neg z : 0 <= z -> rread (sg neg ++ fmt_uint 10 z) = Some (inject_Z (if neg then - z else z)).
Proof.
  intros Hz. unfold rread. rewrite cut_none. 2: { intros c Hc. apply int_chars in Hc; auto. unfold is_dot. lia. }
  now rewrite sg_bread.
Qed.
(** the mantissa text *)
Definition mant (ds : list Z) : list Z :=
  match ds with [] => [] | [d] => [dchar d] | d :: t => dchar d :: 46 :: map dchar t end.
Lemma dotted_mant ds : Forall digit ds -> ds <> [] -> dotted ds = Ok (mant ds).
Proof.
  intros H N. destruct ds as [| d [| d' t]]; [congruence | |]; inversion H; subst; cbn [dotted mant].
  - now rewrite fmt_digit.
  - now rewrite concat_digits, fmt_digit.
Qed.
Lemma fmt_1 d : digit d -> fmt_uint 10 d = [dchar d].
Proof. intros H. pose proof (fmt_digit d H) as E. unfold fmt_sint in E. destruct (Z.ltb_spec d 0); [unfold digit in H; lia | exact E]. Qed.
Lemma uread_e d x : digit d -> uread (dchar d :: 101 :: x) = None.
Proof.
  intros H. assert (C : d = 0 \/ d = 1 \/ d = 2 \/ d = 3 \/ d = 4 \/ d = 5 \/ d = 6 \/ d = 7 \/ d = 8 \/ d = 9) by (unfold digit in H; lia).
  repeat (destruct C as [-> | C]; [reflexivity |]). subst. reflexivity.
Qed.
Lemma pow10_nz e : ~ (inject_Z 10 ^ e == 0)%Q.
Proof. apply Qpower_not_0. intros C. unfold Qeq in C. cbn in C. lia. Qed.
Lemma qpow_Z k : 0 <= k -> (inject_Z 10 ^ k == inject_Z (10 ^ k))%Q.
Proof. intros H. rewrite Zpower_Qpower by auto. reflexivity. Qed.
Lemma rread_sci neg ds e : Forall digit ds -> ds <> [] -> - 2 ^ 31 <= e < 2 ^ 31 ->
  exists q, rread (sg neg ++ mant ds ++ 101 :: fmt_sint e) = Some q /\
    (q == qsg neg * inject_Z (zval 10 0 ds) * inject_Z 10 ^ (e + 1 - Z.of_nat (length ds)))%Q.
Proof.
  intros Hd N He. destruct ds as [| d [| d' t]]; [congruence | |].
  - inversion Hd as [| ? ? Hd1 _]; subst. cbn [mant app length].
    unfold rread. rewrite cut_none.
    2: { intros c Hc. apply in_app_or in Hc as [Hc | [<- | [<- | Hc]]]; [apply sg_chars in Hc | pose proof (dchar_dec d Hd1) | | apply sint_chars in Hc]; unfold is_dot; lia. }
    assert (B : bread (sg neg ++ dchar d :: 101 :: fmt_sint e) = None).
    { destruct neg; cbn [sg app].
      - cbn [bread]. now rewrite Z.eqb_refl, uread_e.
      - cbn [bread]. pose proof (dchar_dec d Hd1). destruct (Z.eqb_spec (dchar d) 45); [lia |]. now apply uread_e. }
    rewrite B. change (sg neg ++ dchar d :: 101 :: fmt_sint e) with (sg neg ++ [dchar d] ++ 101 :: fmt_sint e). rewrite <- fmt_1 by auto.
    rewrite app_assoc, cut_app; [| reflexivity |].
    2: { intros c Hc. apply int_chars in Hc; [unfold is_e; lia | unfold digit in Hd1; lia]. }
    destruct (dec_value_ok neg d [] (fmt_sint e) e ltac:(unfold digit in Hd1; lia) ltac:(constructor) (fmt_sint_bread e) He) as (q & E & V).
    exists q. split; [exact E |]. rewrite V. cbn [zval length Z.of_nat].
    match goal with |- context [(inject_Z 10 ^ (e + 1 - ?k))%Q] => replace (e + 1 - k) with e by lia end.
    rewrite Z.mul_0_l, Z.add_0_l. change (10 ^ 0) with 1. unfold Qdiv. change (/ inject_Z 1)%Q with 1%Q. change (inject_Z 0) with 0%Q.
    ring.
  - inversion Hd as [| ? ? Hd1 Ht]; subst. cbn [mant app]. set (u := d' :: t) in *.
    unfold rread. change (sg neg ++ dchar d :: 46 :: (map dchar u ++ 101 :: fmt_sint e)) with (sg neg ++ [dchar d] ++ 46 :: (map dchar u ++ 101 :: fmt_sint e)).
    rewrite <- fmt_1 by auto. rewrite app_assoc, cut_app; [| reflexivity |].
    2: { intros c Hc. apply int_chars in Hc; [unfold is_dot; lia | unfold digit in Hd1; lia]. }
    rewrite cut_app; [| reflexivity |]. 2: { intros c Hc. apply digits_chars in Hc; auto. unfold is_e. lia. }
    destruct (dec_value_ok neg d u (fmt_sint e) e ltac:(unfold digit in Hd1; lia) Ht (fmt_sint_bread e) He) as (q & E & V).
    exists q. split; [exact E |]. rewrite V. change (length (d :: u)) with (S (length u)).
    change (zval 10 0 (d :: u)) with (zval 10 (0 * 10 + d) u). rewrite (zval_lin 10 u (0 * 10 + d)).
    replace (e + 1 - Z.of_nat (S (length u))) with (e - Z.of_nat (length u)) by lia.
    assert (P : 0 < 10 ^ Z.of_nat (length u)) by (apply Z.pow_pos_nonneg; lia).
    unfold Z.sub. rewrite Qpower_plus by (intros C; unfold Qeq in C; cbn in C; lia). rewrite Qpower_opp. rewrite (qpow_Z (Z.of_nat (length u))) by lia.
    rewrite inject_Z_plus, inject_Z_mult. rewrite Z.mul_0_l, Z.add_0_l. field. apply INJ0. lia.
Qed.

(** [q] is [x] cut toward zero at the decimal place [j] *)
Definition trunc_to (q x : Q) (j : Z) : Prop :=
  (0 <= q * x)%Q /\ (Qabs q <= Qabs x)%Q /\ (Qabs x < Qabs q + inject_Z 10 ^ j)%Q /\ exists z, (q == inject_Z z * inject_Z 10 ^ j)%Q.

Lemma pow10_pos e : (0 < inject_Z 10 ^ e)%Q.
Proof. apply Qpower_0_lt. reflexivity. Qed.
Lemma pow10_add a b : (inject_Z 10 ^ (a + b) == inject_Z 10 ^ a * inject_Z 10 ^ b)%Q.
Proof. apply Qpower_plus. intros C. unfold Qeq in C. cbn in C. lia. Qed.
Lemma qsg_abs neg w : (0 <= w)%Q -> (Qabs (qsg neg * w) == w)%Q.
Proof.
  intros H. rewrite Qabs_Qmult, (Qabs_pos w) by auto. destruct neg; cbn [qsg].
  - change (Qabs (-1)) with 1%Q. ring.
  - change (Qabs 1) with 1%Q. ring.
Qed.
Lemma inj_le a b : a <= b -> (inject_Z a <= inject_Z b)%Q.
Proof. intros. now rewrite <- Zle_Qle. Qed.
Lemma inj_lt a b : a < b -> (inject_Z a < inject_Z b)%Q.
Proof. intros. now rewrite <- Zlt_Qlt. Qed.
(** sign, digits and scale of a truncation *)
Lemma trunc_intro neg W j x q : 0 <= W -> (neg = true <-> x < 0)%Q -> (q == qsg neg * (inject_Z W * inject_Z 10 ^ j))%Q ->
  (inject_Z W * inject_Z 10 ^ j <= Qabs x)%Q -> (Qabs x < inject_Z (W + 1) * inject_Z 10 ^ j)%Q -> trunc_to q x j.
Proof.
  intros HW Hn Hq L U. pose proof (pow10_pos j) as P. assert (W0 : (0 <= inject_Z W * inject_Z 10 ^ j)%Q).
  { apply Qmult_le_0_compat; [apply (inj_le 0); auto | apply Qlt_le_weak; auto]. }
  assert (A : (Qabs q == inject_Z W * inject_Z 10 ^ j)%Q) by (rewrite Hq; apply qsg_abs; auto).
  unfold trunc_to. split; [| split; [| split]].
  - rewrite Hq. destruct neg; cbn [qsg].
    + assert (x < 0)%Q by (apply Hn; auto).
      setoid_replace (-1 * (inject_Z W * inject_Z 10 ^ j) * x)%Q with ((inject_Z W * inject_Z 10 ^ j) * (- x))%Q by ring.
      apply Qmult_le_0_compat; auto. setoid_replace (- x)%Q with (0 - x)%Q by ring. apply -> Qle_minus_iff. now apply Qlt_le_weak.
    + rewrite Qmult_1_l. apply Qmult_le_0_compat; auto. apply Qnot_lt_le. intros C. apply Hn in C. discriminate.
  - now rewrite A.
  - rewrite A. rewrite inject_Z_plus in U. eapply Qlt_le_trans; [exact U |]. rewrite Qmult_plus_distr_l, Qmult_1_l. apply Qle_refl.
  - exists (if neg then - W else W). rewrite Hq. destruct neg; cbn [qsg]; rewrite ?inject_Z_opp; ring.
Qed.

(** a digit string cut short *)
Lemma cut_digits v ds zs rest : 0 <= v -> zdigits 10 v = ds ++ zs ++ rest -> Forall (fun d => d = 0) zs ->
  let W := zval 10 0 ds * 10 ^ Z.of_nat (length zs) in
  0 <= W /\ W * 10 ^ Z.of_nat (length rest) <= v < (W + 1) * 10 ^ Z.of_nat (length rest).
Proof.
  intros Hv E Hz. cbn zeta. pose proof (zdigits_digits 10 v ltac:(lia) Hv) as Hd. rewrite E in Hd.
  apply Forall_app in Hd as [Hd1 Hd2]. apply Forall_app in Hd2 as [Hd2 Hd3].
  pose proof (zdigits_val 10 v ltac:(lia) Hv) as V. rewrite E, !zval_app in V. rewrite zval_lin in V. rewrite (zval_lin 10 zs) in V.
  rewrite (zval_zeros 10 zs) in V by auto.
  pose proof (zval_bounds 10 rest ltac:(lia) Hd3) as B3. pose proof (zval_bounds 10 ds ltac:(lia) Hd1) as B1.
  assert (0 < 10 ^ Z.of_nat (length zs)) by (apply Z.pow_pos_nonneg; lia). split; [apply Z.mul_nonneg_nonneg; lia |]. lia.
Qed.
(** scientific text made from the leading digits of [v = floor (|x| / 10^s)] *)
Lemma sci_text x neg v s ds zs rest e : 1 <= v -> (neg = true <-> x < 0)%Q ->
  (inject_Z v * inject_Z 10 ^ s <= Qabs x)%Q -> (Qabs x < inject_Z (v + 1) * inject_Z 10 ^ s)%Q ->
  zdigits 10 v = ds ++ zs ++ rest -> Forall (fun d => d = 0) zs -> ds <> [] ->
  e = s + Z.of_nat (length (zdigits 10 v)) - 1 -> - 2 ^ 31 <= e < 2 ^ 31 ->
  exists q, rread (sg neg ++ mant ds ++ 101 :: fmt_sint e) = Some q /\ trunc_to q x (s + Z.of_nat (length rest)) /\
  (inject_Z 10 ^ e <= Qabs x)%Q /\ (Qabs x < inject_Z 10 ^ (e + 1))%Q.
Proof.
  intros Hv Hn L U E Hz Nd He Re. pose proof (zdigits_len v Hv) as HL.
  pose proof (zdigits_digits 10 v ltac:(lia) ltac:(lia)) as Hd. rewrite E in Hd. apply Forall_app in Hd as [Hd1 _].
  pose proof (pow10_pos s) as Ps. destruct (rread_sci neg ds e Hd1 Nd Re) as (q & R & V). exists q. split; [exact R |]. split.
  - destruct (cut_digits v ds zs rest ltac:(lia) E Hz) as (W0 & W1 & W2). set (W := zval 10 0 ds * 10 ^ Z.of_nat (length zs)) in *.
    assert (Sc : forall k : Z, (inject_Z k * inject_Z 10 ^ (s + Z.of_nat (length rest)) == inject_Z (k * 10 ^ Z.of_nat (length rest)) * inject_Z 10 ^ s)%Q).
    { intros k. rewrite pow10_add, inject_Z_mult, (qpow_Z (Z.of_nat (length rest))) by lia. ring. }
    apply (trunc_intro neg W); auto.
    + rewrite V. replace (e + 1 - Z.of_nat (length ds)) with (Z.of_nat (length zs) + (s + Z.of_nat (length rest))).
      2: { rewrite He, E, !app_length. lia. }
      rewrite (pow10_add (Z.of_nat (length zs))), (qpow_Z (Z.of_nat (length zs))) by lia. unfold W. rewrite inject_Z_mult. ring.
    + rewrite Sc. eapply Qle_trans; [| exact L]. apply Qmult_le_compat_r; [apply inj_le; lia | apply Qlt_le_weak; auto].
    + rewrite Sc. eapply Qlt_le_trans; [exact U |]. apply Qmult_le_compat_r; [apply inj_le; lia | apply Qlt_le_weak; auto].
  - set (D := Z.of_nat (length (zdigits 10 v))) in *.
    assert (1 <= D). { unfold D. destruct (zdigits 10 v) eqn:EZ; [exfalso; revert EZ; apply zdigits_nonnil; lia | cbn [length]; lia]. } split.
    + rewrite He. replace (s + D - 1) with (D - 1 + s) by lia. rewrite pow10_add, qpow_Z by lia.
      eapply Qle_trans; [| exact L]. apply Qmult_le_compat_r; [apply inj_le; lia | apply Qlt_le_weak; auto].
    + rewrite He. replace (s + D - 1 + 1) with (D + s) by lia. rewrite pow10_add, qpow_Z by lia.
      eapply Qlt_le_trans; [exact U |]. apply Qmult_le_compat_r; [apply inj_le; lia | apply Qlt_le_weak; auto].
Qed.
Lemma mant_len ds : ds <> [] -> (length (mant ds) = length ds + (if (length ds =? 1)%nat then 0 else 1))%nat.
Proof. intros N. destruct ds as [| d [| d' t]]; [congruence | reflexivity |]. cbn [mant length map Nat.eqb]. rewrite map_length. lia. Qed.
Lemma sci_render_mant ds : Forall digit ds -> ds <> [] -> sci_render ds = mant ds.
Proof.
  intros H N. destruct ds as [| d [| d' t]]; [congruence | |]; inversion H as [| ? ? H1 H2]; subst; cbn [sci_render mant]; rewrite fmt_1 by auto; auto.
  cbn [app]. f_equal. f_equal. rewrite <- (concat_digits (d' :: t) H2). f_equal. apply map_ext_in. intros c Hc. rewrite Forall_forall in H2. specialize (H2 c Hc).
  unfold fmt_sint. destruct (Z.ltb_spec c 0); auto. unfold digit in H2. lia.
Qed.
(** [sci_parts] as a cut digit string *)
Lemma sci_parts_cut v max : 1 <= v < 18446744073709551616 -> (1 <= max)%nat ->
  exists ds zs rest, sci_parts v max = Ok (ds, Z.of_nat (length (zdigits 10 v)) - 1) /\ zdigits 10 v = ds ++ zs ++ rest /\ Forall (fun d => d = 0) zs /\
    length rest = (length (zdigits 10 v) - max)%nat /\ (1 <= length ds <= max)%nat /\ (length ds = 1%nat \/ last ds 0 <> 0).
Proof.
  intros Hv Hm. unfold sci_parts. rewrite sci_digits_spec by lia. destruct (Z.eqb_spec v 0); [lia |]. cbn [bind]. rewrite rev_length.
  pose proof (zdigits_nonnil 10 v ltac:(lia) ltac:(lia)) as Hnn.
  destruct (Nat.ltb_spec 0 (length (zdigits 10 v))) as [HD | HD]. 2: { destruct (zdigits 10 v); [congruence | cbn in HD; lia]. }
  destruct (sci_pop_spec max Hm (rev (zdigits 10 v))) as (t0 & t1 & P1 & P2 & P3 & P4 & P5 & P6).
  { intros C. apply Hnn. rewrite <- (rev_involutive (zdigits 10 v)), C. reflexivity. }
  set (r := sci_pop max (rev (zdigits 10 v))) in *. rewrite rev_length in P2.
  exists (rev r), (rev t1), (rev t0). split; [reflexivity |]. rewrite !rev_length. splits; auto.
  - rewrite <- (rev_involutive (zdigits 10 v)), P1, !rev_app_distr, app_assoc. reflexivity.
  - apply Forall_rev; auto.
  - destruct r; [congruence | cbn; lia].
  - rewrite last_rev_hd. auto.
Qed.
