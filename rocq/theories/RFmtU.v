(** The text of a Ratio: the three layouts of [to_approx_string] put together. *)
From Coq Require Import Zquot Qpower Qfield.
From Coq Require Lqa.
From Verif Require Import Base USpec SSpec UFacts UBig UFun UStr UStrP UEq UPow UPrime USci ULog BBig BSpec BEq RBig RSpec REq RShrink RStr RStrP RIeee RIter RIterL XFun RFmt RFmtP RFmtT RFmtQ RFmtR RFmtS.
Local Open Scope Z_scope.

(** plain digits, at most [M] characters; cut at the decimal place [j], which leaves [M - 1] characters less the sign and the digits before the point *)
Definition fixed_style (x : Q) (M : nat) (t : list Z) (j : Z) : Prop :=
  ~ In 101 t /\ (length t <= M)%nat /\ j <= 0 /\
  (forall k, 1 <= k -> (Qabs x < inject_Z 10 ^ k)%Q -> j <= k + 1 + (if qltb x 0 then 1 else 0) - Z.of_nat M).
(** mantissa, the letter e, and the exponent [e] of the leading digit; more than [M] characters only when the exponent needs them *)
Definition sci_style (x : Q) (M : nat) (t : list Z) (j : Z) : Prop :=
  exists m ex e, t = m ++ 101 :: ex /\ ~ In 101 m /\ snumeral 10 [] e ex /\ (inject_Z 10 ^ e <= Qabs x)%Q /\ (Qabs x < inject_Z 10 ^ (e + 1))%Q /\
    let M' := Nat.max M (length ex + 4) in let avail := Z.of_nat M' - Z.of_nat (length ex) - (if qltb x 0 then 1 else 0) - 2 in
    (length t <= M')%nat /\ 1 <= avail /\
    (0 <= e -> j <= Z.max 0 (e + 1 - Z.min 9 avail)) /\
    (e < 0 -> j <= e + 1 - Z.min (if e <=? -9 then 8 else 2) avail).

(** digits, minus, point and e *)
Definition tchar (c : Z) : Prop := c = 45 \/ c = 46 \/ c = 101 \/ 48 <= c <= 57.

Lemma fmt_sint_numeral e : snumeral 10 [] e (fmt_sint e).
Proof.
  unfold snumeral, fmt_sint. destruct (Z.ltb_spec e 0).
  - exists (fmt_uint 10 (- e)). split; [reflexivity |]. replace (Z.abs e) with (- e) by lia. apply fmt_numeral; lia.
  - exists (fmt_uint 10 e). split; [reflexivity |]. replace (Z.abs e) with e by lia. apply fmt_numeral; lia.
Qed.
Lemma dec_chars n c : 0 <= n -> In c (fmt_uint 10 n) -> 48 <= c <= 57.
Proof. intros Hn H. assert (fmt_sint n = fmt_uint 10 n) as E by (unfold fmt_sint; destruct (Z.ltb_spec n 0); [lia | reflexivity]).
  unfold fmt_uint in H. apply in_map_iff in H. destruct H as (d & <- & H). pose proof (proj1 (Forall_forall _ _) (zdigits_digits 10 n ltac:(lia) Hn) d H) as D. cbv beta in D.
  unfold dchar. destruct (Z.ltb_spec d 10); lia.
Qed.
Lemma digit_chars ds c : Forall digit ds -> In c (map dchar ds) -> 48 <= c <= 57.
Proof. intros F H. apply in_map_iff in H. destruct H as (d & <- & H). pose proof (proj1 (Forall_forall _ _) F d H) as D. unfold digit in D. unfold dchar. destruct (Z.ltb_spec d 10); lia. Qed.
Lemma sg_chars neg c : In c (sg neg) -> c = 45.
Proof. destruct neg; cbn; intuition. Qed.
Lemma slen_eq neg : Z.of_nat (slen neg) = if neg then 1 else 0. Proof. destruct neg; reflexivity. Qed.
Lemma mant_chars ds c : Forall digit ds -> In c (mant ds) -> c = 46 \/ 48 <= c <= 57.
Proof.
  intros F H. destruct ds as [| d [| d' t]]; cbn [mant] in H.
  - destruct H.
  - right. apply (digit_chars [d]); auto.
  - destruct H as [H | [H | H]].
    + right. apply (digit_chars [d]); [inversion F; subst; constructor; [assumption | constructor] | left; exact H].
    + left. auto.
    + right. inversion F; subst. apply (digit_chars (d' :: t)); auto.
Qed.
Lemma frac_chars ds c : Forall digit ds -> In c (frac_text ds) -> c = 46 \/ 48 <= c <= 57.
Proof.
  intros F H. destruct ds as [| d t]; [destruct H |]. cbn [frac_text] in H. destruct H as [H | H]; [left; auto |]. right. apply (digit_chars (d :: t)); auto.
Qed.
Lemma pow10_le a b : a <= b -> (inject_Z 10 ^ a <= inject_Z 10 ^ b)%Q.
Proof.
  intros H. replace b with (a + (b - a)) by lia. rewrite pow10_add, (qpow_Z (b - a)) by lia. pose proof (pow10_pos a) as P.
  assert (T : 1 <= 10 ^ (b - a)). { assert (0 < 10 ^ (b - a)) by (apply Z.pow_pos_nonneg; lia). lia. }
  assert (T2 : (1 <= inject_Z (10 ^ (b - a)))%Q) by (apply (inj_le 1); lia).
  rewrite <- (Qmult_1_r (inject_Z 10 ^ a)) at 1. apply Qmult_le_l; auto.
Qed.

Lemma tchar_fixed neg n ds : 0 <= n -> Forall digit ds -> Forall tchar (sg neg ++ fmt_uint 10 n ++ frac_text ds).
Proof.
  intros Hn Hd. apply Forall_forall. intros c H. apply in_app_or in H as [H | H]; [apply sg_chars in H; left; auto |].
  apply in_app_or in H as [H | H]; [apply dec_chars in H; auto; unfold tchar; lia | apply frac_chars in H; auto; unfold tchar; lia].
Qed.
Lemma tchar_sci neg ds e : Forall digit ds -> Forall tchar (sg neg ++ mant ds ++ 101 :: fmt_sint e).
Proof.
  intros Hd. apply Forall_forall. intros c H. apply in_app_or in H as [H | H]; [apply sg_chars in H; left; auto |].
  apply in_app_or in H as [H | H]; [apply mant_chars in H; auto; unfold tchar; lia |]. destruct H as [H | H]; [unfold tchar; lia |]. apply sint_chars in H. unfold tchar; lia.
Qed.
(** a minus exactly for negative numbers, then a digit *)
Definition stext (neg : bool) (t : list Z) : Prop := Forall tchar t /\ exists d u, t = (if neg then [45] else []) ++ d :: u /\ 48 <= d <= 57.
Lemma stext_fixed neg n ds : 0 <= n -> Forall digit ds -> stext neg (sg neg ++ fmt_uint 10 n ++ frac_text ds).
Proof.
  intros Hn Hd. split; [now apply tchar_fixed |]. destruct (fmt_uint 10 n) as [| d u] eqn:E; [now apply fmt_nonnil in E |]. exists d, (u ++ frac_text ds). split; [reflexivity |].
  apply (dec_chars n); auto. rewrite E. now left.
Qed.
Lemma stext_sci neg ds e : Forall digit ds -> ds <> [] -> stext neg (sg neg ++ mant ds ++ 101 :: fmt_sint e).
Proof.
  intros Hd N. split; [now apply tchar_sci |]. destruct ds as [| d t]; [congruence |]. inversion Hd as [| ? ? D _]; subst. exists (dchar d). destruct t as [| d' t]; cbn [mant map app]; eexists; (split; [reflexivity | now apply dchar_dec]).
Qed.
Lemma fmt_sint_len e : - 10000 < e < 10000 -> (length (fmt_sint e) <= 5)%nat.
Proof.
  intros He. unfold fmt_sint. assert (K : forall z, 0 <= z < 10000 -> (length (fmt_uint 10 z) <= 4)%nat).
  { intros z Hz. unfold fmt_uint. rewrite map_length. destruct (Z.eq_dec z 0) as [-> | Nz]; [cbn; lia |]. pose proof (zdigits_len_bounds z 0 4 ltac:(lia) ltac:(lia) ltac:(cbn; lia)). lia. }
  destruct (Z.ltb_spec e 0); cbn [length]; [pose proof (K (- e) ltac:(lia)) | pose proof (K e ltac:(lia))]; lia.
Qed.
Lemma exp_range K x e : (2 * inject_Z 10 ^ (- K) < Qabs x)%Q -> (2 * Qabs x < inject_Z 10 ^ K)%Q -> (inject_Z 10 ^ e <= Qabs x)%Q -> (Qabs x < inject_Z 10 ^ (e + 1))%Q -> - K - 1 < e < K.
Proof.
  intros R1 R2 F4 F5. split.
  - assert (- K < e + 1); [| lia]. apply pow10_lt_inv. eapply Qle_lt_trans; [| exact F5]. eapply Qle_trans; [| apply Qlt_le_weak; exact R1]. pose proof (pow10_pos (- K)) as P0. revert P0. generalize (inject_Z 10 ^ (- K))%Q. intros; Lqa.lra.
  - apply pow10_lt_inv. eapply Qle_lt_trans; [exact F4 |]. eapply Qle_lt_trans; [| exact R2]. pose proof (Qabs_nonneg x) as P0. revert P0. generalize (Qabs x). intros; Lqa.lra.
Qed.
Lemma near_range x l a : (0 <= l -> 0 <= a /\ qd x * 10 ^ a <= 2 * Z.abs (qn x) /\ Z.abs (qn x) < 2 * qd x * 10 ^ (a + 1) /\
     (inject_Z 10 ^ a <= 2 * Qabs x)%Q /\ (Qabs x < 2 * inject_Z 10 ^ (a + 1))%Q) ->
  (l < 0 -> a <= 0 /\ Z.abs (qn x) * 10 ^ (- a) <= 2 * qd x /\ qd x < 2 * Z.abs (qn x) * 10 ^ (- a + 1) /\
     (Qabs x <= 2 * inject_Z 10 ^ a)%Q /\ (inject_Z 10 ^ (a - 1) < 2 * Qabs x)%Q) ->
  -9990 <= a <= 9990 -> (2 * inject_Z 10 ^ (- 9993) < Qabs x)%Q /\ (2 * Qabs x < inject_Z 10 ^ 9993)%Q.
Proof.
  intros A1 A2 Ba.
  assert (C1 : forall k, -9991 <= k -> (4 * inject_Z 10 ^ (- 9993) < inject_Z 10 ^ k)%Q).
    { intros k Hk. eapply Qlt_le_trans; [| apply (pow10_le (- 9991)); lia]. replace (- 9991) with (- 9993 + 2) by lia. rewrite Qpower_plus by discriminate. pose proof (pow10_pos (- 9993)) as P0. revert P0. generalize (inject_Z 10 ^ (- 9993))%Q. intros g P0. change (inject_Z 10 ^ 2)%Q with (100 # 1). Lqa.lra. }
    assert (C2 : forall k, k <= 9991 -> (4 * inject_Z 10 ^ k < inject_Z 10 ^ 9993)%Q).
    { intros k Hk. eapply Qle_lt_trans; [apply Qmult_le_l; [reflexivity | apply (pow10_le k 9991); lia] |]. replace 9993 with (9991 + 2) by lia. rewrite Qpower_plus by discriminate. pose proof (pow10_pos 9991) as P0. revert P0. generalize (inject_Z 10 ^ 9991)%Q. intros g P0. change (inject_Z 10 ^ 2)%Q with (100 # 1). Lqa.lra. }
    destruct (Z_lt_le_dec l 0) as [C | C].
    - destruct (A2 C) as (B0 & _ & _ & B1 & B2). specialize (C1 (a - 1) ltac:(lia)). specialize (C2 a ltac:(lia)). revert C1 C2 B1 B2. generalize (inject_Z 10 ^ (- 9993))%Q (inject_Z 10 ^ 9993)%Q (inject_Z 10 ^ a)%Q (inject_Z 10 ^ (a - 1))%Q. intros; split; Lqa.lra.
    - destruct (A1 C) as (B0 & _ & _ & B1 & B2). specialize (C1 a ltac:(lia)). specialize (C2 (a + 1) ltac:(lia)). revert C1 C2 B1 B2. generalize (inject_Z 10 ^ (- 9993))%Q (inject_Z 10 ^ 9993)%Q (inject_Z 10 ^ a)%Q (inject_Z 10 ^ (a + 1))%Q. intros; split; Lqa.lra.
Qed.
Theorem approx_mid x max_len : ~ (x == 0)%Q -> small_rat x -> Z.of_nat max_len < 2 ^ 63 ->
  (forall l a, log2_diff (rof x) = Ok (bof l) -> log10_i64 (bof l) = Ok a -> -9990 <= a <= 9990) ->
  let M := Nat.max max_len 6 in let m := Z.of_nat M - 2 in
  exists t q j, rto_approx_string (rof x) max_len = Ok t /\ rread t = Some q /\ trunc_to q x j /\ stext (qltb x 0) t /\ (length t <= M + 9)%nat /\
    (fixed_style x M t j \/ sci_style x M t j) /\
    ((2 * inject_Z 10 ^ (- m) < Qabs x)%Q -> (2 * Qabs x < inject_Z 10 ^ m)%Q -> fixed_style x M t j) /\
    ((2 * inject_Z 10 ^ m <= Qabs x)%Q \/ (2 * Qabs x <= inject_Z 10 ^ (- m))%Q -> sci_style x M t j).
Proof.
  intros Hx Hs HL Ba M m. assert (HM : (6 <= M)%nat) by (unfold M; lia).
  assert (HM2 : Z.of_nat M < 2 ^ 63) by (unfold M; lia). change (2 ^ 63) with 9223372036854775808 in HM2.
  destruct (est_q x Hx Hs) as (l & a & E1 & E2 & Ra & Rl & A1 & A2). specialize (Ba l a E1 E2).
  destruct (near_range x l a A1 A2 Ba) as [R1 R2].
  assert (LEN : forall ds e, (inject_Z 10 ^ e <= Qabs x)%Q -> (Qabs x < inject_Z 10 ^ (e + 1))%Q -> (slen (qltb x 0) + length (mant ds) + elen e <= Nat.max M (elen e + 3))%nat -> (length (sg (qltb x 0) ++ mant ds ++ 101%Z :: fmt_sint e) <= M + 9)%nat).
  { intros ds e X1 X2 X3. pose proof (exp_range 9993 x e R1 R2 X1 X2). pose proof (fmt_sint_len e ltac:(lia)). rewrite !app_length. cbn [length] in *. lia. }
  clear R1 R2.
  assert (TOP : rto_approx_string (rof x) max_len = if Z.of_nat M - 3 <? a then ta_large (rof x) (sg (qltb x 0)) M a
     else if a <? - (Z.of_nat M - 3) then ta_small (rof x) (sg (qltb x 0)) M a else ta_mid (rof x) (sg (qltb x 0)) M).
  { unfold rto_approx_string. fold M. rewrite E1. cbn [bind]. rewrite E2. cbn [bind]. unfold sabs. rewrite s64 by lia. cbn [bind].
    destruct (Z.ltb_spec 9990 (Z.abs a)); [lia |].
    assert (CS : casts 64 (Z.of_nat M) = Z.of_nat M). { unfold casts. change (2 ^ 64) with 18446744073709551616. change (2 ^ (64 - 1)) with 9223372036854775808. rewrite Z.mod_small by lia. destruct (Z.ltb_spec (Z.of_nat M) 9223372036854775808); lia. }
    rewrite CS. unfold ssub. rewrite s64 by lia. cbn [bind]. rewrite Ris_neg. fold (sg (qltb x 0)).
    destruct (Z.of_nat M - 3 <? a); [reflexivity |]. unfold sneg. rewrite s64 by lia. reflexivity. }
  set (neg := qltb x 0) in *. clear E1 E2.
  assert (Fst : forall t q ds j k, t = sg neg ++ k ++ frac_text ds -> Forall digit ds -> k = fmt_uint 10 (Z.abs (qn x) / qd x) -> rread t = Some q -> (length t <= M)%nat ->
     j = - Z.of_nat (M - (length k + 1 + slen neg)) -> fixed_style x M t j).
  { intros t q ds j k Et Fd Ek _ Lt Ej. pose proof (rof_den_pos x) as Dp. change (QDen (Qred x)) with (qd x) in Dp.
    assert (N0 : 0 <= Z.abs (qn x) / qd x) by (apply Z.div_pos; lia). unfold fixed_style. fold neg. splits; auto.
    - rewrite Et. intros H. apply in_app_or in H as [H | H]; [apply sg_chars in H; lia |]. apply in_app_or in H as [H | H].
      + rewrite Ek in H. apply dec_chars in H; auto. lia.
      + apply frac_chars in H; auto. lia.
    - lia.
    - intros e He Hlt. assert (LK : Z.of_nat (length k) <= e).
      { rewrite Ek. unfold fmt_uint. rewrite map_length. set (b := Z.abs (qn x) / qd x) in *. destruct (Z.eq_dec b 0) as [Zb | Zb]. { rewrite Zb. cbn. lia. }
        assert (BX : (inject_Z b <= Qabs x)%Q). { rewrite qabs_val. apply Qle_shift_div_l; [apply (inj_lt 0); auto |]. rewrite <- inject_Z_mult. apply inj_le. unfold b. rewrite Z.mul_comm. apply Z.mul_div_le. auto. }
        assert (BZ : b < 10 ^ e). { rewrite Zlt_Qlt. eapply Qle_lt_trans; [exact BX |]. rewrite <- qpow_Z by lia. exact Hlt. }
        apply (zdigits_len_bounds b 0 e); lia. }
      rewrite Ej. rewrite <- slen_eq. lia. }
  assert (Sst : forall t ds e j, t = sg neg ++ mant ds ++ 101 :: fmt_sint e -> Forall digit ds -> (inject_Z 10 ^ e <= Qabs x)%Q -> (Qabs x < inject_Z 10 ^ (e + 1))%Q ->
     let M' := Nat.max M (elen e + 3) in (slen neg + length (mant ds) + elen e <= M')%nat -> 
     (0 <= e -> j <= Z.max 0 (e + 1 - Z.min 9 (Z.of_nat M' - Z.of_nat (elen e) - Z.of_nat (slen neg) - 1))) ->
     (e < 0 -> j <= e + 1 - Z.min (if e <=? -9 then 8 else 2) (Z.of_nat M' - Z.of_nat (elen e) - Z.of_nat (slen neg) - 1)) -> sci_style x M t j).
  { intros t ds e j Et Fd X1 X2 M' Ll J1 J2. unfold sci_style. fold neg. exists (sg neg ++ mant ds), (fmt_sint e), e. split; [rewrite <- app_assoc; exact Et |]. split.
    { intros H. apply in_app_or in H as [H | H]; [apply sg_chars in H; lia |]. apply mant_chars in H; auto. lia. }
    split; [apply fmt_sint_numeral |]. split; [exact X1 |]. split; [exact X2 |]. cbn zeta. cbn [length] in *. subst M'.
    replace (S (length (fmt_sint e)) + 3)%nat with (length (fmt_sint e) + 4)%nat in * by lia. set (M' := Nat.max M (length (fmt_sint e) + 4)) in *.
    rewrite <- slen_eq. assert (SL : (slen neg <= 1)%nat) by (destruct neg; cbn; lia).
    replace (Z.of_nat M' - Z.of_nat (length (fmt_sint e)) - Z.of_nat (slen neg) - 2) with (Z.of_nat M' - Z.of_nat (S (length (fmt_sint e))) - Z.of_nat (slen neg) - 1) by lia.
    split. { rewrite Et, !app_length. cbn [length]. lia. } split. { clear - SL. unfold M'. lia. } split; assumption. }
  assert (PW : forall u v, (inject_Z 10 ^ u <= inject_Z 10 ^ v)%Q -> u <= v) by (intros; now apply pow10_le_inv).
  assert (Gx : (0 <= Qabs x)%Q) by apply Qabs_nonneg.
  destruct (Z.ltb_spec (Z.of_nat M - 3) a) as [Hl | Hl].
  - (* large *)
    assert (L0 : 0 <= l). { destruct (Z_lt_le_dec l 0) as [C | C]; auto. destruct (A2 C) as (B0 & _). lia. }
    destruct (A1 L0) as (B0 & B1 & B2 & B3 & B4).
    destruct (ta_large_ok x M a Hx HM ltac:(lia) B1 B2) as (ds & e & q & j & T1 & T2 & T3 & T4 & T5 & T6 & T7 & T8 & T9 & T10). fold neg in T1, T4, T9, T10.
    exists (sg neg ++ mant ds ++ 101 :: fmt_sint e), q, j. rewrite TOP.
    assert (SS : sci_style x M (sg neg ++ mant ds ++ 101 :: fmt_sint e) j). { eapply Sst; eauto. intros; lia. }
    splits; auto; [now apply stext_sci |]. intros _ K. exfalso.
    assert ((inject_Z 10 ^ a < inject_Z 10 ^ m)%Q) as K2 by (revert K B3; generalize (inject_Z 10 ^ a)%Q (inject_Z 10 ^ m)%Q; intros; Lqa.lra). apply pow10_lt_inv in K2. lia.
  - destruct (Z.ltb_spec a (- (Z.of_nat M - 3))) as [Hm | Hm].
    + (* small *)
      assert (L0 : l < 0). { destruct (Z_lt_le_dec l 0) as [C | C]; auto. destruct (A1 C) as (B0 & _). lia. }
      destruct (A2 L0) as (B0 & B1 & B2 & B3 & B4).
      destruct (ta_small_ok x M a Hx Hs HM ltac:(lia) B1 B2) as (ds & e & q & j & T1 & T2 & T3 & T4 & T5 & T6 & T7 & T8 & T9). fold neg in T1, T4, T8, T9.
      exists (sg neg ++ mant ds ++ 101 :: fmt_sint e), q, j. rewrite TOP.
      assert (EN : e < 0).
      { apply (pow10_lt_inv e 0). eapply Qle_lt_trans; [exact T6 |]. eapply Qle_lt_trans; [exact B3 |].
        eapply Qle_lt_trans; [apply Qmult_le_l; [reflexivity | apply (pow10_le a (-1)); lia] |]. reflexivity. }
      assert (SS : sci_style x M (sg neg ++ mant ds ++ 101 :: fmt_sint e) j).
      { eapply Sst; eauto; [intros; lia |]. intros _. replace (Z.of_nat (Nat.max M (elen e + 3)) - Z.of_nat (elen e) - Z.of_nat (slen neg) - 1) with (Z.of_nat (Nat.max M (elen e + 3)) - Z.of_nat (slen neg) - Z.of_nat (elen e) - 1) by lia.
        eapply Z.le_trans; [exact T9 |]. set (av := Z.of_nat (Nat.max M (elen e + 3)) - Z.of_nat (slen neg) - Z.of_nat (elen e) - 1). clearbody av. clear T9.
        destruct (Z.leb_spec e (-9)) as [C9 | C9]; destruct (Z.ltb_spec a (-6)) as [C6 | C6]; try lia. exfalso.
        assert ((inject_Z 10 ^ (a - 1) < inject_Z 10 ^ (-7))%Q) as K.
        { eapply Qlt_trans; [exact B4 |]. eapply Qlt_le_trans; [apply Qmult_lt_l; [reflexivity | exact T7] |]. eapply Qle_trans; [apply Qmult_le_l; [reflexivity | apply (pow10_le _ (-8)); lia] |]. discriminate. }
        apply pow10_lt_inv in K. lia. }
      splits; auto; [now apply stext_sci |]. intros K _. exfalso.
      assert ((inject_Z 10 ^ (- m) < inject_Z 10 ^ a)%Q) as K2 by (revert K B3; generalize (inject_Z 10 ^ a)%Q (inject_Z 10 ^ (- m))%Q; intros; Lqa.lra). apply pow10_lt_inv in K2. lia.
    + (* fixed *)
      assert (HB : Z.abs (qn x) < 2 * qd x * 10 ^ (Z.of_nat M - 2)).
      { pose proof (rof_den_pos x) as Dp. change (QDen (Qred x)) with (qd x) in Dp.
        destruct (Z_lt_le_dec l 0) as [C | C].
        - destruct (A2 C) as (B0 & B1 & _). assert (1 <= 10 ^ (- a)). { assert (0 < 10 ^ (- a)) by (apply Z.pow_pos_nonneg; lia). lia. }
          assert (10 <= 10 ^ (Z.of_nat M - 2)). { change 10 with (10 ^ 1) at 1. apply Z.pow_le_mono_r; lia. }
          set (u := 10 ^ (- a)) in *. set (v := 10 ^ (Z.of_nat M - 2)) in *. clearbody u v. clear - H H0 B1 Dp. nia.
        - destruct (A1 C) as (B0 & _ & B2 & _). assert (10 ^ (a + 1) <= 10 ^ (Z.of_nat M - 2)) by (apply Z.pow_le_mono_r; lia).
          set (u := 10 ^ (a + 1)) in *. set (v := 10 ^ (Z.of_nat M - 2)) in *. clearbody u v. clear - H B2 Dp. nia. }
      destruct (ta_mid_ok x M Hs HM HB) as (t & q & ds & T1 & T2 & T3 & T4 & T5 & T6 & T7). fold neg in T1, T3, T5. 
      eexists t, q, _. rewrite TOP. split; [exact T1 |]. split; [exact T2 |]. split; [exact T3 |].
      assert (FS : fixed_style x M t (- Z.of_nat (M - (length (fmt_uint 10 (Z.abs (qn x) / qd x)) + 1 + slen neg)))) by (eapply Fst; eauto).
      splits; auto.
      2: lia.
      { rewrite T5. apply stext_fixed; auto. pose proof (rof_den_pos x). apply Z.div_pos; lia. }
      intros K. exfalso. destruct (Z_lt_le_dec l 0) as [C | C].
      * destruct (A2 C) as (B0 & _ & _ & B3 & B4). destruct K as [K | K].
        -- assert ((inject_Z 10 ^ m <= inject_Z 10 ^ a)%Q) as K2 by (revert K B3; generalize (inject_Z 10 ^ a)%Q (inject_Z 10 ^ m)%Q; intros; Lqa.lra). apply pow10_le_inv in K2. lia.
        -- assert ((inject_Z 10 ^ (a - 1) < inject_Z 10 ^ (- m))%Q) as K2 by (revert K B4; generalize (inject_Z 10 ^ (a - 1))%Q (inject_Z 10 ^ (- m))%Q; intros; Lqa.lra). apply pow10_lt_inv in K2. lia.
      * destruct (A1 C) as (B0 & _ & _ & B3 & B4). destruct K as [K | K].
        -- assert ((inject_Z 10 ^ m < inject_Z 10 ^ (a + 1))%Q) as K2 by (revert K B4; generalize (inject_Z 10 ^ (a + 1))%Q (inject_Z 10 ^ m)%Q; intros; Lqa.lra). apply pow10_lt_inv in K2. lia.
        -- assert ((inject_Z 10 ^ a <= inject_Z 10 ^ (- m))%Q) as K2 by (revert K B3; generalize (inject_Z 10 ^ a)%Q (inject_Z 10 ^ (- m))%Q; intros; Lqa.lra). apply pow10_le_inv in K2. lia.
Qed.

Theorem approx_ok x max_len : ~ (x == 0)%Q -> small_rat x -> Z.of_nat max_len < 2 ^ 63 ->
  (2 * inject_Z 10 ^ (- 9991) < Qabs x)%Q -> (2 * Qabs x < inject_Z 10 ^ 9991)%Q ->
  let M := Nat.max max_len 6 in let m := Z.of_nat M - 2 in
  exists t q j, rto_approx_string (rof x) max_len = Ok t /\ rread t = Some q /\ trunc_to q x j /\ stext (qltb x 0) t /\ (length t <= M + 9)%nat /\
    (fixed_style x M t j \/ sci_style x M t j) /\
    ((2 * inject_Z 10 ^ (- m) < Qabs x)%Q -> (2 * Qabs x < inject_Z 10 ^ m)%Q -> fixed_style x M t j) /\
    ((2 * inject_Z 10 ^ m <= Qabs x)%Q \/ (2 * Qabs x <= inject_Z 10 ^ (- m))%Q -> sci_style x M t j).
Proof.
  intros Hx Hs HL R1 R2. apply approx_mid; auto. intros l' a' F1 F2. destruct (est_q x Hx Hs) as (l & a & E1 & E2 & Ra & Rl & A1 & A2).
  assert (EL : bof l' = bof l) by congruence. rewrite EL in F2. assert (a' = a) by congruence. subst a'.
  destruct (Z_lt_le_dec l 0) as [C | C].
  - destruct (A2 C) as (B0 & _ & _ & B1 & B2). split; [| lia]. assert ((inject_Z 10 ^ (- 9991) < inject_Z 10 ^ a)%Q) as K by (revert R1 B1; generalize (inject_Z 10 ^ (- 9991))%Q (inject_Z 10 ^ a)%Q; intros; Lqa.lra).
    apply pow10_lt_inv in K. lia.
  - destruct (A1 C) as (B0 & _ & _ & B1 & B2). split; [lia |]. assert ((inject_Z 10 ^ a < inject_Z 10 ^ 9991)%Q) as K by (revert R2 B1; generalize (inject_Z 10 ^ 9991)%Q (inject_Z 10 ^ a)%Q; intros; Lqa.lra).
    apply pow10_lt_inv in K. lia.
Qed.

(** zero *)
Lemma zval_zeros ds : Forall digit ds -> zval 10 0 ds = 0 -> ds = repeat 0 (length ds).
Proof.
  induction ds as [| d t IH] using rev_ind; intros F Z0; auto. apply Forall_app in F as [F1 F2]. inversion F2 as [| ? ? D _]; subst. unfold digit in D.
  rewrite zval_app in Z0. cbn [zval length] in Z0. 
  assert (N : 0 <= zval 10 0 t). { clear - F1. induction t as [| a t IH] using rev_ind; [cbn; lia |]. apply Forall_app in F1 as [F1 F2]. inversion F2 as [| ? ? D _]; subst. unfold digit in D. rewrite zval_app. cbn [zval]. specialize (IH F1). lia. }
  assert (d = 0) by lia. assert (zval 10 0 t = 0) by lia. subst d. rewrite app_length, repeat_app. cbn. now rewrite <- IH.
Qed.
Lemma pop0_zeros n : pop0 (repeat 0 n) = [].
Proof. induction n; cbn; auto. Qed.
Lemma rev_zeros n : rev (repeat 0 n) = repeat 0 n.
Proof. induction n; auto. cbn [repeat rev]. rewrite IHn. symmetry. apply (repeat_cons n 0). Qed.
Theorem approx_zero max_len : Z.of_nat max_len < 2 ^ 63 -> rto_approx_string (rof 0) max_len = Ok [48].
Proof.
  intros HL. unfold rto_approx_string. set (M := Nat.max max_len 6). assert (HM2 : Z.of_nat M < 2 ^ 63) by (unfold M; lia). change (2 ^ 63) with 9223372036854775808 in HM2.
  assert (HM : (6 <= M)%nat) by (unfold M; lia). clearbody M.
  assert (E1 : (let* log2 := log2_diff (rof 0) in log10_i64 log2) = Ok 0) by (vm_compute; reflexivity).
  destruct (log2_diff (rof 0)) as [l | |]; try discriminate. cbn [bind] in *. rewrite E1. cbn [bind]. change (sabs 64 0) with (Ok 0). cbn [bind]. change (9990 <? 0) with false.
  assert (CS : casts 64 (Z.of_nat M) = Z.of_nat M). { unfold casts. change (2 ^ 64) with 18446744073709551616. change (2 ^ (64 - 1)) with 9223372036854775808. rewrite Z.mod_small by lia. destruct (Z.ltb_spec (Z.of_nat M) 9223372036854775808); lia. }
  rewrite CS. unfold ssub. rewrite s64 by lia. cbn [bind]. destruct (Z.ltb_spec (Z.of_nat M - 3) 0); [lia |]. unfold sneg. rewrite s64 by lia. cbn [bind]. destruct (Z.ltb_spec 0 (- (Z.of_nat M - 3))); [lia |].
  change (ris_neg (rof 0)) with false. cbn iota. unfold ta_mid. rewrite Rtruncate_bi. cbn [bind].
  assert (E2 : bto_string_dec (babs (bof (qtrunc 0))) = Ok [48]) by (vm_compute; reflexivity). rewrite E2. cbn [bind].
  assert (E3 : rfrac (rabs (rof 0)) = Ok (rof 0)) by (vm_compute; reflexivity). rewrite E3. cbn [bind length].
  destruct (ta_frac_ok 1 (M - (1 + 1 + 0)) ltac:(lia) 0 0%Q [] ltac:(lia) ltac:(reflexivity)) as (ds & F1 & F2 & F3 & F4). rewrite F1. cbn [bind app].
  rewrite Z.mul_0_l, Z.div_0_l in F4 by lia. rewrite (zval_zeros ds F3 F4). rewrite rev_zeros, pop0_zeros. reflexivity.
Qed.
