(** Property theorems for BigInt: C19-C23 and the BigInt parts of C12-C16, C53. *)
From Verif Require Import Base USpec UFacts UBig UAddSub UMul UDiv UEq UFun UPow USqrt UPrime SSpec UStr UStrP ULog UMisc Props_U2 BBig BSpec BEq.
From Coq Require Import Znumtheory Zquot.

Lemma rb m z : m = Ok (bof z) -> returns m (fun c => bwf c /\ bval c = z).
Proof. intros ->. apply returns_ok. split; [apply bof_wf | apply bof_val]. Qed.
Lemma rv c z : c = bof z -> bwf c /\ bval c = z.
Proof. intros ->. split; [apply bof_wf | apply bof_val]. Qed.
Lemma on_bof (P : bint -> Prop) : (forall z, P (bof z)) -> forall a, bwf a -> P a.
Proof. intros H a Ha. rewrite <- (bof_bval a Ha). apply H. Qed.
Ltac tob := repeat match goal with H : bwf ?a |- _ =>
  let z := fresh "z" in let E := fresh "E" in
  pose proof (bof_bval a H) as E; set (z := bval a) in *; clearbody z; subst a; clear H; rewrite ?bof_val end.

(** ** C19 ring operations *)
Theorem C19_add_sub_mul : forall a b, bwf a -> bwf b ->
  returns (badd a b) (fun c => bwf c /\ bval c = bval a + bval b) /\
  returns (badd_mut a b) (fun c => bwf c /\ bval c = bval a + bval b) /\
  returns (bsub a b) (fun c => bwf c /\ bval c = bval a - bval b) /\
  returns (bsub_mut a b) (fun c => bwf c /\ bval c = bval a - bval b) /\
  returns (bmul a b) (fun c => bwf c /\ bval c = bval a * bval b) /\
  returns (bmul_mut a b) (fun c => bwf c /\ bval c = bval a * bval b).
Proof. intros. tob. splits; apply rb; auto using Badd, Badd_mut, Bsub, Bsub_mut, Bmul, Bmul_mut. Qed.
(** Full claim: every i32.  Missing: the least i32, on which these panic (next theorem). *)
Theorem C19_add_sub_mul_i32_partial : forall a o, bwf a -> - 2 ^ 31 < o < 2 ^ 31 ->
  returns (badd_i32 a o) (fun c => bwf c /\ bval c = bval a + o) /\
  returns (badd_i32_mut a o) (fun c => bwf c /\ bval c = bval a + o) /\
  returns (bsub_i32 a o) (fun c => bwf c /\ bval c = bval a - o) /\
  returns (bsub_i32_mut a o) (fun c => bwf c /\ bval c = bval a - o) /\
  returns (bmul_i32 a o) (fun c => bwf c /\ bval c = bval a * o) /\
  returns (bmul_i32_mut a o) (fun c => bwf c /\ bval c = bval a * o).
Proof.
  intros a o Ha Ho. change (- 2 ^ 31 < o < 2 ^ 31) with (i32r o) in Ho. tob.
  splits; apply rb; auto using Badd_i32, Badd_i32_mut, Bsub_i32, Bsub_i32_mut, Bmul_i32, Bmul_i32_mut.
Qed.
Theorem C19_i32_min_refuted : forall a, bwf a ->
  badd_i32 a (- 2 ^ 31) = Panic /\ bsub_i32 a (- 2 ^ 31) = Panic /\ bmul_i32 a (- 2 ^ 31) = Panic.
Proof.
  intros a Ha. unfold badd_i32, bsub_i32, bmul_i32, bdiff_i32. rewrite sabs32_min. cbn [bind].
  splits; try reflexivity; match goal with |- (if ?c then _ else _) = _ => destruct c; reflexivity end.
Qed.
Theorem C19_neg_abs_pow2 : forall a e, bwf a -> 0 <= e ->
  (bwf (bopp a) /\ bval (bopp a) = - bval a) /\ (bwf (bopp_mut a) /\ bval (bopp_mut a) = - bval a) /\
  (bwf (babs a) /\ bval (babs a) = Z.abs (bval a)) /\ (bwf (babs_mut a) /\ bval (babs_mut a) = Z.abs (bval a)) /\
  returns (bmul_pow2 a e) (fun c => bwf c /\ bval c = bval a * 2 ^ e) /\
  returns (bmul_pow2_mut a e) (fun c => bwf c /\ bval c = bval a * 2 ^ e).
Proof.
  intros. tob. repeat apply conj; try (rewrite ?Bopp, ?Bopp_mut, ?Babs, ?Babs_mut; apply bof_wf || apply bof_val);
  apply rb; [apply Bmul_pow2 | apply Bmul_pow2_mut]; auto.
Qed.
Theorem C19_zero_is_not_negative : forall a, bwf a -> bval a = 0 -> a = bzero.
Proof. intros a Ha E. apply bval_inj; auto. apply (bof_wf 0). Qed.
Theorem C19_predicates : forall a, bwf a ->
  bis_zero a = (bval a =? 0) /\ bis_one a = (bval a =? 1) /\ bneg a = (bval a <? 0) /\ bval bzero = 0 /\ bval bone = 1.
Proof. intros. tob. splits; auto using Bis_zero, Bis_one. Qed.
Example C19_ex : bwf (mkB [5; 1] true) /\ badd (mkB [5; 1] true) (mkB [5; 1] false) = Ok (mkB [0] false) /\
  bmul (mkB [5; 1] true) (mkB [2] true) = Ok (mkB [10; 2] false) /\ bsub_i32 (mkB [3] false) 7 = Ok (mkB [4] true).
Proof.
  split. { split; [split; [discriminate |]; split; [repeat constructor; lia | right; discriminate] | cbn; lia]. }
  splits; vm_compute; reflexivity.
Qed.

(** ** C20 division *)
Lemma trunc_div_quot a b : b <> 0 -> trunc_div a b (a ÷ b) (Z.rem a b).
Proof.
  intros N. pose proof (Z.quot_rem' a b). pose proof (Z.rem_bound_abs a b N).
  unfold trunc_div. splits; [lia | lia |]. destruct (Z.eq_dec (Z.rem a b) 0) as [-> | N2]; [now left | right].
  now apply Z.rem_sign_nz.
Qed.
Theorem C20_div_rem : forall a b, bwf a -> bwf b -> bval b <> 0 ->
  exists q r, bdiv a b = Ok q /\ bdiv_mut a b = Ok q /\ brem a b = Ok r /\ brem_mut a b = Ok r /\
    bwf q /\ bwf r /\ trunc_div (bval a) (bval b) (bval q) (bval r).
Proof.
  intros a b Ha Hb. tob. intros N. exists (bof (z0 ÷ z)), (bof (Z.rem z0 z)).
  rewrite !bof_val. splits; auto using Bdiv, Bdiv_mut, Brem, Brem_mut, bof_wf, trunc_div_quot.
Qed.
(** the quotient and remainder meant by [trunc_div] are unique, and are those of [Z.quot], [Z.rem] *)
Theorem C20_unique : forall a b q r, trunc_div a b q r -> q = a ÷ b /\ r = Z.rem a b.
Proof.
  intros a b q r (E & A & S). assert (b <> 0) by lia.
  assert (R : Remainder a b r).
  { unfold Remainder. destruct S as [-> | S]; [destruct (Z.lt_ge_cases a 0); lia |].
    destruct a, r; cbn in S; try discriminate; lia. }
  split; [apply (Zquot_unique_full a b q r) | apply (Zrem_unique_full a b q r)]; auto; lia.
Qed.
Theorem C20_div_zero_panics : forall a, bwf a -> forall b, bwf b -> bval b = 0 ->
  bdiv a b = Panic /\ bdiv_mut a b = Panic /\ brem a b = Panic /\ brem_mut a b = Panic /\
  bdiv_i32 a 0 = Panic /\ brem_i32 a 0 = Panic.
Proof.
  intros a Ha b Hb E. apply C19_zero_is_not_negative in E; auto. subst b. clear Hb. tob. change bzero with (bof 0).
  assert (D : bdiv (bof z) (bof 0) = Panic) by apply Bdiv_zero. splits; auto; [unfold bdiv_mut, udiv_mut; rewrite !Bmag; change (Z.abs 0) with 0; now rewrite Ediv_zero by lia | | |].
  - unfold brem. now rewrite D.
  - unfold brem_mut. now rewrite D.
  - unfold bdiv_i32. change (sabs 32 0) with (Ok 0). cbn [bind]. change (castw 32 0) with 0. unfold udiv_u32.
    rewrite udiv_u32_mut_zero; [reflexivity |]. apply uof_wf. lia.
Qed.
(** Full claim: every non-zero i32.  Missing: the least i32 (panics), and for [rem] vectors of 2^32 limbs or more. *)
Theorem C20_div_rem_i32_partial : forall a o, bwf a -> - 2 ^ 31 < o < 2 ^ 31 -> o <> 0 -> Z.of_nat (length (bmag a)) < 2 ^ 32 ->
  exists q r, bdiv_i32 a o = Ok q /\ bdiv_i32_mut a o = Ok q /\ brem_i32 a o = Ok r /\
    bwf q /\ bwf r /\ trunc_div (bval a) o (bval q) (bval r).
Proof.
  intros a o Ha Ho N. change (- 2 ^ 31 < o < 2 ^ 31) with (i32r o) in Ho. tob. rewrite Bmag. intros HL.
  exists (bof (z ÷ o)), (bof (Z.rem z o)). rewrite !bof_val.
  splits; auto using Bdiv_i32, Bdiv_i32_mut, Brem_i32, bof_wf, trunc_div_quot.
Qed.
Theorem C20_i32_min_refuted : forall a, bwf a ->
  bdiv_i32 a (- 2 ^ 31) = Panic /\ brem_i32 a (- 2 ^ 31) = Panic.
Proof. intros a Ha. split; reflexivity. Qed.
(** Full claim: the in-place remainder is the remainder for every divisor.  Missing: divisors above 65536. *)
Theorem C20_rem_i32_mut_partial : forall a o, bwf a -> o <> 0 -> - 65536 <= o <= 65536 -> Z.of_nat (length (bmag a)) <= 65535 ->
  returns (brem_i32_mut a o) (fun r => bwf r /\ exists q, trunc_div (bval a) o q (bval r)).
Proof.
  intros a o Ha N Ho. tob. rewrite Bmag. intros HL. unfold brem_i32_mut.
  destruct (sabs32 o) as (-> & Hc); [lia |]. cbn [bind]. rewrite Hc, Bmag, Bneg.
  eapply returns_bind. { apply urem_u32_mut_spec; [apply uof_wf; lia | lia | exact HL]. }
  intros r (W & V). rewrite uof_uval in V by lia. rewrite mod_abs in V by auto.
  apply returns_ok. rewrite <- (uof_of_wf r W), V. rewrite Eis_zero by lia.
  rewrite (mkB_bof _ _ (Z.rem z o)).
  - rewrite bof_val. split; [apply bof_wf |]. exists (z ÷ o). now apply trunc_div_quot.
  - reflexivity.
  - pose proof (rem_sgn z o N). zb; lia.
Qed.
Theorem C20_rem_i32_mut_refuted : exists a o, bwf a /\ 0 < o < 2 ^ 31 /\ brem_i32_mut a o = Panic /\ brem_i32 a o = Ok (mkB [64771052] true).
Proof.
  exists (mkB [0; 7] true), 1500000001. split.
  { split; [split; [discriminate |]; split; [repeat constructor; lia | right; discriminate] | cbn; lia]. }
  split; [lia |]. split; vm_compute; reflexivity.
Qed.
Theorem C20_rem_pow2 : forall a e, bwf a -> 0 <= e < 31 ->
  returns (brem_pow2 a (2 ^ e)) (fun r => bwf r /\ exists q, trunc_div (bval a) (2 ^ e) q (bval r)).
Proof.
  intros a e Ha He. tob. rewrite Brem_pow2 by auto. apply returns_ok. rewrite bof_val. split; [apply bof_wf |].
  exists (z ÷ 2 ^ e). apply trunc_div_quot. apply Z.pow_nonzero; lia.
Qed.
Example C20_ex : bdiv (mkB [7] true) (mkB [2] false) = Ok (mkB [3] true) /\ brem (mkB [7] true) (mkB [2] false) = Ok (mkB [1] true) /\
  brem (mkB [7] false) (mkB [2] true) = Ok (mkB [1] false) /\ bdiv_i32 (mkB [0; 1] true) (-5) = Ok (mkB [858993459] false).
Proof. splits; vm_compute; reflexivity. Qed.

(** ** C21 comparisons *)
Theorem C21_comparisons : forall a b, bwf a -> bwf b ->
  (blt a b = true <-> bval a < bval b) /\ (bgt a b = true <-> bval a > bval b) /\
  (bleq a b = true <-> bval a <= bval b) /\ (bgeq a b = true <-> bval a >= bval b) /\
  (beq a b = true <-> bval a = bval b) /\ (bneq a b = true <-> bval a <> bval b) /\
  bcomp a b = (bval a ?= bval b) /\ (a = b <-> bval a = bval b).
Proof.
  intros a b Ha Hb. split; [|split; [|split; [|split; [|split; [|split; [|split]]]]]];
  try (split; [congruence | now apply bval_inj]); tob;
  rewrite ?Blt, ?Bgt, ?Bleq, ?Bgeq, ?Beq, ?Bneq, ?Bcomp, ?Z.ltb_lt, ?Z.leb_le, ?Z.eqb_eq, ?negb_true_iff, ?Z.eqb_neq; reflexivity || lia.
Qed.
(** Full claim: every i32.  Missing: the least i32 when the signs agree (panics); [eq_i32] below. *)
Theorem C21_comparisons_i32_partial : forall a o, bwf a -> - 2 ^ 31 < o < 2 ^ 31 ->
  blt_i32 a o = Ok (bval a <? o) /\ bgt_i32 a o = Ok (o <? bval a) /\
  bleq_i32 a o = Ok (bval a <=? o) /\ bgeq_i32 a o = Ok (o <=? bval a) /\ bcomp_i32 a o = Ok (bval a ?= o).
Proof.
  intros a o Ha Ho. change (- 2 ^ 31 < o < 2 ^ 31) with (i32r o) in Ho. tob.
  splits; auto using Blt_i32, Bgt_i32, Bleq_i32, Bgeq_i32, Bcomp_i32.
Qed.
(** Full claim: [eq_i32] never panics.  Missing: numbers of 2 or more limbs compared with an i32 of the same sign. *)
Theorem C21_eq_i32_partial : forall a o, bwf a -> - 2 ^ 31 < o < 2 ^ 31 ->
  Z.abs (bval a) < 2 ^ 32 \/ (bval a < 0 <-> 0 <= o) ->
  beq_i32 a o = Ok (bval a =? o) /\ bneq_i32 a o = Ok (negb (bval a =? o)).
Proof.
  intros a o Ha Ho. change (- 2 ^ 31 < o < 2 ^ 31) with (i32r o) in Ho. tob. intros H.
  assert (E : beq_i32 (bof z) o = Ok (z =? o)) by now apply Beq_i32. split; auto. unfold bneq_i32. now rewrite E.
Qed.
Theorem C21_eq_i32_refuted : forall a o, bwf a -> 2 ^ 32 <= Z.abs (bval a) -> (bval a < 0 <-> o < 0) -> beq_i32 a o = Panic.
Proof. intros a o Ha. tob. intros. apply Beq_i32_panic; auto. Qed.
Theorem C21_i32_min_refuted : exists a, bwf a /\ blt_i32 a (- 2 ^ 31) = Panic /\ bgt_i32 a (- 2 ^ 31) = Panic /\
  bcomp_i32 a (- 2 ^ 31) = Panic /\ beq_i32 a (- 2 ^ 31) = Panic.
Proof. exists (bof (-1)). split; [apply bof_wf |]. splits; reflexivity. Qed.
Example C21_ex : blt (mkB [0; 1] true) (mkB [5] true) = true /\ bcomp (mkB [9] false) (mkB [0; 1] true) = Gt /\
  bgeq_i32 (mkB [9] true) (-9) = Ok true /\ beq_i32 (mkB [0; 1] false) 3 = Panic.
Proof. splits; vm_compute; reflexivity. Qed.

(** ** C22 fixed-width conversions *)
(** Full claim: every value of the type.  Missing: its minimum, on which the constructor panics. *)
Theorem C22_from_partial : forall n,
  (- 2 ^ 31 < n < 2 ^ 31 -> returns (bfrom_i32 n) (fun a => bwf a /\ bval a = n)) /\
  (- 2 ^ 63 < n < 2 ^ 63 -> returns (bfrom_i64 n) (fun a => bwf a /\ bval a = n)) /\
  (- 2 ^ 127 < n < 2 ^ 127 -> returns (bfrom_i128 n) (fun a => bwf a /\ bval a = n)).
Proof. intros n. split; [| split]; intros; apply rb; [apply Bfrom_i32 | apply Bfrom_i64 | apply Bfrom_i128]; auto. Qed.
Theorem C22_from_min_refuted : bfrom_i32 (- 2 ^ 31) = Panic /\ bfrom_i64 (- 2 ^ 63) = Panic /\ bfrom_i128 (- 2 ^ 127) = Panic.
Proof. splits; reflexivity. Qed.
Theorem C22_to_i32_i64 : forall a, bwf a ->
  bto_i32 a = (if (- 2 ^ 31 <=? bval a) && (bval a <? 2 ^ 31) then ROk (bval a) else RErr NotInRange) /\
  bto_i64 a = (if (- 2 ^ 63 <=? bval a) && (bval a <? 2 ^ 63) then ROk (bval a) else RErr NotInRange).
Proof. intros. tob. split; [exact (Bto_i32 z) | exact (Bto_i64 z)]. Qed.
(** Full claim: the whole i128 range.  Missing: its minimum, which is reported out of range (next theorem). *)
Theorem C22_to_i128_partial : forall a, bwf a ->
  bto_i128 a = (if (- 2 ^ 127 <? bval a) && (bval a <? 2 ^ 127) then ROk (bval a) else RErr NotInRange).
Proof. intros. tob. exact (Bto_i128 z). Qed.
Theorem C22_to_i128_refuted : exists a, bwf a /\ bval a = - 2 ^ 127 /\ bto_i128 a = RErr NotInRange.
Proof. exists (bof (- 2 ^ 127)). split; [apply bof_wf |]. split; [apply bof_val | rewrite Bto_i128; reflexivity]. Qed.
Theorem C22_ubi : forall a u s, bwf a -> uwf u ->
  (bto_ubi a = if bval a <? 0 then RErr NotInRange else ROk (uof (bval a))) /\
  (bwf (from_ubi u s) /\ bval (from_ubi u s) = if s then - uval u else uval u).
Proof.
  intros a u s Ha Hu. split; [tob; apply Bto_ubi |]. apply rv. rewrite <- (uof_of_wf u Hu) at 1. apply Bfrom_ubi. now apply uwf_nonneg.
Qed.
Theorem C22_round_trip : forall n, - 2 ^ 31 < n < 2 ^ 31 ->
  returns (bfrom_i32 n) (fun a => bto_i32 a = ROk n).
Proof.
  intros n Hn. rewrite Bfrom_i32 by auto. apply returns_ok. rewrite Bto_i32. unfold in_s. change (32 - 1) with 31.
  destruct (Z.leb_spec (- 2 ^ 31) n), (Z.ltb_spec n (2 ^ 31)); try lia. reflexivity.
Qed.
Example C22_ex : bfrom_i64 (- 2 ^ 40) = Ok (mkB [0; 256] true) /\ bto_i32 (mkB [0; 256] true) = RErr NotInRange /\
  bto_i64 (mkB [0; 2147483648] true) = ROk (- 2 ^ 63) /\ bto_i32 (mkB [2147483648] false) = RErr NotInRange.
Proof. splits; vm_compute; reflexivity. Qed.

(** ** C23 text *)
Theorem C23_print : forall a p, bwf a ->
  (Z.of_nat (length (bmag a)) < 2 ^ 32 -> returns (bto_string_dec a) (snumeral 10 [] (bval a))) /\
  returns (bto_string_hex a p) (snumeral 16 (if p then [48; 120] else []) (bval a)) /\
  returns (bto_string_oct a p) (snumeral 8 (if p then [48; 111] else []) (bval a)) /\
  returns (bto_string_bin a p) (snumeral 2 (if p then [48; 98] else []) (bval a)).
Proof.
  intros a p Ha. tob. unfold bto_string_dec, bto_string_hex, bto_string_oct, bto_string_bin, bsign.
  rewrite Bmag, Bneg. split; [intros HL; rewrite Eto_string_dec by (auto; lia) |
    rewrite Eto_string_hex, Eto_string_oct, Eto_string_bin by lia; splits];
  apply returns_ok; eexists; (split; [reflexivity |]); apply fmt_numeral; lia.
Qed.
Theorem C23_parse_decides : forall s,
  match bread s with
  | Some v => returns (bfrom_string s) (fun r => exists a, r = ROk a /\ bwf a /\ bval a = v)
  | None => exists e, bfrom_string s = Ok (RErr e)
  end.
Proof.
  intros [| c t]; [cbn; eauto |]. unfold bread.
  assert (K : forall s, (match uread s with Some v => 0 <= v -> ufrom_string s = Ok (ROk (uof v)) | None => exists e, ufrom_string s = Ok (RErr e) end)).
  { intros s. pose proof (Efrom_string s) as R. unfold reads in R. destruct (uread s); auto. destruct R as (e & -> & _). eauto. }
  assert (NN : forall s v, uread s = Some v -> 0 <= v) by exact C10_value_nonneg.
  destruct (Z.eqb_spec c 45) as [-> | N].
  - specialize (K t). specialize (NN t). cbn [bfrom_string]. destruct (uread t) as [v |].
    + rewrite K by auto. cbn [rbind bind]. apply returns_ok. eexists. split; [reflexivity |].
      specialize (NN v eq_refl). rewrite Eis_zero by auto. apply rv. apply mkB_bof; zb; lia.
    + destruct K as (e & ->). eexists. reflexivity.
  - assert (E : bfrom_string (c :: t) = rbind (ufrom_string (c :: t)) (fun n => Ok (ROk (mkB n false)))).
    { unfold bfrom_string. destruct c as [| c | c]; [reflexivity | | reflexivity].
      repeat (destruct c; try reflexivity; try (now destruct N)). }
    rewrite E. specialize (K (c :: t)). specialize (NN (c :: t)). destruct (uread (c :: t)) as [v |].
    + rewrite K by auto. cbn [rbind bind]. apply returns_ok. eexists. split; [reflexivity |].
      specialize (NN v eq_refl). apply rv. apply mkB_bof; zb; lia.
    + destruct K as (e & ->). eexists. reflexivity.
Qed.
(** ['-'] followed by an unsigned numeral is its negation *)
Theorem C23_minus_is_negation : forall t n, uread t = Some n ->
  returns (bfrom_string (45 :: t)) (fun r => exists a, r = ROk a /\ bwf a /\ bval a = - n).
Proof. intros t n E. pose proof (C23_parse_decides (45 :: t)) as H. cbn [bread] in H. change (45 =? 45) with true in H. cbv iota in H. now rewrite E in H. Qed.
Lemma bread_snumeral10 n s : snumeral 10 [] n s -> bread s = Some n.
Proof.
  intros (d & -> & Hd). pose proof (uread_dec _ _ Hd) as E. destruct (Z.ltb_spec n 0); cbn [app bread].
  - change (45 =? 45) with true. cbv iota. rewrite E. f_equal; lia.
  - destruct d as [| c d]; [destruct Hd as [Hd _]; now destruct Hd |]. destruct Hd as (_ & _ & Hf & _). inversion Hf; subst.
    assert (Nc : (c =? 45) = false) by lia. unfold bread. rewrite Nc, E. f_equal; lia.
Qed.
Lemma bread_snumeral p b n s : prefix_base p = Some b -> snumeral b [48; p] n s -> bread s = Some n.
Proof.
  intros Hp (d & -> & Hd). pose proof (uread_prefix _ _ _ _ Hp Hd) as E. destruct (Z.ltb_spec n 0); cbn [app bread].
  - change (45 =? 45) with true. cbv iota. rewrite E. f_equal; lia.
  - change (48 =? 45) with false. cbv iota. rewrite E. f_equal; lia.
Qed.
Theorem C23_round_trip : forall a, bwf a ->
  (Z.of_nat (length (bmag a)) < 2 ^ 32 -> returns (bto_string_dec a) (fun s => bfrom_string s = Ok (ROk a))) /\
  returns (bto_string_hex a true) (fun s => bfrom_string s = Ok (ROk a)) /\
  returns (bto_string_oct a true) (fun s => bfrom_string s = Ok (ROk a)) /\
  returns (bto_string_bin a true) (fun s => bfrom_string s = Ok (ROk a)).
Proof.
  intros a Ha. destruct (C23_print a true Ha) as (H1 & H2 & H3 & H4).
  assert (K : forall s, bread s = Some (bval a) -> bfrom_string s = Ok (ROk a)).
  { intros s E. pose proof (C23_parse_decides s) as H. rewrite E in H. destruct H as (r & -> & b & -> & W & V). do 2 f_equal. now apply bval_inj. }
  splits; try intros HL; (eapply returns_weaken; [eauto |]); cbn beta; intros s Hs; apply K;
  first [eapply bread_snumeral10; eassumption | eapply bread_snumeral; [| eassumption]; reflexivity].
Qed.
Example C23_ex : bto_string_dec (mkB [0; 1] true) = Ok [45; 52; 50; 57; 52; 57; 54; 55; 50; 57; 54] /\
  bto_string_hex (mkB [171] true) true = Ok [45; 48; 120; 97; 98] /\ bfrom_string [45; 48] = Ok (ROk (mkB [0] false)) /\
  bfrom_string [45; 49; 95; 50] = Ok (ROk (mkB [12] true)) /\ bfrom_string [45] = Ok (RErr NoData).
Proof. splits; vm_compute; reflexivity. Qed.

(** ** BigInt forms of C12, C13, C14, C15, C16 *)
Theorem C12_bigint_pow_partial : forall a e, bwf a -> 0 <= e < 2 ^ 31 ->
  returns (bpow_u32 a e) (fun c => bwf c /\ bval c = bval a ^ e) /\ returns (bpow_u32_mut a e) (fun c => bwf c /\ bval c = bval a ^ e) /\
  (bwf (bpow2 e) /\ bval (bpow2 e) = 2 ^ e) /\ (bwf (bexp2 e) /\ bval (bexp2 e) = 2 ^ e).
Proof.
  intros a e Ha He. tob. splits; try (apply rb; auto using Bpow, Bpow_mut); rewrite ?Bpow2, ?Bexp2 by lia; apply bof_wf || apply bof_val.
Qed.
Theorem C13_gcd_bigint : forall a b, bwf a -> bwf b ->
  returns (bgcd a b) (fun g => bwf g /\ Zis_gcd (bval a) (bval b) (bval g) /\ 0 <= bval g).
Proof.
  intros a b Ha Hb. tob. rewrite Bgcd. apply returns_ok. rewrite bof_val. split; [apply bof_wf |]. split; [apply Zgcd_is_gcd | apply Z.gcd_nonneg].
Qed.
Theorem C14_bigint_sqrt_partial : forall a, bwf a -> top64 (Z.abs (bval a)) < 18428729675200069632 ->
  returns (bsqrt a) (fun r => bwf r /\ Z.abs (bval r) * Z.abs (bval r) <= Z.abs (bval a) < (Z.abs (bval r) + 1) * (Z.abs (bval r) + 1) /\
    (bval r < 0 <-> bval a < 0)).
Proof.
  intros a Ha. tob. intros HT. rewrite Bsqrt by auto. apply returns_ok. rewrite bof_val. split; [apply bof_wf |].
  pose proof (Z.sqrt_spec (Z.abs z) ltac:(lia)) as K. cbv zeta in K. unfold Z.succ in K. pose proof (Z.sqrt_nonneg (Z.abs z)).
  set (r := Z.sqrt (Z.abs z)) in *. clearbody r.
  destruct (Z.sgn_spec z) as [(?&->)|[(?&->)|(?&->)]].
  - rewrite Z.mul_1_l, (Z.abs_eq r) by lia. split; [exact K | lia].
  - subst z. cbn [Z.abs Z.mul] in *. assert (r = 0) by nia. subst r. split; lia.
  - change (- (1)) with (-1). replace (Z.abs (-1 * r)) with r by lia. split; [exact K |]. split; [lia |]. intros. nia.
Qed.
Theorem C15_bigint_log2 : forall a, bwf a -> Z.of_nat (length (bmag a)) < 2 ^ 58 ->
  returns (blog2 a) (fun r => bwf r /\ (bval a = 0 -> bval r = 0) /\ (bval a <> 0 -> 2 ^ bval r <= Z.abs (bval a) < 2 ^ (bval r + 1))).
Proof.
  intros a Ha. tob. rewrite Bmag. intros HL. rewrite Blog2 by auto. apply returns_ok. rewrite bof_val. split; [apply bof_wf |].
  split. intros ->; reflexivity. intros. apply (Z.log2_spec (Z.abs z)). lia.
Qed.

(** ** C53 pairs *)
Theorem C53_bigint_pairs_agree : forall a b o e n, bwf a -> bwf b -> - 2 ^ 31 < o < 2 ^ 31 -> 0 <= e ->
  badd a b = badd_mut a b /\ bsub a b = bsub_mut a b /\ bmul a b = bmul_mut a b /\ bdiv a b = bdiv_mut a b /\ brem a b = brem_mut a b /\
  badd_i32 a o = badd_i32_mut a o /\ bsub_i32 a o = bsub_i32_mut a o /\ bmul_i32 a o = bmul_i32_mut a o /\ bdiv_i32 a o = bdiv_i32_mut a o /\
  bmul_pow2 a e = bmul_pow2_mut a e /\ bopp a = bopp_mut a /\ babs a = babs_mut a /\ bshift_left a n = bshift_left_mut a n /\
  bshift_right a n = bshift_right_mut a n /\ bslice_right a n = bslice_right_mut a n.
Proof.
  intros a b o e n Ha Hb Ho He. change (- 2 ^ 31 < o < 2 ^ 31) with (i32r o) in Ho.
  tob. rewrite Badd, Badd_mut, Bsub, Bsub_mut, Bmul, Bmul_mut, Badd_i32, Badd_i32_mut, Bsub_i32, Bsub_i32_mut, Bmul_i32, Bmul_i32_mut by auto.
  rewrite Bmul_pow2, Bmul_pow2_mut, Bopp, Bopp_mut, Babs, Babs_mut, Bshl, Bshl_mut by auto.
  assert (F : forall u c, from_ubi u (negb (uis_zero u) && c) = mkB u (negb (uis_zero u) && c)).
  { intros. unfold from_ubi. destruct (uis_zero u), c; reflexivity. }
  splits; try reflexivity.
  - unfold bdiv, bdiv_mut, udiv_mut. destruct (udiv _ _); cbn [bind]; [| reflexivity | reflexivity]. now rewrite F.
  - unfold brem, brem_mut. destruct (bdiv _ _) eqn:E; cbn [bind]; [| reflexivity | reflexivity].
    destruct (Z.eq_dec z 0) as [-> | N]. { rewrite Bdiv_zero in E. discriminate. }
    rewrite Bdiv in E by auto. inversion E. rewrite Bmul_mut. cbn [bind]. now rewrite Bsub, Bsub_mut.
  - unfold bdiv_i32, bdiv_i32_mut, udiv_u32. destruct (sabs 32 o); cbn [bind]; [| reflexivity | reflexivity].
    destruct (udiv_u32_mut _ _); cbn [bind]; [| reflexivity | reflexivity]. now rewrite F.
  - unfold bshift_right, bshift_right_mut. cbv zeta. now rewrite F.
  - unfold bslice_right, bslice_right_mut. change uslice_right_mut with uslice_right.
    destruct (uslice_right _ _); cbn [bind]; [| reflexivity | reflexivity]. now rewrite F.
Qed.

Print Assumptions C19_add_sub_mul.
Print Assumptions C19_add_sub_mul_i32_partial.
Print Assumptions C19_i32_min_refuted.
Print Assumptions C19_neg_abs_pow2.
Print Assumptions C19_zero_is_not_negative.
Print Assumptions C19_predicates.
Print Assumptions C20_div_rem.
Print Assumptions C20_unique.
Print Assumptions C20_div_zero_panics.
Print Assumptions C20_div_rem_i32_partial.
Print Assumptions C20_i32_min_refuted.
Print Assumptions C20_rem_i32_mut_partial.
Print Assumptions C20_rem_i32_mut_refuted.
Print Assumptions C20_rem_pow2.
Print Assumptions C21_comparisons.
Print Assumptions C21_comparisons_i32_partial.
Print Assumptions C21_eq_i32_partial.
Print Assumptions C21_eq_i32_refuted.
Print Assumptions C21_i32_min_refuted.
Print Assumptions C22_from_partial.
Print Assumptions C22_from_min_refuted.
Print Assumptions C22_to_i32_i64.
Print Assumptions C22_to_i128_partial.
Print Assumptions C22_to_i128_refuted.
Print Assumptions C22_ubi.
Print Assumptions C22_round_trip.
Print Assumptions C23_print.
Print Assumptions C23_parse_decides.
Print Assumptions C23_minus_is_negation.
Print Assumptions C23_round_trip.
Print Assumptions C12_bigint_pow_partial.
Print Assumptions C13_gcd_bigint.
Print Assumptions C14_bigint_sqrt_partial.
Print Assumptions C15_bigint_log2.
Print Assumptions C53_bigint_pairs_agree.
