(** Multiplication of UBigInt is exact: schoolbook accumulation never overflows a u64, Karatsuba never underflows. *)
From Verif Require Import Base USpec UFacts UBig UAddSub.
Ltac Zify.zify_post_hook ::= Z.div_mod_to_equations.

Lemma uwf_len_ub a n : uwf a -> uval a < BB n -> (1 <= n)%nat -> (length a <= n)%nat.
Proof.
  intros Ha Hv Hn. destruct (Nat.le_gt_cases (length a) n); auto.
  pose proof (uwf_lower a Ha ltac:(lia)). pose proof (BB_mono n (length a - 1) ltac:(lia)). lia.
Qed.

Notation W64 := 18446744073709551616 (only parsing).

Lemma mul_row_spec x b : forall a0 acc, 0 <= x < B -> limbs b -> 0 <= a0 -> a0 + B < W64 ->
  Forall (fun a => 0 <= a /\ a + 2 * B < W64) acc -> (length b <= length acc)%nat ->
  returns (mul_row x b (a0 :: acc)) (fun r => exists r0 r', r = r0 :: r' /\ a0 <= r0 <= a0 + B /\
    Forall2 (fun a s => a <= s <= a + 2 * B) acc r' /\
    (forall k, (length b <= k)%nat -> nth k r' 0 = nth k acc 0) /\
    uval r = uval (a0 :: acc) + x * uval b).
Proof.
  induction b as [| y b IH]; intros a0 acc Hx Hb Ha0 Ha0' HF Hlen.
  - cbn [mul_row]. apply returns_ok. exists a0, acc. splits; auto; try lia.
    + clear; induction acc; constructor; auto; lia.
    + cbn [uval]; lia.
  - apply limbs_cons in Hb as [Hy Hb].
    destruct acc as [| a1 acc]; [cbn in Hlen; lia |]. inversion HF as [| ? ? Ha1 HF']; subst. cbn beta in Ha1.
    cbn [mul_row length] in *.
    assert (Hxy : 0 <= x * y <= 4294967295 * 4294967295) by (apply mul_bound; lia).
    rewrite mulw_ok by (change (2 ^ 64) with W64; lia). cbn [bind].
    rewrite addw_ok by (change (2 ^ 64) with W64; lia). cbn [bind].
    change (2 ^ 32) with B.
    rewrite addw_ok by (change (2 ^ 64) with W64; lia). cbn [bind].
    eapply returns_bind. { apply (IH (a1 + x * y / B) acc); auto; lia. }
    intros r (r0 & r' & -> & H0 & H2 & Hk & Hv). apply returns_ok.
    exists (a0 + (x * y) mod B), (r0 :: r'). splits; auto; try lia.
    + constructor; auto; lia.
    + intros [| k] Hk'; [lia |]. cbn [nth]. apply Hk. lia.
    + cbn [uval] in *. lia.
Qed.

Lemma Forall2_len {A C} (P : A -> C -> Prop) l r : Forall2 P l r -> length l = length r.
Proof. induction 1; cbn; lia. Qed.
Lemma Forall2_nth_le (acc r : list Z) :
  Forall2 (fun a s => a <= s <= a + 2 * B) acc r ->
  forall k, nth k acc 0 <= nth k r 0 <= nth k acc 0 + 2 * B.
Proof.
  induction 1; intros [| k]; cbn [nth]; auto; lia.
Qed.
Lemma Forall_nth0 (P : Z -> Prop) l : P 0 -> (Forall P l <-> forall k, P (nth k l 0)).
Proof.
  intros HP; split.
  - intros H k. destruct (Nat.lt_ge_cases k (length l)).
    + eapply Forall_forall; eauto. now apply nth_In.
    + rewrite nth_overflow; auto.
  - intros H. apply Forall_forall. intros x Hx. apply In_nth with (d := 0) in Hx as (k & _ & <-). auto.
Qed.

Lemma mul_rows_spec a : forall b acc K, limbs a -> limbs b -> length acc = (length a + length b)%nat ->
  b <> [] -> 0 <= K ->
  Z.min (K + Z.of_nat (length a)) (Z.of_nat (length b)) <= 64 ->
  (forall k, 0 <= nth k acc 0 <= 2 * B * Z.min K (Z.max 0 (Z.of_nat (length b) - Z.of_nat k))) ->
  returns (mul_rows a b acc) (fun r => length r = length acc /\ Forall (fun x => 0 <= x <= 2 ^ 64 - B) r /\
     uval r = uval acc + uval a * uval b).
Proof.
  induction a as [| x a IH]; intros b acc K Ha Hb Hlen Hbne HK HN Hbd.
  - cbn [mul_rows]. apply returns_ok. splits; auto; [| cbn [uval]; lia].
    change (2 ^ 64) with W64. apply Forall_nth0; [lia |]. intros k. specialize (Hbd k). cbn [length] in *.
    assert (Z.min K (Z.max 0 (Z.of_nat (length b) - Z.of_nat k)) <= 64) by lia. lia.
  - apply limbs_cons in Ha as [Hx Ha]. destruct acc as [| a0 acc]; [cbn in Hlen; lia |].
    cbn [mul_rows length] in *.
    assert (Hbnd : forall k, 0 <= nth k (a0 :: acc) 0 <= 2 * B * 64).
    { intros k. specialize (Hbd k).
      assert (Z.min K (Z.max 0 (Z.of_nat (length b) - Z.of_nat k)) <= 64) by lia. lia. }
    eapply returns_bind.
    { apply mul_row_spec; auto.
      - specialize (Hbnd O). cbn [nth] in Hbnd. lia.
      - specialize (Hbnd O). cbn [nth] in Hbnd. lia.
      - apply Forall_nth0; [lia |]. intros k. specialize (Hbnd (S k)). cbn [nth] in Hbnd. lia.
      - lia. }
    intros r (r0 & r' & -> & H0 & H2 & Hk & Hv). cbn beta iota.
    pose proof (Forall2_len _ _ _ H2) as Hl2.
    eapply returns_bind.
    { apply (IH b r' (K + 1)); auto; try lia.
      intros k. pose proof (Forall2_nth_le _ _ H2 k) as Hn. specialize (Hbd (S k)). cbn [nth] in Hbd.
      destruct (Nat.lt_ge_cases k (length b)) as [Hkb | Hkb].
      - split; [lia |]. eapply Z.le_trans; [apply Hn |].
        eapply Z.le_trans; [apply Z.add_le_mono_r, Hbd |].
        assert (Z.min K (Z.max 0 (Z.of_nat (length b) - Z.of_nat (S k))) + 1 <=
                Z.min (K + 1) (Z.max 0 (Z.of_nat (length b) - Z.of_nat k))) by lia.
        lia.
      - rewrite Hk by auto. split; [lia |]. eapply Z.le_trans; [apply Hbd |].
        assert (Z.min K (Z.max 0 (Z.of_nat (length b) - Z.of_nat (S k))) = 0) by lia.
        assert (0 <= Z.min (K + 1) (Z.max 0 (Z.of_nat (length b) - Z.of_nat k))) by lia. lia. }
    intros s (S1 & S2 & S3). apply returns_ok. cbn [length uval] in *. splits; try lia.
    constructor; auto. specialize (Hbnd O). cbn [nth] in Hbnd. change (2 ^ 64) with W64. lia.
Qed.

Lemma umul_school_spec a b : uwf a -> uwf b -> (length a <= 64 \/ length b <= 64)%nat ->
  returns (umul_school a b) (fun r => uwf r /\ uval r = uval a * uval b).
Proof.
  intros Ha Hb Hlen. unfold umul_school. eapply returns_bind.
  { apply (mul_rows_spec a b _ 0); auto using uwf_limbs.
    - apply repeat_length.
    - apply uwf_ne; auto.
    - lia.
    - lia.
    - intros k. destruct (Nat.lt_ge_cases k (length (repeat 0 (length a + length b)))).
      + rewrite nth_repeat. lia.
      + rewrite nth_overflow by auto. lia. }
  intros acc (H1 & H2 & H3). rewrite repeat_length in H1. rewrite uval_repeat in H3.
  pose proof (uwf_len a Ha). pose proof (uwf_len b Hb).
  assert (Hne : acc <> []) by (destruct acc; [cbn in H1; lia | discriminate]).
  eapply returns_bind. { apply v64_to_v32_spec; auto. }
  intros r (R1 & R2 & R3 & _). apply returns_ok.
  destruct (remove_suffix_0_spec r) as (J1 & J2 & _); auto.
  { destruct r; [cbn in R3; lia | discriminate]. }
  split; auto; lia.
Qed.

Lemma umul_fuel_spec f : forall a b, uwf a -> uwf b -> (length a + length b < f)%nat ->
  returns (umul_fuel f a b) (fun r => uwf r /\ uval r = uval a * uval b).
Proof.
  induction f as [| f IH]; intros a b Ha Hb Hf; [lia |]. cbn [umul_fuel]. unfold KARATSUBA_THRES.
  destruct (Nat.ltb_spec 64 (length a)), (Nat.ltb_spec 64 (length b)); cbn [andb];
    try (apply umul_school_spec; auto; lia).
  set (m := Nat.min (length a / 2) (length b / 2)).
  assert (Hm : (32 <= m /\ 2 * m <= length a /\ 2 * m <= length b)%nat).
  { subst m. pose proof (Nat.div_mod (length a) 2 ltac:(lia)). pose proof (Nat.mod_upper_bound (length a) 2 ltac:(lia)).
    pose proof (Nat.div_mod (length b) 2 ltac:(lia)). pose proof (Nat.mod_upper_bound (length b) 2 ltac:(lia)). lia. }
  clearbody m.
  destruct (ushift_right_spec a m Ha) as [X1w X1v]. destruct (ushift_right_spec b m Hb) as [Y1w Y1v].
  assert (X1l : length (ushift_right a m) = (length a - m)%nat).
  { unfold ushift_right. destruct (Nat.leb_spec (length a) m); [lia |]. apply skipn_length. }
  assert (Y1l : length (ushift_right b m) = (length b - m)%nat).
  { unfold ushift_right. destruct (Nat.leb_spec (length b) m); [lia |]. apply skipn_length. }
  set (x1 := ushift_right a m) in *. set (y1 := ushift_right b m) in *. clearbody x1 y1.
  eapply returns_bind. { apply uslice_right_spec; auto; lia. }
  intros x0 (X0w & X0v & X0l).
  eapply returns_bind. { apply uslice_right_spec; auto; lia. }
  intros y0 (Y0w & Y0v & Y0l).
  eapply returns_bind. { apply (IH x1 y1); auto; lia. }
  intros z2 (Z2w & Z2v).
  eapply returns_bind. { apply (IH x0 y0); auto; lia. }
  intros z0 (Z0w & Z0v).
  eapply returns_bind. { apply (uadd_spec x1 x0); auto. }
  intros sx (SXw & SXv).
  eapply returns_bind. { apply (uadd_spec y1 y0); auto. }
  intros sy (SYw & SYv).
  assert (SXl : (length sx <= S (length a - m))%nat).
  { apply uwf_len_ub; auto; [| lia]. pose proof (uwf_upper x1 X1w). pose proof (uwf_upper x0 X0w).
    pose proof (BB_mono (length x0) (length a - m) ltac:(lia)). rewrite X1l in *. rewrite BB_S.
    pose proof (BB_pos (length a - m)). lia. }
  assert (SYl : (length sy <= S (length b - m))%nat).
  { apply uwf_len_ub; auto; [| lia]. pose proof (uwf_upper y1 Y1w). pose proof (uwf_upper y0 Y0w).
    pose proof (BB_mono (length y0) (length b - m) ltac:(lia)). rewrite Y1l in *. rewrite BB_S.
    pose proof (BB_pos (length b - m)). lia. }
  eapply returns_bind. { apply (IH sx sy); auto; lia. }
  intros p (Pw & Pv).
  pose proof (uwf_nonneg x1 X1w). pose proof (uwf_nonneg y1 Y1w).
  pose proof (uwf_nonneg x0 X0w). pose proof (uwf_nonneg y0 Y0w).
  assert (Pe : uval p = uval z2 + uval z0 + (uval x1 * uval y0 + uval x0 * uval y1)) by (rewrite Pv, SXv, SYv, Z2v, Z0v; ring).
  assert (0 <= uval x1 * uval y0) by (apply Z.mul_nonneg_nonneg; auto).
  assert (0 <= uval x0 * uval y1) by (apply Z.mul_nonneg_nonneg; auto).
  pose proof (uwf_nonneg z0 Z0w).
  eapply returns_bind. { apply (usub_spec p z2); auto. lia. }
  intros p1 (P1w & P1v).
  eapply returns_bind. { apply (usub_spec p1 z0); auto. lia. }
  intros z1 (Z1w & Z1v).
  destruct (ushift_left_spec z2 (2 * m) Z2w) as [L2w L2v].
  destruct (ushift_left_spec z1 m Z1w) as [L1w L1v].
  eapply returns_bind. { apply uadd_spec; [exact L2w | exact L1w]. }
  intros s (Sw & Sv).
  eapply returns_weaken. { apply uadd_spec; [exact Sw | exact Z0w]. }
  intros r (Rw & Rv). split; auto.
  rewrite Rv, Sv, L2v, L1v, Z1v, P1v, Pe, Z2v, Z0v.
  replace (2 * m)%nat with (m + m)%nat by lia. rewrite BB_add.
  pose proof (BB_pos m).
  assert (Ea : uval a = uval x1 * BB m + uval x0).
  { rewrite X1v, X0v. pose proof (Z.div_mod (uval a) (BB m) ltac:(lia)). lia. }
  assert (Eb : uval b = uval y1 * BB m + uval y0).
  { rewrite Y1v, Y0v. pose proof (Z.div_mod (uval b) (BB m) ltac:(lia)). lia. }
  rewrite Ea, Eb. ring.
Qed.
Lemma umul_spec a b : uwf a -> uwf b -> returns (umul a b) (fun r => uwf r /\ uval r = uval a * uval b).
Proof. intros; apply umul_fuel_spec; auto. Qed.

(** ** mul_u32 *)
Lemma mul_u32_go_spec o a : 0 <= o < B -> forall c, limbs a -> 0 <= c < B ->
  returns (mul_u32_go a o c) (fun r => limbs r /\ (length a <= length r)%nat /\ uval r = uval a * o + c).
Proof.
  intros Ho. induction a as [| x a IH]; intros c Ha Hc; cbn [mul_u32_go].
  - destruct (Z.ltb_spec 0 c); apply returns_ok; cbn [uval length]; splits; auto; try lia.
    + rewrite castw_small by (change (2 ^ 32) with B; lia). repeat constructor; lia.
    + rewrite castw_small by (change (2 ^ 32) with B; lia). lia.
  - apply limbs_cons in Ha as [Hx Ha].
    assert (Hxo : 0 <= x * o <= 4294967295 * 4294967295) by (apply mul_bound; lia).
    match goal with |- returns (bind ?e _) _ =>
      assert (E : exists z c', e = Ok (z, c') /\ 0 <= z < B /\ 0 <= c' < B /\ z + B * c' = x * o + c) end.
    { unfold checked_mul. change (2 ^ 32) with B. destruct (Z.ltb_spec (x * o) B).
      - rewrite castw_small by (change (2 ^ 32) with B; lia). unfold checked_add. change (2 ^ 32) with B.
        destruct (Z.ltb_spec (x * o + c) B).
        + do 2 eexists; (split; [reflexivity |]). lia.
        + rewrite addw_ok by (change (2 ^ 64) with W64; lia). cbn [bind].
          do 2 eexists; (split; [reflexivity |]). lia.
      - rewrite mulw_ok by (change (2 ^ 64) with W64; lia). cbn [bind].
        rewrite addw_ok by (change (2 ^ 64) with W64; lia). cbn [bind].
        do 2 eexists; (split; [reflexivity |]). lia. }
    destruct E as (z & c' & -> & Hz & Hc' & Ev). cbn [bind].
    eapply returns_bind. { apply (IH c'); auto. }
    intros r (I1 & I2 & I3). apply returns_ok. cbn [uval length]. splits; try lia. constructor; auto.
Qed.
Lemma umul_u32_mut_spec a o : uwf a -> 0 <= o < B ->
  returns (umul_u32_mut a o) (fun r => uwf r /\ uval r = uval a * o).
Proof.
  intros Ha Ho. unfold umul_u32_mut. eapply returns_bind.
  { apply mul_u32_go_spec; auto using uwf_limbs; lia. }
  intros r (I1 & I2 & I3). apply returns_ok. pose proof (uwf_len a Ha).
  destruct (remove_suffix_0_spec r) as (J1 & J2 & _); auto.
  { destruct r; [cbn in I2; lia | discriminate]. }
  split; auto; lia.
Qed.
Lemma umul_pow2_mut_spec a e : uwf a -> 0 <= e -> 
  returns (umul_pow2_mut a e) (fun r => uwf r /\ uval r = uval a * 2 ^ e).
Proof.
  intros Ha He. unfold umul_pow2_mut.
  assert (Hm : 0 <= e mod 32 < 32) by lia.
  assert (Hp : 0 < 2 ^ (e mod 32) < B).
  { split; [apply Z.pow_pos_nonneg; lia |]. change B with (2 ^ 32). apply Z.pow_lt_mono_r; lia. }
  rewrite shlw_ok by (try (change (2 ^ 32) with B); lia). cbn [bind].
  eapply returns_bind. { apply umul_u32_mut_spec; auto. lia. }
  intros r (Rw & Rv). apply returns_ok. rewrite ushift_left_mut_eq by auto.
  destruct (ushift_left_spec r (Z.to_nat (e / 32)) Rw) as [Lw Lv]. split; auto.
  rewrite Lv, Rv, BB_pow2, Z2Nat.id by lia.
  rewrite Z.mul_1_l, <- Z.mul_assoc, <- Z.pow_add_r by lia. f_equal. f_equal. lia.
Qed.
