(** Property theorems for UBigInt arithmetic: C01-C08, C11-C13, C53 (unsigned part).
    [uval], [uwf] are the specification of USpec.v; [returns m Q] means: no panic, terminates, result satisfies [Q]. *)
From Verif Require Import Base USpec UFacts UBig UAddSub UMul UDiv UEq UFun UPow UStr UMisc.
From Coq Require Import Znumtheory.

Local Notation W32 := 4294967296 (only parsing).

(** ** C02 addition *)
Theorem C02_add_exact : forall a b, uwf a -> uwf b ->
  returns (uadd a b) (fun c => uwf c /\ uval c = uval a + uval b) /\
  (uwf (uadd_mut a b) /\ uval (uadd_mut a b) = uval a + uval b).
Proof. intros a b Ha Hb. split; [exact (uadd_spec a b Ha Hb) | exact (uadd_mut_spec a b Ha Hb)]. Qed.
Theorem C02_add_u32_exact : forall a o, uwf a -> 0 <= o < W32 ->
  returns (uadd_u32 a o) (fun c => uwf c /\ uval c = uval a + o) /\
  returns (uadd_u32_mut a o) (fun c => uwf c /\ uval c = uval a + o).
Proof. intros a o Ha Ho. split; exact (uadd_u32_mut_spec a o Ha Ho). Qed.
Example C02_ex : uwf [4294967295; 4294967295] /\ uwf [1] /\ uadd [4294967295; 4294967295] [1] = Ok [0; 0; 1] /\
  uadd_mut [4294967295; 4294967295] [1] = [0; 0; 1] /\ uadd_u32 [4294967295; 4294967295] 1 = Ok [0; 0; 1].
Proof. repeat split; try reflexivity; try (repeat constructor; lia); try discriminate; cbn; auto; try (right; lia). Qed.

(** ** C03 subtraction *)
Theorem C03_sub_exact : forall a b, uwf a -> uwf b -> uval b <= uval a ->
  returns (usub a b) (fun c => uwf c /\ uval c = uval a - uval b) /\
  returns (usub_mut a b) (fun c => uwf c /\ uval c = uval a - uval b).
Proof. intros a b Ha Hb H. split; exact (usub_spec a b Ha Hb H). Qed.
Theorem C03_sub_panics : forall a b, uwf a -> uwf b -> uval a < uval b -> usub a b = Panic /\ usub_mut a b = Panic.
Proof. intros a b Ha Hb H. split; exact (usub_panic a b Ha Hb H). Qed.
Theorem C03_sub_u32_exact : forall a o, uwf a -> 0 <= o < W32 -> o <= uval a ->
  returns (usub_u32 a o) (fun c => uwf c /\ uval c = uval a - o) /\
  returns (usub_u32_mut a o) (fun c => uwf c /\ uval c = uval a - o).
Proof. intros a o Ha Ho H. split; exact (usub_u32_mut_spec a o Ha Ho H). Qed.
Theorem C03_sub_u32_panics : forall a o, uwf a -> 0 <= o < W32 -> uval a < o -> usub_u32 a o = Panic /\ usub_u32_mut a o = Panic.
Proof. intros a o Ha Ho H. split; exact (usub_u32_mut_panic a o Ha Ho H). Qed.
Theorem C03_abs_diff : forall a b, uwf a -> uwf b ->
  returns (uabs_diff a b) (fun c => uwf c /\ uval c = Z.abs (uval a - uval b)).
Proof. exact uabs_diff_spec. Qed.
Theorem C03_abs_diff_u32 : forall a o, uwf a -> 0 <= o < W32 ->
  returns (uabs_diff_u32 a o) (fun c => uwf c /\ uval c = Z.abs (uval a - o)).
Proof. exact uabs_diff_u32_spec. Qed.
Example C03_ex : usub [0; 0; 1] [1] = Ok [4294967295; 4294967295] /\ usub [5] [6] = Panic /\
  usub_u32 [0; 1] 1 = Ok [4294967295] /\ uabs_diff [5] [0; 1] = Ok [4294967291].
Proof. repeat split. Qed.

(** ** C04 multiplication *)
Theorem C04_mul_exact : forall a b, uwf a -> uwf b ->
  returns (umul a b) (fun c => uwf c /\ uval c = uval a * uval b) /\
  returns (umul_mut a b) (fun c => uwf c /\ uval c = uval a * uval b).
Proof. intros a b Ha Hb. split; exact (umul_spec a b Ha Hb). Qed.
Theorem C04_mul_u32_exact : forall a o, uwf a -> 0 <= o < W32 ->
  returns (umul_u32 a o) (fun c => uwf c /\ uval c = uval a * o) /\
  returns (umul_u32_mut a o) (fun c => uwf c /\ uval c = uval a * o).
Proof. intros a o Ha Ho. split; exact (umul_u32_mut_spec a o Ha Ho). Qed.
Theorem C04_mul_pow2_exact : forall a e, uwf a -> 0 <= e < W32 ->
  returns (umul_pow2 a e) (fun c => uwf c /\ uval c = uval a * 2 ^ e) /\
  returns (umul_pow2_mut a e) (fun c => uwf c /\ uval c = uval a * 2 ^ e).
Proof. intros a e Ha He. split; exact (umul_pow2_mut_spec a e Ha (proj1 He)). Qed.
(** a case that takes the Karatsuba path: 65 limbs each *)
Example C04_ex : let a := repeat 4294967295 65 in uwf a /\
  (match umul a a with Ok c => uval c =? (2 ^ 2080 - 1) ^ 2 | _ => false end) = true /\ umul [4294967295; 1] [4294967295] = Ok [1; 4294967293; 1].
Proof. split; [| split; vm_compute; reflexivity]. split; [discriminate |]. split; [apply Forall_forall; intros x H; apply repeat_spec in H; lia | right; discriminate]. Qed.

(** ** C05 division *)
Theorem C05_div_exact : forall a b, uwf a -> uwf b -> uval b <> 0 ->
  returns (udiv a b) (fun q => uwf q /\ returns (urem a b) (fun r => uwf r /\
    uval a = uval q * uval b + uval r /\ 0 <= uval r < uval b)) /\
  udiv_mut a b = udiv a b /\ urem_mut a b = urem a b.
Proof.
  intros a b Ha Hb H. pose proof (uwf_nonneg b Hb). split; [| split; reflexivity].
  destruct (udiv_spec a b Ha Hb ltac:(lia)) as (q & -> & Wq & Eq). destruct (urem_spec a b Ha Hb ltac:(lia)) as (r & -> & Wr & Er).
  apply returns_ok. split; auto. apply returns_ok. split; auto. rewrite Eq, Er.
  pose proof (Z.div_mod (uval a) (uval b) ltac:(lia)). pose proof (Z.mod_pos_bound (uval a) (uval b) ltac:(lia)). lia.
Qed.
Theorem C05_div_floor : forall a b, uwf a -> uwf b -> uval b <> 0 ->
  returns (udiv a b) (fun q => uval q = uval a / uval b) /\ returns (urem a b) (fun r => uval r = uval a mod uval b).
Proof.
  intros a b Ha Hb H. pose proof (uwf_nonneg b Hb).
  split; [eapply returns_weaken; [apply udiv_spec; auto; lia |] | eapply returns_weaken; [apply urem_spec; auto; lia |]]; cbn; tauto.
Qed.
Theorem C05_div_zero_panics : forall a b, uwf a -> uwf b -> uval b = 0 ->
  udiv a b = Panic /\ udiv_mut a b = Panic /\ urem a b = Panic /\ urem_mut a b = Panic.
Proof. intros a b Ha Hb H. repeat split; (apply udiv_zero || apply urem_zero); auto. Qed.
Example C05_ex : udiv [7; 5; 3; 2; 9; 4; 1] [1; 2; 8] = Ok [4051697664; 4261412863; 2013265920; 536870912] /\
  udiv [0; 0; 1] [3] = Ok [1431655765; 1431655765] /\ urem [0; 0; 1] [3] = Ok [1].
Proof. repeat split; vm_compute; reflexivity. Qed.

(** ** C06 division and remainder by a machine word *)
Theorem C06_div_u32 : forall a o, uwf a -> 0 < o < W32 ->
  returns (udiv_u32 a o) (fun q => uwf q /\ uval q = uval a / o) /\
  returns (udiv_u32_mut a o) (fun q => uwf q /\ uval q = uval a / o).
Proof. intros a o Ha Ho. split; exact (udiv_u32_mut_spec a o Ha Ho). Qed.
Theorem C06_div_u32_zero : forall a, uwf a -> udiv_u32 a 0 = Panic /\ urem_u32 a 0 = Panic.
Proof. intros a Ha. split; [exact (udiv_u32_mut_zero a Ha) | reflexivity]. Qed.
(** 2^32 limbs are 16 GiB of memory; beyond that the u64 accumulator could overflow *)
Theorem C06_rem_u32 : forall a o, uwf a -> 0 < o < W32 -> Z.of_nat (length a) < W32 ->
  returns (urem_u32 a o) (fun r => uwf r /\ uval r = uval a mod o).
Proof. exact urem_u32_spec. Qed.
Theorem C06_rem_pow2 : forall a k, uwf a -> 0 <= k < 32 ->
  returns (urem_pow2 a (2 ^ k)) (fun r => uwf r /\ uval r = uval a mod 2 ^ k).
Proof. exact urem_pow2_spec. Qed.
(** [rem_u32_mut] keeps its products in u32.  Full claim: it agrees with [rem_u32] for every divisor; that is false
    (next theorem); it holds for one-limb numbers and for divisors up to 2^16. *)
Theorem C06_rem_u32_mut_partial : forall a o, uwf a -> 0 < o < W32 ->
  (length a = 1%nat \/ (o <= 65536 /\ Z.of_nat (length a) <= 65535)) ->
  returns (urem_u32_mut a o) (fun r => uwf r /\ uval r = uval a mod o).
Proof.
  intros a o Ha Ho [H | [H1 H2]].
  - destruct (uwf_one_limb a Ha ltac:(lia)) as (x & -> & Hx). cbn [uval]. replace (x + 4294967296 * 0) with x by lia.
    apply urem_u32_mut_one_limb; auto.
  - apply urem_u32_mut_spec; auto. lia.
Qed.
Theorem C06_rem_u32_mut_refuted : exists a o, uwf a /\ 0 < o < W32 /\ urem_u32_mut a o = Panic /\ urem_u32 a o = Ok [2863311529].
Proof.
  exists [0; 4], 2863311531. split. { split; [discriminate |]. split; [repeat constructor; lia | right; discriminate]. }
  split; [lia |]. split; reflexivity.
Qed.
Example C06_ex : udiv_u32 [0; 0; 1] 10 = Ok [2576980377; 429496729] /\ urem_u32 [0; 0; 1] 10 = Ok [6] /\
  urem_pow2 [13; 1] 8 = Ok [5] /\ urem_u32_mut [0; 0; 1] 10 = Ok [6].
Proof. repeat split. Qed.

(** ** C07 comparison *)
Theorem C07_comparisons : forall a b, uwf a -> uwf b ->
  (ult a b = true <-> uval a < uval b) /\ (ugt a b = true <-> uval a > uval b) /\
  (uleq a b = true <-> uval a <= uval b) /\ (ugeq a b = true <-> uval a >= uval b) /\
  (ueq a b = true <-> uval a = uval b) /\ (uneq a b = true <-> uval a <> uval b) /\
  ucomp a b = Z.compare (uval a) (uval b).
Proof.
  intros a b Ha Hb. rewrite ult_spec, ugt_spec, uleq_spec, ugeq_spec, ueq_spec, uneq_spec, ucomp_spec by auto.
  rewrite negb_true_iff, Z.eqb_neq, Z.eqb_eq, !Z.ltb_lt, !Z.leb_le. repeat split; lia.
Qed.
Theorem C07_comparisons_u32 : forall a o, uwf a -> 0 <= o < W32 ->
  ult_u32 a o = Ok (uval a <? o) /\ ugt_u32 a o = Ok (o <? uval a) /\ uleq_u32 a o = Ok (uval a <=? o) /\
  ugeq_u32 a o = Ok (o <=? uval a) /\ ueq_u32 a o = Ok (uval a =? o) /\ uneq_u32 a o = Ok (negb (uval a =? o)) /\
  ucomp_u32 a o = Ok (Z.compare (uval a) o).
Proof.
  intros a o Ha Ho. rewrite ult_u32_spec, ugt_u32_spec, uleq_u32_spec, ugeq_u32_spec, ueq_u32_spec, uneq_u32_spec, ucomp_u32_spec by auto.
  repeat split; reflexivity.
Qed.
Theorem C07_is_zero_one : forall a, uwf a -> (uis_zero a = true <-> uval a = 0) /\ (uis_one a = true <-> uval a = 1).
Proof. intros a Ha. rewrite uis_zero_spec, uis_one_spec, !Z.eqb_eq by auto. tauto. Qed.
Theorem C07_total_order : forall a b c, uwf a -> uwf b -> uwf c ->
  uleq a a = true /\ (uleq a b = true \/ uleq b a = true) /\ (uleq a b = true -> uleq b a = true -> a = b) /\
  (uleq a b = true -> uleq b c = true -> uleq a c = true).
Proof.
  intros a b c Ha Hb Hc. rewrite !uleq_spec by auto. rewrite !Z.leb_le. repeat split; try lia.
  intros. apply uval_inj; auto. lia.
Qed.
Example C07_ex : ucomp [5; 7] [9; 6] = Gt /\ ult [5; 7] [9; 6] = false /\ ucomp [5; 7] [9; 6; 1] = Lt /\ ueq_u32 [3; 1] 3 = Ok false.
Proof. repeat split. Qed.

(** ** C08 fixed-width conversions; [ROk]/[RErr] are Rust's [Ok]/[Err] *)
Theorem C08_from_exact : forall n,
  (0 <= n < 2 ^ 32 -> uwf (ufrom_u32 n) /\ uval (ufrom_u32 n) = n) /\
  (0 <= n < 2 ^ 64 -> uwf (ufrom_u64 n) /\ uval (ufrom_u64 n) = n) /\
  (0 <= n < 2 ^ 128 -> uwf (ufrom_u128 n) /\ uval (ufrom_u128 n) = n).
Proof.
  intros n. repeat apply conj; intros H; [rewrite ufrom_u32_spec by exact H | rewrite ufrom_u64_spec by exact H | rewrite ufrom_u128_spec by exact H];
  (split; [apply uof_wf | apply uof_uval]; lia).
Qed.
Theorem C08_to_exact : forall a, uwf a ->
  (uto_u32 a = if uval a <? 2 ^ 32 then ROk (uval a) else RErr NotInRange) /\
  (uto_u64 a = if uval a <? 2 ^ 64 then ROk (uval a) else RErr NotInRange) /\
  (uto_u128 a = if uval a <? 2 ^ 128 then ROk (uval a) else RErr NotInRange).
Proof.
  intros a Ha. unfold uto_u32, uto_u64, uto_u128. rewrite uto_u32_opt_spec, uto_u64_opt_spec, uto_u128_opt_spec by auto.
  change (2 ^ 32) with 4294967296.
  repeat split; match goal with |- context [if ?c then _ else _] => destruct c; reflexivity end.
Qed.
Theorem C08_round_trip : forall n,
  (0 <= n < 2 ^ 32 -> uto_u32 (ufrom_u32 n) = ROk n) /\ (0 <= n < 2 ^ 64 -> uto_u64 (ufrom_u64 n) = ROk n) /\
  (0 <= n < 2 ^ 128 -> uto_u128 (ufrom_u128 n) = ROk n).
Proof.
  intros n. repeat apply conj; intros H.
  - rewrite (proj1 (C08_to_exact _ (proj1 (proj1 (C08_from_exact n) H)))). rewrite (proj2 (proj1 (C08_from_exact n) H)).
    destruct (Z.ltb_spec n (2 ^ 32)); [reflexivity | lia].
  - destruct (proj1 (proj2 (C08_from_exact n)) H) as [W E]. rewrite (proj1 (proj2 (C08_to_exact _ W))), E.
    destruct (Z.ltb_spec n (2 ^ 64)); [reflexivity | lia].
  - destruct (proj2 (proj2 (C08_from_exact n)) H) as [W E]. rewrite (proj2 (proj2 (C08_to_exact _ W))), E.
    destruct (Z.ltb_spec n (2 ^ 128)); [reflexivity | lia].
Qed.
Example C08_ex : ufrom_u128 (2 ^ 96 + 7) = [7; 0; 0; 1] /\ uto_u64 [7; 0; 0; 1] = RErr NotInRange /\ uto_u128 [7; 0; 0; 1] = ROk (2 ^ 96 + 7).
Proof. repeat split. Qed.

(** ** C11 limb shifts and slices *)
Theorem C11_shift : forall a n, uwf a ->
  (uwf (ushift_left a n) /\ uval (ushift_left a n) = uval a * 2 ^ (32 * Z.of_nat n)) /\
  (uwf (ushift_right a n) /\ uval (ushift_right a n) = uval a / 2 ^ (32 * Z.of_nat n)) /\
  ushift_left_mut a n = ushift_left a n /\ ushift_right_mut a n = ushift_right a n.
Proof.
  intros a n Ha. rewrite <- BB_pow2. split; [apply ushift_left_spec; auto |]. split; [apply ushift_right_spec; auto |].
  split; [apply ushift_left_mut_eq; auto | reflexivity].
Qed.
Theorem C11_slice_right : forall a n, uwf a ->
  uslice_right_mut a n = uslice_right a n /\
  ((n <= length a)%nat -> returns (uslice_right a n) (fun r => uwf r /\ uval r = uval a mod 2 ^ (32 * Z.of_nat n))) /\
  ((length a < n)%nat -> uslice_right a n = Panic).
Proof.
  intros a n Ha. split; [reflexivity |]. split; intros H.
  - rewrite <- BB_pow2. eapply returns_weaken; [apply uslice_right_spec; auto |]. cbn; tauto.
  - apply uslice_right_panic; auto.
Qed.
Example C11_ex : ushift_left [1; 2] 2 = [0; 0; 1; 2] /\ ushift_right [1; 2; 3] 1 = [2; 3] /\ uslice_right [1; 0; 3] 2 = Ok [1] /\ uslice_right [1] 2 = Panic.
Proof. repeat split. Qed.

(** ** C12 powers *)
(** Full claim: for every u32 exponent.  Missing: exponents of 2^31 and more panic (next theorem). *)
Theorem C12_pow_u32_partial : forall a e, uwf a -> 0 <= e < 2 ^ 31 ->
  returns (upow_u32 a e) (fun c => uwf c /\ uval c = uval a ^ e) /\ upow_u32_mut a e = upow_u32 a e.
Proof.
  intros a e Ha He. pose proof (uwf_nonneg a Ha). split; [| reflexivity]. rewrite <- (uof_of_wf a Ha) at 1. rewrite Epow by auto.
  apply returns_ok. assert (0 <= uval a ^ e) by (apply Z.pow_nonneg; lia). split; [now apply uof_wf | now apply uof_uval].
Qed.
Theorem C12_pow_u32_refuted : forall a e, uwf a -> 2 ^ 31 <= e < 2 ^ 32 -> upow_u32 a e = Panic.
Proof. intros a e Ha He. rewrite <- (uof_of_wf a Ha). apply Epow_panic; auto. now apply uwf_nonneg. Qed.
Theorem C12_pow2_exact : forall e, 0 <= e -> uwf (upow2 e) /\ uval (upow2 e) = 2 ^ e /\ uwf (uexp2 e) /\ uval (uexp2 e) = 2 ^ e.
Proof.
  intros e He. rewrite Epow2, Eexp2 by auto. assert (0 <= 2 ^ e) by (apply Z.pow_nonneg; lia).
  rewrite uof_uval by auto. repeat split; auto; apply uof_wf; auto.
Qed.
Example C12_ex : upow_u32 [3] 41 = Ok [2069870691; 4197063926; 1] /\ upow_u32 [0] 0 = Ok [1] /\ upow2 40 = [0; 256] /\ uexp2 40 = [0; 256] /\ upow_u32 [1] 2147483648 = Panic.
Proof. splits; vm_compute; reflexivity. Qed.

(** ** C13 gcd *)
Theorem C13_gcd : forall a b, uwf a -> uwf b ->
  returns (ugcd a b) (fun g => uwf g /\ Zis_gcd (uval a) (uval b) (uval g) /\ 0 <= uval g).
Proof.
  intros a b Ha Hb. pose proof (uwf_nonneg a Ha). pose proof (uwf_nonneg b Hb).
  rewrite <- (uof_of_wf a Ha) at 1. rewrite <- (uof_of_wf b Hb) at 1. rewrite Egcd by auto.
  apply returns_ok. pose proof (Z.gcd_nonneg (uval a) (uval b)). rewrite uof_uval by auto. splits; auto using uof_wf. apply Zgcd_is_gcd.
Qed.
Theorem C13_gcd_i32 : forall a b, - 2 ^ 31 < a < 2 ^ 31 -> - 2 ^ 31 < b < 2 ^ 31 ->
  returns (gcd_i32 a b) (fun g => Zis_gcd a b g /\ 0 <= g).
Proof.
  intros a b Ha Hb. rewrite Egcd_i32 by auto. apply returns_ok. split; [apply Zgcd_is_gcd | apply Z.gcd_nonneg].
Qed.
Theorem C13_gcd_i32_min_panics : forall b, gcd_i32 (- 2 ^ 31) b = Panic.
Proof. exact gcd_i32_min. Qed.
Example C13_ex : ugcd [0; 6] [0; 0; 4] = Ok [0; 2] /\ ugcd [0] [9] = Ok [9] /\ gcd_i32 (-12) 18 = Ok 6.
Proof. repeat split; vm_compute; reflexivity. Qed.

(** ** C01 canonicity: whatever is returned is canonical *)
Theorem C01_canonical : forall a b o n, uwf a -> uwf b -> 0 <= o < W32 -> forall r,
  (uadd a b = Ok r \/ uadd_mut a b = r \/ uadd_u32 a o = Ok r \/ usub a b = Ok r \/ usub_u32 a o = Ok r \/
   umul a b = Ok r \/ umul_u32 a o = Ok r \/ umul_pow2 a o = Ok r \/ udiv a b = Ok r \/ urem a b = Ok r \/
   udiv_u32 a o = Ok r \/ uabs_diff a b = Ok r \/ uabs_diff_u32 a o = Ok r \/ ushift_left a n = r \/
   ushift_right a n = r \/ uslice_right a n = Ok r \/ upow_u32 a o = Ok r \/ upow2 o = r \/ uexp2 o = r \/
   ugcd a b = Ok r \/ ufrom_u32 o = r) -> uwf r.
Proof.
  intros a b o n Ha Hb Ho r H.
  assert (K : forall (m : res ubig) Q, returns m Q -> (forall x, Q x -> uwf x) -> m = Ok r -> uwf r).
  { intros m Q (x & E & Hq) HQ Em. rewrite E in Em. inversion Em; subst. auto. }
  pose proof (uwf_nonneg a Ha) as Na. pose proof (uwf_nonneg b Hb) as Nb.
  assert (HD : uval b = 0 \/ 0 < uval b) by lia. assert (HO : o = 0 \/ 0 < o < W32) by lia.
  repeat (destruct H as [H | H]).
  - eapply K; [apply (uadd_spec a b) | cbn; tauto |]; auto.
  - subst. apply uadd_mut_spec; auto.
  - eapply K; [apply (uadd_u32_mut_spec a o) | cbn; tauto |]; auto.
  - destruct (Z.le_gt_cases (uval b) (uval a)).
    + eapply K; [apply (usub_spec a b) | cbn; tauto |]; auto.
    + rewrite usub_panic in H by auto. discriminate.
  - destruct (Z.le_gt_cases o (uval a)).
    + eapply K; [apply (usub_u32_mut_spec a o) | cbn; tauto |]; auto.
    + unfold usub_u32 in H. rewrite usub_u32_mut_panic in H by auto. discriminate.
  - eapply K; [apply (umul_spec a b) | cbn; tauto |]; auto.
  - eapply K; [apply (umul_u32_mut_spec a o) | cbn; tauto |]; auto.
  - eapply K; [apply (umul_pow2_mut_spec a o) | cbn; tauto |]; auto; lia.
  - destruct HD. { rewrite udiv_zero in H by auto. discriminate. }
    eapply K; [apply (udiv_spec a b) | cbn; tauto |]; auto.
  - destruct HD. { rewrite urem_zero in H by auto. discriminate. }
    eapply K; [apply (urem_spec a b) | cbn; tauto |]; auto.
  - destruct HO as [-> | HO]. { unfold udiv_u32 in H. rewrite udiv_u32_mut_zero in H by auto. discriminate. }
    eapply K; [apply (udiv_u32_mut_spec a o) | cbn; tauto |]; auto.
  - eapply K; [apply (uabs_diff_spec a b) | cbn; tauto |]; auto.
  - eapply K; [apply (uabs_diff_u32_spec a o) | cbn; tauto |]; auto.
  - subst. apply ushift_left_spec; auto.
  - subst. apply ushift_right_spec; auto.
  - destruct (Nat.le_gt_cases n (length a)).
    + eapply K; [apply (uslice_right_spec a n) | cbn; tauto |]; auto.
    + rewrite uslice_right_panic in H by auto. discriminate.
  - destruct (Z.lt_ge_cases o (2 ^ 31)) as [C | C].
    + eapply K; [apply (C12_pow_u32_partial a o); auto; lia | cbn; tauto | auto].
    + rewrite C12_pow_u32_refuted in H by (auto; change (2 ^ 32) with 4294967296; lia). discriminate.
  - subst. apply C12_pow2_exact; lia.
  - subst. apply C12_pow2_exact; lia.
  - eapply K; [apply (C13_gcd a b) | cbn; tauto |]; auto.
  - subst. apply uwf_single; auto.
Qed.
Theorem C01_eq_is_value_equality : forall a b, uwf a -> uwf b -> (a = b <-> uval a = uval b) /\ (ueq a b = true <-> uval a = uval b).
Proof.
  intros a b Ha Hb. split.
  - split; [intros ->; auto | apply uval_inj; auto].
  - rewrite ueq_spec by auto. apply Z.eqb_eq.
Qed.
Theorem C01_every_number_has_a_canonical_form : forall n, 0 <= n -> uwf (uof n) /\ uval (uof n) = n.
Proof. intros n Hn. split; [now apply uof_wf | now apply uof_uval]. Qed.
Example C01_ex : uwf [0] /\ uwf [0; 1] /\ ~ uwf [] /\ ~ uwf [1; 0] /\ ~ uwf [4294967296].
Proof.
  splits.
  - apply uwf_single; lia.
  - split; [discriminate |]. split; [repeat constructor; lia | right; discriminate].
  - intros [H _]. congruence.
  - intros (_ & _ & [H | H]); [discriminate | cbn in H; lia].
  - intros (_ & H & _). inversion H; lia.
Qed.

(** ** C53, unsigned part: value-returning and mutating methods agree (including panics) *)
Theorem C53_ubig_pairs_agree : forall a b o n, uwf a -> uwf b -> 0 <= o < W32 ->
  uadd a b = Ok (uadd_mut a b) /\ uadd_u32 a o = uadd_u32_mut a o /\ usub a b = usub_mut a b /\
  usub_u32 a o = usub_u32_mut a o /\ umul a b = umul_mut a b /\ umul_u32 a o = umul_u32_mut a o /\
  umul_pow2 a o = umul_pow2_mut a o /\ udiv a b = udiv_mut a b /\ udiv_u32 a o = udiv_u32_mut a o /\
  urem a b = urem_mut a b /\ upow_u32 a o = upow_u32_mut a o /\ ushift_left a n = ushift_left_mut a n /\
  ushift_right a n = ushift_right_mut a n /\ uslice_right a n = uslice_right_mut a n.
Proof.
  intros a b o n Ha Hb Ho.
  destruct (uadd_spec a b Ha Hb) as (r & E & Wr & Vr). destruct (uadd_mut_spec a b Ha Hb) as (W & V).
  splits; try reflexivity.
  - rewrite E. f_equal. apply uval_inj; auto. lia.
  - symmetry. apply ushift_left_mut_eq; auto.
Qed.

Print Assumptions C01_canonical.
Print Assumptions C01_eq_is_value_equality.
Print Assumptions C02_add_exact.
Print Assumptions C02_add_u32_exact.
Print Assumptions C03_sub_exact.
Print Assumptions C03_sub_panics.
Print Assumptions C03_sub_u32_exact.
Print Assumptions C03_sub_u32_panics.
Print Assumptions C03_abs_diff.
Print Assumptions C03_abs_diff_u32.
Print Assumptions C04_mul_exact.
Print Assumptions C04_mul_u32_exact.
Print Assumptions C04_mul_pow2_exact.
Print Assumptions C05_div_exact.
Print Assumptions C05_div_floor.
Print Assumptions C05_div_zero_panics.
Print Assumptions C06_div_u32.
Print Assumptions C06_rem_u32.
Print Assumptions C06_rem_pow2.
Print Assumptions C06_rem_u32_mut_partial.
Print Assumptions C06_rem_u32_mut_refuted.
Print Assumptions C07_comparisons.
Print Assumptions C07_comparisons_u32.
Print Assumptions C07_total_order.
Print Assumptions C08_from_exact.
Print Assumptions C08_to_exact.
Print Assumptions C08_round_trip.
Print Assumptions C11_shift.
Print Assumptions C11_slice_right.
Print Assumptions C12_pow_u32_partial.
Print Assumptions C12_pow_u32_refuted.
Print Assumptions C12_pow2_exact.
Print Assumptions C13_gcd.
Print Assumptions C13_gcd_i32.
Print Assumptions C53_ubig_pairs_agree.
