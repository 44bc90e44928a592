(** Equational form of the UBigInt theorems: on canonical vectors [uof z] every operation computes [uof] of the
    mathematical result.  Used as rewrite rules by the layers above. *)
From Verif Require Import Base USpec UFacts UBig UAddSub UMul UDiv.

Section U.
Variables a b : Z.
Hypothesis Ha : 0 <= a.
Hypothesis Hb : 0 <= b.
Let Wa := uof_wf a Ha.
Let Wb := uof_wf b Hb.
Let Va := uof_uval a Ha.
Let Vb := uof_uval b Hb.
Local Ltac us nn lem := intros; apply res_uof; [nn |
  eapply returns_weaken; [apply lem; auto; rewrite ?Va, ?Vb; auto; lia |
    let r := fresh in let H1 := fresh in let H2 := fresh in
    intros r (H1 & H2); rewrite ?Va, ?Vb in H2; split; auto]].

Lemma Eadd : uadd (uof a) (uof b) = Ok (uof (a + b)).
Proof. us ltac:(lia) uadd_spec. Qed.
Lemma Eadd_mut : uadd_mut (uof a) (uof b) = uof (a + b).
Proof. destruct (uadd_mut_spec _ _ Wa Wb) as [H1 H2]. rewrite <- (uof_of_wf _ H1), H2. now rewrite Va, Vb. Qed.
Lemma Eadd_u32 : b < B -> uadd_u32_mut (uof a) b = Ok (uof (a + b)).
Proof. us ltac:(lia) uadd_u32_mut_spec. Qed.
Lemma Esub : b <= a -> usub (uof a) (uof b) = Ok (uof (a - b)).
Proof. us ltac:(lia) usub_spec. Qed.
Lemma Esub_panic : a < b -> usub (uof a) (uof b) = Panic.
Proof. intros. apply usub_panic; auto. now rewrite Va, Vb. Qed.
Lemma Esub_u32 : b < B -> b <= a -> usub_u32_mut (uof a) b = Ok (uof (a - b)).
Proof. us ltac:(lia) usub_u32_mut_spec. Qed.
Lemma Emul : umul (uof a) (uof b) = Ok (uof (a * b)).
Proof. us ltac:(apply Z.mul_nonneg_nonneg; auto) umul_spec. Qed.
Lemma Emul_u32 : b < B -> umul_u32_mut (uof a) b = Ok (uof (a * b)).
Proof. us ltac:(apply Z.mul_nonneg_nonneg; auto) umul_u32_mut_spec. Qed.
Lemma Emul_pow2 : umul_pow2_mut (uof a) b = Ok (uof (a * 2 ^ b)).
Proof. us ltac:(apply Z.mul_nonneg_nonneg; auto; apply Z.pow_nonneg; lia) umul_pow2_mut_spec. Qed.
Lemma Ediv : 0 < b -> udiv (uof a) (uof b) = Ok (uof (a / b)).
Proof. us ltac:(apply Z.div_pos; auto) udiv_spec. Qed.
Lemma Erem : 0 < b -> urem (uof a) (uof b) = Ok (uof (a mod b)).
Proof. us ltac:(apply Z.mod_pos_bound; auto) urem_spec. Qed.
Lemma Ediv_u32 : 0 < b < B -> udiv_u32_mut (uof a) b = Ok (uof (a / b)).
Proof. us ltac:(apply Z.div_pos; lia) udiv_u32_mut_spec. Qed.
Lemma Erem_u32 : 0 < b < B -> Z.of_nat (length (uof a)) < B -> urem_u32 (uof a) b = Ok (uof (a mod b)).
Proof. us ltac:(apply Z.mod_pos_bound; lia) urem_u32_spec. Qed.
Lemma Erem_pow2 : b < 32 -> urem_pow2 (uof a) (2 ^ b) = Ok (uof (a mod 2 ^ b)).
Proof. us ltac:(apply Z.mod_pos_bound, Z.pow_pos_nonneg; lia) urem_pow2_spec. Qed.
Lemma Elt : ult (uof a) (uof b) = (a <? b). Proof. now rewrite ult_spec, Va, Vb. Qed.
Lemma Egt : ugt (uof a) (uof b) = (b <? a). Proof. now rewrite ugt_spec, Va, Vb. Qed.
Lemma Eleq : uleq (uof a) (uof b) = (a <=? b). Proof. now rewrite uleq_spec, Va, Vb. Qed.
Lemma Egeq : ugeq (uof a) (uof b) = (b <=? a). Proof. now rewrite ugeq_spec, Va, Vb. Qed.
Lemma Eeq : ueq (uof a) (uof b) = (a =? b). Proof. now rewrite ueq_spec, Va, Vb. Qed.
Lemma Eneq : uneq (uof a) (uof b) = negb (a =? b). Proof. now rewrite uneq_spec, Va, Vb. Qed.
Lemma Ecomp : ucomp (uof a) (uof b) = (a ?= b). Proof. now rewrite ucomp_spec, Va, Vb. Qed.
Lemma Elt_u32 : b < B -> ult_u32 (uof a) b = Ok (a <? b). Proof. intros. now rewrite ult_u32_spec, Va. Qed.
Lemma Egt_u32 : b < B -> ugt_u32 (uof a) b = Ok (b <? a). Proof. intros. now rewrite ugt_u32_spec, Va. Qed.
Lemma Eleq_u32 : b < B -> uleq_u32 (uof a) b = Ok (a <=? b). Proof. intros. now rewrite uleq_u32_spec, Va. Qed.
Lemma Egeq_u32 : b < B -> ugeq_u32 (uof a) b = Ok (b <=? a). Proof. intros. now rewrite ugeq_u32_spec, Va. Qed.
Lemma Eeq_u32 : b < B -> ueq_u32 (uof a) b = Ok (a =? b). Proof. intros. now rewrite ueq_u32_spec, Va. Qed.
Lemma Eneq_u32 : b < B -> uneq_u32 (uof a) b = Ok (negb (a =? b)). Proof. intros. now rewrite uneq_u32_spec, Va. Qed.
Lemma Ecomp_u32 : b < B -> ucomp_u32 (uof a) b = Ok (a ?= b). Proof. intros. now rewrite ucomp_u32_spec, Va. Qed.
Lemma Eis_zero : uis_zero (uof a) = (a =? 0). Proof. now rewrite uis_zero_spec, Va. Qed.
Lemma Eis_one : uis_one (uof a) = (a =? 1). Proof. now rewrite uis_one_spec, Va. Qed.
Lemma Eto_u32 : uto_u32_opt (uof a) = if a <? B then Some a else None.
Proof. now rewrite uto_u32_opt_spec, Va. Qed.
Lemma Eto_u64 : uto_u64_opt (uof a) = if a <? 2 ^ 64 then Some a else None.
Proof. now rewrite uto_u64_opt_spec, Va. Qed.
Lemma Eto_u128 : uto_u128_opt (uof a) = if a <? 2 ^ 128 then Some a else None.
Proof. now rewrite uto_u128_opt_spec, Va. Qed.
Lemma Eshr n : ushift_right (uof a) n = uof (a / BB n).
Proof. destruct (ushift_right_spec _ n Wa) as [H1 H2]. rewrite <- (uof_of_wf _ H1), H2. now rewrite Va. Qed.
Lemma Eshl n : ushift_left (uof a) n = uof (a * BB n).
Proof. destruct (ushift_left_spec _ n Wa) as [H1 H2]. rewrite <- (uof_of_wf _ H1), H2. now rewrite Va. Qed.
Lemma Eshl_mut n : ushift_left_mut (uof a) n = uof (a * BB n).
Proof. rewrite ushift_left_mut_eq by auto. apply Eshl. Qed.
Lemma Eabs_diff : uabs_diff (uof a) (uof b) = Ok (uof (Z.abs (a - b))).
Proof. us ltac:(lia) uabs_diff_spec. Qed.
Lemma Eabs_diff_u32 : b < B -> uabs_diff_u32 (uof a) b = Ok (uof (Z.abs (a - b))).
Proof. us ltac:(lia) uabs_diff_u32_spec. Qed.
End U.

Lemma Ediv_zero a : 0 <= a -> udiv (uof a) (uof 0) = Panic.
Proof. intros. apply udiv_zero; auto using uof_wf, Z.le_refl. Qed.
Lemma Erem_zero a : 0 <= a -> urem (uof a) (uof 0) = Panic.
Proof. intros. apply urem_zero; auto using uof_wf, Z.le_refl. Qed.
Lemma Ezero : uzero = uof 0. Proof. reflexivity. Qed.
Lemma Eone : uone = uof 1. Proof. reflexivity. Qed.
Lemma nlimbs_iff z n : 0 <= z -> (1 <= n)%nat -> (length (uof z) <= n)%nat <-> z < BB n.
Proof.
  intros Hz Hn. split; intros H.
  - pose proof (uwf_upper _ (uof_wf z Hz)) as U. rewrite uof_uval in U by auto. pose proof (BB_mono _ _ H). lia.
  - apply uwf_len_ub; auto using uof_wf. now rewrite uof_uval.
Qed.
Lemma len_uof_mono a b : 0 <= a <= b -> (length (uof a) <= length (uof b))%nat.
Proof. intros. apply uwf_len_le; try apply uof_wf; try lia. rewrite !uof_uval; lia. Qed.
Lemma len_uof_bounds z : 0 <= z -> (1 <= length (uof z))%nat /\ z < BB (length (uof z)) /\
  ((1 < length (uof z))%nat -> BB (length (uof z) - 1) <= z).
Proof.
  intros Hz. pose proof (uof_wf z Hz) as W. split; [now apply uwf_len |]. split.
  - pose proof (uwf_upper _ W) as U. now rewrite uof_uval in U.
  - intros H. pose proof (uwf_lower _ W H) as U. now rewrite uof_uval in U.
Qed.
