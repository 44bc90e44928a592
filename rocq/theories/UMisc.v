(** Domain on which [rem_u32_mut] is right. *)
From Verif Require Import Base USpec UFacts UBig UAddSub UMul UDiv.

Lemma rem_u32_mut_go_spec o a : 0 < o <= 65536 -> forall cp res0, limbs a -> 0 <= cp <= 65535 -> 0 <= res0 ->
  res0 + 65536 * Z.of_nat (length a) < 4294967296 ->
  returns (rem_u32_mut_go a o (B mod o) cp res0) (fun r => 0 <= r /\ r mod o = (res0 + cp * uval a) mod o).
Proof.
  intros Ho. induction a as [| d a IH]; intros cp res0 Ha Hcp Hr Hlen; cbn [rem_u32_mut_go].
  - apply returns_ok. cbn [uval]. split; auto. f_equal. lia.
  - apply limbs_cons in Ha as [Hd Ha]. cbn [length] in Hlen.
    rewrite remw_ok by lia. cbn [bind].
    pose proof (Z.mod_pos_bound d o ltac:(lia)) as Hdm.
    pose proof (Z.mod_pos_bound B o ltac:(lia)) as Hum.
    assert (M1 : 0 <= d mod o * cp <= 65535 * 65535) by (apply mul_bound; lia).
    rewrite mulw_ok by (change (2 ^ 32) with B; lia). cbn [bind]. rewrite remw_ok by lia. cbn [bind].
    pose proof (Z.mod_pos_bound (d mod o * cp) o ltac:(lia)) as Hpm.
    rewrite addw_ok by (change (2 ^ 32) with B; lia). cbn [bind].
    assert (M2 : 0 <= cp * (B mod o) <= 65535 * 65535) by (apply mul_bound; lia).
    rewrite mulw_ok by (change (2 ^ 32) with B; lia). cbn [bind]. rewrite remw_ok by lia. cbn [bind].
    pose proof (Z.mod_pos_bound (cp * (B mod o)) o ltac:(lia)) as Hcm.
    eapply returns_weaken. { apply IH; auto; lia. }
    cbn beta. intros r (R1 & R2). split; auto. rewrite R2. cbn [uval].
    rewrite !(Z.mod_eq (_ * _) o), (Z.mod_eq d o), (Z.mod_eq B o) by lia.
    set (x1 := d / o). set (x2 := (d - o * x1) * cp / o). set (x3 := B / o). set (x4 := cp * (B - o * x3) / o).
    replace (res0 + ((d - o * x1) * cp - o * x2) + (cp * (B - o * x3) - o * x4) * uval a)
      with (res0 + cp * (d + B * uval a) + (- (x1 * cp + x2 + (cp * x3 + x4) * uval a)) * o) by ring.
    apply Z.mod_add. lia.
Qed.
Lemma urem_u32_mut_spec a o : uwf a -> 0 < o <= 65536 -> Z.of_nat (length a) <= 65535 ->
  returns (urem_u32_mut a o) (fun r => uwf r /\ uval r = uval a mod o).
Proof.
  intros Ha Ho Hlen. unfold urem_u32_mut. rewrite remw_ok by lia. cbn [bind].
  pose proof (Z.mod_pos_bound B o ltac:(lia)) as Hum.
  rewrite castw_small by (change (2 ^ 32) with B; lia).
  eapply returns_bind. { apply rem_u32_mut_go_spec; auto using uwf_limbs; lia. }
  intros r (R1 & R2). rewrite remw_ok by lia. cbn [bind]. apply returns_ok.
  rewrite R2. replace (0 + 1 * uval a) with (uval a) by ring.
  pose proof (Z.mod_pos_bound (uval a) o ltac:(lia)).
  unfold ufrom_u32. split; [apply uwf_single; lia | cbn [uval]; lia].
Qed.
Lemma urem_u32_mut_one_limb x o : 0 <= x < 4294967296 -> 0 < o < 4294967296 ->
  returns (urem_u32_mut [x] o) (fun r => uwf r /\ uval r = x mod o).
Proof.
  intros Hx Ho. unfold urem_u32_mut. rewrite remw_ok by lia. cbn [bind]. 
  pose proof (Z.mod_pos_bound B o ltac:(lia)) as Hum.
  rewrite castw_small by (change (2 ^ 32) with B; lia). cbn [rem_u32_mut_go].
  rewrite remw_ok by lia. cbn [bind]. pose proof (Z.mod_pos_bound x o ltac:(lia)).
  rewrite mulw_ok by (change (2 ^ 32) with B; lia). cbn [bind]. rewrite remw_ok by lia. cbn [bind].
  pose proof (Z.mod_pos_bound (x mod o * 1) o ltac:(lia)).
  rewrite addw_ok by (change (2 ^ 32) with B; lia). cbn [bind].
  rewrite mulw_ok by (change (2 ^ 32) with B; lia). cbn [bind]. rewrite !remw_ok by lia. cbn [bind]. rewrite remw_ok by lia. cbn [bind].
  apply returns_ok. rewrite Z.mul_1_r, Z.add_0_l, !Z.mod_mod by lia. unfold ufrom_u32. split; [apply uwf_single; lia | cbn [uval]; lia].
Qed.
