(** Property theorems for the inexact and iterator functions of UBigInt: C81 exp2_accurate, C82 sums and products. *)
From Coq Require Import Reals Lra.
From Verif Require Import Base USpec UFacts UBig UAddSub UMul UDiv UEq UFun UPow USqrt ULog Props_U2 UMore UMoreP UExpR.

(** ** C81 exp2_accurate: 2^(n / 2^32), rounded to an integer *)
Theorem C81_exp2_accurate : forall a, uwf a -> uval a < 2 ^ 96 ->
  returns (uexp2_accurate a) (fun r => uwf r /\
    let X := Rpower 2 (IZR (uval a) / IZR (2 ^ 32)) in
    (X * (1 - / IZR (2 ^ 59)) - (1 / 2 + / IZR (2 ^ 30)) <= IZR (uval r) <= X * (1 + / IZR (2 ^ 30)) + 1 / 2)%R).
Proof.
  apply (on_uof (fun a => _ -> returns (uexp2_accurate a) (fun r => uwf r /\ let X := Rpower 2 (IZR (uval a) / IZR (2 ^ 32)) in
    (X * (1 - / IZR (2 ^ 59)) - (1 / 2 + / IZR (2 ^ 30)) <= IZR (uval r) <= X * (1 + / IZR (2 ^ 30)) + 1 / 2)%R))).
  intros n Hn. rewrite uof_uval by auto. intros HL. rewrite Eexp2_accurate by auto. destruct (Z.ltb_spec n (2 ^ 96)); [| lia].
  apply returns_ok. pose proof (e2val_nonneg n Hn) as H0. rewrite uof_uval by auto. split; [now apply uof_wf |]. now apply e2val_real.
Qed.
Theorem C81_too_large_panics : forall a, uwf a -> 2 ^ 96 <= uval a -> uexp2_accurate a = Panic.
Proof.
  apply (on_uof (fun a => _ -> uexp2_accurate a = Panic)). intros n Hn. rewrite uof_uval by auto. intros HL.
  rewrite Eexp2_accurate by auto. destruct (Z.ltb_spec n (2 ^ 96)); [lia | reflexivity].
Qed.
(** exact on the multiples of 2^32 *)
Theorem C81_exact : forall a k, uwf a -> 0 <= k < 2 ^ 64 -> uval a = k * 2 ^ 32 ->
  returns (uexp2_accurate a) (fun r => uwf r /\ uval r = 2 ^ k).
Proof.
  intros a k Ha Hk E. rewrite <- (uof_of_wf a Ha), E. rewrite Eexp2_accurate by lia. destruct (Z.ltb_spec (k * 2 ^ 32) (2 ^ 96)); [| lia].
  apply returns_ok. rewrite e2val_pow by lia. assert (0 <= 2 ^ k) by (apply Z.pow_nonneg; lia). split; [now apply uof_wf | now apply uof_uval].
Qed.
(** the inverse of log2_accurate, exactly, below 2^29 *)
Theorem C81_inverse : forall a, uwf a -> 0 < uval a < 2 ^ 29 ->
  returns (let* l := ulog2_accurate a in uexp2_accurate l) (fun r => r = a).
Proof.
  intros a Ha Hv.
  assert (HLen : Z.of_nat (length a) < 2 ^ 27).
  { rewrite <- (uof_of_wf a Ha). assert (length (uof (uval a)) <= 1)%nat by (apply nlimbs_iff; try lia; change (BB 1) with (2 ^ 32); lia). lia. }
  pose proof (C15_log2_accurate a Ha (proj1 Hv) HLen) as H. remember (2 ^ 32) as W eqn:HW. destruct H as (l & E & Wl & L1 & L2).
  rewrite E. cbn [bind]. pose proof (uval_nonneg l (proj1 (proj2 Wl))) as Hl.
  rewrite <- (uof_of_wf l Wl). assert (Ea : a = uof (uval a)) by (now rewrite uof_of_wf). set (L := uval l) in *. set (n := uval a) in *. clearbody L n.
  assert (L3 : n ^ W < 2 ^ (L + 2)).
  { replace (L + 2) with (L + 1 + 1) by lia. rewrite (Z.pow_add_r 2 (L + 1) 1) by lia.
    assert (0 < 2 ^ (L + 1)) by (apply Z.pow_pos_nonneg; lia). change (2 ^ 160 + 2 ^ 38) with (1461501637330902918203684832716283019930810449920) in L2.
    change (2 ^ 160) with 1461501637330902918203684832716283019655932542976 in L2. nia. }
  destruct (log_real W n L ltac:(lia) ltac:(lia) Hl L1 L3) as (R1 & R2).
  assert (HL : L < 2 ^ 96).
  { assert (n ^ W <= (2 ^ 29) ^ W) by (apply Z.pow_le_mono_l; lia). rewrite <- Z.pow_mul_r in H by lia.
    assert (M : 2 ^ L <= 2 ^ (29 * W)) by lia. apply Z.pow_le_mono_r_iff in M; lia. }
  rewrite HW in R1, R2. clear L1 L2 L3.
  rewrite Eexp2_accurate by lia. destruct (Z.ltb_spec L (2 ^ 96)); [| lia]. apply returns_ok.
  destruct (e2val_real L Hl) as (V1 & V2). pose proof E2_tiny as T. rewrite Ea. f_equal.
  set (X := Rpower 2 (IZR L / IZR (2 ^ 32))) in *. assert (PX : (0 < X)%R) by apply E2_pos.
  destruct Hv as (Hv1 & Hv2). apply IZR_lt in Hv1, Hv2.
  assert (R3 : (IZR n < X * (1 + 3 / 2 / IZR (2 ^ 32)))%R). { eapply Rlt_le_trans; [exact R2 |]. apply Rmult_le_compat_l; lra. }
  clearbody X. set (r := e2val L) in *. clearbody r.
  change (IZR (2 ^ 29)) with 536870912%R in *. change (IZR (2 ^ 30)) with 1073741824%R in *. change (IZR (2 ^ 32)) with 4294967296%R in *. 
  change (IZR (2 ^ 59)) with 576460752303423488%R in *.
  assert (U : (IZR r < IZR n + 1)%R) by lra. assert (D : (IZR n - 1 < IZR r)%R) by lra.
  rewrite <- plus_IZR in U. rewrite <- minus_IZR in D. apply lt_IZR in U, D. lia.
Qed.
Example C81_ex : uexp2_accurate [0] = Ok [1] /\ uexp2_accurate [2147483648; 10] = Ok [1448] /\ uexp2_accurate [0; 0; 0; 1] = Panic /\
  (let* l := ulog2_accurate [123456789] in uexp2_accurate l) = Ok [123456789].
Proof. splits; vm_compute; reflexivity. Qed.

(** ** C82 sums and products of any sequence *)
Theorem C82_sum_product : forall l, Forall uwf l ->
  (uwf (usum l) /\ uval (usum l) = fold_right Z.add 0 (map uval l)) /\
  returns (uproduct l) (fun r => uwf r /\ uval r = fold_right Z.mul 1 (map uval l)).
Proof.
  intros l H. assert (E : l = map uof (map uval l)).
  { rewrite map_map. rewrite <- (map_id l) at 1. apply map_ext_in. intros x Hx. rewrite uof_of_wf; auto. rewrite Forall_forall in H. auto. }
  assert (N : Forall (fun z => 0 <= z) (map uval l)).
  { apply Forall_forall. intros z Hz. apply in_map_iff in Hz as (x & <- & Hx). rewrite Forall_forall in H. apply uval_nonneg. apply H. auto. }
  set (v := map uval l) in *. clearbody v.
  assert (S0 : 0 <= fold_right Z.add 0 v) by (clear E; induction N as [| z v Hz Hv IH]; cbn [fold_right]; lia).
  assert (P0 : 0 <= fold_right Z.mul 1 v) by (clear - N; induction N as [| z v Hz Hv IH]; cbn [fold_right]; [lia | now apply Z.mul_nonneg_nonneg]).
 subst l. rewrite Esum, Eproduct by auto. split; [| apply returns_ok];
  (split; [now apply uof_wf | now apply uof_uval]).
Qed.
Example C82_ex : usum [[4294967295]; [1]; [0; 1]] = [0; 2] /\ uproduct [[4294967295]; [2]; [3]] = Ok [4294967290; 5] /\ usum [] = [0] /\ uproduct [] = Ok [1].
Proof. splits; vm_compute; reflexivity. Qed.

Print Assumptions C81_exp2_accurate.
Print Assumptions C81_too_large_panics.
Print Assumptions C81_exact.
Print Assumptions C81_inverse.
Print Assumptions C82_sum_product.
