(** Sum, Product and exp2_accurate on integers *)
From Verif Require Import Base USpec UFacts UBig UAddSub UMul UDiv UEq UFun UPow USqrt UPrime UMore.

Lemma Esum_from l : Forall (fun z => 0 <= z) l -> forall a, 0 <= a -> fold_left uadd_mut (map uof l) (uof a) = uof (a + fold_right Z.add 0 l).
Proof.
  induction 1 as [| z l Hz Hl IH]; intros a Ha; cbn [map fold_left fold_right]. { now rewrite Z.add_0_r. }
  rewrite Eadd_mut, IH by lia. f_equal. lia.
Qed.
Lemma Esum l : Forall (fun z => 0 <= z) l -> usum (map uof l) = uof (fold_right Z.add 0 l).
Proof. intros H. unfold usum. rewrite Ezero, Esum_from by (auto; lia). reflexivity. Qed.
Lemma Eproduct_from l : Forall (fun z => 0 <= z) l -> forall a, 0 <= a -> uproduct_loop (map uof l) (uof a) = Ok (uof (a * fold_right Z.mul 1 l)).
Proof.
  induction 1 as [| z l Hz Hl IH]; intros a Ha; cbn [map uproduct_loop fold_right]. { now rewrite Z.mul_1_r. }
  unfold umul_mut. rewrite Emul by lia. cbn [bind]. rewrite IH by nia. do 2 f_equal. ring.
Qed.
Lemma Eproduct l : Forall (fun z => 0 <= z) l -> uproduct (map uof l) = Ok (uof (fold_right Z.mul 1 l)).
Proof. intros H. unfold uproduct. rewrite Eone, Eproduct_from by (auto; lia). do 2 f_equal. ring. Qed.

(** ** the table *)
Definition tabE (i : Z) : Z := nth (Z.to_nat i) EXP2_TABLE 0.
Definition tab_chk (i : nat) : bool :=
  let v := nth i EXP2_TABLE 0 in (2 ^ 62 <=? v) && (v <=? 2 ^ 63) && (v <=? nth (i + 1) EXP2_TABLE (2 ^ 63)).
Lemma tab_chk_all : forallb tab_chk (seq 0 513) = true.
Proof. vm_compute. reflexivity. Qed.
Lemma tab_spec i : 0 <= i <= 512 -> getv EXP2_TABLE (Z.to_nat i) = Ok (tabE i) /\ 2 ^ 62 <= tabE i <= 2 ^ 63 /\
  (i < 512 -> tabE i <= tabE (i + 1)).
Proof.
  intros Hi. pose proof tab_chk_all as H. rewrite forallb_forall in H. specialize (H (Z.to_nat i)).
  assert (In (Z.to_nat i) (seq 0 513)) as I by (apply in_seq; lia). specialize (H I). unfold tab_chk in H. fold (tabE i) in H.
  repeat (apply andb_true_iff in H as [H ?]). rewrite Z.leb_le in *.
  split; [| split; [lia |]].
  - unfold getv, tabE. rewrite (nth_error_nth' EXP2_TABLE 0); [reflexivity |]. change (length EXP2_TABLE) with 513%nat. lia.
  - intros L. unfold tabE at 2. rewrite (nth_indep EXP2_TABLE 0 (2 ^ 63)) by (change (length EXP2_TABLE) with 513%nat; lia).
    replace (Z.to_nat (i + 1)) with (Z.to_nat i + 1)%nat by lia. auto.
Qed.
Lemma tab_mono i : 0 <= i < 512 -> tabE i <= tabE (i + 1).
Proof. intros Hi. destruct (tab_spec i ltac:(lia)) as (_ & _ & H). apply H. lia. Qed.

(** ** the bisection *)
Definition e2step (s : Z * Z * Z) : Z * Z * Z :=
  let '(f1, f2, fr) := s in
  let mid := Z.sqrt (f1 * f2) in
  if 2 ^ 22 <? fr then (mid, f2, (fr - 2 ^ 22) * 2) else (f1, mid, fr * 2).
Definition e2ok (s : Z * Z * Z) : Prop :=
  let '(f1, f2, fr) := s in 2 ^ 62 <= f1 /\ f1 <= f2 /\ f2 <= 2 ^ 63 /\ 0 <= fr <= 2 ^ 23.
Definition e2u (s : Z * Z * Z) : ubig * ubig * Z := let '(f1, f2, fr) := s in (uof f1, uof f2, fr).

Lemma mid_bounds f1 f2 : 0 <= f1 <= f2 -> f1 <= Z.sqrt (f1 * f2) <= f2.
Proof.
  intros H. split.
  - apply Z.sqrt_le_square; nia.
  - apply Z.le_trans with (Z.sqrt (f2 * f2)); [apply Z.sqrt_le_mono; nia | rewrite Z.sqrt_square; lia].
Qed.
Lemma e2step_ok s : e2ok s -> e2ok (e2step s).
Proof.
  destruct s as [[f1 f2] fr]. cbn -[Z.pow Z.sqrt]. intros (H1 & H2 & H3 & H4). pose proof (mid_bounds f1 f2 ltac:(lia)).
  destruct (Z.ltb_spec (2 ^ 22) fr); cbn -[Z.pow Z.sqrt]; splits; lia.
Qed.
Lemma e2body i s : e2ok s -> exp2_acc_body i (e2u s) = Ok (e2u (e2step s)).
Proof.
  destruct s as [[f1 f2] fr]. unfold exp2_acc_body, e2u, e2step, e2ok. intros (H1 & H2 & H3 & H4). rewrite Emul by lia. cbn [bind].
  rewrite Esqrt.
  2: { nia. }
  2: { assert (L : length (uof (f1 * f2)) = 4%nat).
       { assert (P : 2 ^ 62 * 2 ^ 62 <= f1 * f2) by (apply Z.mul_le_mono_nonneg; lia).
         assert (P2 : f1 * f2 <= 2 ^ 63 * 2 ^ 63) by (apply Z.mul_le_mono_nonneg; lia).
         assert (length (uof (f1 * f2)) <= 4)%nat.
         { apply nlimbs_iff; try lia. eapply Z.le_lt_trans; [exact P2 | reflexivity]. }
         assert (~ (length (uof (f1 * f2)) <= 3)%nat); [| lia]. intros C. apply nlimbs_iff in C; try lia.
         assert (E : BB 3 <= 2 ^ 62 * 2 ^ 62) by (vm_compute; discriminate). lia. }
       unfold top64. rewrite L. assert (P2 : f1 * f2 <= 2 ^ 63 * 2 ^ 63) by (apply Z.mul_le_mono_nonneg; lia).
       apply Z.le_lt_trans with (2 ^ 63 * 2 ^ 63 / BB (4 - 2)); [apply Z.div_le_mono; [reflexivity | auto] | reflexivity]. }
  cbn [bind]. destruct (Z.ltb_spec (2 ^ 22) fr).
  - rewrite subw_ok by lia. cbn [bind]. rewrite mulw_ok by lia. reflexivity.
  - rewrite mulw_ok by lia. reflexivity.
Qed.
Fixpoint e2iter (n : nat) (s : Z * Z * Z) : Z * Z * Z := match n with O => s | S m => e2iter m (e2step s) end.
Lemma e2loop n : forall i s, e2ok s -> for_ n i exp2_acc_body (e2u s) = Ok (e2u (e2iter n s)) /\ e2ok (e2iter n s).
Proof.
  induction n as [| n IH]; intros i s H; cbn [for_ e2iter]; auto. rewrite e2body by auto. cbn [bind]. apply IH. now apply e2step_ok.
Qed.

Definition e2start (n : Z) : Z * Z * Z := let fr := n mod 2 ^ 32 in (tabE (fr / 2 ^ 23), tabE (fr / 2 ^ 23 + 1), fr mod 2 ^ 23).
Lemma e2start_ok n : e2ok (e2start n).
Proof.
  unfold e2start. pose proof (Z.mod_pos_bound n (2 ^ 32) ltac:(lia)) as M. set (fr := n mod 2 ^ 32) in *. clearbody fr.
  assert (0 <= fr / 2 ^ 23 < 512) by (split; [apply Z.div_pos; lia | apply Z.div_lt_upper_bound; lia]).
  cbv beta zeta iota delta [e2ok]. pose proof (tab_mono _ H). destruct (tab_spec (fr / 2 ^ 23) ltac:(lia)) as (_ & ? & _).
  destruct (tab_spec (fr / 2 ^ 23 + 1) ltac:(lia)) as (_ & ? & _). pose proof (Z.mod_pos_bound fr (2 ^ 23) ltac:(lia)). lia.
Qed.
Definition e2g (s : Z * Z * Z) : Z := let '(f1, f2, fr) := s in f1 + (f2 - f1) * fr / 2 ^ 23.
Definition e2p (n : Z) : Z := 2 ^ (n / 2 ^ 32) * e2g (e2iter 5 (e2start n)) / 2 ^ 32.
Definition e2val (n : Z) : Z := let p := e2p n in p / 2 ^ 30 + (if 2 ^ 29 <? p mod 2 ^ 30 then 1 else 0).

Lemma Eexp2_accurate n : 0 <= n -> uexp2_accurate (uof n) = if n <? 2 ^ 96 then Ok (uof (e2val n)) else Panic.
Proof.
  intros Hn. unfold uexp2_accurate. rewrite Eshr by auto. change (BB 1) with (2 ^ 32).
  assert (Q : 0 <= n / 2 ^ 32) by (apply Z.div_pos; lia). rewrite Eshl by auto. change (BB 1) with (2 ^ 32).
  pose proof (Z.div_mod n (2 ^ 32) ltac:(lia)) as DM. pose proof (Z.mod_pos_bound n (2 ^ 32) ltac:(lia)) as M.
  rewrite Esub by lia. cbn [bind]. replace (n - n / 2 ^ 32 * 2 ^ 32) with (n mod 2 ^ 32) by lia.
  rewrite Eto_u64 by lia. destruct (Z.ltb_spec (n mod 2 ^ 32) (2 ^ 64)); [| lia]. cbn [expect bind].
  assert (I : 0 <= n mod 2 ^ 32 / 2 ^ 23 < 512) by (split; [apply Z.div_pos; lia | apply Z.div_lt_upper_bound; lia]).
  destruct (tab_spec (n mod 2 ^ 32 / 2 ^ 23) ltac:(lia)) as (G1 & B1 & _). destruct (tab_spec (n mod 2 ^ 32 / 2 ^ 23 + 1) ltac:(lia)) as (G2 & B2 & _).
  rewrite G1, G2. cbn [bind]. rewrite !ufrom_u64_spec by lia.
  change (uof (tabE (n mod 2 ^ 32 / 2 ^ 23)), uof (tabE (n mod 2 ^ 32 / 2 ^ 23 + 1)), (n mod 2 ^ 32) mod 2 ^ 23) with (e2u (e2start n)).
  destruct (e2loop 5 0 (e2start n) (e2start_ok n)) as (-> & O). cbn [bind].
  unfold e2val, e2p. destruct (e2iter 5 (e2start n)) as [[f1 f2] fr]. unfold e2u, e2g, e2ok in O |- *. destruct O as (O1 & O2 & O3 & O4).
  rewrite Esub by lia. cbn [bind]. replace (castw 32 fr) with fr by (unfold castw; symmetry; apply Z.mod_small; lia).
  unfold umul_u32. rewrite Emul_u32 by (try lia; change B with (2 ^ 32); lia). cbn [bind].
  assert (0 <= (f2 - f1) * fr) by nia.
  unfold udiv_u32. rewrite Ediv_u32 by (auto; change B with (2 ^ 32); lia). cbn [bind].
  assert (0 <= (f2 - f1) * fr / 2 ^ 23) by (apply Z.div_pos; lia).
  rewrite Eadd_mut by lia. set (g := f1 + (f2 - f1) * fr / 2 ^ 23). assert (0 <= g) by (unfold g; lia). clearbody g.
  rewrite Eto_u64 by lia.
  assert (EQ : (n / 2 ^ 32 <? 2 ^ 64) = (n <? 2 ^ 96)).
  { destruct (Z.ltb_spec n (2 ^ 96)) as [L | L].
    - apply Z.ltb_lt. apply Z.div_lt_upper_bound; lia.
    - apply Z.ltb_ge. apply Z.div_le_lower_bound; lia. }
  rewrite EQ. destruct (n <? 2 ^ 96); [| reflexivity]. cbn [expect bind].
  rewrite Eexp2 by auto. assert (0 <= 2 ^ (n / 2 ^ 32)) by (apply Z.pow_nonneg; lia). rewrite Emul by auto. cbn [bind].
  rewrite Eshr by nia. change (BB 1) with (2 ^ 32). assert (0 <= 2 ^ (n / 2 ^ 32) * g / 2 ^ 32) by (apply Z.div_pos; nia).
  set (p := 2 ^ (n / 2 ^ 32) * g / 2 ^ 32) in *. clearbody p. rewrite Ediv_u32 by (auto; change B with (2 ^ 32); lia). cbn [bind].
  rewrite Erem_pow2 by lia. cbn [bind]. assert (R : head0 (uof (p mod 2 ^ 30)) = Ok (p mod 2 ^ 30)).
  { pose proof (Z.mod_pos_bound p (2 ^ 30) ltac:(lia)). set (z := p mod 2 ^ 30) in *. clearbody z. unfold head0.
    assert (L : length (uof z) = 1%nat).
    { destruct (len_uof_bounds z ltac:(lia)) as (? & _). assert (length (uof z) <= 1)%nat by (apply nlimbs_iff; try lia; change (BB 1) with (2 ^ 32); lia). lia. }
    pose proof (uof_uval z ltac:(lia)) as U. destruct (uof z) as [| d [| ? ?]]; cbn in L; try lia. cbn in U |- *. f_equal. lia. }
  rewrite R. cbn [bind]. assert (0 <= p / 2 ^ 30) by (apply Z.div_pos; lia).
  destruct (2 ^ 29 <? p mod 2 ^ 30). { unfold uadd_u32. now rewrite Eadd_u32 by (auto; change B with (2 ^ 32); lia). } now rewrite Z.add_0_r.
Qed.
