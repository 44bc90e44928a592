(** Polynomial operations against the specification. *)
From Verif Require Import Base UBig UStr BBig BSpec BEq RBig RStr RSpec REq RIeee ISpec RIterP MMat MSpec MEq MInv PPoly PSpec.
From Verif Require MDet.
Open Scope Q_scope.

Definition pof (l : list Q) : list rat := map rof l.
Lemma pof_pval p : Forall rwf p -> pof (pval p) = p.
Proof. intros H. unfold pof, pval. rewrite map_map. rewrite <- (map_id p) at 2. apply map_ext_in. intros r Hr. apply rof_rval. rewrite Forall_forall in H; auto. Qed.
Lemma pof_wf l : Forall rwf (pof l).
Proof. apply Forall_forall. intros x H. apply in_map_iff in H as [q [<- _]]. apply rof_wf. Qed.

(** lists of equal rationals *)
Lemma F2_length (l m : list Q) : Forall2 Qeq l m -> length l = length m.
Proof. induction 1; cbn; congruence. Qed.
Lemma peval_ext l m x : Forall2 Qeq l m -> peval l x == peval m x.
Proof. induction 1 as [| a b l m E F IH]; [reflexivity|]. cbn [peval]. rewrite E, IH, (F2_length _ _ F). reflexivity. Qed.
Lemma pval_pof l : Forall2 Qeq (pval (pof l)) l.
Proof. induction l as [| a l IH]; cbn; constructor; [apply rof_val | exact IH]. Qed.
Lemma nth_Forall2 l m k : Forall2 Qeq l m -> nth k l 0 == nth k m 0.
Proof. intros H. revert k. induction H as [| a b l m E F IH]; intros [| k]; cbn; auto; reflexivity. Qed.
Lemma Forall2_rev {A C} (R : A -> C -> Prop) l m : Forall2 R l m -> Forall2 R (rev l) (rev m).
Proof. induction 1; cbn; [constructor|]. apply Forall2_app; auto. Qed.
Lemma pcoef_ext l m : Forall2 Qeq l m -> pequal l m.
Proof. intros H k. unfold pcoef. apply nth_Forall2, Forall2_rev, H. Qed.

(** evaluation as a sum of coefficients times powers *)
Lemma qsum_shift f n : qsum f (S n) == f 0%nat + qsum (fun i => f (S i)) n.
Proof. induction n as [| n IH]; [cbn; ring|]. change (qsum f (S (S n))) with (qsum f (S n) + f (S n)). rewrite IH. cbn [qsum]. ring. Qed.
Lemma pcoef_cons c t k : (k < length t)%nat -> pcoef (c :: t) k = pcoef t k.
Proof. intros H. unfold pcoef. cbn [rev]. rewrite app_nth1; [reflexivity | now rewrite rev_length]. Qed.
Lemma pcoef_top c t : pcoef (c :: t) (length t) = c.
Proof. unfold pcoef. cbn [rev]. rewrite app_nth2 by (rewrite rev_length; lia). rewrite rev_length, Nat.sub_diag. reflexivity. Qed.
Lemma pcoef_over l k : (length l <= k)%nat -> pcoef l k = 0.
Proof. intros H. unfold pcoef. apply nth_overflow. now rewrite rev_length. Qed.
Lemma peval_sum l x : peval l x == qsum (fun k => pcoef l k * qpw x k) (length l).
Proof.
  induction l as [| c t IH]; [reflexivity|]. cbn [peval length qsum]. rewrite pcoef_top, IH.
  rewrite (qsum_ext (fun k => pcoef (c :: t) k * qpw x k) (fun k => pcoef t k * qpw x k)).
  - ring.
  - intros i Hi. now rewrite pcoef_cons.
Qed.
Lemma qsum_zero_tail f n m : (n <= m)%nat -> (forall k, (n <= k)%nat -> f k == 0) -> qsum f m == qsum f n.
Proof. intros H Z. induction H as [| m H IH]; [reflexivity|]. cbn [qsum]. rewrite IH, (Z m) by auto. ring. Qed.
Lemma peval_equal p q x : pequal p q -> peval p x == peval q x.
Proof.
  intros H. rewrite !peval_sum. set (N := Nat.max (length p) (length q)).
  rewrite <- (qsum_zero_tail (fun k => pcoef p k * qpw x k) (length p) N), <- (qsum_zero_tail (fun k => pcoef q k * qpw x k) (length q) N).
  - apply qsum_ext. intros i _. pose proof (H i) as Hi. now rewrite Hi.
  - lia.
  - intros k Hk. rewrite pcoef_over by auto. ring.
  - lia.
  - intros k Hk. rewrite pcoef_over by auto. ring.
Qed.

(** ** from_vec *)
Lemma rof_zero_iff q : ris_zero (rof q) = true <-> q == 0.
Proof. rewrite Ris_zero. destruct (qeqb_qeq q 0); split; auto; discriminate. Qed.
Lemma pcoef_zero c t : c == 0 -> pequal (c :: t) t.
Proof.
  intros H k. destruct (Nat.lt_ge_cases k (length t)); [now rewrite pcoef_cons|].
  rewrite (pcoef_over t) by auto. destruct (Nat.eq_dec k (length t)) as [-> |]; [now rewrite pcoef_top |]. rewrite pcoef_over; [reflexivity | cbn [length]; lia].
Qed.
Lemma lead_skip l : exists z, l = z ++ skipn (lead_zeros (pof l)) l /\ Forall (fun c => c == 0) z /\
  match skipn (lead_zeros (pof l)) l with [] => True | c :: _ => ~ c == 0 end.
Proof.
  induction l as [| c t IH]; [exists []; cbn; auto|]. cbn [pof map lead_zeros]. destruct (ris_zero (rof c)) eqn:E.
  - destruct IH as (z & E1 & E2 & E3). exists (c :: z). cbn [skipn]. split; [cbn; f_equal; exact E1|]. split; [| exact E3].
    constructor; auto. now apply rof_zero_iff.
  - exists []. cbn [skipn app]. repeat split; auto. intros H. apply rof_zero_iff in H. congruence.
Qed.
Lemma pequal_trans p q r : pequal p q -> pequal q r -> pequal p r.
Proof. intros H1 H2 k. exact (Qeq_trans _ _ _ (H1 k) (H2 k)). Qed.
Lemma pequal_app_zero z l : Forall (fun c => c == 0) z -> pequal (z ++ l) l.
Proof. induction 1 as [| c z H F IH]; [intros k; reflexivity|]. cbn [app]. eapply pequal_trans; [now apply pcoef_zero | exact IH]. Qed.
Lemma pequal_zero : pequal [0] [].
Proof. intros [| [| k]]; reflexivity. Qed.
Lemma skipn_pof n l : skipn n (pof l) = pof (skipn n l).
Proof. revert l. induction n as [| n IH]; intros [| c l]; cbn; auto. Qed.
Lemma skipn_0' {A} (l : list A) n : (if negb (n =? 0)%nat then skipn n l else l) = skipn n l.
Proof. destruct n; reflexivity. Qed.
(** the value, shape and length of [from_vec] *)
Lemma Pfrom_vec l : exists m, pfrom_vec (pof l) = pof m /\ pequal m l /\ pcanon m /\ (length m <= Nat.max 1 (length l))%nat.
Proof.
  destruct (lead_skip l) as (z & E1 & E2 & E3). unfold pfrom_vec. rewrite skipn_0', skipn_pof.
  set (s := skipn (lead_zeros (pof l)) l) in *. destruct s as [| c t] eqn:Es; cbn [pof map].
  - exists [0]. repeat split; [| left; reflexivity | cbn [length]; lia]. rewrite E1. intros k. etransitivity; [apply pequal_zero|]. symmetry. exact (pequal_app_zero z [] E2 k).
  - exists (c :: t). repeat split.
    + rewrite E1. intros k. symmetry. apply pequal_app_zero, E2.
    + right. exists c, t. auto.
    + rewrite E1, app_length. cbn [length]. lia.
Qed.

(** ** calc *)
Lemma Pcalc_go l x : forall acc, fold_m (fun result coeff => let* result := rmul_mut result (rof x) in radd_mut result coeff) (pof l) (rof acc) =
  Ok (rof (acc * qpw x (length l) + peval l x)).
Proof.
  induction l as [| c t IH]; intros acc; cbn [pof map fold_m].
  - apply rofE. cbn [peval length]. rewrite qpw_0. ring.
  - rewrite Rmul_mut. cbn [bind]. rewrite Radd_mut. cbn [bind]. rewrite IH. apply rofE. cbn [length peval]. rewrite qpw_S. ring.
Qed.
Lemma Pcalc l x : pcalc (pof l) (rof x) = Ok (rof (peval l x)).
Proof. unfold pcalc. rewrite Rzero, Pcalc_go. apply rofE. ring. Qed.

(** ** mul_k *)
Lemma Pmap_mul f l k : (forall a b, f (rof a) (rof b) = Ok (rof (a * b))) -> map_m (fun n => f n (rof k)) (pof l) = Ok (pof (map (fun c => c * k) l)).
Proof. intros H. unfold pof. rewrite map_m_map, map_map. apply map_m_ok. intros. apply H. Qed.
Lemma pcoef_map (g : Q -> Q) l k : g 0 == 0 -> pcoef (map g l) k == g (pcoef l k).
Proof.
  intros G. unfold pcoef. rewrite <- map_rev. destruct (Nat.lt_ge_cases k (length (rev l))).
  - rewrite (nth_indep _ 0 (g 0)) by now rewrite map_length. now rewrite map_nth.
  - rewrite !nth_overflow by (rewrite ?map_length; auto). now rewrite G.
Qed.

(** ** differentiate *)
(** the coefficients times their exponents *)
Definition dcoefs (l : list Q) : list Q := map (fun '(k, c) => c * qnat k) (rev (combine (seq 0 (length l)) (rev l))).
Lemma casts_nat k : (Z.of_nat k < 2 ^ 31)%Z -> casts 32 (Z.of_nat k) = Z.of_nat k /\ i32r (Z.of_nat k).
Proof.
  intros H. split; [| unfold i32r; lia]. unfold casts. change (2 ^ (32 - 1))%Z with (2 ^ 31)%Z.
  rewrite Z.mod_small; [lia |]. change (2 ^ 32)%Z with (2 * 2 ^ 31)%Z. lia.
Qed.
Lemma combine_pof a (l : list Q) : combine (seq a (length l)) (pof l) = map (fun '(k, c) => (k, rof c)) (combine (seq a (length l)) l).
Proof. revert a. induction l as [| c t IH]; intros a; [reflexivity|]. cbn [length seq pof map combine]. f_equal. apply IH. Qed.
Lemma enum_rev_pof l : enum (rev (pof l)) = map (fun '(k, c) => (k, rof c)) (combine (seq 0 (length l)) (rev l)).
Proof. unfold enum, pof. rewrite <- map_rev, map_length, rev_length, <- (rev_length l). apply combine_pof. Qed.
Lemma combine_fst_lt {A} (l : list A) a n k c : In (k, c) (combine (seq a n) l) -> (k < a + n)%nat.
Proof. intros H. apply in_combine_l, in_seq in H. lia. Qed.
Lemma Pdiff_map (f : rat -> Z -> res rat) l : (Z.of_nat (length l) <= 2 ^ 31)%Z -> (forall a o, i32r o -> f (rof a) o = Ok (rof (a * inject_Z o))) ->
  map_m (fun '(ind, value) => f value (casts 32 (Z.of_nat ind))) (rev (enum (rev (pof l)))) = Ok (pof (dcoefs l)) /\
  map_m (fun '(ind, value) => f value (casts 32 (Z.of_nat ind))) (enum (rev (pof l))) = Ok (rev (pof (dcoefs l))).
Proof.
  intros HL H. rewrite enum_rev_pof. set (C := combine (seq 0 (length l)) (rev l)).
  assert (HC : forall k c, In (k, c) C -> (k < length l)%nat) by (intros k c; apply combine_fst_lt).
  split.
  - rewrite <- map_rev, map_m_map. unfold dcoefs. fold C. unfold pof. rewrite map_map. apply map_m_ok.
    intros [k c] Hk. apply in_rev, HC in Hk. destruct (casts_nat k) as [-> I]; [lia|]. now apply H.
  - rewrite map_m_map. unfold dcoefs, pof. rewrite <- map_rev, <- map_rev, rev_involutive. fold C. rewrite map_map. apply map_m_ok.
    intros [k c] Hk. apply HC in Hk. destruct (casts_nat k) as [-> I]; [lia|]. now apply H.
Qed.
Lemma map_combine_seq (l : list Q) : forall a, map (fun '(k, c) => c * qnat k) (combine (seq a (length l)) l) =
  map (fun i => nth i l 0 * qnat (a + i)) (seq 0 (length l)).
Proof.
  induction l as [| c t IH]; intros a; [reflexivity|]. cbn [length seq combine map nth]. rewrite Nat.add_0_r. f_equal.
  rewrite IH, <- seq_shift, map_map. apply map_ext. intros i. cbn [nth]. do 2 f_equal. lia.
Qed.
(** dropping the last element divides by x *)
Lemma removelast_rev {A} (l : list A) : removelast (rev l) = rev (tl l).
Proof. destruct l as [| c t]; [reflexivity|]. cbn [rev tl]. apply removelast_last. Qed.
Definition dlist (l : list Q) : list Q := rev (tl (map (fun i => nth i (rev l) 0 * qnat i) (seq 0 (length l)))).
Lemma dcoefs_removelast l : removelast (dcoefs l) = dlist l.
Proof.
  unfold dcoefs. rewrite map_rev, removelast_rev. unfold dlist. do 2 f_equal.
  rewrite <- (rev_length l), map_combine_seq. reflexivity.
Qed.
Lemma dlist_coef l : pderiv l (dlist l).
Proof.
  intros k. unfold pcoef, dlist. rewrite rev_involutive. destruct l as [| c t]; [destruct k; cbn; ring|].
  cbn [length seq map tl]. rewrite <- seq_shift, map_map.
  destruct (Nat.lt_ge_cases k (length t)).
  - rewrite (nth_indep _ 0 ((fun x : nat => nth (S x) (rev (c :: t)) 0 * qnat (S x)) 0%nat)) by (rewrite map_length, seq_length; auto).
    rewrite (map_nth (fun x : nat => nth (S x) (rev (c :: t)) 0 * qnat (S x))), seq_nth by auto. cbn [Nat.add]. ring.
  - rewrite nth_overflow by (rewrite map_length, seq_length; auto). rewrite nth_overflow by (rewrite rev_length; cbn [length]; lia). ring.
Qed.
Lemma dlist_length l : length (dlist l) = (length l - 1)%nat.
Proof. unfold dlist. rewrite rev_length. destruct l; [reflexivity|]. cbn [length seq map tl]. rewrite map_length, seq_length. lia. Qed.
Lemma pop_pof l : l <> [] -> pop_unwrap (pof l) = Ok (pof (removelast l)).
Proof.
  intros H. destruct l as [| c t]; [congruence|]. cbn [pof map pop_unwrap]. f_equal. change (rof c :: map rof t) with (map rof (c :: t)).
  generalize (c :: t). clear. intros l. induction l as [| c [| d t] IH]; [reflexivity | reflexivity |].
  change (removelast (map rof (c :: d :: t))) with (rof c :: removelast (map rof (d :: t))). rewrite IH. reflexivity.
Qed.
Lemma dcoefs_nil l : l <> [] -> dcoefs l <> [].
Proof.
  intros H E. apply H. apply (f_equal (@length _)) in E. unfold dcoefs in E.
  rewrite map_length, rev_length, combine_length, seq_length, rev_length in E. cbn in E. destruct l; [reflexivity | cbn in E; lia].
Qed.
Definition or0 (l : list Q) : list Q := match l with [] => [0] | _ :: _ => l end.
Lemma or0_equal l : pequal (or0 l) l.
Proof. destruct l; [apply pequal_zero | intros k; reflexivity]. Qed.
Lemma or0_pof l : match pof l with [] => [rzero] | _ :: _ => pof l end = pof (or0 l).
Proof. destruct l; reflexivity. Qed.
Lemma pderiv_equal l d e : pderiv l d -> pequal e d -> pderiv l e.
Proof. intros H E k. exact (Qeq_trans _ _ _ (E k) (H k)). Qed.
Lemma Pdifferentiate l : l <> [] -> (Z.of_nat (length l) <= 2 ^ 31)%Z ->
  exists d, pdifferentiate (pof l) = Ok (pof d) /\ pderiv l d /\ pcanon d.
Proof.
  intros N HL. unfold pdifferentiate. rewrite (proj1 (Pdiff_map rmul_i32 l HL Rmul_i32)). cbn [bind].
  rewrite pop_pof by now apply dcoefs_nil. cbn [bind]. rewrite dcoefs_removelast, or0_pof.
  destruct (Pfrom_vec (or0 (dlist l))) as (m & -> & E & C & _). exists m. split; [reflexivity|]. split; [| exact C].
  eapply pderiv_equal; [apply dlist_coef |]. eapply pequal_trans; [exact E | apply or0_equal].
Qed.
Lemma Pdifferentiate_mut l : l <> [] -> (Z.of_nat (length l) <= 2 ^ 31)%Z ->
  exists d, pdifferentiate_mut (pof l) = Ok (pof d) /\ pderiv l d /\ length d = Nat.max 1 (length l - 1).
Proof.
  intros N HL. unfold pdifferentiate_mut. rewrite (proj2 (Pdiff_map rmul_i32_mut l HL Rmul_i32_mut)). cbn [bind]. rewrite rev_involutive.
  rewrite pop_pof by now apply dcoefs_nil. cbn [bind]. rewrite dcoefs_removelast, or0_pof. exists (or0 (dlist l)). split; [reflexivity|].
  split; [eapply pderiv_equal; [apply dlist_coef | apply or0_equal] |].
  pose proof (dlist_length l) as DL. destruct (dlist l); cbn [or0 length] in *; lia.
Qed.
(** derivatives of the same polynomial are equal *)
Lemma pderiv_fun l d e : pderiv l d -> pderiv l e -> pequal d e.
Proof. intros H1 H2 k. exact (Qeq_trans _ _ _ (H1 k) (Qeq_sym _ _ (H2 k))). Qed.
(** canonical lists are determined by their coefficients *)
Lemma pcanon_pos l : pcanon l -> (0 < length l)%nat. Proof. intros [-> | (c & t & -> & _)]; cbn; lia. Qed.
Lemma pcanon_top l : pcanon l -> (1 < length l)%nat -> ~ pcoef l (length l - 1) == 0.
Proof.
  intros [-> | (c & t & -> & H)] L; [cbn in L; lia|]. cbn [length]. replace (S (length t) - 1)%nat with (length t) by lia. now rewrite pcoef_top.
Qed.
Lemma pcanon_len p q : pcanon p -> pcanon q -> pequal p q -> (length p <= length q)%nat.
Proof.
  intros Hp Hq E. destruct (Nat.le_gt_cases (length p) (length q)); [auto|]. exfalso.
  pose proof (pcanon_pos q Hq). apply (pcanon_top p Hp); [lia|]. pose proof (E (length p - 1)%nat) as K. rewrite (pcoef_over q) in K by lia. exact K.
Qed.
Lemma coef_Forall2 p q : length p = length q -> pequal p q -> Forall2 Qeq p q.
Proof.
  revert q. induction p as [| c t IH]; intros [| d u] L E; try discriminate; constructor.
  - specialize (E (length t)). rewrite pcoef_top in E. injection L as L. rewrite L, pcoef_top in E. exact E.
  - injection L as L. apply IH; auto. intros k. specialize (E k). destruct (Nat.lt_ge_cases k (length t)).
    + rewrite !pcoef_cons in E by lia. exact E.
    + rewrite !pcoef_over by lia. reflexivity.
Qed.
Lemma Forall2_pof p q : Forall2 Qeq p q -> pof p = pof q.
Proof. induction 1 as [| a b l m E F IH]; [reflexivity|]. cbn [pof map]. f_equal; auto. now apply rof_qeq. Qed.
Lemma pcanon_unique p q : pcanon p -> pcanon q -> pequal p q -> pof p = pof q.
Proof.
  intros Hp Hq E. apply Forall2_pof, coef_Forall2; auto. apply Nat.le_antisymm; apply pcanon_len; auto. intros k. symmetry. apply E.
Qed.
