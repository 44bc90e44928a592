(** Matrix operations as equations on [mof]. *)
From Verif Require Import Base UBig UStr BBig BSpec BEq RBig RStr RSpec REq RIeee ISpec RIterP MMat MSpec.
Open Scope nat_scope.

(** ** Iterators *)
Lemma map_m_ok {A C} (f : A -> res C) g l : (forall x, In x l -> f x = Ok (g x)) -> map_m f l = Ok (map g l).
Proof.
  induction l as [| x t IH]; intros H; [reflexivity|]. cbn [map_m map]. rewrite (H x (or_introl eq_refl)). cbn [bind].
  rewrite IH; [reflexivity |]. intros; apply H; now right.
Qed.
Lemma map_m_map {A C D} (f : C -> res D) (g : A -> C) l : map_m f (map g l) = map_m (fun x => f (g x)) l.
Proof. induction l as [| x t IH]; [reflexivity|]. cbn [map_m map]. destruct (f (g x)); auto. cbn [bind]. now rewrite IH. Qed.
Lemma map_m_ext {A C} (f g : A -> res C) l : (forall x, In x l -> f x = g x) -> map_m f l = map_m g l.
Proof.
  induction l as [| x t IH]; intros H; [reflexivity|]. cbn [map_m]. rewrite (H x (or_introl eq_refl)), IH; auto.
  intros; apply H; now right.
Qed.
Lemma fold_m_map {A C T} (f : T -> C -> res T) (g : A -> C) l s : fold_m f (map g l) s = fold_m (fun s x => f s (g x)) l s.
Proof. revert s. induction l as [| x t IH]; intros s; [reflexivity|]. cbn [fold_m map]. destruct (f s (g x)); auto. cbn [bind]. apply IH. Qed.
Lemma fold_m_app {A T} (f : T -> A -> res T) l1 l2 s : fold_m f (l1 ++ l2) s = let* s' := fold_m f l1 s in fold_m f l2 s'.
Proof. revert s. induction l1 as [| x t IH]; intros s; [reflexivity|]. cbn [fold_m app]. destruct (f s x); auto. cbn [bind]. apply IH. Qed.
Lemma range_S n : range 0 (S n) = range 0 n ++ [n].
Proof. unfold range. rewrite !Nat.sub_0_r, seq_S. reflexivity. Qed.
Lemma range_In n i : In i (range 0 n) <-> i < n.
Proof. unfold range. rewrite in_seq. lia. Qed.
Lemma range_0 n : range 0 n = seq 0 n. Proof. unfold range. now rewrite Nat.sub_0_r. Qed.
(** a loop whose states are known in closed form *)
Lemma fold_range {T} (f : T -> nat -> res T) (st : nat -> T) n :
  (forall k, k < n -> f (st k) k = Ok (st (S k))) -> fold_m f (range 0 n) (st 0) = Ok (st n).
Proof.
  induction n as [| n IH]; intros H; [reflexivity|]. rewrite range_S, fold_m_app, IH by (intros; apply H; lia).
  cbn [bind fold_m]. rewrite H by lia. reflexivity.
Qed.
Lemma fold_ext {A T} (f g : T -> A -> res T) l s : (forall s x, In x l -> f s x = g s x) -> fold_m f l s = fold_m g l s.
Proof.
  revert s. induction l as [| x t IH]; intros s H; [reflexivity|]. cbn [fold_m]. rewrite (H s x (or_introl eq_refl)).
  destruct (g s x); auto. cbn [bind]. apply IH. intros; apply H; now right.
Qed.
Lemma combine_seq {C} (h : nat -> C) a n : combine (seq a n) (map h (seq a n)) = map (fun i => (i, h i)) (seq a n).
Proof. revert a. induction n as [| n IH]; intros a; [reflexivity|]. cbn [seq map combine]. now rewrite IH. Qed.
Lemma enum_seq {C} (h : nat -> C) n : enum (map h (seq 0 n)) = map (fun i => (i, h i)) (seq 0 n).
Proof. unfold enum. rewrite map_length, seq_length. apply combine_seq. Qed.

(** ** Vectors of a known form *)
Lemma getv_seq {C} (h : nat -> C) n i : i < n -> getv (map h (seq 0 n)) i = Ok (h i).
Proof.
  intros H. unfold getv. rewrite nth_error_map. replace (nth_error (seq 0 n) i) with (Some i); [reflexivity|].
  symmetry. rewrite (nth_error_nth' _ 0) by (rewrite seq_length; lia). now rewrite seq_nth by lia.
Qed.
Lemma setv_seq_gen {C} (h : nat -> C) y n : forall a i, i < n ->
  setv (map h (seq a n)) i y = Ok (map (fun k => if k =? a + i then y else h k) (seq a n)).
Proof.
  induction n as [| n IH]; intros a i H; [lia|]. destruct i as [| i].
  - cbn [seq map setv]. rewrite Nat.add_0_r, Nat.eqb_refl. do 2 f_equal. apply map_ext_in. intros k Hk. apply in_seq in Hk.
    destruct (Nat.eqb_spec k a); [lia | reflexivity].
  - cbn [seq map setv]. rewrite IH by lia. cbn [bind]. destruct (Nat.eqb_spec a (a + S i)); [lia|]. do 2 f_equal.
    apply map_ext. intros k. replace (S a + i) with (a + S i) by lia. reflexivity.
Qed.
Lemma setv_seq {C} (h : nat -> C) y n i : i < n -> setv (map h (seq 0 n)) i y = Ok (map (fun k => if k =? i then y else h k) (seq 0 n)).
Proof. intros. now rewrite setv_seq_gen by lia. Qed.

(** ** [mof] *)
Lemma mof_ext r c f g : meq r c f g -> mof r c f = mof r c g.
Proof.
  intros H. unfold mof. f_equal. apply map_ext_in. intros i Hi. apply in_seq in Hi. apply map_ext_in. intros j Hj.
  apply in_seq in Hj. apply rof_qeq, H; lia.
Qed.
Lemma mof_inj r c f g : mof r c f = mof r c g -> meq r c f g.
Proof.
  intros H i j Hi Hj. injection H as H. apply rof_inj.
  assert (E : getv (map (fun i => map (fun j => rof (f i j)) (seq 0 c)) (seq 0 r)) i =
              getv (map (fun i => map (fun j => rof (g i j)) (seq 0 c)) (seq 0 r)) i) by now rewrite H.
  rewrite !getv_seq in E by lia. injection E as E.
  assert (E2 : getv (map (fun j => rof (f i j)) (seq 0 c)) j = getv (map (fun j => rof (g i j)) (seq 0 c)) j) by now rewrite E.
  rewrite !getv_seq in E2 by lia. congruence.
Qed.
Lemma nth_seq {C} (h : nat -> C) n i d : i < n -> nth i (map h (seq 0 n)) d = h i.
Proof. intros H. rewrite (nth_indep _ d (h 0)) by (rewrite map_length, seq_length; lia). rewrite map_nth, seq_nth by lia. reflexivity. Qed.
Lemma mval_mof r c f : meq r c (mval (mof r c f)) f.
Proof. intros i j Hi Hj. unfold mval, mof. cbn [mdata]. rewrite !nth_seq by lia. apply rof_val. Qed.
Lemma mof_wf r c f : mwf (mof r c f).
Proof.
  split; cbn [mof mdata mrows mcols]; [now rewrite map_length, seq_length|]. intros row H. apply in_map_iff in H as [i [<- _]].
  split; [now rewrite map_length, seq_length|]. apply Forall_forall. intros x H. apply in_map_iff in H as [j [<- _]]. apply rof_wf.
Qed.
Lemma map_nth_seq {A} (l : list A) d : map (fun i => nth i l d) (seq 0 (length l)) = l.
Proof.
  induction l as [| x t IH]; [reflexivity|]. cbn [length seq map]. f_equal. rewrite <- seq_shift, map_map. apply IH.
Qed.
Lemma mof_mval m : mwf m -> mof (mrows m) (mcols m) (mval m) = m.
Proof.
  destruct m as [d c r]. intros [L H]. cbn [mdata mcols mrows] in *. unfold mof, mval. cbn [mdata]. f_equal.
  etransitivity; [| apply (map_nth_seq d [])]. rewrite L. apply map_ext_in. intros i Hi. apply in_seq in Hi.
  assert (In (nth i d []) d) as Hin by (apply nth_In; lia). destruct (H _ Hin) as [Lr Fr].
  etransitivity; [| apply (map_nth_seq _ rzero)]. rewrite Lr. apply map_ext_in. intros j Hj. apply in_seq in Hj.
  apply rof_rval. rewrite Forall_forall in Fr. apply Fr, nth_In. lia.
Qed.
(** a well-formed matrix is [mof] of its entries *)
Lemma mwf_of m : mwf m -> exists f, m = mof (mrows m) (mcols m) f /\ f = mval m.
Proof. intros H. exists (mval m). split; [symmetry; now apply mof_mval | reflexivity]. Qed.

Lemma mget_mof r c f i j : i < r -> j < c -> mget (mof r c f) i j = Ok (rof (f i j)).
Proof. intros. unfold mget, mof. cbn [mdata]. rewrite getv_seq by lia. cbn [bind]. now rewrite getv_seq by lia. Qed.
Definition updm (f : nat -> nat -> Q) (i j : nat) (q : Q) : nat -> nat -> Q := fun a b => if (a =? i) && (b =? j) then q else f a b.
Lemma mset_mof r c f i j q : i < r -> j < c -> mset (mof r c f) i j (rof q) = Ok (mof r c (updm f i j q)).
Proof.
  intros Hi Hj. unfold mset, mof. cbn [mdata mcols mrows]. rewrite getv_seq by lia. cbn [bind]. rewrite setv_seq by lia. cbn [bind].
  rewrite setv_seq by lia. cbn [bind]. do 2 f_equal. apply map_ext. intros a. unfold updm.
  destruct (Nat.eqb_spec a i); cbn [andb]; [| reflexivity]. subst. apply map_ext. intros b. destruct (b =? j); reflexivity.
Qed.
Lemma mzeros_mof c r : mzeros c r = mof r c (fun _ _ => 0%Q).
Proof.
  unfold mzeros, mof. f_equal. change (rof 0%Q) with rzero.
  assert (G : forall (A : Type) (x : A) a n, map (fun _ => x) (seq a n) = repeat x n).
  { intros A x a n. revert a. induction n as [| n IH]; intros a; [reflexivity|]. cbn [seq map repeat]. now rewrite IH. }
  now rewrite !G.
Qed.

(** [for i in 0..r { for j in 0..c { s[i][j] = h(i, j) } }] where the right side may use the old entry *)
Lemma loop_ij r c (body : mat -> nat -> nat -> res mat) f h :
  (forall g i j, i < r -> j < c -> (g i j == f i j)%Q -> body (mof r c g) i j = Ok (mof r c (updm g i j (h i j)))) ->
  fold_m (fun s i => fold_m (fun s j => body s i j) (range 0 c) s) (range 0 r) (mof r c f) = Ok (mof r c h).
Proof.
  intros H.
  set (st := fun k => mof r c (fun i j => if i <? k then h i j else f i j)).
  transitivity (fold_m (fun s i => fold_m (fun s j => body s i j) (range 0 c) s) (range 0 r) (st 0));
    [f_equal; apply mof_ext; intros i j Hi Hj; reflexivity|].
  rewrite fold_range with (st := st).
  - f_equal. apply mof_ext. intros i j Hi Hj. destruct (Nat.ltb_spec i r); [reflexivity | lia].
  - intros k Hk.
    set (st2 := fun l => mof r c (fun i j => if (i <? k) || ((i =? k) && (j <? l)) then h i j else f i j)).
    transitivity (fold_m (fun s j => body s k j) (range 0 c) (st2 0)).
    { f_equal. apply mof_ext. intros i j Hi Hj. cbn beta. destruct (Nat.ltb_spec j 0); [lia|]. rewrite andb_false_r, orb_false_r. reflexivity. }
    rewrite fold_range with (st := st2).
    + unfold st2, st. f_equal. apply mof_ext. intros i j Hi Hj. cbn beta.
      destruct (Nat.ltb_spec i k), (Nat.ltb_spec i (S k)), (Nat.eqb_spec i k), (Nat.ltb_spec j c); cbn [orb andb]; try reflexivity; lia.
    + intros l Hl. unfold st2. rewrite H; auto.
      * f_equal. apply mof_ext. intros i j Hi Hj. unfold updm.
        destruct (Nat.eqb_spec i k); cbn [andb]; [| now rewrite !orb_false_r]. subst. rewrite Nat.ltb_irrefl. cbn [orb].
        destruct (Nat.eqb_spec j l), (Nat.ltb_spec j (S l)), (Nat.ltb_spec j l); subst; try reflexivity; lia.
      * cbn beta. rewrite Nat.ltb_irrefl, Nat.eqb_refl, Nat.ltb_irrefl. reflexivity.
Qed.
Lemma same_dim_mof r c f g : same_dim (mof r c f) (mof r c g) = true.
Proof. unfold same_dim. cbn [mof mcols mrows]. now rewrite !Nat.eqb_refl. Qed.

(** ** Arithmetic *)
Open Scope Q_scope.
Lemma Madd r c f g : madd (mof r c f) (mof r c g) = Ok (ROk (mof r c (fun i j => f i j + g i j))).
Proof.
  unfold madd. rewrite same_dim_mof. cbn [negb]. cbn [mof mdata mcols mrows]. rewrite enum_seq, map_m_map.
  rewrite map_m_ok with (g := fun i => map (fun j => rof (f i j + g i j)) (seq 0 c)); [reflexivity|].
  intros i Hi. apply in_seq in Hi. rewrite enum_seq, map_m_map. apply map_m_ok. intros j Hj. apply in_seq in Hj.
  change (mkM _ c r) with (mof r c g). rewrite mget_mof by lia. cbn [bind]. apply Radd.
Qed.
Lemma Madd_mut r c f g : madd_mut (mof r c f) (mof r c g) = Ok (ROk (mof r c (fun i j => f i j + g i j))).
Proof.
  unfold madd_mut. rewrite same_dim_mof. cbn [negb]. change (mcols (mof r c f)) with c. change (mrows (mof r c f)) with r.
  rewrite loop_ij with (body := fun s i j => let* x := mget s i j in let* o := mget (mof r c g) i j in let* y := radd_mut x o in mset s i j y)
    (h := fun i j => f i j + g i j); [reflexivity|].
  intros k i j Hi Hj E. rewrite !mget_mof by auto. cbn [bind]. rewrite Radd_mut. cbn [bind].
  rewrite (rof_qeq (k i j + g i j) (f i j + g i j)) by (rewrite E; reflexivity). now apply mset_mof.
Qed.
Lemma Mmul_k r c f k : mmul_k (mof r c f) (rof k) = Ok (mof r c (fun i j => f i j * k)).
Proof.
  unfold mmul_k. cbn [mof mdata mcols mrows]. rewrite map_m_map.
  rewrite map_m_ok with (g := fun i => map (fun j => rof (f i j * k)) (seq 0 c)); [reflexivity|].
  intros i Hi. rewrite map_m_map. apply map_m_ok. intros j Hj. apply Rmul.
Qed.
Lemma Mmul_k_mut r c f k : mmul_k_mut (mof r c f) (rof k) = Ok (mof r c (fun i j => f i j * k)).
Proof.
  unfold mmul_k_mut. change (mcols (mof r c f)) with c. change (mrows (mof r c f)) with r.
  rewrite loop_ij with (body := fun s i j => let* x := mget s i j in let* y := rmul_mut x (rof k) in mset s i j y)
    (h := fun i j => f i j * k); [reflexivity|].
  intros g i j Hi Hj E. rewrite !mget_mof by auto. cbn [bind]. rewrite Rmul_mut. cbn [bind].
  rewrite (rof_qeq (g i j * k) (f i j * k)) by (rewrite E; reflexivity). now apply mset_mof.
Qed.
Lemma updm_updm f i j p q r c : mof r c (updm (updm f i j p) i j q) = mof r c (updm f i j q).
Proof. apply mof_ext. intros a b _ _. unfold updm. destruct (_ && _)%bool; reflexivity. Qed.
Lemma Mmul r n c f g : mmul (mof r n f) (mof n c g) = Ok (ROk (mof r c (mprod n f g))).
Proof.
  unfold mmul. change (mcols (mof r n f)) with n. change (mrows (mof n c g)) with n. change (mcols (mof n c g)) with c.
  change (mrows (mof r n f)) with r. rewrite Nat.eqb_refl. cbn [negb]. rewrite mzeros_mof.
  rewrite loop_ij with (body := fun s i j => fold_m (fun s k =>
                let* x := mget (mof r n f) i k in
                let* y := mget (mof n c g) k j in
                let* p := rmul x y in
                let* z := mget s i j in
                let* z := radd_mut z p in
                mset s i j z) (range 0 n) s) (h := mprod n f g); [reflexivity|].
  intros k i j Hi Hj E.
  set (st := fun l => mof r c (updm k i j (qsum (fun k => f i k * g k j) l))).
  transitivity (fold_m (fun s k =>
                let* x := mget (mof r n f) i k in
                let* y := mget (mof n c g) k j in
                let* p := rmul x y in
                let* z := mget s i j in
                let* z := radd_mut z p in
                mset s i j z) (range 0 n) (st 0%nat)).
  { f_equal. apply mof_ext. intros a b _ _. unfold updm.
    destruct (Nat.eqb_spec a i); [| reflexivity]. destruct (Nat.eqb_spec b j); [| reflexivity]. cbn [andb qsum]. now subst. }
  rewrite fold_range with (st := st); [reflexivity|].
  intros l Hl. unfold st. rewrite !mget_mof by auto. cbn [bind]. rewrite Rmul. cbn [bind].
  rewrite Radd_mut. cbn [bind]. rewrite mset_mof by auto. rewrite updm_updm. f_equal. apply mof_ext. intros a b _ _. unfold updm.
  rewrite !Nat.eqb_refl. cbn [andb qsum]. destruct (_ && _)%bool; reflexivity.
Qed.
Lemma Mtranspose r c f : mtranspose (mof r c f) = Ok (mof c r (fun i j => f j i)).
Proof.
  unfold mtranspose. change (mcols (mof r c f)) with c. change (mrows (mof r c f)) with r. rewrite !range_0.
  rewrite map_m_ok with (g := fun i => map (fun j => rof (f j i)) (seq 0 r)); [reflexivity|].
  intros i Hi. apply in_seq in Hi. apply map_m_ok. intros j Hj. apply in_seq in Hj. now rewrite mget_mof by lia.
Qed.
Lemma Mgenerate c r f q : (forall i j, (i < r)%nat -> (j < c)%nat -> f i j = Ok (rof (q i j))) -> mgenerate c r f = Ok (mof r c q).
Proof.
  intros H. unfold mgenerate. rewrite !range_0.
  rewrite map_m_ok with (g := fun i => map (fun j => rof (q i j)) (seq 0 c)); [reflexivity|].
  intros i Hi. apply in_seq in Hi. apply map_m_ok. intros j Hj. apply in_seq in Hj. apply H; lia.
Qed.
Lemma Midentity n : midentity n = Ok (mof n n mid).
Proof.
  unfold midentity. rewrite mzeros_mof.
  set (st := fun k => mof n n (fun i j => if ((i =? j) && (i <? k))%nat then 1 else 0)).
  transitivity (fold_m (fun result i => mset result i i rone) (range 0 n) (st 0%nat)).
  { f_equal. apply mof_ext. intros i j _ _. destruct (Nat.ltb_spec i 0); [lia|]. now rewrite andb_false_r. }
  rewrite fold_range with (st := st).
  - unfold st. f_equal. apply mof_ext. intros i j Hi Hj. unfold mid. destruct (Nat.eqb_spec i j), (Nat.ltb_spec i n); cbn [andb]; try reflexivity; lia.
  - intros k Hk. unfold st. rewrite Rone, mset_mof by auto. f_equal. apply mof_ext. intros i j Hi Hj. unfold updm.
    destruct (Nat.eqb_spec i k), (Nat.eqb_spec j k), (Nat.eqb_spec i j), (Nat.ltb_spec i (S k)), (Nat.ltb_spec i k); cbn [andb]; try reflexivity; lia.
Qed.

(** ** Determinants *)
Lemma Rmul3 a b c : rmul3 (rof a) (rof b) (rof c) = Ok (rof (a * (b * c))).
Proof. unfold rmul3. rewrite Rmul. cbn [bind]. apply Rmul. Qed.
Lemma Dhack2 a b c d : dhack2 (rof a) (rof b) (rof c) (rof d) = Ok (rof (a * d - b * c)).
Proof. unfold dhack2. rewrite !Rmul. cbn [bind]. apply Rsub. Qed.
Lemma Dhack2n a b c d : dhack2n (rof a) (rof b) (rof c) (rof d) = Ok (rof (b * c - a * d)).
Proof. unfold dhack2n. rewrite !Rmul. cbn [bind]. apply Rsub. Qed.
Definition det3 a b c d e f g h i : Q := a * (e * i) + b * (f * g) + c * (d * h) - c * (e * g) - b * (d * i) - a * (f * h).
Lemma Dhack3 a b c d e f g h i :
  dhack3 (rof a) (rof b) (rof c) (rof d) (rof e) (rof f) (rof g) (rof h) (rof i) = Ok (rof (det3 a b c d e f g h i)).
Proof. unfold dhack3. repeat (rewrite Rmul3; cbn [bind]; try rewrite Radd; try rewrite Rsub; cbn [bind]). reflexivity. Qed.
Lemma Dhack3n a b c d e f g h i :
  dhack3n (rof a) (rof b) (rof c) (rof d) (rof e) (rof f) (rof g) (rof h) (rof i) = Ok (rof (- det3 a b c d e f g h i)).
Proof.
  unfold dhack3n. repeat (rewrite Rmul3; cbn [bind]; try rewrite Radd; try rewrite Rsub; cbn [bind]).
  apply rofE. unfold det3. ring.
Qed.
Lemma bok {A C} (m : res A) a (k : A -> res C) r : m = Ok a -> k a = r -> bind m k = r.
Proof. intros -> <-. reflexivity. Qed.
Ltac mgets := repeat (eapply bok; [apply mget_mof; lia |]; cbv beta).
Ltac mdet1 := lazymatch goal with
  | |- dhack2 _ _ _ _ = _ => apply Dhack2
  | |- dhack2n _ _ _ _ = _ => apply Dhack2n
  | |- dhack3 _ _ _ _ _ _ _ _ _ = _ => apply Dhack3
  | |- dhack3n _ _ _ _ _ _ _ _ _ = _ => apply Dhack3n
  | |- rmul_mut _ _ = _ => apply Rmul_mut
  | |- radd_mut _ _ = _ => apply Radd_mut
  end.
Ltac mdets := repeat (eapply bok; [mdet1 |]; cbv beta).
Lemma Mdet2 f : mdet2 (mof 2 2 f) = Ok (rof (qdet 2 f)).
Proof. unfold mdet2. mgets. rewrite Dhack2. apply rofE. cbn [qdet qsum]. unfold minus, submat, skip. cbn [Nat.even Nat.ltb Nat.leb]. ring. Qed.
Lemma qdet3 f : qdet 3 f == det3 (f 0%nat 0%nat) (f 0%nat 1%nat) (f 0%nat 2%nat) (f 1%nat 0%nat) (f 1%nat 1%nat) (f 1%nat 2%nat) (f 2%nat 0%nat) (f 2%nat 1%nat) (f 2%nat 2%nat).
Proof. unfold det3. cbn [qdet qsum]. unfold minus, submat, skip. cbn [Nat.even Nat.ltb Nat.leb]. ring. Qed.
Lemma Mdet3 f : mdet3 (mof 3 3 f) = Ok (rof (qdet 3 f)).
Proof. unfold mdet3. mgets. rewrite Dhack3. apply rofE. symmetry. apply qdet3. Qed.
Lemma qdet4 f : qdet 4 f == f 0%nat 0%nat * qdet 3 (submat f 0 0) - f 0%nat 1%nat * qdet 3 (submat f 0 1)
   + f 0%nat 2%nat * qdet 3 (submat f 0 2) - f 0%nat 3%nat * qdet 3 (submat f 0 3).
Proof. change (qdet 4 f) with (qsum (fun j => minus j * f 0%nat j * qdet 3 (submat f 0 j))%Q 4). cbn [qsum]. unfold minus. cbn [Nat.even]. ring. Qed.
Lemma qdet3_sub f j : qdet 3 (submat f 0 j) == det3 (f 1%nat (skip j 0)) (f 1%nat (skip j 1)) (f 1%nat (skip j 2)) (f 2%nat (skip j 0)) (f 2%nat (skip j 1)) (f 2%nat (skip j 2)) (f 3%nat (skip j 0)) (f 3%nat (skip j 1)) (f 3%nat (skip j 2)).
Proof. rewrite qdet3. unfold submat. reflexivity. Qed.
Lemma qdet4_sum f :
  qdet 4 f == f 0%nat 0%nat * det3 (f 1%nat 1%nat) (f 1%nat 2%nat) (f 1%nat 3%nat) (f 2%nat 1%nat) (f 2%nat 2%nat) (f 2%nat 3%nat) (f 3%nat 1%nat) (f 3%nat 2%nat) (f 3%nat 3%nat)
    - f 0%nat 1%nat * det3 (f 1%nat 0%nat) (f 1%nat 2%nat) (f 1%nat 3%nat) (f 2%nat 0%nat) (f 2%nat 2%nat) (f 2%nat 3%nat) (f 3%nat 0%nat) (f 3%nat 2%nat) (f 3%nat 3%nat)
    + f 0%nat 2%nat * det3 (f 1%nat 0%nat) (f 1%nat 1%nat) (f 1%nat 3%nat) (f 2%nat 0%nat) (f 2%nat 1%nat) (f 2%nat 3%nat) (f 3%nat 0%nat) (f 3%nat 1%nat) (f 3%nat 3%nat)
    - f 0%nat 3%nat * det3 (f 1%nat 0%nat) (f 1%nat 1%nat) (f 1%nat 2%nat) (f 2%nat 0%nat) (f 2%nat 1%nat) (f 2%nat 2%nat) (f 3%nat 0%nat) (f 3%nat 1%nat) (f 3%nat 2%nat).
Proof. rewrite qdet4, !qdet3_sub. unfold skip. cbn [Nat.ltb Nat.leb]. reflexivity. Qed.
Lemma Mdet4 f : mdet4 (mof 4 4 f) = Ok (rof (qdet 4 f)).
Proof.
  unfold mdet4. mgets. mdets. etransitivity; [apply Radd_mut |].
  apply rofE. rewrite qdet4_sum.
  repeat match goal with |- context [det3 ?a ?b ?c ?d ?e ?g ?h ?i ?j] => generalize (det3 a b c d e g h i j); intros end.
  ring.
Qed.

Lemma qdet_ext n : forall f g, meq n n f g -> qdet n f == qdet n g.
Proof.
  induction n as [| n IH]; intros f g H; [reflexivity|]. cbn [qdet]. apply qsum_ext. intros i Hi.
  rewrite (H 0%nat i) by lia. rewrite (IH (submat f 0 i) (submat g 0 i)); [reflexivity|].
  intros a b Ha Hb. apply H; unfold skip; repeat match goal with |- context [(?x <? ?y)%nat] => destruct (Nat.ltb_spec x y) end; lia.
Qed.
(** the index lists of [minor] *)
Lemma chain_skip i n : (i < S n)%nat -> range 0 i ++ range (i + 1) (S n) = map (skip i) (seq 0 n).
Proof.
  intros H. unfold range. rewrite Nat.sub_0_r. replace n with (i + (n - i))%nat at 2 by lia. rewrite seq_app, map_app. f_equal.
  - rewrite <- (map_id (seq 0 i)) at 1. apply map_ext_in. intros k Hk. apply in_seq in Hk. unfold skip. destruct (Nat.ltb_spec k i); lia.
  - replace (S n - (i + 1))%nat with (n - i)%nat by lia. replace (i + 1)%nat with (S i) by lia. rewrite <- seq_shift. cbn [Nat.add].
    apply map_ext_in. intros k Hk. apply in_seq in Hk. unfold skip. destruct (Nat.ltb_spec k i); lia.
Qed.
Lemma skip_lt i k n : (k < n)%nat -> (skip i k < S n)%nat.
Proof. unfold skip. destruct (Nat.ltb_spec k i); lia. Qed.
Lemma Mminor_ det n f i j : (i < S n)%nat -> (j < S n)%nat ->
  det (mof n n (submat f i j)) = Ok (ROk (rof (qdet n (submat f i j)))) ->
  mminor_ det (mof (S n) (S n) f) i j = Ok (rof (qdet n (submat f i j))).
Proof.
  intros Hi Hj D. unfold mminor_. change (mrows (mof (S n) (S n) f)) with (S n). change (mcols (mof (S n) (S n) f)) with (S n).
  rewrite !chain_skip by auto. unfold subn. change (1 <=? S n)%nat with true. cbn match. cbn [bind]. replace (S n - 1)%nat with n by lia.
  rewrite !enum_seq, mzeros_mof, fold_m_map.
  rewrite fold_ext with (g := fun s i_i => fold_m (fun s j_i => let* x := mget (mof (S n) (S n) f) (skip i i_i) (skip j j_i) in mset s i_i j_i x) (range 0 n) s).
  2: { intros s x Hx. now rewrite fold_m_map, range_0. }
  rewrite <- range_0.
  rewrite loop_ij with (body := fun s i_i j_i => let* x := mget (mof (S n) (S n) f) (skip i i_i) (skip j j_i) in mset s i_i j_i x) (h := submat f i j).
  - cbn [bind]. rewrite D. reflexivity.
  - intros g a b Ha Hb _. rewrite mget_mof by (now apply skip_lt). cbn [bind]. now apply mset_mof.
Qed.
Lemma odd_minus k : (k mod 2 =? 1)%nat = negb (Nat.even k).
Proof. rewrite <- Nat.bit0_mod, Nat.bit0_odd. destruct (Nat.even k) eqn:E; unfold Nat.odd; rewrite E; reflexivity. Qed.
Lemma Mcofactor_ det n f i j : (i < S n)%nat -> (j < S n)%nat ->
  det (mof n n (submat f i j)) = Ok (ROk (rof (qdet n (submat f i j)))) ->
  mcofactor_ det (mof (S n) (S n) f) i j = Ok (rof (qcof n f i j)).
Proof.
  intros Hi Hj D. unfold mcofactor_. rewrite Mminor_ by auto. cbn [bind]. rewrite odd_minus. unfold qcof, minus.
  destruct (Nat.even (i + j)); cbn [negb]; [| rewrite Ropp_mut]; apply rofE; ring.
Qed.
Lemma Mdet_f : forall fuel n f, (0 < n)%nat -> (n < fuel)%nat -> mdet_f fuel (mof n n f) = Ok (ROk (rof (qdet n f))).
Proof.
  induction fuel as [| fuel IH]; intros n f Hn Hf; [lia|]. cbn [mdet_f]. unfold mis_square.
  change (mcols (mof n n f)) with n. change (mrows (mof n n f)) with n. rewrite Nat.eqb_refl. cbn [negb].
  destruct (Nat.ltb_spec n 5).
  - destruct n as [| [| [| [| [| n]]]]]; try lia; cbn [Nat.ltb Nat.leb Nat.eqb].
    + mgets. f_equal. f_equal. apply rof_qeq. cbn [qdet qsum]. unfold minus. cbn [Nat.even]. ring.
    + rewrite Mdet2. reflexivity.
    + rewrite Mdet3. reflexivity.
    + rewrite Mdet4. reflexivity.
  - destruct n as [| n]; [lia|].
    set (st := fun k => rof (qsum (fun j => minus j * f 0%nat j * qdet n (submat f 0 j)) k)).
    rewrite Rzero. change (rof 0) with (st 0%nat). rewrite fold_range with (st := st); [reflexivity|].
    intros k Hk. rewrite mget_mof by lia. cbn [bind]. rewrite Mcofactor_; [| lia | lia | apply IH; lia].
    cbn [bind]. rewrite Rmul. cbn [bind]. unfold st. rewrite Radd_mut. apply rofE. cbn [qsum]. unfold qcof. rewrite Nat.add_0_l. ring.
Qed.
Lemma Mdet n f : (0 < n)%nat -> mdet (mof n n f) = Ok (ROk (rof (qdet n f))).
Proof. intros. unfold mdet. apply Mdet_f; [auto | cbn [mof mcols]; lia]. Qed.
Lemma Mcofactor n f i j : (0 < n)%nat -> (i < S n)%nat -> (j < S n)%nat -> mcofactor (mof (S n) (S n) f) i j = Ok (rof (qcof n f i j)).
Proof. intros. apply Mcofactor_; auto. now apply Mdet. Qed.
