(** Properties C38-C40: matrices.  [denotes m r c f]: m is well formed, has r rows and c columns, and its entries are those of f. *)
From Coq Require Import QArith List Lia.
From Verif Require Import Base UBig UStr BBig BSpec BEq RBig RSpec REq RIeee ISpec RIterP MMat MSpec MEq MInv.
From Verif Require MDet.
Local Open Scope nat_scope.

Definition denotes (m : mat) (r c : nat) (f : nat -> nat -> Q) : Prop := mwf m /\ mrows m = r /\ mcols m = c /\ meq r c (mval m) f.
Lemma den_mof r c f g : meq r c f g -> denotes (mof r c f) r c g.
Proof.
  intros H. split; [apply mof_wf |]. split; [reflexivity |]. split; [reflexivity |]. intros i j Hi Hj. rewrite (mval_mof r c f i j Hi Hj). now apply H.
Qed.
Lemma den_eq m : mwf m -> m = mof (mrows m) (mcols m) (mval m).
Proof. intros H. symmetry. now apply mof_mval. Qed.
Lemma den_unique m m' r c f : denotes m r c f -> denotes m' r c f -> m = m'.
Proof.
  intros (W & R & C & E) (W' & R' & C' & E'). rewrite (den_eq m W), (den_eq m' W'). rewrite R, C, R', C'. apply mof_ext.
  intros i j Hi Hj. rewrite (E i j Hi Hj). symmetry. now apply E'.
Qed.
Ltac self := intros i j _ _; reflexivity.
Ltac dm m W := rewrite (den_eq m W); let f := fresh "f" in let c := fresh "c" in let r := fresh "r" in
  set (f := mval m) in *; set (c := mcols m) in *; set (r := mrows m) in *; clearbody f c r; clear m W.

(** ** C38 *)
Theorem C38_add : forall a b, mwf a -> mwf b ->
  (mrows a = mrows b -> mcols a = mcols b -> exists m, madd a b = Ok (ROk m) /\ madd_mut a b = Ok (ROk m) /\
     denotes m (mrows a) (mcols a) (fun i j => mval a i j + mval b i j)%Q) /\
  (~ (mrows a = mrows b /\ mcols a = mcols b) -> madd a b = Ok (RErr (wrong_dim a b)) /\ madd_mut a b = Ok (RErr (wrong_dim a b))).
Proof.
  intros a b Wa Wb. split.
  - intros R C. exists (mof (mrows a) (mcols a) (fun i j => mval a i j + mval b i j)%Q).
    assert (Ea := den_eq a Wa). assert (Eb := den_eq b Wb). rewrite <- R, <- C in Eb.
    split; [rewrite Ea at 1; rewrite Eb at 1; apply Madd |]. split; [rewrite Ea at 1; rewrite Eb at 1; apply Madd_mut |]. apply den_mof. self.
  - intros H. unfold madd, madd_mut, same_dim. destruct (Nat.eqb_spec (mcols a) (mcols b)), (Nat.eqb_spec (mrows a) (mrows b)); cbn; auto. exfalso; auto.
Qed.
Theorem C38_mul_k : forall a k, mwf a -> rwf k -> exists m, mmul_k a k = Ok m /\ mmul_k_mut a k = Ok m /\
  denotes m (mrows a) (mcols a) (fun i j => mval a i j * rval k)%Q.
Proof.
  intros a k Wa Wk. exists (mof (mrows a) (mcols a) (fun i j => mval a i j * rval k)%Q).
  assert (Ea := den_eq a Wa). assert (Ek := rof_rval k Wk).
  split; [rewrite Ea at 1; rewrite <- Ek at 1; apply Mmul_k |]. split; [rewrite Ea at 1; rewrite <- Ek at 1; apply Mmul_k_mut |]. apply den_mof. self.
Qed.
Theorem C38_mul : forall a b, mwf a -> mwf b ->
  (mcols a = mrows b -> exists m, mmul a b = Ok (ROk m) /\
     denotes m (mrows a) (mcols b) (fun i j => qsum (fun k => mval a i k * mval b k j)%Q (mcols a))) /\
  (mcols a <> mrows b -> exists e, mmul a b = Ok (RErr e)).
Proof.
  intros a b Wa Wb. split.
  - intros H. exists (mof (mrows a) (mcols b) (mprod (mcols a) (mval a) (mval b))). assert (Ea := den_eq a Wa). assert (Eb := den_eq b Wb). rewrite <- H in Eb.
    split; [rewrite Ea at 1; rewrite Eb at 1; apply Mmul |]. apply den_mof. self.
  - intros H. unfold mmul. apply Nat.eqb_neq in H. rewrite H. cbn. eauto.
Qed.
Theorem C38_transpose : forall a, mwf a -> exists m, mtranspose a = Ok m /\ mtranspose_mut a = Ok m /\ denotes m (mcols a) (mrows a) (fun i j => mval a j i) /\ mtranspose m = Ok a.
Proof.
  intros a Wa. exists (mof (mcols a) (mrows a) (fun i j => mval a j i)). assert (Ea := den_eq a Wa).
  split; [rewrite Ea at 1; apply Mtranspose |]. split; [rewrite Ea at 1; apply Mtranspose |]. split; [apply den_mof; self |]. rewrite Mtranspose. f_equal. auto.
Qed.
Theorem C38_identity : forall n, exists m, midentity n = Ok m /\ denotes m n n (fun i j => if i =? j then 1 else 0)%Q.
Proof. intros n. exists (mof n n mid). split; [apply Midentity | apply den_mof; self]. Qed.
Theorem C38_generate : forall c r f q, (forall i j, i < r -> j < c -> exists x, f i j = Ok x /\ rwf x /\ (rval x == q i j)%Q) -> exists m, mgenerate c r f = Ok m /\ denotes m r c q.
Proof.
  intros c r f q H. exists (mof r c q). split; [| apply den_mof; self]. apply Mgenerate. intros i j Hi Hj.
  destruct (H i j Hi Hj) as (x & E & W & V). rewrite E. f_equal. rewrite <- (rof_rval x W). now apply rof_qeq.
Qed.
Theorem C38_from_vec : forall d, Forall (Forall rwf) d ->
  (d = [] -> mfrom_vec d = Ok (ROk mempty)) /\
  (d <> [] -> (forall x y, In x d -> In y d -> length x = length y) ->
     exists m, mfrom_vec d = Ok (ROk m) /\ mwf m /\ mdata m = d) /\
  (~ (forall x y, In x d -> In y d -> length x = length y) -> mfrom_vec d = Ok (RErr InconsistentRow)).
Proof.
  intros d F. split; [intros ->; reflexivity |]. destruct d as [| r0 d].
  - split; [congruence |]. intros H. exfalso. apply H. intros x y [].
  - unfold mfrom_vec. destruct (forallb _ _) eqn:E.
    + rewrite forallb_forall in E. split.
      * intros _ _. eexists. split; [reflexivity |]. split; [| reflexivity]. split; [reflexivity |]. cbn [mdata mcols]. intros row Hr.
        split; [now apply Nat.eqb_eq, E |]. rewrite Forall_forall in F. now apply F.
      * intros H. exfalso. apply H. intros x y Hx Hy. apply E in Hx, Hy. apply Nat.eqb_eq in Hx, Hy. congruence.
    + split; [| reflexivity]. intros _ H. exfalso. assert (K : forallb (fun row => length row =? length r0) (r0 :: d) = true); [| congruence].
      apply forallb_forall. intros x Hx. apply Nat.eqb_eq. apply H; [auto | now left].
Qed.
(** algebra of the model functions themselves *)
Theorem C38_mul_assoc : forall a b c, mwf a -> mwf b -> mwf c -> mcols a = mrows b -> mcols b = mrows c ->
  exists ab bc m, mmul a b = Ok (ROk ab) /\ mmul b c = Ok (ROk bc) /\ mmul ab c = Ok (ROk m) /\ mmul a bc = Ok (ROk m).
Proof.
  intros a b c Wa Wb Wc H1 H2. assert (Ea := den_eq a Wa). assert (Eb := den_eq b Wb). assert (Ec := den_eq c Wc).
  rewrite <- H1 in Eb. rewrite <- H2 in Ec.
  exists (mof (mrows a) (mcols b) (mprod (mcols a) (mval a) (mval b))), (mof (mcols a) (mcols c) (mprod (mcols b) (mval b) (mval c))),
    (mof (mrows a) (mcols c) (mprod (mcols b) (mprod (mcols a) (mval a) (mval b)) (mval c))).
  split; [rewrite Ea at 1; rewrite Eb at 1; apply Mmul |]. split; [rewrite Eb at 1; rewrite Ec at 1; apply Mmul |].
  split; [rewrite Ec at 1; apply Mmul |]. rewrite Ea at 1. rewrite Mmul. do 2 f_equal. apply mof_ext. intros i j Hi Hj. symmetry.
  exact (@MDet.prod_assoc (mrows a) (mcols a) (mcols b) (mcols c) _ _ _ i j Hi Hj).
Qed.
Theorem C38_mul_identity : forall a i1 i2, mwf a -> midentity (mrows a) = Ok i1 -> midentity (mcols a) = Ok i2 ->
  mmul i1 a = Ok (ROk a) /\ mmul a i2 = Ok (ROk a).
Proof.
  intros a i1 i2 Wa. rewrite !Midentity. intros E1 E2. assert (Ea := den_eq a Wa). injection E1 as <-. injection E2 as <-.
  split.
  - pose proof (Mmul (mrows a) (mrows a) (mcols a) mid (mval a)) as K. rewrite <- Ea in K. rewrite K. do 2 f_equal.
    etransitivity; [| symmetry; exact Ea]. apply mof_ext, MDet.prod_idl.
  - pose proof (Mmul (mrows a) (mcols a) (mcols a) (mval a) mid) as K. rewrite <- Ea in K. rewrite K. do 2 f_equal.
    etransitivity; [| symmetry; exact Ea]. apply mof_ext, MDet.prod_idr.
Qed.
Theorem C38_transpose_mul : forall a b, mwf a -> mwf b -> mcols a = mrows b ->
  exists ab m at_ bt, mmul a b = Ok (ROk ab) /\ mtranspose ab = Ok m /\ mtranspose a = Ok at_ /\ mtranspose b = Ok bt /\ mmul bt at_ = Ok (ROk m).
Proof.
  intros a b Wa Wb H. assert (Ea := den_eq a Wa). assert (Eb := den_eq b Wb). rewrite <- H in Eb.
  do 4 eexists. split; [rewrite Ea at 1; rewrite Eb at 1; apply Mmul |]. split; [apply Mtranspose |]. split; [rewrite Ea at 1; apply Mtranspose |].
  split; [rewrite Eb at 1; apply Mtranspose |]. rewrite Mmul. do 2 f_equal. apply mof_ext. intros i j _ _. unfold mprod. apply qsum_ext. intros k _. ring.
Qed.
Definition ex2 : mat := mof 2 2 (fun i j => nth j (nth i [[1; 2]; [3; 4 # 5]] []) 0)%Q.
Definition ex3 : mat := mof 3 2 (fun i j => nth j (nth i [[1; 2]; [3; 4 # 5]; [0; 7]] []) 0)%Q.
Example C38_case : mwf ex2 /\ mwf ex3 /\ mcols ex3 = mrows ex2 /\ mmul ex3 ex2 = Ok (ROk (mof 3 2 (mprod 2 (mval ex3) (mval ex2)))) /\
  (exists e, mmul ex2 ex3 = Ok (RErr e)).
Proof. split; [apply mof_wf |]. split; [apply mof_wf |]. split; [reflexivity |]. split; [vm_compute; reflexivity |]. eexists. reflexivity. Qed.

(** ** C39: [qdet] is the Laplace expansion; Props_M2 relates it to the sum over permutations *)
Theorem C39_determinant : forall m, mwf m ->
  (mcols m <> mrows m -> mdet m = Ok (RErr (NotSquare (mcols m) (mrows m)))) /\
  (mcols m = mrows m -> mrows m = 0 -> mdet m = Ok (RErr EmptyMatrix)) /\
  (mcols m = mrows m -> mrows m <> 0 -> exists d, mdet m = Ok (ROk d) /\ rwf d /\ (rval d == qdet (mrows m) (mval m))%Q).
Proof.
  intros m W. split; [| split].
  - intros H. unfold mdet. cbn [mdet_f]. unfold mis_square. apply Nat.eqb_neq in H. rewrite H. reflexivity.
  - intros H Z. unfold mdet. rewrite H, Z. cbn [mdet_f]. unfold mis_square. rewrite H, Z. reflexivity.
  - intros H Z. exists (rof (qdet (mrows m) (mval m))). split; [| split; [apply rof_wf | apply rof_val]].
    rewrite (den_eq m W) at 1. rewrite H. apply Mdet. lia.
Qed.
Theorem C39_mul : forall a b m x y z, mwf a -> mwf b -> mrows a <> 0 -> mmul a b = Ok (ROk m) ->
  mdet a = Ok (ROk x) -> mdet b = Ok (ROk y) -> mdet m = Ok (ROk z) -> (rval z == rval x * rval y)%Q.
Proof.
  intros a b m x y z Wa Wb N Hm Hx Hy Hz.
  destruct (C39_determinant a Wa) as (A1 & A2 & A3). destruct (C39_determinant b Wb) as (B1 & B2 & B3).
  destruct (Nat.eq_dec (mcols a) (mrows a)) as [Sa |]; [| rewrite A1 in Hx by auto; discriminate].
  destruct (Nat.eq_dec (mcols b) (mrows b)) as [Sb |]; [| rewrite B1 in Hy by auto; discriminate].
  destruct (C38_mul a b Wa Wb) as [M1 M2]. destruct (Nat.eq_dec (mcols a) (mrows b)) as [E | E]; [| destruct (M2 E) as [e Ee]; congruence].
  assert (Ea := den_eq a Wa). assert (Eb := den_eq b Wb). rewrite Sb, <- E, Sa in Eb. rewrite Sa in Ea.
  rewrite Ea, Mdet in Hx by lia. rewrite Eb, Mdet in Hy by lia. rewrite Ea, Eb, Mmul in Hm. injection Hm as <-. rewrite Mdet in Hz by lia.
  assert (x = rof (qdet (mrows a) (mval a))) as -> by congruence. assert (y = rof (qdet (mrows a) (mval b))) as -> by congruence.
  assert (z = rof (qdet (mrows a) (mprod (mrows a) (mval a) (mval b)))) as -> by congruence. rewrite !rof_val. apply MDet.det_mul.
Qed.
Theorem C39_transpose : forall a t x, mwf a -> mtranspose a = Ok t -> mdet a = Ok (ROk x) -> mdet t = Ok (ROk x).
Proof.
  intros a t x Wa Ht Hx. destruct (C39_determinant a Wa) as (A1 & A2 & A3).
  destruct (Nat.eq_dec (mcols a) (mrows a)) as [Sa |]; [| rewrite A1 in Hx by auto; discriminate].
  destruct (Nat.eq_dec (mrows a) 0) as [Za |]; [rewrite A2 in Hx by auto; discriminate |].
  assert (Ea := den_eq a Wa). rewrite Sa in Ea. rewrite Ea, Mtranspose in Ht. injection Ht as <-. rewrite Ea, Mdet in Hx by lia. rewrite Mdet by lia.
  rewrite <- Hx. do 2 f_equal. apply rof_qeq. apply MDet.det_trans.
Qed.
Theorem C39_cofactor : forall m i j, mwf m -> mcols m = mrows m -> 1 < mrows m -> i < mrows m -> j < mrows m ->
  exists d, mcofactor m i j = Ok d /\ rwf d /\ (rval d == qcof (pred (mrows m)) (mval m) i j)%Q.
Proof.
  intros m i j W S L Hi Hj. exists (rof (qcof (pred (mrows m)) (mval m) i j)). split; [| split; [apply rof_wf | apply rof_val]].
  assert (E := den_eq m W). rewrite S in E. rewrite E at 1. destruct (mrows m) as [| n]; [lia |]. cbn [pred]. apply Mcofactor; lia.
Qed.
Definition ex5 : mat := mof 5 5 (fun i j => if i =? j then 2 else if i <? j then 1 else (1 # 3))%Q.
Example C39_case : mwf ex5 /\ mcols ex5 = mrows ex5 /\ mrows ex5 <> 0 /\ exists d, mdet ex5 = Ok (ROk d) /\ (rval d == qdet 5 (mval ex5))%Q /\ ~ (rval d == 0)%Q.
Proof. split; [apply mof_wf |]. split; [reflexivity |]. split; [discriminate |]. eexists. split; [vm_compute; reflexivity |]. split; vm_compute; [reflexivity | discriminate]. Qed.

(** ** C40 *)
(** Missing: size 1, where the claim is false; see C40_one_refuted. *)
Theorem C40_inverse_partial : forall m, mwf m -> 1 < mrows m -> mcols m = mrows m ->
  ((qdet (mrows m) (mval m) == 0)%Q -> minverse m = Ok (RErr ZeroDeterminant)) /\
  (~ (qdet (mrows m) (mval m) == 0)%Q -> exists v i, minverse m = Ok (ROk v) /\ mwf v /\ mrows v = mrows m /\ mcols v = mrows m /\
     midentity (mrows m) = Ok i /\ mmul m v = Ok (ROk i) /\ mmul v m = Ok (ROk i)).
Proof.
  intros m W L S. assert (E := den_eq m W). rewrite S in E. split.
  - intros Z. rewrite E. apply Minverse_zero; [lia | auto].
  - intros Z. set (f := mval m) in *. set (r := mrows m) in *. destruct r as [| n]; [lia |]. exists (mof (Datatypes.S n) (Datatypes.S n) (qinv n f)), (mof (Datatypes.S n) (Datatypes.S n) mid).
    rewrite E. split; [apply Minverse; [lia | auto] |]. split; [apply mof_wf |]. split; [reflexivity |]. split; [reflexivity |]. split; [apply Midentity |].
    apply Minverse_mul; [lia | auto].
Qed.
Theorem C40_error : forall m, mwf m -> (mcols m <> mrows m \/ mrows m = 0) -> exists e, minverse m = Ok (RErr e).
Proof.
  intros m W H. destruct (C39_determinant m W) as (D1 & D2 & D3). unfold minverse. destruct (Nat.eq_dec (mcols m) (mrows m)).
  - rewrite D2 by tauto. cbn. eauto.
  - rewrite D1 by auto. cbn. eauto.
Qed.
(** for 1 by 1 matrices the result is always [[1]], whatever the entry: the adjugate of a 1 by 1 matrix is taken to be the matrix itself *)
Theorem C40_one : forall m, mwf m -> mrows m = 1 -> mcols m = 1 ->
  minverse m = if Qeq_bool (mval m 0 0) 0 then Ok (RErr ZeroDeterminant) else Ok (ROk (mkM [[rone]] 1 1)).
Proof.
  intros m W R C. assert (E := den_eq m W). rewrite R, C in E. set (f := mval m) in *. rewrite E. destruct (Qeq_bool (f 0 0) 0) eqn:B.
  - apply Minverse_zero; [lia |]. apply Qeq_bool_iff in B. cbn [qdet qsum]. unfold minus. cbn [Nat.even]. rewrite B. reflexivity.
  - rewrite Minverse_one; [reflexivity |]. intros H. apply Qeq_bool_iff in H. congruence.
Qed.
Theorem C40_one_refuted : exists m v p i, mwf m /\ mcols m = mrows m /\ ~ (qdet (mrows m) (mval m) == 0)%Q /\ minverse m = Ok (ROk v) /\
  midentity (mrows m) = Ok i /\ mmul m v = Ok (ROk p) /\ p <> i.
Proof.
  exists (mof 1 1 (fun _ _ => 2%Q)), (mkM [[rof 1]] 1 1), (mkM [[rof 2]] 1 1), (mkM [[rof 1]] 1 1). split; [apply mof_wf |]. split; [reflexivity |].
  split; [vm_compute; discriminate |]. split; [vm_compute; reflexivity |]. split; [vm_compute; reflexivity |]. split; [vm_compute; reflexivity |]. vm_compute. discriminate.
Qed.
Example C40_case : mwf ex5 /\ 1 < mrows ex5 /\ mcols ex5 = mrows ex5 /\ ~ (qdet (mrows ex5) (mval ex5) == 0)%Q.
Proof. split; [apply mof_wf |]. split; [cbn; lia |]. split; [reflexivity |]. vm_compute. discriminate. Qed.

Print Assumptions C38_add.
Print Assumptions C38_mul_k.
Print Assumptions C38_mul.
Print Assumptions C38_transpose.
Print Assumptions C38_identity.
Print Assumptions C38_generate.
Print Assumptions C38_from_vec.
Print Assumptions C38_mul_assoc.
Print Assumptions C38_mul_identity.
Print Assumptions C38_transpose_mul.
Print Assumptions C39_determinant.
Print Assumptions C39_mul.
Print Assumptions C39_transpose.
Print Assumptions C39_cofactor.
Print Assumptions C40_inverse_partial.
Print Assumptions C40_error.
Print Assumptions C40_one.
Print Assumptions C40_one_refuted.
