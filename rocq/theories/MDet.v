(** The Laplace determinant of MSpec is the Leibniz determinant of mathcomp; Cramer's rule and interpolation over Q. *)
From Coq Require QArith.
From mathcomp Require Import all_ssreflect all_algebra ssrZ.
From Verif Require ISpec RIterP MSpec.
Import GRing.Theory.
Set Implicit Arguments.
Unset Strict Implicit.
Local Open Scope ring_scope.
Notation Q := QArith_base.Q.
Notation Qeq := QArith_base.Qeq.

Definition q2r (q : Q) : rat := (int_of_Z (QArith_base.Qnum q))%:~R / (int_of_Z (BinNums.Zpos (QArith_base.Qden q)))%:~R.
Definition q2m (r c : nat) (f : nat -> nat -> Q) : 'M[rat]_(r, c) := \matrix_(i < r, j < c) q2r (f i j).

Lemma zM a b : int_of_Z (BinInt.Z.mul a b) = int_of_Z a * int_of_Z b.
Proof. exact: (rmorphM ZInstances.int_of_Z_rmorphism). Qed.
Lemma zD a b : int_of_Z (BinInt.Z.add a b) = int_of_Z a + int_of_Z b.
Proof. exact: (rmorphD ZInstances.int_of_Z_rmorphism). Qed.
Lemma zN a : int_of_Z (BinInt.Z.opp a) = - int_of_Z a.
Proof. exact: (rmorphN ZInstances.int_of_Z_rmorphism). Qed.
Lemma den_nz (p : BinNums.positive) : (int_of_Z (BinNums.Zpos p))%:~R != 0 :> rat.
Proof.
rewrite intr_eq0. apply/eqP => H.
have : Z_of_int (int_of_Z (BinNums.Zpos p)) = Z_of_int 0 by rewrite H.
by rewrite int_of_ZK.
Qed.
Lemma q2r_eq p q : Qeq p q <-> q2r p = q2r q.
Proof.
case: p => [a b]; case: q => [c d]; rewrite /Qeq /q2r; cbn [QArith_base.Qnum QArith_base.Qden]; split.
- move=> H. apply/eqP. rewrite eqr_div ?den_nz // -!intrM -!zM. by apply/eqP; congr (_%:~R); congr int_of_Z.
- move/eqP. rewrite eqr_div ?den_nz // -!intrM eqr_int -!zM => /eqP H.
  by rewrite -[LHS]int_of_ZK -[RHS]int_of_ZK H.
Qed.
Lemma q2r_mul p q : q2r (QArith_base.Qmult p q) = q2r p * q2r q.
Proof.
case: p => [a b]; case: q => [c d]; rewrite /q2r; cbn [QArith_base.Qnum QArith_base.Qden QArith_base.Qplus QArith_base.Qmult].
by rewrite (BinInt.Pos2Z.inj_mul b d) !zM !intrM mulf_div.
Qed.
Lemma q2r_add p q : q2r (QArith_base.Qplus p q) = q2r p + q2r q.
Proof.
case: p => [a b]; case: q => [c d]; rewrite /q2r; cbn [QArith_base.Qnum QArith_base.Qden QArith_base.Qplus QArith_base.Qmult].
by rewrite (BinInt.Pos2Z.inj_mul b d) !(zM, zD) !(intrM, intrD) addf_div ?den_nz.
Qed.
Lemma q2r_0 : q2r (QArith_base.inject_Z 0) = 0. Proof. by rewrite /q2r /= mul0r. Qed.
Lemma q2r_1 : q2r (QArith_base.inject_Z 1) = 1. Proof. by rewrite /q2r /= divff. Qed.
Lemma q2r_opp p : q2r (QArith_base.Qopp p) = - q2r p.
Proof. case: p => [a b]; rewrite /q2r; cbn [QArith_base.Qnum QArith_base.Qden QArith_base.Qopp]. by rewrite -mulNr -mulrNz -zN. Qed.
Lemma q2r_sum (f : nat -> Q) n : q2r (ISpec.qsum f n) = \sum_(i < n) q2r (f i).
Proof.
elim: n => [|n IH]. by rewrite big_ord0 -q2r_0.
by rewrite big_ord_recr /= -IH q2r_add.
Qed.
Lemma q2r_minus k : q2r (MSpec.minus k) = (-1) ^+ k.
Proof.
rewrite /MSpec.minus -signr_odd.
have -> : Nat.even k = ~~ odd k.
  have [n] := ubnP k; elim: n k => // n IH [|[|k]] //= /ltnSE /ltnW H. by rewrite IH // negbK.
case: (odd k) => /=; first by rewrite expr1 -q2r_1 -q2r_opp.
by rewrite expr0 -q2r_1.
Qed.
Lemma skip_lift n (i : 'I_n.+1) (k : 'I_n) : MSpec.skip i k = lift i k :> nat.
Proof.
rewrite /MSpec.skip /= /bump.
have -> : PeanoNat.Nat.ltb k i = (k < i)%N.
  apply/idP/idP; first by move=> /PeanoNat.Nat.ltb_lt /ltP.
  by move=> /ltP /PeanoNat.Nat.ltb_lt.
by rewrite ltnNge; case: (i <= k)%N.
Qed.
Lemma q2m_sub n f (i j : 'I_n.+1) : q2m n n (MSpec.submat f i j) = row' i (col' j (q2m n.+1 n.+1 f)).
Proof. by apply/matrixP => a b; rewrite !mxE /MSpec.submat !skip_lift. Qed.
Lemma q2r_det n f : q2r (MSpec.qdet n f) = \det (q2m n n f).
Proof.
elim: n f => [|n IH] f; first by rewrite det_mx00 -q2r_1.
rewrite (expand_det_row _ ord0) [MSpec.qdet _ _]/(MSpec.qdet n.+1 f) q2r_sum.
apply: eq_bigr => j _.
by rewrite !q2r_mul q2r_minus IH /cofactor !mxE add0n -(q2m_sub f ord0 j) [_ * q2r _]mulrC mulrA.
Qed.
Lemma q2r_cof n f (i j : 'I_n.+1) : q2r (MSpec.qcof n f i j) = cofactor (q2m n.+1 n.+1 f) i j.
Proof. by rewrite /MSpec.qcof q2r_mul q2r_minus q2r_det (q2m_sub f i j). Qed.

Lemma ltn_lt (i n : nat) : Peano.lt i n -> (i < n)%N. Proof. by move=> /ltP. Qed.
Lemma q2r_mprod r n c f g : q2m r c (MSpec.mprod n f g) = q2m r n f *m q2m n c g.
Proof.
apply/matrixP => i j. rewrite !mxE /MSpec.mprod q2r_sum. apply: eq_bigr => k _. by rewrite q2r_mul !mxE.
Qed.
Lemma q2r_mid n : q2m n n MSpec.mid = 1%:M.
Proof.
apply/matrixP => i j. rewrite !mxE /MSpec.mid.
have -> : PeanoNat.Nat.eqb i j = (i == j).
  apply/idP/idP; first by move=> /PeanoNat.Nat.eqb_eq H; apply/eqP/val_inj.
  by move=> /eqP ->; apply/PeanoNat.Nat.eqb_refl.
case: (i == j); [exact: q2r_1 | exact: q2r_0].
Qed.
Lemma q2m_eq r c f g : MSpec.meq r c f g <-> q2m r c f = q2m r c g.
Proof.
split=> [H | /matrixP H i j /ltn_lt Hi /ltn_lt Hj].
- apply/matrixP => i j. rewrite !mxE. apply/q2r_eq. apply: H; exact/ltP.
- have := H (Ordinal Hi) (Ordinal Hj). rewrite !mxE /=. by move/q2r_eq.
Qed.
Lemma q2r_inv p : ~ Qeq p (QArith_base.inject_Z 0) -> q2r (QArith_base.Qinv p) = (q2r p)^-1.
Proof.
move=> H. have H0 : q2r p != 0 by apply/eqP; rewrite -q2r_0 => /q2r_eq.
apply: (mulfI H0). rewrite divff // -q2r_mul -q2r_1. apply/q2r_eq. exact: QArith_base.Qmult_inv_r.
Qed.

(** Cramer's rule *)
Lemma q2m_adj n f : q2m n.+1 n.+1 (MSpec.qadj n f) = \adj (q2m n.+1 n.+1 f).
Proof. by apply/matrixP => i j; rewrite !mxE q2r_cof. Qed.
Lemma q2m_inv n f : ~ Qeq (MSpec.qdet n.+1 f) (QArith_base.inject_Z 0) ->
  q2m n.+1 n.+1 (MSpec.qinv n f) = invmx (q2m n.+1 n.+1 f).
Proof.
move=> H. have U : q2m n.+1 n.+1 f \in unitmx.
  rewrite unitmxE -q2r_det unitfE. apply/eqP. rewrite -q2r_0. by move/q2r_eq.
rewrite /invmx U -q2m_adj -q2r_det. apply/matrixP => i j. rewrite !mxE q2r_mul q2r_inv //. by rewrite mulrC.
Qed.
Lemma unit_det n f : ~ Qeq (MSpec.qdet n f) (QArith_base.inject_Z 0) -> q2m n n f \in unitmx.
Proof. move=> H. rewrite unitmxE -q2r_det unitfE. apply/eqP. rewrite -q2r_0. by move/q2r_eq. Qed.
Lemma cramer n f : ~ Qeq (MSpec.qdet n.+1 f) (QArith_base.inject_Z 0) ->
  MSpec.meq n.+1 n.+1 (MSpec.mprod n.+1 f (MSpec.qinv n f)) MSpec.mid /\
  MSpec.meq n.+1 n.+1 (MSpec.mprod n.+1 (MSpec.qinv n f) f) MSpec.mid.
Proof.
move=> H. rewrite !q2m_eq !(@q2r_mprod n.+1 n.+1 n.+1) q2r_mid q2m_inv //.
by rewrite mulmxV ?mulVmx // unit_det.
Qed.

(** a system with a matrix of non-zero determinant has at most one solution *)
Lemma det_inj n f (u v : nat -> Q) : ~ Qeq (MSpec.qdet n f) (QArith_base.inject_Z 0) ->
  (forall i, Peano.lt i n -> Qeq (ISpec.qsum (fun k => QArith_base.Qmult (f i k) (u k)) n)
                             (ISpec.qsum (fun k => QArith_base.Qmult (f i k) (v k)) n)) ->
  forall i, Peano.lt i n -> Qeq (u i) (v i).
Proof.
move=> /unit_det U H i /ltn_lt Hi.
have E : q2m n n f *m q2m n 1 (fun k _ => u k) = q2m n n f *m q2m n 1 (fun k _ => v k).
  rewrite -!q2r_mprod. apply/q2m_eq => a b Ha _. exact: H.
have /matrixP /(_ (Ordinal Hi) ord0) : q2m n 1 (fun k _ => u k) = q2m n 1 (fun k _ => v k).
  by rewrite -[LHS](mulKmx U) E mulKmx.
by rewrite !mxE /= => /q2r_eq.
Qed.

(** Vandermonde matrices, decreasing powers *)
Lemma q2r_pw x n : q2r (ISpec.qpw x n) = q2r x ^+ n.
Proof. elim: n => [|n IH]; [by rewrite expr0 -q2r_1 | rewrite exprS -IH -q2r_mul; apply/q2r_eq; exact: RIterP.qpw_S]. Qed.
Lemma vanderE n x i j : MSpec.vander n x i j = ISpec.qpw (x i) (n.-1 - j)%N. Proof. by []. Qed.
Lemma vander_nz n x : (forall i j, Peano.lt i n -> Peano.lt j n -> Qeq (x i) (x j) -> i = j) ->
  ~ Qeq (MSpec.qdet n (MSpec.vander n x)) (QArith_base.inject_Z 0).
Proof.
case: n => [|n] D /q2r_eq; first by rewrite q2r_det q2r_0 det_mx00 => /eqP; rewrite oner_eq0.
rewrite q2r_det q2r_0 -det_tr => /eqP /det0P [v v0 vA].
pose p := \poly_(i < n.+1) v ord0 (inord (n - i)).
have roots : all (root p) [seq q2r (x (val i)) | i <- enum 'I_n.+1].
  apply/allP => _ /mapP [i _ ->]. apply/rootP.
  rewrite horner_poly. move/matrixP: vA => /(_ ord0 i). rewrite !mxE => E.
  rewrite -[RHS]E [RHS](reindex_inj rev_ord_inj) /=. apply: eq_bigr => j _.
  have Hj : (j <= n)%N by rewrite -ltnS.
  rewrite !mxE vanderE q2r_pw /= subSS subKn //. congr (v _ _ * _).
  by apply: val_inj; rewrite /= inordK ?ltnS ?leq_subr // subSS.
have un : uniq [seq q2r (x (val i)) | i <- enum 'I_n.+1].
  rewrite map_inj_in_uniq ?enum_uniq // => i j _ _ /q2r_eq H. apply: val_inj. apply: D; [exact/ltP/ltn_ord | exact/ltP/ltn_ord | exact: H].
have p0 : p != 0.
  apply/eqP => p0. move/eqP: v0; apply. apply/matrixP => a j. rewrite mxE ord1.
  have := coef_poly n.+1 (fun i => v ord0 (inord (n - i))) (n - j).
  rewrite -/p p0 coef0 ltnS leq_subr subKn -1?ltnS // => ->. by rewrite inord_val.
have := max_poly_roots p0 roots un. rewrite size_map size_enum_ord. by rewrite ltnNge size_poly.
Qed.
Lemma vander_z n x i j : Peano.lt i n -> Peano.lt j n -> i <> j -> Qeq (x i) (x j) ->
  Qeq (MSpec.qdet n (MSpec.vander n x)) (QArith_base.inject_Z 0).
Proof.
move=> /ltn_lt Hi /ltn_lt Hj ne /q2r_eq E. apply/q2r_eq. rewrite q2r_det q2r_0.
apply: (determinant_alternate (i1 := Ordinal Hi) (i2 := Ordinal Hj)); first by apply/eqP => [[]].
by move=> k; rewrite !mxE vanderE !q2r_pw /= E.
Qed.

(** the solution of a linear system *)
Lemma solve n f g : ~ Qeq (MSpec.qdet n.+1 f) (QArith_base.inject_Z 0) ->
  MSpec.meq n.+1 1 (MSpec.mprod n.+1 f (MSpec.mprod n.+1 (MSpec.qinv n f) g)) g.
Proof.
move=> H. rewrite q2m_eq !(@q2r_mprod n.+1 n.+1 1) q2m_inv //. by rewrite mulKVmx // unit_det.
Qed.
(** algebra of matrices *)
Lemma prod_assoc r m n c f g h : MSpec.meq r c (MSpec.mprod n (MSpec.mprod m f g) h) (MSpec.mprod m f (MSpec.mprod n g h)).
Proof. by rewrite q2m_eq (q2r_mprod r n c) (q2r_mprod r m n) (q2r_mprod r m c) (q2r_mprod m n c) mulmxA. Qed.
Lemma prod_idl r c f : MSpec.meq r c (MSpec.mprod r MSpec.mid f) f.
Proof. by rewrite q2m_eq (q2r_mprod r r c) q2r_mid mul1mx. Qed.
Lemma prod_idr r c f : MSpec.meq r c (MSpec.mprod c f MSpec.mid) f.
Proof. by rewrite q2m_eq (q2r_mprod r c c) q2r_mid mulmx1. Qed.
Lemma det_mul n f g : Qeq (MSpec.qdet n (MSpec.mprod n f g)) (QArith_base.Qmult (MSpec.qdet n f) (MSpec.qdet n g)).
Proof. by apply/q2r_eq; rewrite q2r_mul !q2r_det (q2r_mprod n n n) det_mulmx. Qed.
Lemma det_trans n f : Qeq (MSpec.qdet n (fun i j => f j i)) (MSpec.qdet n f).
Proof. apply/q2r_eq; rewrite !q2r_det -det_tr. congr (\det _). by apply/matrixP => i j; rewrite !mxE. Qed.
Lemma det_id n : Qeq (MSpec.qdet n MSpec.mid) (QArith_base.inject_Z 1).
Proof. by apply/q2r_eq; rewrite q2r_det q2r_mid det1 q2r_1. Qed.
