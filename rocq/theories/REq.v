(** Ratio: every operation on canonical arguments, as an equation over [Q] (up to [==]). *)
From Coq Require Import Zquot Qpower.
From Verif Require Import Base USpec UFacts UEq UFun UPow BBig BSpec BEq RBig RSpec.
Local Open Scope Z_scope.

Lemma rof_eq d n q : 0 < d -> Z.gcd n d = 1 -> Qnum q * d = n * QDen q -> mkR (bof d) (bof n) = rof q.
Proof.
  intros Hd Hg E. unfold rof.
  assert (Q1 : (q == n # Z.to_pos d)%Q). { unfold Qeq. cbn [Qnum Qden]. rewrite Z2Pos.id by lia. exact E. }
  rewrite (Qred_complete _ _ Q1). rewrite Qred_identity by (cbn [Qnum Qden]; rewrite Z2Pos.id by lia; exact Hg).
  cbn [Qnum Qden]. now rewrite Z2Pos.id by lia.
Qed.
Lemma rof_qeq p q : (p == q)%Q -> rof p = rof q.
Proof. intros E. unfold rof. now rewrite (Qred_complete _ _ E). Qed.
Global Instance rof_proper : Proper (Qeq ==> eq) rof. Proof. intros p q. apply rof_qeq. Qed.
Lemma rof_den_pos q : 0 < QDen (Qred q). Proof. lia. Qed.
Lemma rof_gcd q : Z.gcd (Qnum (Qred q)) (QDen (Qred q)) = 1.
Proof. apply Qred_iff. apply Qred_involutive. Qed.
Lemma rof_wf q : rwf (rof q).
Proof. unfold rwf, rof; cbn [rden rnum]. rewrite !bof_val. repeat split; try (apply bof_wf). apply rof_gcd. Qed.
Lemma rof_val q : (rval (rof q) == q)%Q.
Proof. unfold rval, rof; cbn [rden rnum]. rewrite !bof_val. cbn [Z.to_pos]. rewrite <- (Qred_correct q) at 3. now destruct (Qred q). Qed.
Lemma rof_rval r : rwf r -> rof (rval r) = r.
Proof.
  destruct r as [d n]. intros (Wd & Wn & Hd & Hg). cbn [rden rnum] in *. symmetry.
  rewrite <- (bof_bval d), <- (bof_bval n) by auto. apply rof_eq; auto.
  unfold rval. cbn [rden rnum Qnum Qden]. rewrite !bof_val. rewrite Z2Pos.id by lia. reflexivity.
Qed.
Lemma rval_inj r s : rwf r -> rwf s -> (rval r == rval s)%Q -> r = s.
Proof. intros. rewrite <- (rof_rval r), <- (rof_rval s) by auto. now apply rof_qeq. Qed.
Lemma rof_inj p q : rof p = rof q -> (p == q)%Q.
Proof. intros E. rewrite <- (rof_val p), <- (rof_val q). now rewrite E. Qed.

(** reduction to lowest terms *)
Lemma gcd_quot a b : Z.gcd a b <> 0 -> Z.gcd (a ÷ Z.gcd a b) (b ÷ Z.gcd a b) = 1.
Proof.
  intros N. pose proof (Z.gcd_nonneg a b). 
  assert (Ea : a ÷ Z.gcd a b = a / Z.gcd a b).
  { destruct (Z.gcd_divide_l a b) as [k E]. rewrite E at 1 3. rewrite Z.quot_mul, Z.div_mul by lia. reflexivity. }
  assert (Eb : b ÷ Z.gcd a b = b / Z.gcd a b).
  { destruct (Z.gcd_divide_r a b) as [k E]. rewrite E at 1 3. rewrite Z.quot_mul, Z.div_mul by lia. reflexivity. }
  rewrite Ea, Eb. apply Z.gcd_div_gcd; auto.
Qed.
Lemma quot_divide a g : g <> 0 -> (g | a) -> (a ÷ g) * g = a.
Proof. intros N [k ->]. now rewrite Z.quot_mul. Qed.

Lemma Rfit d n q : d <> 0 -> Qnum q * d = n * QDen q -> rfit (mkR (bof d) (bof n)) = Ok (rof q).
Proof.
  intros Hd E. unfold rfit. cbv zeta. cbn [rden rnum]. rewrite Bneg.
  assert (exists d' n', (if d <? 0 then mkR (bopp_mut (bof d)) (bopp_mut (bof n)) else mkR (bof d) (bof n)) = mkR (bof d') (bof n') /\
    0 < d' /\ Qnum q * d' = n' * QDen q) as (d' & n' & -> & Hd' & E').
  { destruct (Z.ltb_spec d 0).
    - exists (- d), (- n). rewrite !Bopp_mut. splits; [reflexivity | lia | rewrite Z.mul_opp_r, Z.mul_opp_l; now f_equal].
    - exists d, n. splits; [reflexivity | lia | exact E]. }
  cbn [rden rnum]. rewrite Bgcd. cbn [bind]. rewrite Bis_one.
  assert (Hg : 0 < Z.gcd d' n'). { pose proof (Z.gcd_nonneg d' n'). destruct (Z.eq_dec (Z.gcd d' n') 0) as [C|]; [|lia]. apply Z.gcd_eq_0_l in C. lia. }
  destruct (Z.eqb_spec (Z.gcd d' n') 1) as [G1 | G1]; cbn [negb].
  - f_equal. apply rof_eq; auto. now rewrite Z.gcd_comm.
  - rewrite !Bdiv_mut by lia. cbn [bind]. f_equal.
    pose proof (quot_divide d' (Z.gcd d' n') ltac:(lia) (Z.gcd_divide_l d' n')) as D1.
    pose proof (quot_divide n' (Z.gcd d' n') ltac:(lia) (Z.gcd_divide_r d' n')) as D2.
    pose proof (gcd_quot d' n' ltac:(lia)) as G.
    apply rof_eq.
    + nia.
    + now rewrite Z.gcd_comm.
    + set (g := Z.gcd d' n') in *. clearbody g. apply (Z.mul_cancel_r _ _ g); [lia |].
      rewrite <- Z.mul_assoc, D1, E'. rewrite <- D2 at 1. ring.
Qed.
(** a zero denominator is not rejected *)
Lemma Rfit_zero n : rfit (mkR (bof 0) (bof n)) = if n =? 0 then Panic else Ok (mkR (bof 0) (bof (Z.sgn n))).
Proof.
  unfold rfit. cbv zeta. cbn [rden rnum]. rewrite Bneg. change (0 <? 0) with false. cbv iota. cbn [rden rnum].
  rewrite Bgcd. cbn [bind]. rewrite Bis_one. change (Z.gcd 0 n) with (Z.abs n).
  destruct (Z.eqb_spec n 0) as [-> | N].
  - change (Z.abs 0 =? 1) with false. cbn [negb]. change (Z.abs 0) with 0.
    unfold bdiv_mut, UBig.udiv_mut. rewrite !Bmag. change (Z.abs 0) with 0. rewrite Ediv_zero by lia. reflexivity.
  - destruct (Z.eqb_spec (Z.abs n) 1); cbn [negb].
    + do 3 f_equal. lia.
    + rewrite !Bdiv_mut by lia. cbn [bind]. rewrite Z.quot_0_l by lia. do 3 f_equal.
      destruct (Z.abs_spec n) as [(?&E)|(?&E)]; rewrite E. rewrite Z.quot_same by lia. lia.
      rewrite Z.quot_opp_r, Z.quot_same by lia. lia.
Qed.

Notation qd q := (QDen (Qred q)).
Notation qn q := (Qnum (Qred q)).
Lemma rof_parts q : Qnum q * qd q = qn q * QDen q.
Proof. symmetry. exact (Qred_correct q). Qed.
Lemma rden_rof q : rden (rof q) = bof (qd q). Proof. reflexivity. Qed.
Lemma rnum_rof q : rnum (rof q) = bof (qn q). Proof. reflexivity. Qed.
(** to prove [Qnum q * d = n * QDen q] for an expression [q] over reduced arguments *)
Lemma qcross n d q : 0 < d -> (q == n # Z.to_pos d)%Q -> Qnum q * d = n * QDen q.
Proof. intros Hd E. unfold Qeq in E. cbn [Qnum Qden] in E. rewrite Z2Pos.id in E by lia. exact E. Qed.
Lemma qred_eta q : (q == qn q # Z.to_pos (qd q))%Q.
Proof. rewrite <- (Qred_correct q) at 1. cbn [Z.to_pos]. now destruct (Qred q). Qed.

(** signs *)
Lemma qn_sgn q : Z.sgn (qn q) = Z.sgn (Qnum q).
Proof. pose proof (rof_parts q). destruct (qn q), (Qnum q); cbn in *; try reflexivity; lia. Qed.
Lemma qn_neg q : (qn q <? 0) = (Qnum q <? 0).
Proof. pose proof (qn_sgn q). zb; auto; lia. Qed.
Lemma qn_zero q : (qn q =? 0) = (Qnum q =? 0).
Proof. pose proof (qn_sgn q). zb; auto; lia. Qed.
Definition qltb (p q : Q) : bool := Qnum p * QDen q <? Qnum q * QDen p.
Definition qleb (p q : Q) : bool := Qnum p * QDen q <=? Qnum q * QDen p.
Definition qeqb (p q : Q) : bool := Qnum p * QDen q =? Qnum q * QDen p.
Lemma qltb_lt p q : qltb p q = true <-> (p < q)%Q. Proof. apply Z.ltb_lt. Qed.
Lemma qleb_le p q : qleb p q = true <-> (p <= q)%Q. Proof. apply Z.leb_le. Qed.
Lemma qeqb_eq p q : qeqb p q = true <-> (p == q)%Q. Proof. apply Z.eqb_eq. Qed.
Lemma qltb_false p q : qltb p q = false <-> (q <= p)%Q. Proof. apply Z.ltb_ge. Qed.
Lemma qleb_antisym p q : qleb p q = negb (qltb q p). Proof. apply Z.leb_antisym. Qed.
Lemma qltb_qlt p q : reflect (p < q)%Q (qltb p q). Proof. apply iff_reflect. symmetry. apply qltb_lt. Qed.
Lemma qleb_qle p q : reflect (p <= q)%Q (qleb p q). Proof. apply iff_reflect. symmetry. apply qleb_le. Qed.
Lemma qeqb_qeq p q : reflect (p == q)%Q (qeqb p q). Proof. apply iff_reflect. symmetry. apply qeqb_eq. Qed.
Global Instance qltb_proper : Proper (Qeq ==> Qeq ==> eq) qltb.
Proof. intros a b E c d F. apply eq_true_iff_eq. rewrite !qltb_lt. now rewrite E, F. Qed.
Global Instance qleb_proper : Proper (Qeq ==> Qeq ==> eq) qleb.
Proof. intros a b E c d F. apply eq_true_iff_eq. rewrite !qleb_le. now rewrite E, F. Qed.
Global Instance qeqb_proper : Proper (Qeq ==> Qeq ==> eq) qeqb.
Proof. intros a b E c d F. apply eq_true_iff_eq. rewrite !qeqb_eq. now rewrite E, F. Qed.
Lemma Qnum_neg q : (Qnum q <? 0) = qltb q 0. Proof. unfold qltb. cbn [Qnum Qden]. zb; auto; lia. Qed.

Section R.
Variables a b : Q.
Let da := qd a. Let na := qn a. Let db := qd b. Let nb := qn b.
Let Hda : 0 < da. Proof. unfold da. lia. Qed.
Let Hdb : 0 < db. Proof. unfold db. lia. Qed.
Let Qa : (a == na # Z.to_pos da)%Q := qred_eta a.
Let Qb : (b == nb # Z.to_pos db)%Q := qred_eta b.
Let Ga : Z.gcd na da = 1 := rof_gcd a.
Let Gb : Z.gcd nb db = 1 := rof_gcd b.
Ltac fold_ab := rewrite ?rden_rof, ?rnum_rof; fold da na db nb.
Ltac qx := unfold Qdiv, Qminus, Qeq, Qplus, Qopp, Qmult, Qinv, inject_Z; cbn [Qnum Qden];
  rewrite ?Pos2Z.inj_mul, ?Z2Pos.id by lia; try ring.
Lemma Radd : radd (rof a) (rof b) = Ok (rof (a + b)).
Proof.
  unfold radd, from_dn. fold_ab. rewrite !Bmul. cbn [bind]. rewrite Badd. cbn [bind]. apply Rfit. nia.
  apply qcross. nia. rewrite Qa, Qb. qx.
Qed.
Lemma Radd_mut : radd_mut (rof a) (rof b) = Ok (rof (a + b)).
Proof.
  unfold radd_mut. fold_ab. rewrite !Bmul. cbn [bind]. rewrite Badd. cbn [bind]. rewrite Bmul_mut. cbn [bind]. apply Rfit. nia.
  apply qcross. nia. rewrite Qa, Qb. qx.
Qed.
Lemma Rsub : rsub (rof a) (rof b) = Ok (rof (a - b)).
Proof.
  unfold rsub, from_dn. fold_ab. rewrite !Bmul. cbn [bind]. rewrite Bsub. cbn [bind]. apply Rfit. nia.
  apply qcross. nia. rewrite Qa, Qb. qx.
Qed.
Lemma Rsub_mut : rsub_mut (rof a) (rof b) = Ok (rof (a - b)).
Proof.
  unfold rsub_mut. fold_ab. rewrite !Bmul. cbn [bind]. rewrite Bsub. cbn [bind]. rewrite Bmul_mut. cbn [bind]. apply Rfit. nia.
  apply qcross. nia. rewrite Qa, Qb. qx.
Qed.
Lemma Rmul : rmul (rof a) (rof b) = Ok (rof (a * b)).
Proof.
  unfold rmul, from_dn. fold_ab. rewrite !Bmul. cbn [bind]. apply Rfit. nia. apply qcross. nia. rewrite Qa, Qb. qx.
Qed.
Lemma Rmul_mut : rmul_mut (rof a) (rof b) = Ok (rof (a * b)).
Proof.
  unfold rmul_mut. fold_ab. rewrite !Bmul_mut. cbn [bind]. apply Rfit. nia. apply qcross. nia. rewrite Qa, Qb. qx.
Qed.
Lemma nb_nz : ~ (b == 0)%Q -> nb <> 0.
Proof. intros N C. apply N. rewrite Qb, C. reflexivity. Qed.
Lemma nb_z : (b == 0)%Q -> nb = 0 /\ db = 1.
Proof. intros E. unfold nb, db. rewrite (Qred_complete _ _ E). split; reflexivity. Qed.
Lemma div_cross d n : d <> 0 -> (a / b == inject_Z n / inject_Z d)%Q -> Qnum (a / b) * d = n * QDen (a / b).
Proof.
  intros Hd E. set (q := (a / b)%Q) in *. clearbody q.
  assert (E2 : (q * inject_Z d == inject_Z n)%Q). { rewrite E. field. intros C. apply Hd. unfold Qeq in C. cbn in C. lia. }
  unfold Qeq, Qmult, inject_Z in E2. cbn [Qnum Qden] in E2. lia.
Qed.
Lemma Rdiv_cross : nb <> 0 -> Qnum (a / b) * (da * nb) = na * db * QDen (a / b).
Proof.
  intros N. apply div_cross. nia. rewrite Qa, Qb. rewrite !Qmake_Qdiv. rewrite !Z2Pos.id by lia. rewrite !inject_Z_mult. field.
  repeat split; intros C; unfold Qeq in C; cbn in C; lia.
Qed.
Lemma Rdiv : ~ (b == 0)%Q -> rdiv (rof a) (rof b) = Ok (rof (a / b)).
Proof.
  intros N. apply nb_nz in N. unfold rdiv, from_dn. fold_ab. rewrite !Bmul. cbn [bind]. apply Rfit. nia. now apply Rdiv_cross.
Qed.
Lemma Rdiv_mut : ~ (b == 0)%Q -> rdiv_mut (rof a) (rof b) = Ok (rof (a / b)).
Proof.
  intros N. apply nb_nz in N. unfold rdiv_mut. fold_ab. rewrite !Bmul_mut. cbn [bind]. apply Rfit. nia. now apply Rdiv_cross.
Qed.
(** dividing a non-zero number by zero yields a number with denominator zero *)
Lemma Rdiv_zero : (b == 0)%Q -> rdiv (rof a) (rof b) = (if na =? 0 then Panic else Ok (mkR (bof 0) (bof (Z.sgn na)))) /\
  rdiv_mut (rof a) (rof b) = rdiv (rof a) (rof b).
Proof.
  intros E. apply nb_z in E as (E1 & E2). unfold rdiv, rdiv_mut, from_dn. fold_ab. rewrite E1, E2.
  rewrite !Bmul, !Bmul_mut. cbn [bind]. rewrite Z.mul_0_r, Z.mul_1_r. rewrite Rfit_zero. auto.
Qed.
Lemma Rlt : rlt (rof a) (rof b) = Ok (qltb a b).
Proof.
  unfold rlt. rewrite Rsub. cbn [bind]. f_equal. unfold ris_neg. rewrite rnum_rof, Bneg, qn_neg.
  unfold qltb, Qminus, Qplus, Qopp. cbn [Qnum Qden]. zb; auto; lia.
Qed.
Lemma Rgt : rgt (rof b) (rof a) = Ok (qltb a b).
Proof. exact Rlt. Qed.
Lemma Rgeq : rgeq (rof a) (rof b) = Ok (qleb b a).
Proof. unfold rgeq. rewrite Rlt. cbn [bind]. now rewrite qleb_antisym. Qed.
Lemma Rleq : rleq (rof b) (rof a) = Ok (qleb b a).
Proof. unfold rleq. rewrite Rgt. cbn [bind]. now rewrite qleb_antisym. Qed.
Lemma Rcomp : rcomp (rof a) (rof b) = Ok (a ?= b)%Q.
Proof.
  unfold rcomp. fold_ab. rewrite !Bmul. cbn [bind]. rewrite Bcomp. f_equal. rewrite Qa, Qb. unfold Qcompare. cbn [Qnum Qden].
  now rewrite !Z2Pos.id by lia.
Qed.
Lemma Req : req (rof a) (rof b) = qeqb a b.
Proof.
  unfold req. fold_ab. rewrite !Beq. destruct (qeqb_qeq a b) as [E | N].
  - unfold da, db, na, nb. rewrite (Qred_complete _ _ E), !Z.eqb_refl. reflexivity.
  - destruct (Z.eqb_spec da db), (Z.eqb_spec na nb); try reflexivity. destruct N. rewrite Qa, Qb. rewrite e, e0. reflexivity.
Qed.
Lemma Rneq : rneq (rof a) (rof b) = negb (qeqb a b).
Proof. unfold rneq. now rewrite Req. Qed.
End R.

Lemma Ropp a : ropp (rof a) = rof (- a).
Proof.
  unfold ropp. rewrite rden_rof, rnum_rof, Bopp. apply rof_eq. lia. now rewrite Z.gcd_opp_l, rof_gcd.
  cbn [Qopp Qnum Qden]. rewrite !Z.mul_opp_l, rof_parts. ring.
Qed.
Lemma Ropp_mut a : ropp_mut (rof a) = rof (- a).
Proof. rewrite <- Ropp. unfold ropp_mut, ropp. rewrite rnum_rof, Bopp, Bopp_mut. reflexivity. Qed.
Lemma Rabs a : rabs (rof a) = rof (Qabs a).
Proof.
  unfold rabs. rewrite rden_rof, rnum_rof, Babs. apply rof_eq. lia. now rewrite Z.gcd_abs_l, rof_gcd.
  pose proof (rof_parts a). destruct a as [n d]. cbn [Qabs Qnum Qden] in *. 
  set (x := qn (n # d)) in *. set (y := qd (n # d)) in *. assert (0 < y) by lia. clearbody x y.
  transitivity (Z.abs (n * y)); [rewrite Z.abs_mul; f_equal; lia |]. rewrite H, Z.abs_mul. f_equal.
Qed.
Lemma Rabs_mut a : rabs_mut (rof a) = rof (Qabs a).
Proof. rewrite <- Rabs. unfold rabs_mut, rabs. rewrite rnum_rof, Babs, Babs_mut. reflexivity. Qed.
Lemma Ris_neg a : ris_neg (rof a) = qltb a 0.
Proof. unfold ris_neg. rewrite rnum_rof, Bneg, qn_neg. apply Qnum_neg. Qed.
Lemma Rzero : rzero = rof 0. Proof. reflexivity. Qed.
Lemma Rone : rone = rof 1. Proof. reflexivity. Qed.
Lemma qn_int z : qn (inject_Z z) = z /\ qd (inject_Z z) = 1.
Proof. rewrite Qred_identity. split; reflexivity. cbn. apply Z.gcd_1_r. Qed.
Lemma Rfrom_bi z : rfrom_bi (bof z) = rof (inject_Z z).
Proof. unfold rfrom_bi, rof. destruct (qn_int z) as [-> ->]. reflexivity. Qed.
Lemma Ris_integer a : ris_integer (rof a) = qeqb a (inject_Z (qtrunc a)).
Proof.
  unfold ris_integer. rewrite rden_rof, Bis_one. destruct (qeqb_qeq a (inject_Z (qtrunc a))) as [E | N].
  - rewrite (Qred_complete _ _ E). destruct (qn_int (qtrunc a)) as [_ ->]. reflexivity.
  - destruct (Z.eqb_spec (qd a) 1) as [E |]; auto. destruct N. pose proof (rof_parts a) as P. rewrite E, Z.mul_1_r in P.
    unfold Qeq, qtrunc. cbn [inject_Z Qnum Qden]. rewrite P. rewrite Z.quot_mul by lia. lia.
Qed.
Lemma Ris_zero a : ris_zero (rof a) = qeqb a 0.
Proof.
  unfold ris_zero. rewrite rden_rof, rnum_rof, Bis_one, Bis_zero. destruct (qeqb_qeq a 0) as [E | N].
  - rewrite (Qred_complete _ _ E). reflexivity.
  - rewrite qn_zero. destruct (Z.eqb_spec (Qnum a) 0); [| now rewrite andb_false_r]. destruct N. unfold Qeq. cbn. lia.
Qed.
Lemma Ris_one a : ris_one (rof a) = qeqb a 1.
Proof.
  unfold ris_one. rewrite rden_rof, rnum_rof, !Bis_one. destruct (qeqb_qeq a 1) as [E | N].
  - rewrite (Qred_complete _ _ E). reflexivity.
  - destruct (Z.eqb_spec (qd a) 1), (Z.eqb_spec (qn a) 1); auto. destruct N. rewrite (qred_eta a). rewrite e, e0. reflexivity.
Qed.

(** reciprocal *)
Lemma Rreci_raw d n q : 0 < d -> n <> 0 -> Z.gcd n d = 1 -> Qnum q * d = n * QDen q -> rreci (mkR (bof d) (bof n)) = Ok (rof (/ q)).
Proof.
  intros Hd Hn Hg E. unfold rreci. cbv zeta. cbn [rden rnum]. rewrite Bis_zero, Bneg. destruct (Z.eqb_spec n 0); [lia |].
  f_equal. destruct q as [qn0 qd0]. cbn [Qnum Qden] in E.
  destruct (Z.ltb_spec n 0).
  - rewrite !Bopp_mut. apply rof_eq; [lia | now rewrite Z.gcd_opp_l, Z.gcd_opp_r, Z.gcd_comm |].
    unfold Qinv. cbn [Qnum Qden]. destruct qn0; cbn [Qnum Qden]; nia.
  - apply rof_eq; [lia | now rewrite Z.gcd_comm |].
    unfold Qinv. cbn [Qnum Qden]. destruct qn0; cbn [Qnum Qden]; nia.
Qed.
Lemma Rreci a : ~ (a == 0)%Q -> rreci (rof a) = Ok (rof (/ a)).
Proof. intros N. apply Rreci_raw; [lia | now apply nb_nz | apply rof_gcd | apply rof_parts]. Qed.
Lemma Rreci_zero a : (a == 0)%Q -> rreci (rof a) = Panic.
Proof. intros E. rewrite (rof_qeq _ _ E). reflexivity. Qed.

(** integer operands *)
Section RB.
Variables (a : Q) (z : Z).
Let da := qd a. Let na := qn a.
Let Hda : 0 < da. Proof. unfold da. lia. Qed.
Let Qa : (a == na # Z.to_pos da)%Q := qred_eta a.
Let Ga : Z.gcd na da = 1 := rof_gcd a.
Ltac fold_ab := rewrite ?rden_rof, ?rnum_rof; fold da na.
Ltac qx := unfold Qdiv, Qminus, Qeq, Qplus, Qopp, Qmult, Qinv, inject_Z; cbn [Qnum Qden];
  rewrite ?Pos2Z.inj_mul, ?Z2Pos.id by lia; try ring.
Lemma gcd_add_mul k : Z.gcd (na + da * k) da = 1.
Proof. rewrite Z.gcd_comm, Z.mul_comm, Z.gcd_add_mult_diag_r, Z.gcd_comm. exact Ga. Qed.
Lemma rof_add_mul k q : (q == a + inject_Z k)%Q -> mkR (bof da) (bof (na + da * k)) = rof q.
Proof. intros E. apply rof_eq; auto using gcd_add_mul. apply qcross; auto. rewrite E, Qa. qx. Qed.
Lemma Radd_bi : radd_bi (rof a) (bof z) = Ok (rof (a + inject_Z z)).
Proof. unfold radd_bi. fold_ab. rewrite Bmul. cbn [bind]. rewrite Badd. cbn [bind]. f_equal. now apply rof_add_mul. Qed.
Lemma Radd_bi_mut : radd_bi_mut (rof a) (bof z) = Ok (rof (a + inject_Z z)).
Proof. unfold radd_bi_mut. fold_ab. rewrite Bmul. cbn [bind]. rewrite Badd_mut. cbn [bind]. f_equal. now apply rof_add_mul. Qed.
Lemma qsub_add : (a - inject_Z z == a + inject_Z (- z))%Q. Proof. rewrite inject_Z_opp. ring. Qed.
Lemma mul_sub : na - da * z = na + da * (- z). Proof. ring. Qed.
Lemma Rsub_bi : rsub_bi (rof a) (bof z) = Ok (rof (a - inject_Z z)).
Proof.
  unfold rsub_bi. fold_ab. rewrite Bmul. cbn [bind]. rewrite Bsub. cbn [bind]. f_equal. rewrite mul_sub. apply rof_add_mul, qsub_add.
Qed.
Lemma Rsub_bi_mut : rsub_bi_mut (rof a) (bof z) = Ok (rof (a - inject_Z z)).
Proof.
  unfold rsub_bi_mut. fold_ab. rewrite Bmul. cbn [bind]. rewrite Bsub_mut. cbn [bind]. f_equal. rewrite mul_sub. apply rof_add_mul, qsub_add.
Qed.
Lemma gcd_mul_quot d n b : 0 < d -> Z.gcd n d = 1 -> let g := Z.gcd d b in Z.gcd (n * (b ÷ g)) (d ÷ g) = 1 /\ 0 < d ÷ g /\ d ÷ g * g = d /\ b ÷ g * g = b.
Proof.
  intros Hd Hg g. assert (0 < g). { pose proof (Z.gcd_nonneg d b). destruct (Z.eq_dec g 0) as [C|]; [|unfold g in *; lia]. apply Z.gcd_eq_0_l in C. lia. }
  pose proof (quot_divide d g ltac:(lia) (Z.gcd_divide_l d b)) as D1.
  pose proof (quot_divide b g ltac:(lia) (Z.gcd_divide_r d b)) as D2.
  pose proof (gcd_quot d b ltac:(fold g; lia)) as G. fold g in G.
  splits; auto; [| nia].
  assert (G1 : Z.gcd n (d ÷ g) = 1).
  { apply Znumtheory.Zis_gcd_gcd; [lia |]. constructor; try apply Z.divide_1_l. intros x X1 X2.
    rewrite <- Hg. apply Z.gcd_greatest; auto. rewrite <- D1. now apply Z.divide_mul_l. }
  apply Znumtheory.Zgcd_1_rel_prime, Znumtheory.rel_prime_sym. apply Znumtheory.rel_prime_mult; apply Znumtheory.Zgcd_1_rel_prime; auto.
  now rewrite Z.gcd_comm.
Qed.
Lemma Rmul_bi : rmul_bi_mut (rof a) (bof z) = Ok (rof (a * inject_Z z)).
Proof.
  unfold rmul_bi_mut. fold_ab. rewrite Bgcd. cbn [bind]. rewrite Bis_one.
  destruct (gcd_mul_quot da na z Hda Ga) as (G & P & D1 & D2). cbv zeta in *.
  destruct (Z.eqb_spec (Z.gcd da z) 1) as [E | N].
  - rewrite Bmul_mut. cbn [bind]. f_equal. rewrite E, !Z.quot_1_r in G. apply rof_eq; auto. apply qcross; auto. rewrite Qa. qx.
  - assert (Z.gcd da z <> 0). { intros C. apply Z.gcd_eq_0_l in C. lia. }
    rewrite Bdiv by auto. cbn [bind]. rewrite Bmul_mut. cbn [bind]. rewrite Bdiv_mut by auto. cbn [bind]. f_equal.
    apply rof_eq; auto. apply qcross; auto. rewrite Qa. qx. set (g := Z.gcd da z) in *. clearbody g.
    apply (Z.mul_cancel_r _ _ g); auto. rewrite <- D2 at 1. rewrite <- D1 at 2. ring.
Qed.
Lemma Rdiv_bi : z <> 0 -> rdiv_bi_mut (rof a) (bof z) = Ok (rof (a / inject_Z z)).
Proof.
  intros Hz. unfold rdiv_bi_mut. rewrite Bis_zero. destruct (Z.eqb_spec z 0); [lia |]. fold_ab. rewrite Bgcd. cbn [bind]. rewrite Bis_one.
  assert (N0 : Z.gcd na z <> 0). { intros C. apply Z.gcd_eq_0_r in C. lia. }
  pose proof (quot_divide na (Z.gcd na z) N0 (Z.gcd_divide_l na z)) as D1.
  pose proof (quot_divide z (Z.gcd na z) N0 (Z.gcd_divide_r na z)) as D2.
  pose proof (gcd_quot na z N0) as G.
  assert (K : (if Z.gcd na z =? 1 then let* d := bmul_mut (bof da) (bof z) in Ok (mkR d (bof na))
    else let* q := bdiv (bof z) (bof (Z.gcd na z)) in let* d := bmul_mut (bof da) q in let* n0 := bdiv_mut (bof na) (bof (Z.gcd na z)) in Ok (mkR d n0))
    = Ok (mkR (bof (da * (z ÷ Z.gcd na z))) (bof (na ÷ Z.gcd na z)))).
  { destruct (Z.eqb_spec (Z.gcd na z) 1) as [E | N].
    - rewrite Bmul_mut. cbn [bind]. rewrite E, !Z.quot_1_r. reflexivity.
    - rewrite Bdiv by auto. cbn [bind]. rewrite Bmul_mut. cbn [bind]. rewrite Bdiv_mut by auto. reflexivity. }
  rewrite K. cbn [bind rden rnum]. set (g := Z.gcd na z) in *. clearbody g. clear K.
  set (zg := z ÷ g) in *. set (ng := na ÷ g) in *. clearbody zg ng. rewrite Bneg.
  assert (Gn : Z.gcd ng (da * zg) = 1).
  { assert (G1 : Z.gcd ng da = 1).
    { apply Znumtheory.Zis_gcd_gcd; [lia |]. constructor; try apply Z.divide_1_l. intros x X1 X2.
      rewrite <- Ga. apply Z.gcd_greatest; auto. rewrite <- D1. now apply Z.divide_mul_l. }
    apply Znumtheory.Zgcd_1_rel_prime. apply Znumtheory.rel_prime_mult; apply Znumtheory.Zgcd_1_rel_prime; auto. }
  assert (zg <> 0) by nia.
  assert (C : Qnum (a / inject_Z z) * (da * zg) = ng * QDen (a / inject_Z z)).
  { apply div_cross. nia. rewrite Qa. rewrite Qmake_Qdiv. rewrite Z2Pos.id by lia. rewrite <- D1, <- D2. rewrite !inject_Z_mult. field.
    repeat split; intros C; unfold Qeq in C; cbn in C; nia. }
  f_equal. destruct (Z.ltb_spec (da * zg) 0).
  - rewrite !Bopp_mut. apply rof_eq; [lia | now rewrite Z.gcd_opp_l, Z.gcd_opp_r |]. rewrite Z.mul_opp_r, Z.mul_opp_l. now f_equal.
  - apply rof_eq; auto. nia.
Qed.
Lemma Rdiv_bi_zero : rdiv_bi_mut (rof a) (bof 0) = Panic. Proof. reflexivity. Qed.
End RB.

(** i32 operands *)
Lemma Radd_i32 a o : i32r o -> radd_i32 (rof a) o = Ok (rof (a + inject_Z o)).
Proof. intros H. rewrite <- Radd_bi. unfold radd_i32, radd_bi. rewrite rden_rof. now rewrite Bmul_i32, Bmul by auto. Qed.
Lemma Radd_i32_mut a o : i32r o -> radd_i32_mut (rof a) o = Ok (rof (a + inject_Z o)).
Proof. intros H. rewrite <- Radd_bi_mut. unfold radd_i32_mut, radd_bi_mut. rewrite rden_rof. now rewrite Bmul_i32, Bmul by auto. Qed.
Lemma Rsub_i32 a o : i32r o -> rsub_i32 (rof a) o = Ok (rof (a - inject_Z o)).
Proof. intros H. rewrite <- Rsub_bi. unfold rsub_i32, rsub_bi. rewrite rden_rof. now rewrite Bmul_i32, Bmul by auto. Qed.
Lemma Rsub_i32_mut a o : i32r o -> rsub_i32_mut (rof a) o = Ok (rof (a - inject_Z o)).
Proof. intros H. rewrite <- Rsub_bi_mut. unfold rsub_i32_mut, rsub_bi_mut. rewrite rden_rof. now rewrite Bmul_i32, Bmul by auto. Qed.
Lemma qmul_cross a o : Qnum (a * inject_Z o) * qd a = qn a * o * QDen (a * inject_Z o).
Proof.
  pose proof (rof_parts a). unfold Qmult, inject_Z. cbn [Qnum Qden]. rewrite Pos.mul_1_r.
  transitivity (Qnum a * qd a * o). ring. rewrite H. ring.
Qed.
Lemma Rmul_i32 a o : i32r o -> rmul_i32 (rof a) o = Ok (rof (a * inject_Z o)).
Proof. intros H. unfold rmul_i32, from_dn. rewrite rden_rof, rnum_rof, Bmul_i32 by auto. cbn [bind]. apply Rfit. lia. apply qmul_cross. Qed.
Lemma Rmul_i32_mut a o : i32r o -> rmul_i32_mut (rof a) o = Ok (rof (a * inject_Z o)).
Proof. intros H. unfold rmul_i32_mut. rewrite rden_rof, rnum_rof, Bmul_i32_mut by auto. cbn [bind]. apply Rfit. lia. apply qmul_cross. Qed.
Lemma qdiv_cross a o : o <> 0 -> Qnum (a / inject_Z o) * (qd a * o) = qn a * QDen (a / inject_Z o).
Proof.
  intros H. apply div_cross. nia. rewrite (qred_eta a) at 1. rewrite Qmake_Qdiv. rewrite Z2Pos.id by lia.
  rewrite inject_Z_mult. field. split; intros C; unfold Qeq in C; cbn in C; lia.
Qed.
Lemma Rdiv_i32 a o : i32r o -> o <> 0 -> rdiv_i32 (rof a) o = Ok (rof (a / inject_Z o)).
Proof. intros H N. unfold rdiv_i32, from_dn. rewrite rden_rof, rnum_rof, Bmul_i32 by auto. cbn [bind]. apply Rfit. lia. now apply qdiv_cross. Qed.
Lemma Rdiv_i32_mut a o : i32r o -> o <> 0 -> rdiv_i32_mut (rof a) o = Ok (rof (a / inject_Z o)).
Proof. intros H N. unfold rdiv_i32_mut. rewrite rden_rof, rnum_rof, Bmul_i32_mut by auto. cbn [bind]. apply Rfit. lia. now apply qdiv_cross. Qed.
Lemma Rdiv_i32_zero a : rdiv_i32 (rof a) 0 = if qn a =? 0 then Panic else Ok (mkR (bof 0) (bof (Z.sgn (qn a)))).
Proof.
  unfold rdiv_i32, from_dn. rewrite rden_rof, rnum_rof, Bmul_i32 by (unfold i32r; lia). cbn [bind]. rewrite Z.mul_0_r. apply Rfit_zero.
Qed.
Lemma Rdiv_i32_mut_zero a : rdiv_i32_mut (rof a) 0 = if qn a =? 0 then Panic else Ok (mkR (bof 0) (bof (Z.sgn (qn a)))).
Proof.
  unfold rdiv_i32_mut. rewrite rden_rof, rnum_rof, Bmul_i32_mut by (unfold i32r; lia). cbn [bind]. rewrite Z.mul_0_r. apply Rfit_zero.
Qed.
Lemma qcmp_int a o : qltb a (inject_Z o) = (qn a <? qd a * o) /\ qltb (inject_Z o) a = (qd a * o <? qn a) /\ qeqb a (inject_Z o) = (qn a =? qd a * o)
  /\ (a ?= inject_Z o)%Q = (qn a ?= qd a * o).
Proof.
  rewrite (Qcompare_comp _ _ (qred_eta a) _ _ (Qeq_refl (inject_Z o))). 
  set (x := qn a). set (y := qd a). assert (E : (a == x # Z.to_pos y)%Q) by apply qred_eta. assert (0 < y) by (unfold y; lia).
  rewrite E. clearbody x y. unfold qltb, qeqb, Qcompare, inject_Z. cbn [Qnum Qden]. rewrite Z2Pos.id by lia.
  rewrite !(Z.mul_comm o y), Z.mul_1_r. splits; reflexivity.
Qed.
Lemma Rlt_i32 a o : i32r o -> rlt_i32 (rof a) o = Ok (qltb a (inject_Z o)).
Proof. intros H. unfold rlt_i32. rewrite rden_rof, rnum_rof, Bmul_i32 by auto. cbn [bind]. rewrite Blt. now destruct (qcmp_int a o) as (-> & _). Qed.
Lemma Rgt_i32 a o : i32r o -> rgt_i32 (rof a) o = Ok (qltb (inject_Z o) a).
Proof. intros H. unfold rgt_i32. rewrite rden_rof, rnum_rof, Bmul_i32 by auto. cbn [bind]. rewrite Bgt. now destruct (qcmp_int a o) as (_ & -> & _). Qed.
Lemma Rleq_i32 a o : i32r o -> rleq_i32 (rof a) o = Ok (qleb a (inject_Z o)).
Proof. intros H. unfold rleq_i32. rewrite Rgt_i32 by auto. cbn [bind]. now rewrite qleb_antisym. Qed.
Lemma Rgeq_i32 a o : i32r o -> rgeq_i32 (rof a) o = Ok (qleb (inject_Z o) a).
Proof. intros H. unfold rgeq_i32. rewrite Rlt_i32 by auto. cbn [bind]. now rewrite qleb_antisym. Qed.
Lemma Rcomp_i32 a o : i32r o -> rcomp_i32 (rof a) o = Ok (a ?= inject_Z o)%Q.
Proof. intros H. unfold rcomp_i32. rewrite rden_rof, rnum_rof, Bmul_i32 by auto. cbn [bind]. rewrite Bcomp. now destruct (qcmp_int a o) as (_ & _ & _ & ->). Qed.
Lemma Req_i32 a o : i32r o -> (qd a = 1 -> Z.abs (qn a) < B \/ (qn a < 0 <-> 0 <= o)) -> req_i32 (rof a) o = Ok (qeqb a (inject_Z o)).
Proof.
  intros H C. unfold req_i32. rewrite rden_rof, rnum_rof, Bis_one. destruct (qcmp_int a o) as (_ & _ & -> & _).
  destruct (Z.eqb_spec (qd a) 1) as [E | N].
  - rewrite Beq_i32; auto. now rewrite E, Z.mul_1_l.
  - f_equal. symmetry. apply Z.eqb_neq. intros F. pose proof (rof_gcd a) as G. rewrite F in G.
    rewrite Z.gcd_comm, Z.gcd_mul_diag_l in G by lia. lia.
Qed.
Lemma Rlt_one a : rlt_one (rof a) = qltb a 1.
Proof.
  unfold rlt_one. rewrite Ris_neg, rden_rof, rnum_rof, Blt. change 1%Q with (inject_Z 1). change 0%Q with (inject_Z 0).
  destruct (qcmp_int a 1) as (-> & _). destruct (qcmp_int a 0) as (-> & _). zb; auto; lia.
Qed.
Lemma Rgt_one a : rgt_one (rof a) = qltb 1 a.
Proof.
  unfold rgt_one. rewrite Ris_neg, rden_rof, rnum_rof, Bgt. change 1%Q with (inject_Z 1). change 0%Q with (inject_Z 0).
  destruct (qcmp_int a 1) as (_ & -> & _). destruct (qcmp_int a 0) as (-> & _). zb; auto; lia.
Qed.

(** rounding *)
Lemma qtrunc_red a : qn a ÷ qd a = qtrunc a.
Proof.
  unfold qtrunc. pose proof (rof_parts a) as P. rewrite <- (Z.quot_mul_cancel_r (Qnum a) (QDen a) (qd a)) by lia.
  rewrite P. rewrite <- (Z.quot_mul_cancel_r (qn a) (qd a) (QDen a)) by lia. f_equal. ring.
Qed.
Global Instance qtrunc_proper : Proper (Qeq ==> eq) qtrunc.
Proof. intros a b E. rewrite <- !qtrunc_red. now rewrite (Qred_complete _ _ E). Qed.
Lemma qfloor_red a : qn a / qd a = qfloor a.
Proof.
  unfold qfloor. pose proof (rof_parts a) as P. rewrite <- (Z.div_mul_cancel_r (Qnum a) (QDen a) (qd a)) by lia.
  rewrite P. rewrite <- (Z.div_mul_cancel_r (qn a) (qd a) (QDen a)) by lia. f_equal. ring.
Qed.
Global Instance qfloor_proper : Proper (Qeq ==> eq) qfloor.
Proof. intros a b E. rewrite <- !qfloor_red. now rewrite (Qred_complete _ _ E). Qed.
Lemma Rtruncate_bi a : rtruncate_bi (rof a) = Ok (bof (qtrunc a)).
Proof. unfold rtruncate_bi. rewrite rden_rof, rnum_rof, Bdiv by lia. now rewrite qtrunc_red. Qed.
Lemma Rtruncate a : rtruncate (rof a) = Ok (rof (inject_Z (qtrunc a))).
Proof. unfold rtruncate. rewrite Rtruncate_bi. cbn [bind]. now rewrite Rfrom_bi. Qed.
Lemma Rtruncate_mut a : rtruncate_mut (rof a) = Ok (rof (inject_Z (qtrunc a))).
Proof. unfold rtruncate_mut. rewrite rden_rof, rnum_rof, Bdiv_mut by lia. cbn [bind]. rewrite qtrunc_red. now rewrite <- Rfrom_bi. Qed.
Lemma rof_frac a : mkR (bof (qd a)) (bof (Z.rem (qn a) (qd a))) = rof (a - inject_Z (qtrunc a)).
Proof.
  rewrite qsub_add. rewrite <- (rof_add_mul a (- qtrunc a) _ (Qeq_refl _)). do 2 f_equal.
  rewrite <- qtrunc_red. pose proof (Z.quot_rem (qn a) (qd a) ltac:(lia)). lia.
Qed.
Lemma Rfrac a : rfrac (rof a) = Ok (rof (a - inject_Z (qtrunc a))).
Proof. unfold rfrac. rewrite rden_rof, rnum_rof, Brem by lia. cbn [bind]. now rewrite rof_frac. Qed.
Lemma Rfrac_mut a : rfrac_mut (rof a) = Ok (rof (a - inject_Z (qtrunc a))).
Proof. unfold rfrac_mut. rewrite rden_rof, rnum_rof, Brem_mut by lia. cbn [bind]. now rewrite rof_frac. Qed.
Lemma Rtruncate_and_frac a : rtruncate_and_frac (rof a) = Ok (bof (qtrunc a), rof (a - inject_Z (qtrunc a))).
Proof.
  unfold rtruncate_and_frac. rewrite Rtruncate_bi. cbn [bind]. rewrite rden_rof, rnum_rof, Bmul. cbn [bind]. rewrite Bsub. cbn [bind].
  rewrite <- rof_frac. rewrite <- qtrunc_red. do 4 f_equal. pose proof (Z.quot_rem (qn a) (qd a) ltac:(lia)). lia.
Qed.
Lemma Rfloor_bi a : rfloor_bi (rof a) = Ok (bof (qfloor a)).
Proof.
  unfold rfloor_bi, ris_integer. rewrite Ris_neg, <- Qnum_neg, <- qn_neg, rden_rof, rnum_rof, Bis_one, Rtruncate_bi. cbn [bind].
  rewrite <- qfloor_red, <- qtrunc_red. destruct (Z.ltb_spec (qn a) 0).
  - destruct (Z.eqb_spec (qd a) 1) as [E | N]. now rewrite E, Z.div_1_r.
    rewrite Bsub_i32 by (unfold i32r; lia). do 2 f_equal.
    assert (NZ : Z.rem (qn a) (qd a) <> 0).
    { intros C. apply Z.rem_divide in C; [| lia]. pose proof (rof_gcd a) as G. apply Z.divide_gcd_iff in C; [| lia].
      rewrite Z.gcd_comm in C. lia. }
    pose proof (Z.quot_rem (qn a) (qd a) ltac:(lia)). pose proof (Coq.ZArith.Zquot.Zrem_lt_neg_pos (qn a) (qd a) ltac:(lia) ltac:(lia)).
    apply (Z.div_unique_pos _ _ _ (Z.rem (qn a) (qd a) + qd a)); lia.
  - now rewrite Z.quot_div_nonneg by lia.
Qed.
Lemma Rfloor a : rfloor (rof a) = Ok (rof (inject_Z (qfloor a))).
Proof. unfold rfloor. rewrite Rfloor_bi. cbn [bind]. now rewrite Rfrom_bi. Qed.
(** nearest integer, halves away from zero *)
Definition qround (q : Q) : Z := Z.sgn (Qnum q) * ((2 * Z.abs (Qnum q) + QDen q) / (2 * QDen q)).
Lemma qround_red a : Z.sgn (qn a) * ((2 * Z.abs (qn a) + qd a) / (2 * qd a)) = qround a.
Proof.
  unfold qround. rewrite qn_sgn. f_equal. pose proof (rof_parts a) as P.
  assert (P' : Z.abs (Qnum a) * qd a = Z.abs (qn a) * QDen a).
  { transitivity (Z.abs (Qnum a * qd a)); [rewrite Z.abs_mul; f_equal | rewrite P, Z.abs_mul; f_equal]. }
  rewrite <- (Z.div_mul_cancel_r (2 * Z.abs (Qnum a) + _) (2 * QDen a) (qd a)) by lia.
  rewrite <- (Z.div_mul_cancel_r (2 * Z.abs (qn a) + _) (2 * qd a) (QDen a)) by lia. f_equal; lia.
Qed.
Lemma Rround_bi a : rround_bi (rof a) = Ok (bof (qround a)).
Proof.
  unfold rround_bi. rewrite Rtruncate_and_frac. cbn [bind]. rewrite <- rof_frac. cbn [rnum rden].
  rewrite Bmul_i32 by (unfold i32r; lia). cbn [bind]. rewrite Babs, Bcomp, Ris_neg, <- Qnum_neg, <- qn_neg.
  rewrite <- qround_red, <- qtrunc_red.
  pose proof (Z.quot_rem (qn a) (qd a) ltac:(lia)) as E. 
  assert (0 < qd a) by lia. set (n := qn a) in *. set (d := qd a) in *. clearbody n d.
  assert (K : n <> 0 -> (2 * Z.abs n + d) / (2 * d) = Z.abs (n ÷ d) + (if 2 * Z.abs (Z.rem n d) <? d then 0 else 1)).
  { intros _. symmetry. apply (Z.div_unique_pos _ _ _ (2 * Z.abs (Z.rem n d) + d - (if 2 * Z.abs (Z.rem n d) <? d then 0 else 2 * d))).
    - pose proof (Z.rem_bound_abs n d ltac:(lia)). zb; lia.
    - assert (Z.abs n = d * Z.abs (n ÷ d) + Z.abs (Z.rem n d)).
      { rewrite <- Z.quot_abs, <- Z.rem_abs by lia. rewrite (Z.abs_eq d) by lia. apply Z.quot_rem. lia. }
      zb; lia. }
  destruct (Z.eq_dec n 0) as [-> | N].
  { rewrite Z.rem_0_l, Z.quot_0_l by lia. destruct (Z.compare_spec (Z.abs (0 * 2)) d); try lia. reflexivity. }
  rewrite K by auto.
  assert (Ab : Z.sgn n * Z.abs (n ÷ d) = n ÷ d).
  { pose proof (Z.quot_abs n d ltac:(lia)) as Q. rewrite (Z.abs_eq d) in Q by lia.
    destruct (Z.abs_spec n) as [(? & F) | (? & F)]; rewrite F in Q.
    rewrite <- Q, Z.sgn_pos by lia. lia. rewrite Z.quot_opp_l in Q by lia. rewrite <- Q, Z.sgn_neg by lia. lia. }
  rewrite Z.mul_add_distr_l, Ab.
  destruct (Z.compare_spec (Z.abs (Z.rem n d * 2)) d); (destruct (Z.ltb_spec (2 * Z.abs (Z.rem n d)) d); try lia);
    rewrite ?Z.mul_0_r, ?Z.add_0_r; try reflexivity;
    (destruct (Z.ltb_spec n 0); [rewrite Bsub_i32 by (unfold i32r; lia) | rewrite Badd_i32 by (unfold i32r; lia)]; do 2 f_equal; lia).
Qed.
Lemma Rround a : rround (rof a) = Ok (rof (inject_Z (qround a))).
Proof. unfold rround. rewrite Rround_bi. cbn [bind]. now rewrite Rfrom_bi. Qed.

(** powers *)
Lemma qpow_cross a e : 0 <= e -> Qnum (a ^ e) * qd a ^ e = qn a ^ e * QDen (a ^ e).
Proof.
  intros H. assert (0 < qd a ^ e) by (apply Z.pow_pos_nonneg; lia). apply qcross. lia.
  rewrite (qred_eta a) at 1. rewrite !Qmake_Qdiv. rewrite !Z2Pos.id by lia. rewrite Qdiv_power, <- !Zpower_Qpower by auto. reflexivity.
Qed.
Lemma gcd_pow a e : 0 <= e -> Z.gcd (qn a ^ e) (qd a ^ e) = 1.
Proof.
  intros H. apply Znumtheory.Zgcd_1_rel_prime. apply Zpow_facts.rel_prime_Zpower; auto.
  apply Znumtheory.Zgcd_1_rel_prime, rof_gcd.
Qed.
Section RPow.
Variables (a : Q) (e : Z).
Hypothesis He : i32r e.
Let H31 : 0 <= Z.abs e < 2 ^ 31. Proof. unfold i32r in He. lia. Qed.
Let Hc : castw 32 (Z.abs e) = Z.abs e. Proof. unfold castw. apply Z.mod_small. unfold i32r in He. lia. Qed.
Lemma Rpow_gen f : (forall x n, 0 <= n < 2 ^ 31 -> f (bof x) n = Ok (bof (x ^ n))) -> ~ (a == 0)%Q \/ 0 <= e ->
  (let* x := sabs 32 e in let* d := f (rden (rof a)) (castw 32 x) in let* n := f (rnum (rof a)) (castw 32 x) in
   if e <? 0 then rreci_mut (mkR d n) else Ok (mkR d n)) = Ok (rof (a ^ e)).
Proof.
  intros Hf C. destruct (sabs32 e He) as [-> _]. cbn [bind]. rewrite Hc, rden_rof, rnum_rof, !Hf by auto. cbn [bind].
  assert (0 < qd a ^ Z.abs e) by (apply Z.pow_pos_nonneg; lia).
  destruct (Z.ltb_spec e 0).
  - destruct C as [N | C]; [| lia]. unfold rreci_mut. rewrite (Rreci_raw _ _ (a ^ Z.abs e)); auto.
    + do 2 f_equal. destruct e; try lia. reflexivity. 
    + apply Z.pow_nonzero; [| lia]. now apply nb_nz.
    + apply gcd_pow. lia.
    + apply qpow_cross. lia.
  - f_equal. apply rof_eq; auto. apply gcd_pow; lia. rewrite Z.abs_eq by lia. now apply qpow_cross.
Qed.
Lemma Rpow : ~ (a == 0)%Q \/ 0 <= e -> rpow_i32 (rof a) e = Ok (rof (a ^ e)).
Proof. intros C. apply (Rpow_gen bpow_u32); auto using Bpow. Qed.
Lemma Rpow_mut : ~ (a == 0)%Q \/ 0 <= e -> rpow_i32_mut (rof a) e = Ok (rof (a ^ e)).
Proof. intros C. apply (Rpow_gen bpow_u32_mut); auto using Bpow_mut. Qed.
Lemma Rpow_zero : (a == 0)%Q -> e < 0 -> rpow_i32 (rof a) e = Panic /\ rpow_i32_mut (rof a) e = Panic.
Proof.
  intros E N. unfold rpow_i32, rpow_i32_mut. destruct (sabs32 e He) as [-> _]. cbn [bind]. rewrite Hc, (rof_qeq _ _ E), rden_rof, rnum_rof.
  rewrite !Bpow, !Bpow_mut by auto. cbn [bind]. change (qn 0) with 0. rewrite Z.pow_0_l by lia. destruct (Z.ltb_spec e 0); [| lia]. split; reflexivity.
Qed.
End RPow.

(** constructors *)
Lemma from_dn_ok d n : d <> 0 -> from_dn (bof d) (bof n) = Ok (rof (inject_Z n / inject_Z d)).
Proof. intros H. apply Rfit; auto. apply div_cross; auto. reflexivity. Qed.
Lemma from_dn_i32_ok d n : i32r d -> i32r n -> d <> 0 -> from_dn_i32 d n = Ok (rof (inject_Z n / inject_Z d)).
Proof.
  unfold i32r. intros Hd Hn N. unfold from_dn_i32. rewrite Egcd_i32 by (cbn; lia). cbn [bind].
  assert (Hg : 0 < Z.gcd d n). { pose proof (Z.gcd_nonneg d n). destruct (Z.eq_dec (Z.gcd d n) 0) as [C|]; [|lia]. apply Z.gcd_eq_0_l in C. lia. }
  pose proof (quot_divide d (Z.gcd d n) ltac:(lia) (Z.gcd_divide_l d n)) as D1.
  pose proof (quot_divide n (Z.gcd d n) ltac:(lia) (Z.gcd_divide_r d n)) as D2.
  pose proof (gcd_quot d n ltac:(lia)) as G.
  set (g := Z.gcd d n) in *. set (d' := d ÷ g) in *. set (n' := n ÷ g) in *.
  assert (Bd : - 2147483648 < d' < 2147483648) by (clear - Hd D1 Hg; clearbody d' g; nia).
  assert (Bn : - 2147483648 < n' < 2147483648) by (clear - Hn D2 Hg; clearbody n' g; nia).
  assert (K : (if negb (g =? 1) then if g =? 0 then Panic else let* d0 := sres 32 d' in let* n0 := sres 32 n' in Ok (d0, n0) else Ok (d, n)) = Ok (d', n')).
  { destruct (Z.eqb_spec g 1) as [E |]; cbn [negb].
    - unfold d', n'. now rewrite E, !Z.quot_1_r.
    - destruct (Z.eqb_spec g 0); [lia |]. rewrite !sres_ok by (cbn; lia). reflexivity. }
  rewrite K. cbn [bind].
  assert (d' <> 0) by (clear - N D1; clearbody d' g; nia).
  assert (C : Qnum (inject_Z n / inject_Z d) * d' = n' * QDen (inject_Z n / inject_Z d)).
  { apply div_cross; auto. rewrite <- D1, <- D2. rewrite !inject_Z_mult. field.
    repeat split; intros C; unfold Qeq in C; cbn in C; lia. }
  clearbody d' n' g.
  destruct (Z.ltb_spec d' 0).
  - unfold smul. rewrite !sres_ok by (cbn; lia). cbn [bind]. rewrite !Bfrom_i32 by (cbn; lia). cbn [bind]. f_equal.
    change (-1) with (- (1)). rewrite !Z.mul_opp_r, !Z.mul_1_r.
    apply rof_eq; [lia | now rewrite Z.gcd_opp_l, Z.gcd_opp_r, Z.gcd_comm |]. rewrite Z.mul_opp_r, Z.mul_opp_l. now f_equal.
  - cbn [bind]. rewrite !Bfrom_i32 by (cbn; lia). cbn [bind]. f_equal. apply rof_eq; [lia | now rewrite Z.gcd_comm | auto].
Qed.
Lemma Rfrom_ubi n : 0 <= n -> rfrom_ubi (uof n) = rof (inject_Z n).
Proof. intros H. rewrite <- Rfrom_bi. unfold rfrom_ubi, rfrom_bi. now rewrite Bfrom_ubi. Qed.
Lemma Rfrom_i32 n : - 2 ^ 31 < n < 2 ^ 31 -> rfrom_i32 n = Ok (rof (inject_Z n)).
Proof. intros H. rewrite <- Rfrom_bi. unfold rfrom_i32. now rewrite Bfrom_i32. Qed.
Lemma Rfrom_i64 n : - 2 ^ 63 < n < 2 ^ 63 -> rfrom_i64 n = Ok (rof (inject_Z n)).
Proof. intros H. rewrite <- Rfrom_bi. unfold rfrom_i64. now rewrite Bfrom_i64. Qed.
Lemma Rfrom_i128 n : - 2 ^ 127 < n < 2 ^ 127 -> rfrom_i128 n = Ok (rof (inject_Z n)).
Proof. intros H. rewrite <- Rfrom_bi. unfold rfrom_i128. now rewrite Bfrom_i128. Qed.

Lemma Rcommon a b : exists v1 v2 v3, common_denom (rof a) (rof b) = Ok (bof v1, bof v2, bof v3) /\ v3 = Z.lcm (qd a) (qd b) /\
  (a == inject_Z v1 / inject_Z v3)%Q /\ (b == inject_Z v2 / inject_Z v3)%Q.
Proof.
  unfold common_denom. rewrite !rden_rof, !rnum_rof, Bgcd. cbn [bind].
  assert (N : Z.gcd (qd a) (qd b) <> 0). { intros C. apply Z.gcd_eq_0_l in C. lia. }
  rewrite !Bdiv by auto. cbn [bind]. rewrite !Bmul. cbn [bind]. do 3 eexists. split; [reflexivity |].
  assert (Ha : (a == inject_Z (qn a) / inject_Z (qd a))%Q). { rewrite (qred_eta a) at 1. rewrite Qmake_Qdiv, Z2Pos.id by lia. reflexivity. }
  assert (Hb : (b == inject_Z (qn b) / inject_Z (qd b))%Q). { rewrite (qred_eta b) at 1. rewrite Qmake_Qdiv, Z2Pos.id by lia. reflexivity. }
  pose proof (quot_divide (qd a) _ N (Z.gcd_divide_l _ _)) as D1. pose proof (quot_divide (qd b) _ N (Z.gcd_divide_r _ _)) as D2.
  assert (Hg : 0 < Z.gcd (qd a) (qd b)) by (pose proof (Z.gcd_nonneg (qd a) (qd b)); lia).
  assert (L : qd a * (qd b ÷ Z.gcd (qd a) (qd b)) = Z.lcm (qd a) (qd b)).
  { rewrite Z.quot_div_nonneg by lia. unfold Z.lcm. rewrite Z.abs_eq; auto. apply Z.mul_nonneg_nonneg; [lia |]. apply Z.div_pos; lia. }
  split; [exact L |].
  set (g := Z.gcd (qd a) (qd b)) in *. set (x := qd a ÷ g) in *. set (y := qd b ÷ g) in *. clear L. clearbody x y g.
  assert (0 < qd a) by lia. assert (0 < qd b) by lia.
  rewrite Ha at 1. rewrite Hb at 1. rewrite <- D1, <- D2. clear Ha Hb. set (na := qn a). set (nb := qn b). set (ea := qd a) in *. set (eb := qd b) in *. clearbody na nb ea eb.
  assert (x <> 0) by nia. assert (y <> 0) by nia.
  split; rewrite !inject_Z_mult; field; repeat split; intros C; unfold Qeq in C; cbn in C; lia.
Qed.
Lemma from_dn_ok_fit d n : d <> 0 -> rfit (mkR (bof d) (bof n)) = Ok (rof (inject_Z n / inject_Z d)).
Proof. exact (from_dn_ok d n). Qed.
