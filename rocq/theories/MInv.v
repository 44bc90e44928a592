(** The inverse is the matrix of cofactors over the determinant. *)
From Verif Require Import Base UBig UStr BBig BSpec BEq RBig RSpec REq RIeee ISpec RIterP MMat MSpec MEq.
From Verif Require MDet.
Open Scope Q_scope.

Ltac ents := repeat match goal with |- mkM _ _ _ = mkM _ _ _ => f_equal | |- _ :: _ = _ :: _ => f_equal | |- [] = [] => reflexivity end.
Ltac dets := unfold qadj, qcof, minus; cbn [qdet qsum]; unfold minus, submat, skip; cbn [Nat.even Nat.add Nat.ltb Nat.leb].
Lemma qdet2 f : qdet 2 f == f 0%nat 0%nat * f 1%nat 1%nat - f 0%nat 1%nat * f 1%nat 0%nat.
Proof. dets. ring. Qed.
Lemma Madj2 f : madjugate (mof 2 2 f) = Ok (mof 2 2 (qadj 1 f)).
Proof.
  unfold madjugate. change (mcols (mof 2 2 f)) with 2%nat. cbn [Nat.ltb Nat.leb Nat.eqb].
  mgets. f_equal. unfold mfrom_raw, mof. cbn [seq map]. rewrite !Ropp. ents; apply rof_qeq; dets; ring.
Qed.
Lemma Madj3 f : madj3 (mof 3 3 f) = Ok (mof 3 3 (qadj 2 f)).
Proof.
  unfold madj3. mgets. mdets. f_equal. unfold mfrom_raw, mof. cbn [seq map].
  ents; apply rof_qeq; unfold qadj, qcof; rewrite qdet2; unfold submat, skip, minus; cbn [Nat.even Nat.add Nat.ltb Nat.leb]; ring.
Qed.
Lemma Madj4 f : madj4 (mof 4 4 f) = Ok (mof 4 4 (qadj 3 f)).
Proof.
  unfold madj4. mgets. mdets. f_equal. unfold mfrom_raw, mof. cbn [seq map].
  ents; apply rof_qeq; unfold qadj, qcof; rewrite qdet3; unfold submat, skip, minus; cbn [Nat.even Nat.add Nat.ltb Nat.leb]; ring.
Qed.
Lemma Madjugate n f : (0 < n)%nat -> madjugate (mof (S n) (S n) f) = Ok (mof (S n) (S n) (qadj n f)).
Proof.
  intros Hn. destruct (Nat.ltb_spec (S n) 5).
  - destruct n as [| [| [| [| n]]]]; try lia; [apply Madj2 | |].
    + etransitivity; [| apply Madj3]. reflexivity.
    + etransitivity; [| apply Madj4]. reflexivity.
  - unfold madjugate. change (mcols (mof (S n) (S n) f)) with (S n). change (mrows (mof (S n) (S n) f)) with (S n).
    destruct (Nat.ltb_spec (S n) 5); [lia|]. apply Mgenerate. intros i j Hi Hj. now apply Mcofactor.
Qed.
(** the determinant is zero *)
Lemma Minverse_zero n f : (0 < n)%nat -> qdet n f == 0 -> minverse (mof n n f) = Ok (RErr ZeroDeterminant).
Proof.
  intros Hn Z. unfold minverse. rewrite Mdet by auto. cbn [bind]. rewrite Ris_zero.
  destruct (qeqb_qeq (qdet n f) 0); [reflexivity | contradiction].
Qed.
Lemma Minverse n f : (0 < n)%nat -> ~ qdet (S n) f == 0 -> minverse (mof (S n) (S n) f) = Ok (ROk (mof (S n) (S n) (qinv n f))).
Proof.
  intros Hn Z. unfold minverse. rewrite Mdet by lia. cbn [bind]. rewrite Ris_zero.
  destruct (qeqb_qeq (qdet (S n) f) 0); [contradiction |]. rewrite Madjugate by auto. cbn [bind]. rewrite Rreci by auto. cbn [bind].
  rewrite Mmul_k_mut. reflexivity.
Qed.
(** 1 x 1: the adjugate of the code is the matrix itself, so the result is always [[1]] *)
Lemma Minverse_one f : ~ f 0%nat 0%nat == 0 -> minverse (mof 1 1 f) = Ok (ROk (mof 1 1 (fun _ _ => 1))).
Proof.
  intros Z. unfold minverse. rewrite Mdet by lia. cbn [bind]. rewrite Ris_zero.
  assert (E : qdet 1 f == f 0%nat 0%nat) by (cbn [qdet qsum]; unfold minus; cbn [Nat.even]; ring).
  destruct (qeqb_qeq (qdet 1 f) 0) as [H | H]; [exfalso; apply Z; now rewrite <- E |].
  rewrite Rreci by auto. change (madjugate (mof 1 1 f)) with (Ok (mof 1 1 f)). cbn [bind]. rewrite Mmul_k_mut. cbn [bind]. do 2 f_equal.
  apply mof_ext. intros i j Hi Hj. replace i with 0%nat by lia. replace j with 0%nat by lia. rewrite E. field. auto.
Qed.
Lemma meq_mid n f : meq n n f mid -> mof n n f = mof n n mid. Proof. apply mof_ext. Qed.
Lemma Minverse_mul n f : (0 < n)%nat -> ~ qdet (S n) f == 0 ->
  mmul (mof (S n) (S n) f) (mof (S n) (S n) (qinv n f)) = Ok (ROk (mof (S n) (S n) mid)) /\
  mmul (mof (S n) (S n) (qinv n f)) (mof (S n) (S n) f) = Ok (ROk (mof (S n) (S n) mid)).
Proof. intros Hn Z. destruct (MDet.cramer Z) as [C1 C2]. rewrite !Mmul. split; do 2 f_equal; apply mof_ext; auto. Qed.
