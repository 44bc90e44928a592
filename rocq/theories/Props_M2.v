(** Property C39 against mathcomp: the determinant is the Leibniz sum over permutations. *)
From mathcomp Require Import all_ssreflect all_algebra all_fingroup.
From Verif Require Import MDet Props_M.
From Verif Require Base UStr RBig RSpec REq MMat MSpec MEq.
Set Implicit Arguments. Unset Strict Implicit. Unset Printing Implicit Defensive.
Import GRing.Theory.
Local Open Scope ring_scope.

Theorem C39_leibniz : forall (m : MMat.mat) (d : RBig.rat), MSpec.mwf m -> MMat.mdet m = Base.Ok (UStr.ROk d) ->
  q2r (RSpec.rval d) = \sum_(s : 'S_(MMat.mrows m)) (-1) ^+ s * \prod_(i < MMat.mrows m) q2r (MSpec.mval m i (s i)).
Proof.
move=> m d W H. have [A1 [A2 A3]] := C39_determinant m W.
case: (PeanoNat.Nat.eq_dec (MMat.mcols m) (MMat.mrows m)) => S; last by rewrite A1 // in H.
case: (PeanoNat.Nat.eq_dec (MMat.mrows m) 0) => Z; first by rewrite A2 // in H.
have [e [E [_ V]]] := A3 S Z. rewrite E in H. case: H => <-.
move/q2r_eq: V => ->. rewrite q2r_det /determinant. apply: eq_bigr => s _. congr (_ * _).
by apply: eq_bigr => i _; rewrite mxE.
Qed.
Print Assumptions C39_leibniz.
