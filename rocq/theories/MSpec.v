(** Specification of matrices: a matrix over Q is its dimensions and the function giving its entries. *)
From Coq Require Import QArith List Lia.
From Verif Require Import Base RBig RSpec ISpec MMat.
Open Scope nat_scope.

(** the entry a Matrix denotes *)
Definition mval (m : mat) (i j : nat) : Q := rval (nth j (nth i (mdata m) []) rzero).
(** well-formed: the recorded dimensions are those of the data and every entry is canonical *)
Definition mwf (m : mat) : Prop :=
  length (mdata m) = mrows m /\ (forall row, In row (mdata m) -> length row = mcols m /\ Forall rwf row).
(** the representation of a matrix with [r] rows and [c] columns *)
Definition mof (r c : nat) (f : nat -> nat -> Q) : mat :=
  mkM (map (fun i => map (fun j => rof (f i j)) (seq 0 c)) (seq 0 r)) c r.
(** entrywise equality *)
Definition meq (r c : nat) (f g : nat -> nat -> Q) : Prop := forall i j, i < r -> j < c -> (f i j == g i j)%Q.
(** product through an inner dimension [n], identity *)
Definition mprod (n : nat) (f g : nat -> nat -> Q) (i j : nat) : Q := qsum (fun k => f i k * g k j)%Q n.
Definition mid (i j : nat) : Q := if i =? j then 1%Q else 0%Q.

(** Laplace expansion along the first row; [skip i] enumerates the indices different from [i] *)
Definition skip (i k : nat) : nat := if k <? i then k else S k.
Definition minus (k : nat) : Q := if Nat.even k then 1%Q else (-1)%Q.
Definition submat (f : nat -> nat -> Q) (i j : nat) : nat -> nat -> Q := fun a b => f (skip i a) (skip j b).
Fixpoint qdet (n : nat) (f : nat -> nat -> Q) : Q :=
  match n with
  | O => 1%Q
  | S n => qsum (fun j => minus j * f 0%nat j * qdet n (submat f 0 j))%Q (S n)
  end.
(** cofactor of a matrix of size [S n] *)
Definition qcof (n : nat) (f : nat -> nat -> Q) (i j : nat) : Q := (minus (i + j) * qdet n (submat f i j))%Q.
(** adjugate and inverse of a matrix of size [S n] *)
Definition qadj (n : nat) (f : nat -> nat -> Q) (i j : nat) : Q := qcof n f j i.
Definition qinv (n : nat) (f : nat -> nat -> Q) (i j : nat) : Q := (qadj n f i j * / qdet (S n) f)%Q.
(** Vandermonde matrix, decreasing powers *)
Definition vander (n : nat) (x : nat -> Q) (i j : nat) : Q := qpw (x i) (pred n - j).
