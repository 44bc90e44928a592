(** Specification of polynomials over Q: coefficient lists, highest degree first. *)
From Coq Require Import QArith List.
From Verif Require Import Base RBig RSpec ISpec.
Open Scope Q_scope.
(** [3; 4; 5] at x is 3 x^2 + 4 x + 5 *)
Fixpoint peval (l : list Q) (x : Q) : Q :=
  match l with [] => 0 | c :: t => c * qpw x (length t) + peval t x end.
(** the coefficient of x^k *)
Definition pcoef (l : list Q) (k : nat) : Q := nth k (rev l) 0.
(** equal polynomials: equal coefficients *)
Definition pequal (p q : list Q) : Prop := forall k, pcoef p k == pcoef q k.
(** [d] is the formal derivative of [l] *)
Definition pderiv (l d : list Q) : Prop := forall k, pcoef d k == qnat (S k) * pcoef l (S k).
(** no leading zero, zero written [0] *)
Definition pcanon (l : list Q) : Prop := l = [0] \/ exists c t, l = c :: t /\ ~ c == 0.
(** what a model polynomial denotes *)
Definition pval (p : list rat) : list Q := map rval p.
Definition pwf (p : list rat) : Prop := Forall rwf p /\ p <> [].
