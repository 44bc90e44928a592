(** Specification of signed numbers: the integer a BigInt denotes, and when its representation is canonical. *)
From Verif Require Import Base USpec SSpec BBig.

(** The integer denoted. *)
Definition bval (a : bint) : Z := if bneg a then - uval (bmag a) else uval (bmag a).
(** Canonical: the magnitude is canonical and zero is not negative. *)
Definition bwf (a : bint) : Prop := uwf (bmag a) /\ (bneg a = true -> uval (bmag a) <> 0).
(** The canonical representation of an integer. *)
Definition bof (z : Z) : bint := mkB (uof (Z.abs z)) (z <? 0).

(** The integer a text denotes: an optional minus sign, then the unsigned notation. *)
Definition bread (s : list Z) : option Z :=
  match s with
  | c :: t => if c =? 45 then match uread t with Some n => Some (- n) | None => None end else uread s
  | [] => None
  end.
(** The text starts with a minus sign exactly when the number is negative; [p] is the base prefix. *)
Definition snumeral (b : Z) (p : list Z) (n : Z) (s : list Z) : Prop :=
  exists d, s = (if n <? 0 then [45] else []) ++ p ++ d /\ numeral b (Z.abs n) d.
(** [q] and [r] are the quotient and remainder of [a] by [b] rounded toward zero. *)
Definition trunc_div (a b q r : Z) : Prop :=
  a = q * b + r /\ Z.abs r < Z.abs b /\ (r = 0 \/ Z.sgn r = Z.sgn a).
