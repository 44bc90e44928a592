(** What a limb vector means, independent of the code: its value, canonicity, and the canonical vector of a natural. *)
From Verif Require Import Base.

(** little-endian base 2^32 value *)
Fixpoint uval (l : list Z) : Z :=
  match l with [] => 0 | x :: t => x + 4294967296 * uval t end.

(** every limb is a u32 *)
Definition limbs (l : list Z) : Prop := Forall (fun x => 0 <= x < 4294967296) l.

(** canonical: at least one limb, all limbs u32, no leading zero limb unless the number is the single limb *)
Definition uwf (l : list Z) : Prop :=
  l <> [] /\ limbs l /\ (length l = 1%nat \/ last l 0 <> 0).

(** the canonical vector of a natural number *)
Fixpoint limbsn (n : nat) (z : Z) : list Z :=
  match n with O => [] | S m => z mod 4294967296 :: limbsn m (z / 4294967296) end.
Definition nlimbs (z : Z) : nat := S (Z.to_nat (Z.log2 z / 32)).
Definition uof (z : Z) : list Z := limbsn (nlimbs z) z.
