(** Specification of rational numbers: the rational a Ratio denotes and when its representation is canonical. *)
From Coq Require Export QArith Qreduction Qcanon Qabs.
From Verif Require Import Base USpec SSpec BBig BSpec RBig.
Local Open Scope Z_scope.

(** The rational denoted (for a positive denominator). *)
Definition rval (r : rat) : Q := bval (rnum r) # Z.to_pos (bval (rden r)).
(** Canonical: canonical parts, positive denominator, lowest terms. *)
Definition rwf (r : rat) : Prop :=
  bwf (rden r) /\ bwf (rnum r) /\ 0 < bval (rden r) /\ Z.gcd (bval (rnum r)) (bval (rden r)) = 1.
(** The canonical representation of a rational. *)
Definition rof (q : Q) : rat := mkR (bof (QDen (Qred q))) (bof (Qnum (Qred q))).
(** Truncation toward zero, floor. *)
Definition qtrunc (q : Q) : Z := Z.quot (Qnum q) (QDen q).
Definition qfloor (q : Q) : Z := Z.div (Qnum q) (QDen q).
(** The integer as a rational. *)
Definition zq (z : Z) : Q := inject_Z z.

(** ** Texts *)
(** what stands before and after the first character satisfying [p] *)
Fixpoint cut (p : Z -> bool) (s : list Z) : option (list Z * list Z) :=
  match s with
  | [] => None
  | c :: t => if p c then Some ([], t) else match cut p t with Some (a, b) => Some (c :: a, b) | None => None end
  end.
Definition is_dot (c : Z) : bool := c =? 46.
Definition is_e (c : Z) : bool := (c =? 101) || (c =? 69).
(** the decimal integers: no base prefix *)
Definition dec_char (c : Z) : bool := ((48 <=? c) && (c <=? 57)) || (c =? 45) || (c =? 95).
Definition dread (s : list Z) : option Z := if forallb dec_char s then bread s else None.
(** value of [i.f e x] *)
Definition dec_value (i f x : list Z) : option Q :=
  match dread i, dvalue 10 0 (no_us f), bread x with
  | Some z, Some n, Some e =>
      if (- 2 ^ 31 <=? e) && (e <? 2 ^ 31) then
        let fr := (inject_Z n / inject_Z (10 ^ Z.of_nat (length (no_us f))))%Q in
        let m := match i with c :: _ => if c =? 45 then (inject_Z z - fr)%Q else (inject_Z z + fr)%Q | [] => (inject_Z z + fr)%Q end in
        Some (m * inject_Z 10 ^ e)%Q
      else None
  | _, _, _ => None
  end.
(** the rational a text denotes: an integer in any notation, or a decimal with optional fraction and exponent *)
Definition rread (s : list Z) : option Q :=
  match cut is_dot s with
  | Some (i, t) => match cut is_e t with Some (f, x) => dec_value i f x | None => dec_value i t [48] end
  | None =>
      match bread s with
      | Some z => Some (inject_Z z)
      | None => match cut is_e s with Some (i, x) => dec_value i [] x | None => None end
      end
  end.
(** an underscore stands before the first non-zero digit *)
Fixpoint early_us (s : list Z) : bool :=
  match s with
  | [] => false
  | c :: t => if c =? 95 then true else if (c =? 45) || (c =? 48) || (c =? 46) then early_us t else false
  end.
