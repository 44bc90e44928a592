(** The texts F192 numbers are read from, independent of the code: a sign, an integer part without superfluous zero, a fraction, an exponent; or a base prefix and digits. *)
From Coq Require Import ZArith QArith List.
From Verif Require Import Base SSpec.
Local Open Scope Z_scope.

(** a decimal digit or an underscore *)
Definition dch (c : Z) : Prop := 48 <= c <= 57 \/ c = 95.
Definition sign_text (neg : bool) : list Z := if neg then [45] else [].
Definition frac_text (f : option (list Z)) : list Z := match f with None => [] | Some l => 46 :: l end.
Definition exp_part (x : option (Z * list Z)) : list Z := match x with None => [] | Some (e, l) => e :: l end.
Definition float_text (neg : bool) (i : list Z) (f : option (list Z)) (x : option (Z * list Z)) : list Z := sign_text neg ++ i ++ frac_text f ++ exp_part x.
(** the integer part: a single zero, or digits starting with another digit *)
Definition int_part (i : list Z) : Prop := i = [48] \/ exists c t, i = c :: t /\ 49 <= c <= 57 /\ Forall dch t.
Definition frac_part (f : option (list Z)) : Prop := match f with None => True | Some l => Forall dch l end.
(** the exponent: the letter e, then nothing or a 64 bit integer *)
Definition exp_value (x : option (Z * list Z)) (e : Z) : Prop :=
  match x with
  | None => e = 0
  | Some (c, l) => (c = 101 \/ c = 69) /\ - 2 ^ 63 <= e < 2 ^ 63 /\
      (l = [] /\ e = 0 \/ exists d n, d <> [] /\ dvalue 10 0 d = Some n /\ (l = d /\ e = n \/ l = 43 :: d /\ e = n \/ l = 45 :: d /\ e = - n))
  end.
Definition float_ok (i : list Z) (f : option (list Z)) (x : option (Z * list Z)) (e : Z) : Prop := int_part i /\ frac_part f /\ exp_value x e.
(** the digits that count: those of the integer part unless it is zero, then those of the fraction *)
Definition frac_digits (f : option (list Z)) : list Z := match f with None => [] | Some l => no_us l end.
Definition digits (i : list Z) (f : option (list Z)) : list Z := match i with [48] => [] | _ => no_us i end ++ frac_digits f.
Definition sgq (neg : bool) (q : Q) : Q := if neg then (- q)%Q else q.
(** a base prefix and digits of that base *)
Definition base_text (neg : bool) (c : Z) (l : list Z) : list Z := sign_text neg ++ 48 :: c :: l.
