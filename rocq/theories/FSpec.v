(** Specification of the binary floating point formats of IEEE 754: a bit pattern of [w] bits with [m] mantissa bits.
    Written from the standard, without reference to the code: [w] = 32, [m] = 23 for f32; [w] = 64, [m] = 52 for f64. *)
From Coq Require Import ZArith QArith.
Local Open Scope Z_scope.

(** 2^e for any integer e *)
Definition two (e : Z) : Q := ((2 # 1) ^ e)%Q.
(** number of exponent bits, exponent bias *)
Definition ebits (w m : Z) : Z := w - 1 - m.
Definition ebias (w m : Z) : Z := 2 ^ (ebits w m - 1) - 1.
(** the three fields *)
Definition fsign (w n : Z) : bool := 2 ^ (w - 1) <=? n.
Definition fexpo (w m n : Z) : Z := (n / 2 ^ m) mod 2 ^ ebits w m.
Definition ffrac (m n : Z) : Z := n mod 2 ^ m.
(** finite: the exponent field is not all ones; zero: exponent and fraction vanish *)
Definition ffinite (w m n : Z) : Prop := fexpo w m n <> 2 ^ ebits w m - 1.
Definition fzero (w m n : Z) : Prop := fexpo w m n = 0 /\ ffrac m n = 0.
(** value of a finite pattern: subnormal when the exponent field is zero *)
Definition fabs (w m n : Z) : Q :=
  if fexpo w m n =? 0 then (inject_Z (ffrac m n) * two (1 - ebias w m - m))%Q
  else (inject_Z (2 ^ m + ffrac m n) * two (fexpo w m n - ebias w m - m))%Q.
Definition fvalue (w m n : Z) : Q := if fsign w n then (- fabs w m n)%Q else fabs w m n.
(** unit in the last place of a number in [2^e, 2^(e+1)) *)
Definition fulp (w m e : Z) : Q := two (Z.max e (1 - ebias w m) - m).
