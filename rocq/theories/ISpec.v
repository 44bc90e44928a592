(** Specification of the series behind the iteration functions: finite sums of rationals. *)
From Coq Require Export QArith Qpower Factorial.
From Verif Require Import RSpec.
Local Open Scope Q_scope.

(** sum of [f i] for i < n *)
Fixpoint qsum (f : nat -> Q) (n : nat) : Q := match n with O => 0 | S m => qsum f m + f m end.
Definition qnat (n : nat) : Q := inject_Z (Z.of_nat n).
Definition qpw (x : Q) (n : nat) : Q := x ^ Z.of_nat n.
(** (-1)^n *)
Definition sgn (n : nat) : Q := if Nat.even n then 1 else - (1).

(** exp x = sum of x^n / n! *)
Definition exp_term (x : Q) (n : nat) : Q := qpw x n / qnat (fact n).
Definition exp_sum (x : Q) (N : nat) : Q := qsum (exp_term x) N.
(** pi = sum of 16^-n (4/(8n+1) - 2/(8n+4) - 1/(8n+5) - 1/(8n+6)) *)
Definition bbp_term (n : nat) : Q :=
  (4 / qnat (8 * n + 1) - 2 / qnat (8 * n + 4) - 1 / qnat (8 * n + 5) - 1 / qnat (8 * n + 6)) / qpw 16 n.
Definition bbp_sum (N : nat) : Q := qsum bbp_term N.
(** ln 2 = sum of 1 / (n 2^n), n >= 1 *)
Definition ln2_term (n : nat) : Q := 1 / (qnat (n + 1) * qpw 2 (n + 1)).
Definition ln2_sum (N : nat) : Q := qsum ln2_term N.
(** ln (1+a) = a - a^2/2 + a^3/3 - ... *)
Definition ln_term (a : Q) (n : nat) : Q := sgn n * qpw a (n + 1) / qnat (n + 1).
Definition ln_sum (a : Q) (N : nat) : Q := qsum (ln_term a) N.
(** sin x = x - x^3/3! + ..., cos x = 1 - x^2/2! + ..., atan x = x - x^3/3 + ... *)
Definition sin_term (x : Q) (n : nat) : Q := sgn n * qpw x (2 * n + 1) / qnat (fact (2 * n + 1)).
Definition sin_sum (x : Q) (N : nat) : Q := qsum (sin_term x) N.
Definition cos_term (x : Q) (n : nat) : Q := sgn n * qpw x (2 * n) / qnat (fact (2 * n)).
Definition cos_sum (x : Q) (N : nat) : Q := qsum (cos_term x) N.
Definition atan_term (x : Q) (n : nat) : Q := sgn n * qpw x (2 * n + 1) / qnat (2 * n + 1).
Definition atan_sum (x : Q) (N : nat) : Q := qsum (atan_term x) N.
(** asin x = sum of (2n)! / (4^n n!^2 (2n+1)) x^(2n+1) *)
Definition asin_coeff (n : nat) : Q := qnat (fact (2 * n)) / (qpw 4 n * qnat (fact n) * qnat (fact n) * qnat (2 * n + 1)).
Definition asin_sum (x : Q) (N : nat) : Q := qsum (fun n => asin_coeff n * qpw x (2 * n + 1)) N.

(** sine and cosine of [y] turned by [j] quarter turns, with truncated series for the remaining angle *)
Definition turn_sin (j : Z) (y : Q) (N : nat) : Q :=
  match (j mod 4)%Z with
  | 0%Z => sin_sum y N | 1%Z => cos_sum y N | 2%Z => - sin_sum y N | _ => - cos_sum y N
  end.
Definition turn_cos (j : Z) (y : Q) (N : nat) : Q :=
  match (j mod 4)%Z with
  | 0%Z => cos_sum y N | 1%Z => - sin_sum y N | 2%Z => - cos_sum y N | _ => sin_sum y N
  end.

(** the approximation of e *)
Definition E_ (k : nat) : Q := exp_sum 1 (20 + k).
(** exp x = E^trunc(x) times the series of the fraction; when the fraction is at least 9/10, E over the series of its complement *)
Definition exp_value (x : Q) (k : nat) : Q :=
  let t := qtrunc x in let f := x - inject_Z t in
  (if Qle_bool (9 # 10) f then E_ k / exp_sum (1 - f) (k + 1) else exp_sum f (k + 1)) * E_ k ^ t.
(** atan: the series inside [-1,1], the complement to pi/2 of the reciprocal outside *)
Definition atan_value (x : Q) (k : nat) : Q :=
  if Qle_bool x 1 then
    if Qle_bool (- (1)) x then atan_sum x (2 * k + 2) else - (bbp_sum (2 * k + 2) / 2) - atan_sum (/ x) (2 * k + 2)
  else bbp_sum (2 * k + 2) / 2 - atan_sum (/ x) (2 * k + 2).
(** [r] is the sine (cosine) series of the angle [p P], reduced by quarter turns [P/2] *)
Definition sin_at (P : Q) (N : nat) (p r : Q) : Prop :=
  exists j y, p * P == inject_Z j * (P / 2) + y /\ - (P / 4) <= y <= P / 4 /\ r == turn_sin j y N.
Definition cos_at (P : Q) (N : nat) (p r : Q) : Prop :=
  exists j y, p * P == inject_Z j * (P / 2) + y /\ - (P / 4) <= y <= P / 4 /\ r == turn_cos j y N.
