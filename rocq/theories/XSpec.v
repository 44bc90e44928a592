(** Specification of F192 values, written from the comments of /repo/src/fp192.rs:12-24 and independent of the code:
    N = (-1)^s * D * 2^E with 2^127 <= D < 2^128, where D - 2^127 are the low 127 bits of the first field, s its top bit,
    and E is the second field less 2^48; the all zero pattern is the number 0. *)
From Coq Require Import ZArith QArith Qabs.
From Verif Require Import Base FSpec XNum.
Local Open Scope Z_scope.

(** any bit pattern *)
Definition xwf (a : f192) : Prop := 0 <= xd a < 2 ^ 128 /\ 0 <= xe a < 2 ^ 64.
(** the significand D, the exponent E, the sign *)
Definition xsig (a : f192) : Z := 2 ^ 127 + xd a mod 2 ^ 127.
Definition xpow (a : f192) : Z := xe a - 2 ^ 48.
Definition xsign (a : f192) : bool := 2 ^ 127 <=? xd a.
Definition xnull (a : f192) : bool := (xd a =? 0) && (xe a =? 0).
Definition xmag (a : f192) : Q := if xnull a then 0%Q else (inject_Z (xsig a) * two (xpow a))%Q.
Definition xval (a : f192) : Q := if xsign a then (- xmag a)%Q else xmag a.
(** weight of the last bit of the significand *)
Definition xulp (a : f192) : Q := two (xpow a).

(** [c] is [q] rounded toward zero: the representable number of largest magnitude not above [q], on the side of [q] *)
Definition xrounds_down (q : Q) (c : f192) : Prop :=
  xwf c /\ (Qabs (xval c) <= Qabs q)%Q /\ (0 <= xval c * q)%Q /\
  (forall y, xwf y -> (Qabs (xval y) <= Qabs q -> Qabs (xval y) <= Qabs (xval c))%Q) /\ (Qabs (xval c - q) < xulp c)%Q.
(** [c] is a representable number nearest to [q] *)
Definition xnearest (q : Q) (c : f192) : Prop :=
  xwf c /\ (forall y, xwf y -> (Qabs (xval c - q) <= Qabs (xval y - q))%Q) /\ (Qabs (xval c - q) <= (1 # 2) * xulp c)%Q.

(** integer part toward zero; nearest integer, ties away from zero *)
Definition trunc_to (q : Q) (z : Z) : Prop := (inject_Z (Z.abs z) <= Qabs q)%Q /\ (Qabs q < inject_Z (Z.abs z) + 1)%Q /\ (0 <= inject_Z z * q)%Q.
Definition round_to (q : Q) (z : Z) : Prop := (Qabs (inject_Z z - q) <= 1 # 2)%Q /\ ((Qabs (inject_Z z - q) == 1 # 2)%Q -> (Qabs q <= Qabs (inject_Z z))%Q).
(** floor and ceiling *)
Definition floor_to (q : Q) (z : Z) : Prop := (inject_Z z <= q < inject_Z z + 1)%Q.
Definition ceil_to (q : Q) (z : Z) : Prop := (inject_Z z - 1 < q <= inject_Z z)%Q.
(** the numbers that rounding to nearest would carry into the next binade *)
Definition xcarry (q : Q) : Prop := exists E, ((inject_Z (2 * SIGNM) - (1 # 2)) * two E <= Qabs q)%Q /\ (Qabs q < inject_Z (2 * SIGNM) * two E)%Q.
(** how close a product is: never above the exact one, less than four units of the last place below *)
Definition xbelow (k : Z) (q : Q) (c : f192) : Prop :=
  xwf c /\ (Qabs (xval c) <= Qabs q)%Q /\ (0 <= xval c * q)%Q /\ (Qabs q - Qabs (xval c) < inject_Z k * xulp c)%Q.
(** how the quotient compares with every other candidate: [c] is least among the positive numbers whose computed product with [o] reaches [s] *)
Definition xleast (s o c : f192) : Prop :=
  (exists p, xmul o c = Ok p /\ (xval s <= xval p)%Q) /\
  (forall y, xwf y -> (0 < xval y < xval c)%Q -> exists p, xmul o y = Ok p /\ (xval p < xval s)%Q).
