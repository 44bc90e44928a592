(** Specification of the 13 character code of F192 (documented at /repo/src/fp192/convert/string.rs:354-356, 430, 464):
    [sign * d * 2^(exp - 64)], BASE <= d < 2 BASE, with the exponent and sign in the first characters and d in base 62. *)
From Coq Require Import ZArith QArith Qabs List Bool.
From Verif Require Import FSpec.
Import ListNotations.
Local Open Scope Z_scope.

(** value of a character: 0-9, A-Z, a-z *)
Definition c62 (c : Z) : option Z :=
  if (48 <=? c) && (c <=? 57) then Some (c - 48)
  else if (65 <=? c) && (c <=? 90) then Some (c - 55)
  else if (97 <=? c) && (c <=? 122) then Some (c - 61)
  else None.
Definition valid62 (c : Z) : Prop := exists v, c62 c = Some v.
Definition v62 (c : Z) : Z := match c62 c with Some v => v | None => 0 end.
(** a big-endian number in base 62 *)
Definition n62 (s : list Z) : Z := fold_left (fun n c => n * 62 + v62 c) s 0.
(** shorter texts are read as if zeros stood in front *)
Definition pad13 (s : list Z) : list Z := repeat 48 (13 - length s) ++ s.
(** no superfluous zeros in front *)
Fixpoint canon13 (s : list Z) : list Z :=
  match s with
  | c :: ((_ :: _) as t) => if c =? 48 then canon13 t else s
  | _ => s
  end.
Definition zero13 : list Z := [122; 121; 48; 48; 48; 48; 48; 48; 48; 48; 48; 48; 48].
(** 0, 1, 2, 3, 4, ... stand for +-0, +-1, +--1, +-2 ... as exponent and sign *)
Definition hd13 (s : list Z) : Z := v62 (nth 0 (pad13 s) 0) * 124 + v62 (nth 1 (pad13 s) 0) * 2 + v62 (nth 2 (pad13 s) 0) / 31.
Definition exp13 (e : Z) : Z := if e mod 4 <? 2 then - (e / 4) else (e + 2) / 4.
Definition dig13 (s : list Z) : Z := 62 ^ 10 * 31 + n62 (skipn 3 (pad13 s)) * 31 + v62 (nth 2 (pad13 s) 0) mod 31.
Definition val13 (s : list Z) : Q :=
  ((if hd13 s mod 2 =? 1 then - (1) else 1) * (inject_Z (dig13 s) * two (exp13 (hd13 s) - 64)))%Q.
