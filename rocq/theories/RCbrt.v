(** src/ratio/funcs/root.rs: cbrt_iter *)
From Verif Require Import Base SSpec UBig UStr UFun BBig RBig RIter UMore.

(** root.rs:21-22: the argument of one [from_ubi], [exp2_accurate(&z.shift_left(1).log2_accurate().div_i32(3).to_ubi().unwrap())] *)
Definition cbrt_start (z : bint) : res ubig :=
  let* l := blog2_accurate (bshift_left z 1) in
  let* t := bdiv_i32 l 3 in
  match bto_ubi t with
  | ROk u => uexp2_accurate u
  | RErr _ => Panic
  end.
(** root.rs:27-38, one round *)
Definition cbrt_body (x_third two_third : rat) (_ : Z) (approx : rat) : res rat :=
  let len_pre := Nat.min (blen (rden approx)) (blen (rnum approx)) in
  let* a := rmul approx two_third in
  let* b := rdiv x_third approx in
  let* b := rdiv b approx in
  let* approx := radd a b in
  let len_post := Nat.min (blen (rden approx)) (blen (rnum approx)) in
  if (len_pre + 4 <? len_post)%nat then
    let* k := subn len_post len_pre in
    let* k := subn k 4 in
    rfit (mkR (bshift_right_mut (rden approx) k) (bshift_right_mut (rnum approx) k))
  else Ok approx.
(** root.rs:12-41 *)
Definition cbrt_iter (x : rat) (iter : nat) : res rat :=
  if ris_zero x then Ok rzero else
  let* d := cbrt_start (rden x) in
  let* n := cbrt_start (rnum x) in
  let* approx := from_dn (from_ubi d false) (from_ubi n (ris_neg x)) in
  let* x_third := rdiv_i32 x 3 in
  let* two_third := from_dn_i32 3 2 in
  for_ iter 0 (cbrt_body x_third two_third) approx.
