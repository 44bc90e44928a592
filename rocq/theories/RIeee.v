(** Model of /repo/src/ratio/convert/ieee754.rs: conversion between Ratio and the binary floats.
    A float is its bit pattern, an unsigned integer (the pointer casts 116-118, 232-234, 242-246, 294-298
    reinterpret the bits).  The f32 and the f64 functions are the same text up to the constants, so both
    are instances of one definition over [fmt]; every comment cites both line ranges. *)
From Verif Require Import Base UBig UStr UFun BBig RBig.
Local Open Scope Z_scope.

(** word width, mantissa bits, exponent bias: 32, 23, 127 or 64, 52, 1023 *)
Record fmt : Type := mkF { fw : Z; fm : Z; fbias : Z }.
Definition F32 : fmt := mkF 32 23 127.
Definition F64 : fmt := mkF 64 52 1023.

(** inspect_ieee754_f32 (241-288), inspect_ieee754_f64 (293-340) *)
Definition inspect_ieee754 (F : fmt) (n : Z) : res (rslt (bool * Z * Z) cerr) :=
  let neg := 2 ^ (fw F - 1) <? n in
  let exp := (n / 2 ^ fm F) mod (2 * (fbias F + 1)) - fbias F in
  let frac := n mod 2 ^ fm F in
  if exp =? - fbias F then
    let* exp := sadd 32 exp 1 in
    if frac =? 0 then Ok (ROk (false, - 2 ^ 31, 0)) else
    let* '(frac, exp) :=
      if frac <? 2 ^ fm F then
        let* to_shift := subw (fm F) (Z.log2 frac) in
        let* frac := shlw (fw F) frac to_shift in
        let* exp := ssub 32 exp to_shift in
        Ok (frac, exp)
      else Ok (frac, exp) in
    let* frac := subw frac (2 ^ fm F) in
    Ok (ROk (neg, exp, frac))
  else if exp =? fbias F + 1 then
    if frac =? 0 then if neg then Ok (RErr NegInfinity) else Ok (RErr Infinity)
    else Ok (RErr NotANumber)
  else Ok (ROk (neg, exp, frac)).

(** [BigInt::from_i32(.. as i32)] (14, 22) / [BigInt::from_i64(.. as i64)] (130, 138) *)
Definition bfrom_sw (F : fmt) (n : Z) : res bint :=
  if fw F =? 32 then bfrom_i32 (casts 32 n) else bfrom_i64 (casts 64 n).

(** from_ieee754_f32 (8-31), from_ieee754_f64 (124-147) *)
Definition from_ieee754 (F : fmt) (n : Z) : res (rslt rat cerr) :=
  rbind (inspect_ieee754 F n) (fun '(neg, exp, frac) =>
    if exp =? - 2 ^ 31 then Ok (ROk rzero)
    else if fm F <=? exp then
      let* m := addw (fw F) frac (2 ^ fm F) in
      let* numer := bfrom_sw F m in
      let* sh := ssub 32 exp (fm F) in
      let* numer := bmul_pow2_mut numer (castw 32 sh) in
      let numer := if neg then bopp_mut numer else numer in
      Ok (ROk (rfrom_bi numer))
    else
      let* m := addw (fw F) frac (2 ^ fm F) in
      let* numer := bfrom_sw F m in
      let* sh := ssub 32 (fm F) exp in
      let denom := bpow2 (castw 32 sh) in
      let numer := if neg then bopp_mut numer else numer in
      let* r := from_dn denom numer in
      Ok (ROk r)).

(** [Result::unwrap] *)
Definition unwrap {A E} (r : rslt A E) : res A := match r with ROk a => Ok a | RErr _ => Panic end.
(** [.mul_i32(1 << 23)] (76) / [.mul_bi(&BigInt::from_i64(1 << 52))] (192) *)
Definition rmul_mant (F : fmt) (a : rat) : res rat :=
  if fw F =? 32 then rmul_i32 a (2 ^ fm F) else let* b := bfrom_i64 (2 ^ fm F) in rmul_bi a b.
(** [frac.to_i32().unwrap() as u32] (83) / [frac.to_i64().unwrap() as u64] (199) *)
Definition bto_w (F : fmt) (a : bint) : res Z :=
  if fw F =? 32 then let* v := unwrap (bto_i32 a) in Ok (castw 32 v) else let* v := unwrap (bto_i64 a) in Ok (castw 64 v).

(** to_ieee754_f32 (36-119), to_ieee754_f64 (152-235).  The text inside the NotInRange error, which the code
    computes with to_scientific_notation(5), is not modelled: the error is the bare constructor. *)
Definition to_ieee754 (F : fmt) (a : rat) : res (rslt Z cerr) :=
  if ris_zero a then Ok (ROk 0) else
  let neg := ris_neg a in
  let s := if neg then ropp_mut a else a in
  let* ln := blog2 (rnum a) in
  let* ld := blog2 (rden a) in
  let* l := bsub ln ld in
  let* big := bgt_i32 l (fbias F + 1) in
  if (big : bool) then Ok (RErr NotInRange) else
  let* l := unwrap (bto_i32 l) in
  let* '(s, exp) :=
    if l <? -2 then
      let* al := sabs 32 l in
      let* s := rmul_bi_mut s (bexp2 al) in
      let* e := sadd 32 0 l in
      Ok (s, e)
    else if 2 <? l then
      let* s := rdiv_bi_mut s (bexp2 l) in
      let* e := sadd 32 0 l in
      Ok (s, e)
    else Ok (s, 0) in
  let* '(s, exp) := loopn 5 (fun go '(s, exp) =>
    if rgt_one s then let* s := rdiv_i32_mut s 2 in let* exp := sadd 32 exp 1 in go (s, exp)
    else Ok (s, exp)) (s, exp) in
  let* '(s, exp) := loopn 5 (fun go '(s, exp) =>
    if rlt_one s then let* s := rmul_i32_mut s 2 in let* exp := ssub 32 exp 1 in go (s, exp)
    else Ok (s, exp)) (s, exp) in
  let* m := rsub_i32 s 1 in
  let* m := rmul_mant F m in
  let* '(frac, frac_rem) := rtruncate_and_frac m in
  let* half := from_dn_i32 2 1 in
  let* up := rgt frac_rem half in
  let* frac := if (up : bool) then badd_i32_mut frac 1 else Ok frac in
  let* frac := bto_w F frac in
  let* '(exp, frac, done) :=
    if exp <? 1 - fbias F then
      let* frac := addw (fw F) frac (2 ^ fm F) in
      let* frac := mulw (fw F) frac 16 in
      let* '(exp, frac) :=
        if exp <? - fbias F then
          let* sh := ssub 32 (- fbias F) exp in
          let* frac := shrw (fw F) frac (Z.min sh (fw F - 1)) in
          Ok (- fbias F, frac)
        else Ok (exp, frac) in
      let* frac := if 15 <? frac mod 32 then addw (fw F) (frac / 32) 1 else Ok (frac / 32) in
      Ok (exp, frac, frac =? 0)
    else Ok (exp, frac, false) in
  if (done : bool) then Ok (ROk 0) else
  let* exp := sadd 32 exp (fbias F) in
  if (exp <? 0) || (2 * fbias F + 1 <? exp) then Ok (RErr NotInRange) else
  let* h := shlw (fw F) (Z.b2z neg) (fw F - 1) in
  let* x := shlw (fw F) exp (fm F) in
  Ok (ROk (Z.lor (Z.lor h x) frac)).
