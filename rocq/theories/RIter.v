(** Model of the iteration functions: /repo/src/ratio/{e,pi,ln2}.rs, /repo/src/ratio/funcs/{exp,ln,pow,root,trigo,atrigo}.rs
    and the constants of /repo/src/consts.rs.  [iter] is a [nat]; [as i32] of a usize expression is [casts 32]. *)
From Verif Require Import Base UBig UStr UFun BBig RBig RIeee RTab.
Local Open Scope Z_scope.

(** ratio/convert.rs:43-45 from_denom_and_numer_raw: no reduction *)
Definition from_dn_raw (d n : bint) : rat := mkR d n.

(** e.rs:5-16 *)
Definition e_iter (k : nat) : res rat :=
  let* numer := bfrom_i64 330665665962404000 in
  let* '(numer, fac) := for_ k 0 (fun _ '(numer, fac) =>
    let* numer := bmul_i32_mut numer fac in
    let* numer := badd_i32_mut numer 1 in
    let* fac := sadd 32 fac 1 in
    Ok (numer, fac)) (numer, 20) in
  let* f := subw (castw 32 fac) 1 in
  let* d := bfactorial f in
  from_dn d numer.

(** pi.rs:12-20, the loop body *)
Definition pi_body (i : Z) (s : rat * rat) : res (rat * rat) :=
  let '(result, coeff) := s in
  let* '(n, d) := getv PI_TABLE (Z.to_nat i) in
  let* bd := bfrom_i128 d in
  let* bn := bfrom_i128 n in
  let curr := from_dn_raw bd bn in
  let* t := rmul curr coeff in
  let* result := radd_mut result t in
  let* coeff := rdiv_i32_mut coeff 256 in
  Ok (result, coeff).
(** pi.rs:8-23 *)
Definition pi_iter (k : nat) : res rat :=
  let* coeff := from_dn_i32 256 1 in
  let* result := from_dn_i32 32760 102913 in
  let* '(result, coeff) := for_ k 0 pi_body (result, coeff) in
  Ok result.

(** ln2.rs:10-15, the loop body *)
Definition ln2_body (i : Z) (s : rat * bint) : res (rat * bint) :=
  let '(result, coeff) := s in
  let* '(d, n) := getv LN2_TABLE (Z.to_nat i) in
  let* bd := bfrom_i64 d in
  let* bn := bfrom_i64 n in
  let curr := from_dn_raw bd bn in
  let* t := rdiv_bi curr coeff in
  let* result := radd_mut result t in
  let* coeff := bmul_i32_mut coeff 64 in
  Ok (result, coeff).
(** ln2.rs:6-18 *)
Definition ln2_iter (k : nat) : res rat :=
  let* result := from_dn_i32 11354112 7869871 in
  let* coeff := bfrom_i64 4096 in
  let* '(result, coeff) := for_ k 0 ln2_body (result, coeff) in
  Ok result.

(** consts.rs:7-19; Ratio::from_raw (ratio.rs:27-29) *)
Definition pi_const : rat := mkR (mkB [0; 1996488704; 521357240; 2800251216; 760460394; 6200936] false)
  (mkB [793201965; 2280519292; 3213394952; 1450523626; 2315958499; 19480815] false).
Definition e_const : rat := mkR (mkB [0; 1088391135; 3969445709; 745272361] false)
  (mkB [483276161; 3835467358; 2883336425; 2025860318] false).
Definition ln2_const : rat := mkR (mkB [0; 0; 2136899584; 447791324; 2873720132; 2653150] false)
  (mkB [1367771821; 4197651235; 226662770; 3985341647; 3890727296; 1839023] false).

(** funcs/exp.rs:4-36 *)
Definition exp_iter (x : rat) (iter : nat) : res rat :=
  let* '(trun, frac) := rtruncate_and_frac x in
  let result := rone in
  let iterator := frac in
  let* e_approx := e_iter iter in
  let* bound := from_dn_i32 10 9 in
  let* near := rgeq iterator bound in
  let* '(iterator, frac, inverse_iter) :=
    if (near : bool) then let* it := rsub rone iterator in Ok (it, it, true) else Ok (iterator, frac, false) in
  let* '(result, iterator, n) := for_ iter 0 (fun _ '(result, iterator, n) =>
    let* result := radd_mut result iterator in
    let* iterator := rmul_mut iterator frac in
    let* iterator := rdiv_i32_mut iterator n in
    let* n := sadd 32 n 1 in
    Ok (result, iterator, n)) (result, iterator, 2) in
  let* result := if (inverse_iter : bool) then rdiv e_approx result else Ok result in
  let* t := unwrap (bto_i32 trun) in
  let* p := rpow_i32 e_approx t in
  rmul_mut result p.

(** one side of the scaling in ln.rs:22-33, 37-48: remove the factors of two of [a] first, then multiply [b] *)
Definition ln_scale (a b : bint) (c : Z) : res (bint * bint) :=
  let* '(a, c) := loopn 64 (fun go '(a, c) =>
    if 0 <? c then
      let* r := brem_pow2 a 2 in
      if bis_zero r then let* c := ssub 64 c 1 in let* a := bdiv_i32_mut a 2 in go (a, c) else Ok (a, c)
    else Ok (a, c)) (a, c) in
  let* '(b, c) := if Z.rem c 32 =? 31 then let* c := ssub 64 c 1 in let* b := bmul_i32_mut b 2 in Ok (b, c) else Ok (b, c) in
  let* s := shlw 32 1 (Z.rem c 32) in
  let* b := bmul_i32_mut b (casts 32 s) in
  let b := bshift_left_mut b (Z.to_nat (Z.quot c 32)) in
  Ok (a, b).
(** ln.rs:4-64 *)
Definition ln_iter (x : rat) (iter : nat) : res rat :=
  if ris_neg x then Panic else if ris_zero x then Panic else
  let* ln := blog2_accurate (rnum x) in
  let* ld := blog2_accurate (rden x) in
  let* l := bsub ln ld in
  let* l := unwrap (bto_i64 (bshift_right l 1)) in
  let* c := sabs 64 l in
  let* x_iter :=
    if 0 <? l then let* '(n, d) := ln_scale (rnum x) (rden x) c in Ok (mkR d n)
    else let* '(d, n) := ln_scale (rden x) (rnum x) c in Ok (mkR d n) in
  let* a := rsub_i32_mut x_iter 1 in
  let* '(x_iter, result) := for_ iter 0 (fun k '(x_iter, result) =>
    let* x_iter := rmul_mut x_iter a in
    let* t := rdiv_i32 x_iter (casts 32 (2 * k + 2)) in
    let* result := rsub_mut result t in
    let* x_iter := rmul_mut x_iter a in
    let* t := rdiv_i32 x_iter (casts 32 (2 * k + 3)) in
    let* result := radd_mut result t in
    Ok (x_iter, result)) (a, a) in
  let* l2 := ln2_iter iter in
  let* bl := bfrom_i64 l in
  let* t := rmul_bi l2 bl in
  radd result t.
(** ln.rs:67-69 *)
Definition log_iter (base x : rat) (iter : nat) : res rat :=
  let* a := ln_iter x iter in let* b := ln_iter base iter in rdiv a b.
(** pow.rs:4-11 *)
Definition pow_iter (a b : rat) (iter : nat) : res rat :=
  if ris_zero a then Ok rzero else
  let* l := ln_iter a iter in
  let* e := rmul b l in
  exp_iter e iter.

(** root.rs:4-9 *)
Definition sqrt_iter (x : rat) (iter : nat) : res rat :=
  let* d := bsqrt (bshift_left (rden x) (1 + iter)) in
  let* n := bsqrt (bshift_left (rnum x) (1 + iter)) in
  from_dn d n.

(** trigo.rs:53-84; the loop bodies of sin_iter_worker and cos_iter_worker (132-162) differ only in the two offsets *)
Definition trig_loop (o : Z) (x_sq : rat) (iter : nat) (s : rat * rat * bint) : res (rat * rat * bint) :=
  for_ iter 0 (fun i '(result, numer, denom) =>
    let* t := rdiv_bi numer denom in
    let* result := rsub_mut result t in
    let* denom := bmul_i32_mut denom (casts 32 (i * 4 + o)) in
    let* denom := bmul_i32_mut denom (casts 32 (i * 4 + (o + 1))) in
    let* numer := rmul_mut numer x_sq in
    let* t := rdiv_bi numer denom in
    let* result := radd_mut result t in
    let* denom := bmul_i32_mut denom (casts 32 (i * 4 + (o + 2))) in
    let* denom := bmul_i32_mut denom (casts 32 (i * 4 + (o + 3))) in
    let* numer := rmul_mut numer x_sq in
    Ok (result, numer, denom)) s.
Definition sin_iter_worker (x : rat) (iter : nat) : res rat :=
  let* numer := rpow_i32 x 3 in
  let* x_sq := rmul x x in
  let* denom := bfrom_i32 6 in
  let* '(result, numer, denom) := trig_loop 4 x_sq iter (x, numer, denom) in
  let* t := rdiv_bi numer denom in
  rsub_mut result t.
(** trigo.rs:130-162 *)
Definition cos_iter_worker (x : rat) (iter : nat) : res rat :=
  let* x_sq := rmul x x in
  let* denom := bfrom_i32 2 in
  let* '(result, numer, denom) := trig_loop 3 x_sq iter (rone, x_sq, denom) in
  let* t := rdiv_bi numer denom in
  rsub_mut result t.
(** trigo.rs:24-26, 103-105 *)
Definition mod2 (p : rat) : res rat :=
  let* g := rgt_i32 p 2 in
  if (g : bool) then
    let* t := rtruncate_bi p in
    let* t := bdiv_i32 t 2 in
    let* t := bmul_i32 t 2 in
    rsub_bi_mut p t
  else Ok p.
(** trigo.rs:4-50 *)
Definition sin_iter (x : rat) (iter : nat) : res rat :=
  let* pi := pi_iter iter in
  let* pi_div := rdiv x pi in
  let '(pi_div, negate) := if ris_neg pi_div then (ropp_mut pi_div, true) else (pi_div, false) in
  let* pi_div := mod2 pi_div in
  let* '(pi_div, negate) := if rgt_one pi_div then let* p := rsub_i32_mut pi_div 1 in Ok (p, negb negate) else Ok (pi_div, negate) in
  let* dbl := rmul_i32 pi_div 2 in
  let* pi_div := if rgt_one dbl then rsub rone pi_div else Ok pi_div in
  let* q := rmul_i32 pi_div 4 in
  let* result :=
    if rlt_one q then let* a := rmul pi_div pi in sin_iter_worker a iter
    else let* h := from_dn_i32 2 1 in let* a := rsub h pi_div in let* a := rmul a pi in cos_iter_worker a iter in
  Ok (if (negate : bool) then ropp_mut result else result).
(** trigo.rs:87-127 *)
Definition cos_iter (x : rat) (iter : nat) : res rat :=
  let* pi := pi_iter iter in
  let* pi_div := rdiv x pi in
  let pi_div := if ris_neg pi_div then ropp_mut pi_div else pi_div in
  let* pi_div := mod2 pi_div in
  let* pi_div := if rgt_one pi_div then let* two := rfrom_i32 2 in rsub two pi_div else Ok pi_div in
  let* dbl := rmul_i32 pi_div 2 in
  let* '(pi_div, negate) := if rgt_one dbl then let* p := rsub rone pi_div in Ok (p, true) else Ok (pi_div, false) in
  let* q := rmul_i32 pi_div 4 in
  let* result :=
    if rlt_one q then let* a := rmul pi_div pi in cos_iter_worker a iter
    else let* h := from_dn_i32 2 1 in let* a := rsub h pi_div in let* a := rmul a pi in sin_iter_worker a iter in
  Ok (if (negate : bool) then ropp_mut result else result).
(** trigo.rs:165-167 *)
Definition tan_iter (x : rat) (iter : nat) : res rat :=
  let* s := sin_iter x iter in let* c := cos_iter x iter in rdiv s c.

(** atrigo.rs:5-38.  The usize products (29-30) are checked 64-bit products, then cast to i32. *)
Definition asin_iter (x : rat) (iter : nat) : res rat :=
  if rgt_one x then Panic else if rgt_one (ropp_mut x) then Panic else
  let result := ropp_mut (ropp_mut x) in
  let* coeff := from_dn_i32 6 1 in
  let* x_sqr := rmul x x in
  let* x_coeff := rmul x_sqr x in
  let* '(result, coeff, x_coeff) := for_ iter 0 (fun i '(result, coeff, x_coeff) =>
    let* t := rmul coeff x_coeff in
    let* result := radd_mut result t in
    let* p := mulw 64 (2 * i + 3) (2 * i + 3) in
    let* p := mulw 64 p (2 * i + 4) in
    let* coeff := rmul_i32_mut coeff (casts 32 p) in
    let* q := mulw 64 (i + 2) (i + 2) in
    let* q := mulw 64 q (2 * i + 5) in
    let* q := mulw 64 q 4 in
    let* coeff := rdiv_i32_mut coeff (casts 32 q) in
    let* x_coeff := rmul_mut x_coeff x_sqr in
    Ok (result, coeff, x_coeff)) (result, coeff, x_coeff) in
  let* t := rmul coeff x_coeff in
  radd_mut result t.
(** atrigo.rs:40-42 *)
Definition acos_iter (x : rat) (iter : nat) : res rat :=
  let* p := pi_iter iter in
  let* h := rdiv_i32 p 2 in
  let* a := asin_iter x iter in
  rsub h a.
(** atrigo.rs:45-88 *)
Definition atan_iter (x : rat) (iter : nat) : res rat :=
  let '(result, is_neg) := if ris_neg x then (ropp_mut x, true) else (x, false) in
  let* '(result, is_reci) := if rgt_one result then let* r := rreci_mut result in Ok (r, true) else Ok (result, false) in
  let* x_sqr := rmul result result in
  let* x_coeff := rmul x_sqr result in
  let* '(result, x_coeff, c) := for_ iter 0 (fun _ '(result, x_coeff, c) =>
    let* t := rdiv_i32 x_coeff c in
    let* result := rsub_mut result t in
    let* c := sadd 32 c 2 in
    let* x_coeff := rmul_mut x_coeff x_sqr in
    let* t := rdiv_i32 x_coeff c in
    let* result := radd_mut result t in
    let* c := sadd 32 c 2 in
    let* x_coeff := rmul_mut x_coeff x_sqr in
    Ok (result, x_coeff, c)) (result, x_coeff, 3) in
  let* t := rdiv_i32 x_coeff c in
  let* result := rsub_mut result t in
  let* result := if (is_reci : bool) then let* p := pi_iter iter in let* h := rdiv_i32 p 2 in rsub h result else Ok result in
  Ok (if (is_neg : bool) then ropp_mut result else result).
