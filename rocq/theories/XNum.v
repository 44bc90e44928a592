(** Model of /repo/src/fp192: the 192 bit floating point type F192.  This file has the representation, comparison,
    arithmetic, rounding and the conversions to and from integers, Ratio, f32 and f64.
    [u128] and [u64] fields are integers; every operation that panics in a debug build panics here. *)
From Verif Require Import Base UBig UStr UFun BBig RBig RIeee.
Local Open Scope Z_scope.

(** fp192.rs:17-25; [digits] and [exp] *)
Record f192 : Type := mkX { xd : Z; xe : Z }.
(** fp192.rs:27-28 *)
Definition SIGNM : Z := 2 ^ 127.
Definition EXPC : Z := 2 ^ 48.
(** [d & !SIGN_MASK], [d | SIGN_MASK], [(d >> 127) << 127] and [(b as u128) << 127] *)
Definition xlow (d : Z) : Z := d mod SIGNM.
Definition xhid (d : Z) : Z := Z.lor d SIGNM.
Definition xtop (d : Z) : Z := (d / SIGNM * SIGNM) mod 2 ^ 128.
Definition xbit (b : bool) : Z := if b then SIGNM else 0.
(** [u128::leading_zeros] *)
Definition lz128 (d : Z) : Z := if d =? 0 then 128 else 127 - Z.log2 d.
(** [exp as i64 - EXP_COEFF as i64], with the overflow check of the subtraction *)
Definition xei (a : f192) : res Z := ssub 64 (casts 64 (xe a)) EXPC.
(** derived PartialEq (fp192.rs:16) *)
Definition xeq (a b : f192) : bool := (xd a =? xd b) && (xe a =? xe b).

(** consts.rs:5-28 *)
Definition xZERO : f192 := mkX 0 0.
Definition xONE : f192 := mkX 0 (EXPC - 127).
Definition xMAX : f192 := mkX (xlow (2 ^ 128 - 1)) (2 ^ 64 - 1).
Definition xMIN : f192 := mkX (2 ^ 128 - 1) (2 ^ 64 - 1).
Definition xMIN_POSITIVE : f192 := mkX 1 0.
(** consts.rs:30-93 *)
Definition xPI : f192 := mkX 97115962555772455233232789574583590097 281474976710530.
Definition xPI_OVER_2 : f192 := mkX 97115962555772455233232789574583590097 281474976710529.
Definition xPI_OVER_3 : f192 := mkX 8030247217025226244926091811094358155 281474976710529.
Definition xPI_OVER_4 : f192 := mkX 97115962555772455233232789574583590097 281474976710528.
Definition xPI_OVER_6 : f192 := mkX 8030247217025226244926091811094358155 281474976710528.
Definition xE : f192 := mkX 61104660176085852556040455244950093042 281474976710530.
Definition xSQRT_2 : f192 := mkX 70474785707535279813346468761740951199 281474976710529.
Definition xSQRT_3 : f192 := mkX 124551990752961009652400151969882971589 281474976710529.
Definition xSQRT_10 : f192 := mkX 98875648305356569987839135600239050579 281474976710530.
Definition xONE_OVER_SQRT_2 : f192 := mkX 70474785707535279813346468761740951199 281474976710528.
Definition xLN_2 : f192 := mkX 65724579765044062406256839048270378671 281474976710528.
Definition xLN_3 : f192 := mkX 16778011497737602070059788614351306331 281474976710529.
Definition xLN_10 : f192 := mkX 25741092909751534969647316959977736745 281474976710530.

(** fp192.rs:32-39 *)
Definition xis_zero (a : f192) : bool := (xe a =? 0) && (xd a =? 0).
Definition xis_neg (a : f192) : bool := xd a / 2 ^ 127 =? 1.
(** fp192.rs:42-64 *)
Definition xis_integer (a : f192) : res bool :=
  if xis_zero a then Ok true else
  let* e := xei a in
  if e <? - 127 then Ok false
  else if 0 <=? e then Ok true
  else
    let* e := sneg 64 e in
    let e := castw 32 e in
    let* x := shrw 128 (xd a) e in
    let* x := shlw 128 x e in
    Ok (x =? xd a).
(** fp192.rs:66-84 *)
Definition xabs (a : f192) : f192 := mkX (xlow (xd a)) (xe a).
Definition xneg (a : f192) : f192 := if xis_zero a then xZERO else mkX (Z.lxor (xd a) SIGNM) (xe a).
(** fp192.rs:86-110 *)
Definition xshl (a : f192) (n : Z) : res f192 :=
  if xis_zero a then Ok xZERO else let* e := addw 64 (xe a) n in Ok (mkX (xd a) e).
Definition xshr (a : f192) (n : Z) : res f192 :=
  if (xe a <? n) || xis_zero a then Ok xZERO else let* e := subw (xe a) n in Ok (mkX (xd a) e).
(** fp192.rs:112-126 *)
Definition xstep (a : f192) : res f192 :=
  if xlow (xd a) =? SIGNM - 1 then
    let* e := addw 64 (xe a) 1 in Ok (mkX (Z.land (xd a) SIGNM) e)
  else
    let* d := addw 128 (xd a) 1 in Ok (mkX d (xe a)).

(** comp.rs:11-49 *)
Definition xcmp (a b : f192) : comparison :=
  if negb (Bool.eqb (xis_neg a) (xis_neg b)) then
    if xis_neg a then Lt else Gt
  else
    match (xe a ?= xe b) with
    | Eq => match (xd a ?= xd b) with
            | Eq => Eq
            | Gt => if xis_neg a then Lt else Gt
            | Lt => if xis_neg a then Gt else Lt
            end
    | Gt => if xis_neg a then Lt else Gt
    | Lt => if xis_neg a then Gt else Lt
    end.
(** the operators [<], [<=], [>], [>=] derived from [partial_cmp] (comp.rs:4-8) *)
Definition xlt (a b : f192) : bool := match xcmp a b with Lt => true | _ => false end.
Definition xgt (a b : f192) : bool := match xcmp a b with Gt => true | _ => false end.
Definition xle (a b : f192) : bool := negb (xgt a b).
Definition xge (a b : f192) : bool := negb (xlt a b).

(** convert.rs:7-36 *)
Definition xfrom_u128 (n : Z) : res f192 :=
  if n =? 0 then Ok xZERO else
  let lz := lz128 n in
  let* digits := shlw 128 n lz in
  let* exp := subw EXPC lz in
  Ok (mkX (xlow digits) exp).
Definition xfrom_i128 (n : Z) : res f192 :=
  if n <? 0 then
    let* a := sabs 128 n in
    let* r := xfrom_u128 (castw 128 a) in
    Ok (mkX (Z.lor (xd r) SIGNM) (xe r))
  else xfrom_u128 (castw 128 n).
(** convert.rs:38-76; the error type is (), represented by the constructor NotInRange *)
Definition xto_u128 (a : f192) : res (rslt Z cerr) :=
  if xis_zero a then Ok (ROk 0) else
  if xis_neg a || (EXPC <? xe a) then Ok (RErr NotInRange) else
  let digits := xhid (xd a) in
  let* s := subw EXPC (xe a) in
  let* r := shrw 128 digits s in
  Ok (ROk r).
Definition xto_i128 (a : f192) : res (rslt Z cerr) :=
  if xis_neg a then
    rbind (xto_u128 (xneg a)) (fun n =>
      if n <? 2 ^ 127 then let* m := sneg 128 (casts 128 n) in Ok (ROk m) else Ok (RErr NotInRange))
  else
    rbind (xto_u128 a) (fun n =>
      match prim_s 128 n with ROk n => Ok (ROk n) | RErr _ => Ok (RErr NotInRange) end).
(** convert.rs:79-111: all unsigned types go through u128, all signed ones through i128 *)
Definition xfrom_prim (p : prim) (n : Z) : res f192 :=
  match p with
  | U8 | U16 | U32 | U64 | Usize | U128 => xfrom_u128 n
  | I8 | I16 | I32 | I64 | Isize | I128 => xfrom_i128 n
  end.
(** convert.rs:113-137 *)
Definition prim_in (p : prim) (x : Z) : rslt Z cerr :=
  match p with
  | U8 => prim_u 8 x | U16 => prim_u 16 x | U32 => prim_u 32 x | U64 | Usize => prim_u 64 x | U128 => prim_u 128 x
  | I8 => prim_s 8 x | I16 => prim_s 16 x | I32 => prim_s 32 x | I64 | Isize => prim_s 64 x | I128 => prim_s 128 x
  end.
Definition xtry_into (p : prim) (a : f192) : res (rslt Z cerr) :=
  rbind (match p with
         | U8 | U16 | U32 | U64 | Usize | U128 => xto_u128 a
         | I8 | I16 | I32 | I64 | Isize | I128 => xto_i128 a
         end)
    (fun n => match prim_in p n with ROk n => Ok (ROk n) | RErr _ => Ok (RErr NotInRange) end).

(** convert.rs:139-155 (F32), 157-173 (F64); the two differ in the width of the fraction only *)
Definition xtry_from_float (F : fmt) (n : Z) : res (rslt f192 cerr) :=
  rbind (inspect_ieee754 F n) (fun '(sign, exp, frac) =>
    if (exp =? - 2 ^ 31) && (frac =? 0) && negb sign then Ok (ROk xZERO) else
    let* f := shlw 128 frac (127 - fm F) in
    let* e := sadd 64 exp EXPC in
    let* e := subw (castw 64 e) 127 in
    Ok (ROk (mkX (Z.lor f (xbit sign)) e))).
(** convert.rs:175-207 (F32), 209-241 (F64): the result is the bit pattern given to transmute *)
Definition xto_float (F : fmt) (a : f192) : res Z :=
  let mant := (xd a / 2 ^ (122 - fm F)) mod 2 ^ (fm F + 5) in
  let rem := mant mod 32 in
  let mant := mant / 32 in
  let* e := xei a in
  let* exp := sadd 64 e (fbias F + 127) in
  let* '(mant, exp) :=
    if 15 <? rem then
      let* mant := addw 128 mant 1 in
      if mant =? 2 ^ fm F then let* exp := sadd 64 exp 1 in Ok (0, exp) else Ok (mant, exp)
    else Ok (mant, exp) in
  if exp <? 0 then Ok 0
  else if 2 * fbias F + 1 <? exp then
    Ok (if xis_neg a then 2 ^ (fw F - 1) + (2 * fbias F + 1) * 2 ^ fm F else (2 * fbias F + 1) * 2 ^ fm F)
  else
    Ok (Z.lor (Z.lor (Z.b2z (xis_neg a) * 2 ^ (fw F - 1)) (castw (fw F) exp mod (2 * fbias F + 2) * 2 ^ fm F))
              (castw (fw F) mant)).

(** convert.rs:243-275 *)
Definition xto_ratio (a : f192) : res rat :=
  if xis_zero a then Ok rzero else
  let d := xhid (xd a) in
  let* e := xei a in
  let* result := rfrom_prim U128 d in
  let* ea := sabs 64 e in
  let* e_pow := bmul_pow2 bone (castw 32 ea) in
  let* result := if e <? 0 then rdiv_bi_mut result e_pow else rmul_bi_mut result e_pow in
  Ok (if xis_neg a then ropp_mut result else result).
(** convert.rs:277-326.  The first loop (289-292) subtracts one from [exp] every time and the second (294-297) adds one,
    so neither can run 2^64 times without panicking: the unrolling bound is never reached. *)
Definition xfr_up (lower : rat) (self : rat * Z -> res (rat * Z)) (s : rat * Z) : res (rat * Z) :=
  let '(n, exp) := s in
  let* c := rlt n lower in
  if (c : bool) then
    let* n := rmul_i32_mut n 2 in
    let* exp := subw exp 1 in
    self (n, exp)
  else Ok (n, exp).
Definition xfr_down (upper : rat) (self : rat * Z -> res (rat * Z)) (s : rat * Z) : res (rat * Z) :=
  let '(n, exp) := s in
  let* c := rgeq n upper in
  if (c : bool) then
    let* n := rdiv_i32_mut n 2 in
    let* exp := addw 64 exp 1 in
    self (n, exp)
  else Ok (n, exp).
Definition xfrom_ratio (n : rat) : res f192 :=
  if ris_zero n then Ok xZERO else
  let* lower := rfrom_prim U128 SIGNM in
  let* upper := rmul_i32 lower 2 in
  let n_abs := rabs n in
  let* '(n_abs, exp) := loopn 65 (xfr_up lower) (n_abs, EXPC) in
  let* '(n_abs, exp) := loopn 65 (xfr_down upper) (n_abs, exp) in
  let* t := rmul_i32 n_abs 32 in
  let* t := rtruncate_bi t in
  let* t := brem_i32 t 32 in
  let* rem := unwrap (btry_into U32 t) in
  let* n_abs := rsub_mut n_abs lower in
  let* t := rtruncate_bi n_abs in
  let* digits := unwrap (btry_into U128 t) in
  let* '(digits, exp) :=
    if 15 <? rem then
      if negb (digits =? 2 ^ 128 - 1) then let* digits := addw 128 digits 1 in Ok (digits, exp)
      else let* exp := addw 64 exp 1 in Ok (0, exp)
    else Ok (digits, exp) in
  Ok (mkX (Z.lor digits (xbit (ris_neg n))) exp).

(** arith/add.rs:6-77; [sub] stands for the method of arith/sub.rs *)
Definition xadd_ (sub : f192 -> f192 -> res f192) (a b : f192) : res f192 :=
  if negb (Bool.eqb (xis_neg a) (xis_neg b)) then
    if xis_neg a then sub b (xneg a) else sub a (xneg b)
  else if xis_zero a then Ok b
  else if xis_zero b then Ok a
  else
    let digits1 := xhid (xd a) in
    let digits2 := xhid (xd b) in
    if xe b <? xe a then
      let* diff := subw (xe a) (xe b) in
      if 127 <? diff then Ok a else
      let* digits2 := shrw 128 digits2 diff in
      match checked_add 128 digits1 digits2 with
      | Some digits => Ok (mkX (Z.lor (xlow digits) (xtop (xd a))) (xe a))
      | None =>
        let* d := addw 128 (digits1 / 2) (digits2 / 2) in
        let* digits := addw 128 d ((digits1 mod 2 + digits2 mod 2) / 2) in
        let* e := addw 64 (xe a) 1 in
        Ok (mkX (Z.lor (xlow digits) (xtop (xd a))) e)
      end
    else
      let* diff := subw (xe b) (xe a) in
      if 127 <? diff then Ok b else
      let* digits1 := shrw 128 digits1 diff in
      match checked_add 128 digits2 digits1 with
      | Some digits => Ok (mkX (Z.lor (xlow digits) (xtop (xd b))) (xe b))
      | None =>
        let* d := addw 128 (digits2 / 2) (digits1 / 2) in
        let* digits := addw 128 d ((digits2 mod 2 + digits1 mod 2) / 2) in
        let* e := addw 64 (xe b) 1 in
        Ok (mkX (Z.lor (xlow digits) (xtop (xd b))) e)
      end.
(** arith/sub.rs:6-27; [add] stands for the method of arith/add.rs *)
Definition xsub_ (add : f192 -> f192 -> res f192) (a b : f192) : res f192 :=
  if negb (Bool.eqb (xis_neg a) (xis_neg b)) then
    if xis_neg a then let* r := add b (xneg a) in Ok (xneg r) else add a (xneg b)
  else if xis_zero a then Ok (xneg b)
  else if xis_zero b then Ok a
  else
    let* r1 := xto_ratio a in
    let* r2 := xto_ratio b in
    let* r := rsub r1 r2 in
    xfrom_ratio r.
(** The two call each other only with operands of equal signs, on which neither calls the other: one level suffices. *)
Definition xadd : f192 -> f192 -> res f192 := xadd_ (xsub_ (fun _ _ => NoFuel)).
Definition xsub : f192 -> f192 -> res f192 := xsub_ (xadd_ (fun _ _ => NoFuel)).

(** arith/mul.rs:7-50 *)
Definition xmul (a b : f192) : res f192 :=
  if xis_zero a || xis_zero b then Ok xZERO else
  let* s := addw 64 (xe a) (xe b) in
  match checked_sub s EXPC with
  | None => Ok xZERO
  | Some n =>
    let* exp := addw 64 n 128 in
    let digits1 := Z.lor SIGNM (xd a) in
    let digits2 := Z.lor SIGNM (xd b) in
    let* h1 := shrw 128 digits1 64 in
    let l1 := digits1 mod 2 ^ 64 in
    let* h2 := shrw 128 digits2 64 in
    let l2 := digits2 mod 2 ^ 64 in
    let* mul_hi := mulw 128 h1 h2 in
    let* m1 := mulw 128 h1 l2 in
    let* m2 := mulw 128 h2 l1 in
    let* m := addw 128 (m1 / 2) (m2 / 2) in
    let* mul_lo := shrw 128 m 63 in
    let* '(digits, exp) :=
      match checked_add 128 mul_hi mul_lo with
      | Some digits => Ok (digits, exp)
      | None => let* exp := addw 64 exp 1 in let* d := addw 128 (mul_hi / 2) (mul_lo / 2) in Ok (d, exp)
      end in
    let lz := lz128 digits in
    let* digits := shlw 128 digits lz in
    let* exp := subw exp lz in
    let digits := xlow digits in
    let digits := Z.lor digits (Z.land (Z.lxor (xd a) (xd b)) SIGNM) in
    Ok (mkX digits exp)
  end.
(** arith/mul.rs:67-71 and arith/div.rs:65-69: the same loop; at most 127 rounds, as [digits] is positive *)
Definition xnorm (self : Z * Z * Z -> res (Z * Z * Z)) (s : Z * Z * Z) : res (Z * Z * Z) :=
  let '(digits, rem, exp) := s in
  if digits <? SIGNM then
    let* digits := mulw 128 digits 2 in
    let* rem := mulw 128 rem 2 in
    let* exp := subw exp 1 in
    self (digits, rem, exp)
  else Ok (digits, rem, exp).
(** arith/mul.rs:53-80 *)
Definition xmul_i32 (s : f192) (a : Z) : res f192 :=
  if xis_zero s || (a =? 0) then Ok xZERO else
  let digits := xhid (xd s) in
  let exp := xe s in
  let* a_abs := sabs 32 a in
  let a_abs := castw 128 a_abs in
  let* rem := mulw 128 (digits mod 2 ^ 32) a_abs in
  let* digits := shrw 128 digits 32 in
  let* digits := mulw 128 digits a_abs in
  let* exp := addw 64 exp 32 in
  let* '(digits, rem, exp) := loopn 8 xnorm (digits, rem, exp) in
  let* rem := shrw 128 rem 32 in
  let* digits := addw 128 digits rem in
  Ok (mkX (Z.lor (xlow digits) (xbit (negb (Bool.eqb (xis_neg s) (a <? 0))))) exp).
(** arith/div.rs:49-77 *)
Definition xdiv_i32 (s : f192) (a : Z) : res f192 :=
  if a =? 0 then Panic else
  if xis_zero s then Ok xZERO else
  let digits := xhid (xd s) in
  let exp := xe s in
  let* a_abs := sabs 32 a in
  let a_abs := castw 128 a_abs in
  let* rem := remw digits a_abs in
  let* digits := divw digits a_abs in
  let* '(digits, rem, exp) := loopn 8 xnorm (digits, rem, exp) in
  let* q := divw rem a_abs in
  let* digits := addw 128 digits q in
  Ok (mkX (Z.lor (xlow digits) (xbit (negb (Bool.eqb (xis_neg s) (a <? 0))))) exp).

(** funcs/ln.rs:88-100 *)
Definition LOG_TABLE : list Z := [
    0; 375269; 744809; 1108792; 1467382; 1820738; 2169009;
    2512339; 2850868; 3184727; 3514044; 3838940; 4159533;
    4475935; 4788254; 5096595; 5401057; 5701736; 5998727;
    6292117; 6581994; 6868440; 7151535; 7431358; 7707983;
    7981482; 8251925; 8519380; 8783912; 9045583; 9304456;
    9560590; 9814042; 10064867; 10313119; 10558851; 10802114;
    11042956; 11281425; 11517567; 11751428; 11983051; 12212478;
    12439751; 12664910; 12887994; 13109040; 13328086; 13545167;
    13760319; 13973575; 14184969; 14394532; 14602296; 14808293;
    15012550; 15215099; 15415967; 15615181; 15812769; 16008757;
    16203171; 16396036; 16587376; 16777216].
(** the linear interpolation shared by funcs/ln.rs:83 and funcs/pow.rs:138, before the shift *)
Definition xinterp (t : list Z) (index : Z) : res Z :=
  let frac := index mod 32 in
  let i := Z.to_nat (index / 32) in
  let* x := getv t i in
  let* c := subw 32 frac in
  let* x := mulw 32 x c in
  let* y := getv t (S i) in
  let* y := mulw 32 y frac in
  addw 32 x y.
(** funcs/ln.rs:75-84; [<< 24] on i64 drops the bits shifted out *)
Definition xfast_log2 (a : f192) : res Z :=
  let* e := xei a in
  let* e := sadd 64 e 127 in
  let e := casts 64 (e * 2 ^ 24) in
  let index := xlow (xd a) / 2 ^ 116 in
  let* v := xinterp LOG_TABLE index in
  sadd 64 e (v / 32).
(** funcs/pow.rs:144-210 *)
Definition POW_TABLE : list Z := [
    16777216; 16959907; 17144589; 17331281; 17520006; 17710787; 17903645; 18098602;
    18295683; 18494910; 18696307; 18899896; 19105702; 19313750; 19524063; 19736666;
    19951584; 20168843; 20388467; 20610483; 20834916; 21061794; 21291142; 21522987;
    21757357; 21994279; 22233781; 22475891; 22720637; 22968049; 23218155; 23470984;
    23726566; 23984931; 24246110; 24510133; 24777031; 25046835; 25319577; 25595289;
    25874004; 26155753; 26440571; 26728489; 27019544; 27313767; 27611195; 27911861;
    28215801; 28523051; 28833647; 29147625; 29465021; 29785874; 30110221; 30438100;
    30769549; 31104608; 31443315; 31785710; 32131834; 32481726; 32835429; 33192984;
    33554432].
(** funcs/pow.rs:133-142 *)
Definition xfast_pow2_worker (n : Z) : res Z :=
  let* v := xinterp POW_TABLE (n / 2 ^ 13) in
  shlw 128 (v / 32) 103.
(** funcs/pow.rs:69-88; the mask 0xfff_fff keeps 24 bits, the inner [if d < 0] (74-77) never holds *)
Definition xfast_pow2 (n : Z) : res f192 :=
  let e := n / 2 ^ 24 in
  let* '(d, e) :=
    if n <? 0 then
      let d := n mod 2 ^ 24 in
      if d <? 0 then let* d := sadd 64 d 16777216 in let* e := ssub 64 e 1 in Ok (d, e) else Ok (d, e)
    else Ok (n mod 2 ^ 24, e) in
  let* digits := xfast_pow2_worker (castw 32 d) in
  let* e := sadd 64 e EXPC in
  let* e := ssub 64 e 127 in
  Ok (mkX (xlow digits) (castw 64 e)).
(** arith/div.rs:26-45: the bisection.  [loopn 200] allows 2^200 rounds; two bit patterns are less than 2^192 apart. *)
Definition xdiv_loop (s o : f192) (self : f192 * f192 -> res f192) (st : f192 * f192) : res f192 :=
  let '(min, max) := st in
  let* m := xadd min max in
  let* mid := xshr m 1 in
  let* s' := xmul o mid in
  let '(min, max) := if xlt s' s then (mid, max) else (min, mid) in
  let* st := xstep min in
  if xeq st max then Ok max else self (min, max).
(** arith/div.rs:8-46 *)
Definition xdiv (a b : f192) : res f192 :=
  if xis_zero a then Ok xZERO
  else if xis_zero b then Panic
  else
    let s := xabs a in
    let o := xabs b in
    let* l1 := xfast_log2 a in
    let* l2 := xfast_log2 b in
    let* approx := ssub 64 l1 l2 in
    let* n1 := ssub 64 approx 1048576 in
    let* min := xfast_pow2 n1 in
    let* n2 := sadd 64 approx 1048576 in
    let* max := xfast_pow2 n2 in
    let* r := loopn 200 (xdiv_loop s o) (min, max) in
    Ok (if negb (Bool.eqb (xis_neg a) (xis_neg b)) then xneg r else r).

(** funcs.rs:68-95 *)
Definition xtruncate (a : f192) : res f192 :=
  if xis_zero a then Ok xZERO else
  let* e := xei a in
  if e <? - 127 then Ok xZERO
  else if 0 <=? e then Ok a
  else
    let* e := sneg 64 e in
    let e := castw 32 e in
    let* d := shrw 128 (xd a) e in
    let* digits := shlw 128 d e in
    Ok (mkX digits (xe a)).
(** funcs.rs:10-24 *)
Definition xfloor (a : f192) : res f192 :=
  let* t := xtruncate a in
  if xeq t a then Ok t
  else if xis_neg a then let* one := xfrom_prim I32 1 in xsub t one
  else Ok t.
(** funcs.rs:26-40 *)
Definition xceil (a : f192) : res f192 :=
  let* t := xtruncate a in
  if xeq t a then Ok t
  else if xis_neg a then Ok t
  else let* one := xfrom_prim I32 1 in xadd t one.
(** funcs.rs:42-66 *)
Definition xround (a : f192) : res f192 :=
  let* t := xtruncate a in
  if xeq t a then Ok t
  else
    let* f := xsub a t in
    let* half := xshr xONE 1 in
    let neg_half := xneg half in
    if xle f neg_half then let* m := xfrom_prim I32 (- 1) in xadd t m
    else if xge f half then let* m := xfrom_prim I32 1 in xadd t m
    else Ok t.
(** funcs.rs:97-99 *)
Definition xfrac (a : f192) : res f192 := let* t := xtruncate a in xsub a t.
