(** Model of the remaining functions of F192: src/fp192/funcs/*.rs and src/fp192/convert/string.rs. *)
From Coq Require Import ZArith List Bool.
From Verif Require Import Base UBig UFun UStr BBig RBig RIeee XNum.
Import ListNotations.
Local Open Scope Z_scope.

(** ** powers and logarithms *)
(** funcs/pow.rs:7-12 *)
Definition xfrom_pow2 (n : Z) : res f192 :=
  let* e := sadd 64 n EXPC in
  let* e := ssub 64 e 127 in
  Ok (mkX 0 (castw 64 e)).
(** funcs/ln.rs:8-18 *)
Definition xilog2 (a : f192) : res f192 :=
  if xis_neg a then Panic
  else if xis_zero a then Panic
  else let* e := xei a in let* e := sadd 64 e 127 in xfrom_prim I64 e.
(** funcs/pow.rs:91-130; the unrolling bound is the number of bits of [b], more than the recursion needs *)
Definition xpowi_small (self : f192 * Z -> res (f192 * Z)) (aa : f192) (s : f192 * Z) : res (f192 * Z) :=
  let '(result, b) := s in
  if 2 <=? b then
    let* result := xmul result aa in
    let* b := subw b 2 in
    self (result, b)
  else Ok (result, b).
Fixpoint xpowi_abs (fuel : nat) (a : f192) (b : Z) : res f192 :=
  if b <? 8 then
    if b <? 2 then
      if b =? 0 then Ok xONE else Ok a
    else
      let* aa := xmul a a in
      let* '(result, b) := loopn 3 (fun self => xpowi_small self aa) (xONE, b) in
      if b =? 1 then xmul result a else Ok result
  else
    match fuel with
    | O => NoFuel
    | S f =>
        let* result := xpowi_abs f a (b / 2) in
        let* result := xmul result result in
        if b mod 2 =? 1 then xmul result a else Ok result
    end.
(** funcs/pow.rs:49-60 *)
Definition xpowi (a : f192) (n : Z) : res f192 :=
  let* n_abs := sabs 64 n in
  let* result := xpowi_abs 64 a (castw 64 n_abs) in
  if n <? 0 then xdiv xONE result else Ok result.
(** funcs/ln.rs:50-72 *)
Fixpoint xlog2_iter (a : f192) (iter : nat) : res f192 :=
  match iter with
  | O => xfrom_prim I32 127
  | S i =>
      let* a := xmul a a in
      let* b := xmul a a in
      let* c := xmul b b in
      let* d := xmul c c in
      let* e := xmul d d in
      let* f := xmul e e in
      let* g := xmul f f in
      let* h := xmul g g in
      let digits := xhid (xd h) in
      let d := mkX digits EXPC in
      let* e := xei h in
      let* e := xfrom_prim I64 e in
      let* l := xlog2_iter d i in
      let* s := xadd e l in
      xshr s 8
  end.
(** funcs/ln.rs:24-41 *)
Definition xlog2 (a : f192) : res f192 :=
  if xis_neg a then Panic
  else if xis_zero a then Panic
  else
    let d := mkX (xhid (xd a)) EXPC in
    let* e := xei a in
    let* e := xfrom_prim I64 e in
    let* l := xlog2_iter d 16 in
    xadd e l.
(** funcs/ln.rs:44-46 *)
Definition xln (a : f192) : res f192 := let* l := xlog2 a in xmul l xLN_2.
(** funcs/pow.rs:16-46 *)
Definition xpow2_step (iter_unit : f192) (i : Z) (s : f192 * f192) : res (f192 * f192) :=
  let '(approx, iter) := s in
  let* approx := xadd approx iter in
  let* iter := xmul iter iter_unit in
  let* iter := xdiv_i32 iter i in
  Ok (approx, iter).
Definition xpow2 (a : f192) : res f192 :=
  let* int := xfloor a in
  let* fraction := xsub a int in
  let* r := xtry_into I64 int in
  match r with
  | RErr _ => Panic
  | ROk exp =>
      let* iter_unit := xmul fraction xLN_2 in
      let* '(approx, iter) := for_ 13 2 (xpow2_step iter_unit) (xONE, iter_unit) in
      let* approx := xadd approx iter in
      let* e := sadd 64 (casts 64 (xe approx)) exp in
      Ok (mkX (xd approx) (castw 64 e))
  end.
(** funcs/pow.rs:64-66 *)
Definition xpow_x (a x : f192) : res f192 := let* l := xlog2 a in let* p := xmul x l in xpow2 p.

(** ** square root *)
(** funcs/sqrt.rs:47-58 *)
Definition isqrt_step (n x : Z) : res Z :=
  let* q := divw n x in let* s := addw 128 x q in shrw 128 s 1.
Definition xisqrt (n : Z) : res Z :=
  let x := 13043817825332782212 in
  let* x := isqrt_step n x in
  let* x := isqrt_step n x in
  let* x := isqrt_step n x in
  let* x2 := isqrt_step n x in
  Ok (Z.min x x2).
(** funcs/sqrt.rs:7-42 *)
Definition xnewton (a approx : f192) : res f192 :=
  let* q := xdiv a approx in let* s := xadd approx q in xshr s 1.
Definition xsqrt (a : f192) : res f192 :=
  if xis_zero a || xis_neg a then Ok xZERO
  else
    let digits := xhid (xd a) in
    let* exp := xei a in
    let* digits_sqrt := xisqrt digits in
    let exp_sqrt := Z.quot exp 2 in
    let* ae := sabs 64 exp in
    let exp_odd := Z.rem ae 2 =? 1 in
    let* digits_sqrt := shlw 128 digits_sqrt 64 in
    let* exp_sqrt := ssub 64 exp_sqrt 64 in
    let* e := sadd 64 exp_sqrt EXPC in
    let approx := mkX (xlow digits_sqrt) (castw 64 e) in
    let* approx :=
      if exp_odd then
        let* approx := xmul approx xSQRT_2 in
        if exp <? 0 then xshr approx 1 else Ok approx
      else Ok approx in
    let* approx := xnewton a approx in
    xnewton a approx.

(** ** trigonometry *)
(** funcs/trigo.rs:161-191: one step [result.mul(x).add(c)] or [.sub(c)] *)
Definition hadd (x : f192) (c : Z) (r : f192) : res f192 := let* r := xmul r x in let* k := xfrom_prim U64 c in xadd r k.
Definition hsub (x : f192) (c : Z) (r : f192) : res f192 := let* r := xmul r x in let* k := xfrom_prim U64 c in xsub r k.
Definition xsin_near (x : f192) : res f192 :=
  let* x_ := xsub x xPI_OVER_4 in
  let* k := xfrom_prim I32 11 in
  let* r := xadd k x_ in
  let r := xneg r in
  let* r := hadd x_ 110 r in
  let* r := hadd x_ 990 r in
  let* r := hsub x_ 7920 r in
  let* r := hsub x_ 55440 r in
  let* r := hadd x_ 332640 r in
  let* r := hadd x_ 1663200 r in
  let* r := hsub x_ 6652800 r in
  let* r := hsub x_ 19958400 r in
  let* r := hadd x_ 39916800 r in
  let* r := hadd x_ 39916800 r in
  let* r := xmul r xONE_OVER_SQRT_2 in
  xdiv_i32 r 39916800.
(** funcs/trigo.rs:85-117 *)
Definition xsin_iter (x : f192) : res f192 :=
  if xgt x xONE_OVER_SQRT_2 then xsin_near x
  else
    let* x2 := xmul x x in
    let* k := xfrom_prim I32 342 in
    let* r := xsub k x2 in
    let* r := hsub x2 93024 r in
    let* r := hadd x2 19535040 r in
    let* r := hsub x2 3047466240 r in
    let* r := hadd x2 335221286400 r in
    let* r := hsub x2 24135932620800 r in
    let* r := hadd x2 1013709170073600 r in
    let* r := hsub x2 20274183401472000 r in
    let* r := hadd x2 121645100408832000 r in
    let* r := xmul r x in
    let* r := xshr r 16 in
    let* r := xdiv_i32 r 820125 in
    xdiv_i32 r 2263261.
(** funcs/trigo.rs:121-153 *)
Definition xcos_iter (x : f192) : res f192 :=
  if xgt x xONE_OVER_SQRT_2 then let* y := xsub xPI_OVER_2 x in xsin_near y
  else
    let* x2 := xmul x x in
    let* k := xfrom_prim I32 380 in
    let* r := xsub x2 k in
    let* r := hadd x2 116280 r in
    let* r := hsub x2 27907200 r in
    let* r := hadd x2 5079110400 r in
    let* r := hsub x2 670442572800 r in
    let* r := hadd x2 60339831552000 r in
    let* r := hsub x2 3379030566912000 r in
    let* r := hadd x2 101370917007360000 r in
    let* r := hsub x2 1216451004088320000 r in
    let* r := hadd x2 2432902008176640000 r in
    let* r := xshr r 18 in
    let* r := xdiv_i32 r 4100625 in
    xdiv_i32 r 2263261.
(** funcs/trigo.rs:5-38 *)
Definition xsin (a : f192) : res f192 :=
  let is_neg := xis_neg a in
  let x := xabs a in
  let pi := xPI in
  let* pi_2 := xshl pi 1 in
  let* q := xdiv x pi_2 in
  let* f := xfrac q in
  let* x := xmul f pi_2 in
  let* '(x, is_neg) := if xgt x pi then let* y := xsub x pi in Ok (y, negb is_neg) else Ok (x, is_neg) in
  let* x := if xgt x xPI_OVER_2 then xsub pi x else Ok x in
  let* r := if xgt x xPI_OVER_4 then let* y := xsub xPI_OVER_2 x in xcos_iter y else xsin_iter x in
  Ok (if is_neg then xneg r else r).
(** funcs/trigo.rs:41-74 *)
Definition xcos (a : f192) : res f192 :=
  let x := xabs a in
  let pi := xPI in
  let* pi_2 := xshl pi 1 in
  let* q := xdiv x pi_2 in
  let* f := xfrac q in
  let* x := xmul f pi_2 in
  let* x := if xgt x pi then xsub pi_2 x else Ok x in
  let* '(x, is_neg) := if xgt x xPI_OVER_2 then let* y := xsub pi x in Ok (y, true) else Ok (x, false) in
  let* r := if xgt x xPI_OVER_4 then let* y := xsub xPI_OVER_2 x in xsin_iter y else xcos_iter x in
  Ok (if (is_neg : bool) then xneg r else r).
(** funcs/trigo.rs:78-80 *)
Definition xtan (a : f192) : res f192 := let* s := xsin a in let* c := xcos a in xdiv s c.
(** funcs/atrigo.rs:7-41; [asin_near_one] (96-98) is [todo!()], that is a panic *)
Definition xasin_step (x_sqr : f192) (i : Z) (s : f192 * f192) : res (f192 * f192) :=
  let '(result, curr) := s in
  let* result := xadd result curr in
  let* curr := xmul curr x_sqr in
  let* curr := xmul_i32 curr ((2 * i + 3) * (2 * i + 3) * (2 * i + 4)) in
  let* curr := xdiv_i32 curr ((i + 2) * (i + 2) * (2 * i + 5) * 4) in
  Ok (result, curr).
Definition xasin (a : f192) : res f192 :=
  let is_neg := xis_neg a in
  let result := if is_neg then xneg a else a in
  if xgt result xONE then Panic
  else if xgt a xONE_OVER_SQRT_2 then Panic
  else
    let* x_sqr := xmul result result in
    let* c := xmul x_sqr result in
    let* c := xdiv_i32 c 6 in
    let* '(result, _) := for_ 15 0 (xasin_step x_sqr) (result, c) in
    Ok (if is_neg then xneg result else result).
(** funcs/atrigo.rs:44-46 *)
Definition xacos (a : f192) : res f192 := let* s := xasin a in xsub xPI_OVER_2 s.
(** funcs/atrigo.rs:48-94; [atan_near_one] (100-102) is [todo!()] *)
Definition xatan_step (x_sqr : f192) (i : Z) (s : f192 * f192 * Z) : res (f192 * f192 * Z) :=
  let '(result, curr_x, coeff) := s in
  let* q := xdiv_i32 curr_x coeff in
  let* result := xsub result q in
  let* coeff := sadd 32 coeff 2 in
  let* curr_x := xmul curr_x x_sqr in
  let* q := xdiv_i32 curr_x coeff in
  let* result := xadd result q in
  let* coeff := sadd 32 coeff 2 in
  let* curr_x := xmul curr_x x_sqr in
  Ok (result, curr_x, coeff).
Definition xatan (a : f192) : res f192 :=
  let is_neg := xis_neg a in
  let result := if is_neg then xneg a else a in
  let is_reci := xgt result xONE in
  let* result := if is_reci then xdiv xONE result else Ok result in
  let* result :=
    if xgt result xONE_OVER_SQRT_2 then Panic
    else
      let* x_sqr := xmul result result in
      let* c := xmul x_sqr result in
      let* '(result, curr_x, coeff) := for_ 7 0 (xatan_step x_sqr) (result, c, 3) in
      let* q := xdiv_i32 curr_x coeff in
      xsub result q in
  let* result := if is_reci then xsub xPI_OVER_2 result else Ok result in
  Ok (if is_neg then xneg result else result).

(** ** text *)
(** convert/string.rs:516-532 [pow10_worker], 504-514 [pow10] *)
Fixpoint xpow10_worker (fuel : nat) (n : Z) : res f192 :=
  if n <? 37 then xfrom_prim U128 (10 ^ n)
  else
    match fuel with
    | O => NoFuel
    | S f =>
        let* r := xpow10_worker f (n / 2) in
        let* r := xmul r r in
        if n mod 2 =? 1 then let* ten := xfrom_prim I32 10 in xmul r ten else Ok r
    end.
Definition xpow10 (n : Z) : res f192 :=
  let* a := sabs 64 n in
  let* w := xpow10_worker 64 (castw 64 a) in
  if n <? 0 then xdiv xONE w else Ok w.
(** convert/string.rs:487-502 [log10] *)
Definition log10_loop (self : Z * Z -> res Z) (s : Z * Z) : res Z :=
  let '(n, result) := s in
  if 10 <=? n then let* r := addw 32 result 1 in self (n / 10, r) else Ok result.
Fixpoint ulog10 (fuel : nat) (n : Z) : res Z :=
  if 1000000000 <? n then
    match fuel with
    | O => NoFuel
    | S f => let* r := ulog10 f (n / 1000000000) in addw 32 r 9
    end
  else loopn 8 log10_loop (n, 0).
(** convert/string.rs:535-543 *)
Definition BASE13 : Z := 26018280341918546944.
Definition code13_zero : list Z := [122; 121; 48; 48; 48; 48; 48; 48; 48; 48; 48; 48; 48].
Fixpoint list_eqb (a b : list Z) : bool :=
  match a, b with
  | [], [] => true
  | x :: a, y :: b => (x =? y) && list_eqb a b
  | _, _ => false
  end.
(** convert/string.rs:545-559 *)
Definition from_int (n : Z) : Z := if n <? 10 then n + 48 else if n <? 36 then n - 10 + 65 else n - 36 + 97.
(** convert/string.rs:561-589 *)
Definition to_int (c : Z) : rslt Z cerr :=
  if c <? 48 then RErr (InvalidChar c)
  else if c <=? 57 then ROk (c - 48)
  else if c <? 65 then RErr (InvalidChar c)
  else if c <=? 90 then ROk (c - 65 + 10)
  else if c <? 97 then RErr (InvalidChar c)
  else if c <=? 122 then ROk (c - 97 + 36)
  else RErr (InvalidChar c).
(** convert/string.rs:227-352 [to_approx_string] *)
Definition ta_down (self : Z * Z -> res (Z * Z)) (s : Z * Z) : res (Z * Z) :=
  let '(n, exp) := s in
  if 1000000000000000000000 <=? n then let* exp := sadd 64 exp 1 in self (n / 10, exp) else Ok (n, exp).
Definition ta_up (self : Z * Z -> res (Z * Z)) (s : Z * Z) : res (Z * Z) :=
  let '(n, exp) := s in
  if n <? 100000000000000000000 then let* n := mulw 128 n 10 in let* exp := ssub 64 exp 1 in self (n, exp) else Ok (n, exp).
Definition ta_strip (self : Z * Z -> res (Z * Z)) (s : Z * Z) : res (Z * Z) :=
  let '(n, exp) := s in
  if n mod 10 =? 0 then let* exp := sadd 64 exp 1 in self (n / 10, exp) else Ok (n, exp).
Definition trim_end0 (s : list Z) : list Z := rev (trim0 (rev s)).
(** [format!] of a signed integer *)
Definition fmt_sint (n : Z) : list Z := if n <? 0 then 45 :: fmt_uint 10 (- n) else fmt_uint 10 n.
Definition ta_text (n exp : Z) : res (list Z) :=
  let* l := ulog10 8 n in
  let ns := fmt_uint 10 n in
  if 0 <=? exp then
    let exp := castw 32 exp in
    let* s := addw 32 exp l in
    if s <? 10 then
      let* p := if 10 ^ exp <? 2 ^ 128 then Ok (10 ^ exp) else Panic in
      let* m := mulw 128 n p in
      Ok (fmt_uint 10 m)
    else if l =? 0 then Ok (ns ++ 101 :: fmt_uint 10 exp)
    else Ok (firstn 1 ns ++ 46 :: skipn 1 ns ++ 101 :: fmt_uint 10 s)
  else
    let* m := sneg 64 exp in
    if castw 32 m <=? l then
      let* i := sadd 64 l exp in
      let* i := sadd 64 i 1 in
      let index := Z.to_nat (castw 64 i) in
      if Z.of_nat (length ns) <? castw 64 i then Panic
      else Ok (firstn index ns ++ 46 :: skipn index ns)
    else
      let* z := ssub 64 m l in
      let* z := ssub 64 z 1 in
      let zeros := castw 64 z in
      if zeros <? 8 then
        let result := 48 :: 46 :: repeat 48 (Z.to_nat zeros) ++ ns in
        let result := if (22 <? length result)%nat then firstn 22 result else result in
        Ok (trim_end0 result)
      else if l =? 0 then Ok (ns ++ 101 :: fmt_sint exp)
      else
        let* x := sadd 64 exp l in
        Ok (firstn 1 ns ++ 46 :: skipn 1 ns ++ 101 :: fmt_sint x).
Definition xto_text (a : f192) : res (list Z) :=
  if xis_zero a then Ok [48]
  else
    let* l := xfast_log2 a in
    let approx := casts 64 (castw 64 (Z.quot (Z.quot (l * 21306) 70777) 16777216)) in
    let n := xabs a in
    let* '(n, exp) :=
      if 22 <? approx then
        let* k := ssub 64 approx 20 in
        let* p := xpow10 k in
        let* n := xdiv n p in Ok (n, k)
      else if approx <? 18 then
        let* k := ssub 64 20 approx in
        let* p := xpow10 k in
        let* n := xmul n p in
        let* k := ssub 64 approx 20 in Ok (n, k)
      else Ok (n, 0) in
    let* r := xto_u128 n in
    match r with
    | RErr _ => Panic
    | ROk n =>
        let* '(n, exp) := loopn 8 ta_down (n, exp) in
        let* '(n, exp) := loopn 8 ta_up (n, exp) in
        let rem := n mod 100 in
        let n := n / 100 in
        let* exp := sadd 64 exp 2 in
        let* n := if 50 <=? rem then addw 128 n 1 else Ok n in
        let* '(n, exp) := loopn 8 ta_strip (n, exp) in
        let* ds := ta_text n exp in
        Ok (if xis_neg a then 45 :: ds else ds)
    end.
(** convert/string.rs:356-428 [into_code13] *)
Definition c13_shift (self : Z * Z -> res (Z * Z)) (s : Z * Z) : res (Z * Z) :=
  let '(digits, exp) := s in
  if BASE13 * 64 <=? digits then let* exp := sadd 64 exp 1 in self (digits / 2, exp) else Ok (digits, exp).
Fixpoint c13_strip (k : nat) (s : list Z) : list Z :=
  match k, s with
  | S k, c :: t => if c =? 48 then c13_strip k t else s
  | _, _ => s
  end.
Definition c13_text (e d : Z) : list Z :=
  [ from_int (castw 8 (e / 124));
    from_int (castw 8 (e mod 124 / 2));
    from_int (castw 8 (e mod 2 * 31) + castw 8 (d mod 31));
    from_int (castw 8 (d / 419649682934170112));
    from_int (castw 8 (d / 6768543273131776 mod 62));
    from_int (castw 8 (d / 109170052792448 mod 62));
    from_int (castw 8 (d / 1760807303104 mod 62));
    from_int (castw 8 (d / 28400117792 mod 62));
    from_int (castw 8 (d / 458066416 mod 62));
    from_int (castw 8 (d / 7388168 mod 62));
    from_int (castw 8 (d / 119164 mod 62));
    from_int (castw 8 (d / 1922 mod 62));
    from_int (castw 8 (d / 31 mod 62)) ].
Definition xinto_code13 (a : f192) : res (rslt (list Z) cerr) :=
  if xis_zero a then Ok (ROk code13_zero)
  else
    let* digits := shrw 128 (xhid (xd a)) 57 in
    let is_neg := xis_neg a in
    let* exp := xei a in
    let* exp := sadd 64 exp 57 in
    let* '(digits, exp) := loopn 8 c13_shift (digits, exp) in
    let rem := digits mod 32 in
    let digits := digits / 32 in
    let* exp := sadd 64 exp 5 in
    let* '(digits, exp) :=
      if 15 <? rem then
        let* digits := addw 128 digits 1 in
        if digits =? BASE13 * 2 then let* exp := sadd 64 exp 1 in Ok (BASE13, exp) else Ok (digits, exp)
      else Ok (digits, exp) in
    let* d := subw digits BASE13 in
    let* exp := sadd 64 exp 64 in
    if exp <? - 1921 then Ok (ROk code13_zero)
    else if 1922 <? exp then let* _ := xto_text a in Ok (RErr NotInRange)
    else
      let* ae := sabs 64 exp in
      let* e := mulw 64 (castw 64 ae) 4 in
      let* e := subw (Z.max e 2) 2 in
      let* e := addw 64 e (if exp <? 0 then 2 else 0) in
      let* e := addw 64 e (if is_neg then 1 else 0) in
      Ok (ROk (c13_strip 12 (c13_text e d))).
(** convert/string.rs:431-484 [from_code13] *)
Fixpoint c13_digits (s : list Z) (d : Z) : res (rslt Z cerr) :=
  match s with
  | [] => Ok (ROk d)
  | c :: t => rbind (Ok (to_int c)) (fun n => let* d := addw 128 d n in let* d := mulw 128 d 62 in c13_digits t d)
  end.
Definition xfrom_code13 (s : list Z) : res (rslt f192 cerr) :=
  if list_eqb s code13_zero then Ok (ROk xZERO)
  else if (length s <=? 13)%nat then
    match s with
    | [] => Ok (RErr NoData)
    | _ =>
        let s := repeat 48 (13 - length s) ++ s in
        rbind (Ok (to_int (nth 0 s 0))) (fun c0 =>
        rbind (Ok (to_int (nth 1 s 0))) (fun c1 =>
        rbind (Ok (to_int (nth 2 s 0))) (fun c2 =>
        let e := c0 * 124 + c1 * 2 + c2 / 31 in
        rbind (c13_digits (skipn 3 s) 0) (fun d =>
        let d := d / 2 in
        let* d := addw 128 d (c2 mod 31) in
        let* d := addw 128 d BASE13 in
        let sign := Z.rem e 2 * - 2 + 1 in
        let exp := Z.quot (e + 2) 4 * (Z.quot (Z.rem e 4) 2 * 2 - 1) in
        let dlz := lz128 d in
        let* d := shlw 128 d dlz in
        let* exp := ssub 32 exp dlz in
        let d := Z.lor (xlow d) (xbit (sign =? - 1)) in
        let* f := ssub 64 exp 64 in
        let* f := sadd 64 f EXPC in
        Ok (ROk (mkX d (castw 64 f)))))))
    end
  else Ok (RErr (InvalidChar (nth 13 s 0))).
