(** Model of src/ubigint/funcs.rs, src/ubigint/funcs/log.rs and [gcd_i32] of src/utils.rs. *)
From Verif Require Import Base UBig.

(** fuel for loops whose trip count is at most the value of the number *)
Definition ufuel (a : ubig) : nat := 34 * S (length a).

(** ** funcs.rs:372-388 [gcd_ubi]: state (a, b) of the while loop *)
Definition gcd_body (self : ubig * ubig -> res ubig) (s : ubig * ubig) : res ubig :=
  let '(a, b) := s in
  if negb (uis_zero a) then let* r := urem b a in self (r, a) else Ok b.
Definition ugcd (a b : ubig) : res ubig :=
  if uis_zero a then Ok b
  else let* r := urem b a in loopn (ufuel a) gcd_body (r, a).

(** ** src/utils.rs:35-46 [gcd_i32]; [%] on i32 truncates, both operands are non-negative here *)
Definition gcd_i32_body (self : Z * Z -> res Z) (s : Z * Z) : res Z :=
  let '(a, b) := s in
  if negb (a =? 0) then let r := Z.rem b a in self (r, a) else Ok b.
Definition gcd_i32 (a b : Z) : res Z :=
  let* a := sabs 32 a in
  let* b := sabs 32 b in
  loopn 32 gcd_i32_body (a, b).

(** ** funcs.rs:296-370 [sqrt_u64] *)
(** [n.abs_diff(m)] *)
Definition abs_diffw (a b : Z) : Z := Z.abs (a - b).
(** funcs.rs:350-352 *)
Definition sq64_up (n div : Z) (self : Z -> res Z) (result : Z) : res Z :=
  let* sq := mulw 64 result result in
  if sq <? n then let* r := addw 64 result div in self r else Ok result.
(** funcs.rs:358-360 *)
Definition sq64_down (n div : Z) (self : Z -> res Z) (result : Z) : res Z :=
  let* sq := mulw 64 result result in
  if n <? sq then let* r := subw result div in self r else Ok result.
(** funcs.rs:349-369 *)
Definition sq64_loop (n : Z) (self : Z * Z -> res Z) (s : Z * Z) : res Z :=
  let '(result, div) := s in
  let* result := loopn 64 (sq64_up n div) result in
  let div := div / 4 in
  let div := if div <? 4 then 1 else div in
  let* result := loopn 64 (sq64_down n div) result in
  let div := div / 4 in
  if div =? 0 then Ok result else self (result, div).
(** funcs.rs:299-324: the initial estimate; [l2 = n.ilog2()] *)
Definition sq64_init (n : Z) : res Z :=
  let l2 := Z.log2 n in
  let* frac := if 28 <? l2 then shrw 64 n (l2 - 28) else shlw 64 n (28 - l2) in
  let* frac := subw frac (2 ^ 28) in
  let* f2 := mulw 64 frac frac in
  let* s1 := addw 64 (2 ^ 28) (frac / 2) in
  let* s := subw s1 (f2 / 2 ^ 31) in
  let* s := if l2 mod 2 =? 1 then let* s' := mulw 64 s 379625062 in Ok (s' / 2 ^ 28) else Ok s in
  let* one := shlw 64 1 (l2 / 2) in
  let* d := mulw 64 one s in
  Ok (d / 2 ^ 28).
Definition sqrt_u64 (n : Z) : res Z :=
  if n =? 0 then Ok 0
  else
    let* result := sq64_init n in
    let* sq := mulw 64 result result in
    let* r2 := mulw 64 2 result in
    let* q := divw (abs_diffw n sq) r2 in
    let div := Z.max q 1 in
    let* result := if sq <? n then addw 64 result div else subw result div in
    let* div :=
      if result =? 0 then Ok 2
      else
        let* sq := mulw 64 result result in
        let* r2 := mulw 64 2 result in
        let* q := divw (abs_diffw n sq) r2 in
        Ok (if q =? 0 then 2 else q) in
    loopn 64 (sq64_loop n) (result, div).

(** ** funcs.rs:12-79 [sqrt] *)
(** funcs.rs:32-48; the state carries [result], the value also the last [div] *)
Definition sqrt_newton (n : ubig) (self : ubig -> res (ubig * ubig)) (result : ubig) : res (ubig * ubig) :=
  let* result_sqr := umul result result in
  let* '(result, div) :=
    if ugeq n result_sqr then
      let* d := usub n result_sqr in
      let* d := udiv_u32 d 2 in
      let* div := udiv d result in
      Ok (uadd_mut result div, div)
    else
      let* d := usub result_sqr n in
      let* d := udiv_u32 d 2 in
      let* div := udiv d result in
      let* r := usub_mut result div in
      Ok (r, div) in
  if (length div <? 2)%nat then Ok (result, div) else self result.
(** funcs.rs:58-60 *)
Definition sqrt_up (n : ubig) (div : Z) (self : ubig -> res ubig) (result : ubig) : res ubig :=
  let* sq := umul result result in
  if ult sq n then let* r := uadd_u32_mut result div in self r else Ok result.
(** funcs.rs:69-71 *)
Definition sqrt_down (n : ubig) (div : Z) (self : ubig -> res ubig) (result : ubig) : res ubig :=
  let* sq := umul result result in
  if ugt sq n then let* r := usub_u32_mut result div in self r else Ok result.
(** funcs.rs:57-78 *)
Definition sqrt_loop (n : ubig) (self : ubig * Z -> res ubig) (s : ubig * Z) : res ubig :=
  let '(result, div) := s in
  let* result := loopn (ufuel n) (sqrt_up n div) result in
  let div := div / 4 in
  let div := if div <? 4 then 1 else div in
  let* result := loopn (ufuel n) (sqrt_down n div) result in
  let div := div / 4 in
  if div =? 0 then Ok result else self (result, div).
Definition usqrt (n : ubig) : res ubig :=
  if (length n <? 3)%nat then
    let* x := expect (uto_u64_opt n) in
    let* r := sqrt_u64 x in Ok (ufrom_u64 r)
  else
    let* k := subn (length n) 2 in
    let* x := expect (uto_u64_opt (ushift_right n k)) in
    let* approx := sqrt_u64 x in
    let result := ufrom_u64 approx in
    let* result := if negb (Nat.eqb (Nat.modulo (length n) 2) 0) then umul_u32_mut result 65536 else Ok result in
    let* sh := subn (Nat.div (length n) 2) 1 in
    let result := ushift_left_mut result sh in
    let* sq := umul result result in
    let* d := usub n sq in
    let* d := udiv_u32 d 2 in
    let* div := udiv d result in
    let result := uadd_mut result div in
    let* '(result, div) := loopn (ufuel n) (sqrt_newton n) result in
    let* div := expect (uto_u32_opt div) in
    let div := if div =? 0 then 2 else div in
    loopn 32 (sqrt_loop n) (result, div).

(** ** funcs.rs:81-136 [factorial] *)
Definition FACT20 : ubig := [2192834560; 566454140].
Definition FACT128 : ubig :=
  [0; 0; 0; 2147483648; 1653232837; 595720861; 948844160; 1991672462; 2500910141; 2421394908; 1199558731;
   684006397; 4097118094; 3861115933; 3624737256; 703871983; 1875727135; 2498653150; 380736459; 2256750694;
   3845178240; 3753984225; 4581].
(** funcs.rs:85-87 *)
Definition fact_small_body (i : Z) (result : Z) : res Z := mulw 64 result i.
(** funcs.rs:96-103 *)
Definition fact_mid_body (i : Z) (s : ubig * Z) : res (ubig * Z) :=
  let '(result, int_buffer) := s in
  let* int_buffer := mulw 32 int_buffer (castw 32 i) in
  if 16777216 <? int_buffer then
    let* result := umul_u32_mut result int_buffer in Ok (result, 1)
  else Ok (result, int_buffer).
(** funcs.rs:124-131 *)
Definition fact_big_body (i : Z) (s : ubig * ubig) : res (ubig * ubig) :=
  let '(result, buffer) := s in
  let* buffer := umul_u32_mut buffer (castw 32 i) in
  if (6 <? length buffer)%nat then
    let* result := umul_mut result buffer in Ok (result, uone)
  else Ok (result, buffer).
(** the half-open range [lo..n+1] has [n + 1 - lo] elements, none if negative *)
Definition ufactorial (n : Z) : res ubig :=
  if n <? 21 then
    let* result := for_ (Z.to_nat (n + 1 - 2)) 2 fact_small_body 1 in Ok (ufrom_u64 result)
  else if n <? 129 then
    let* '(result, int_buffer) := for_ (Z.to_nat (n + 1 - 21)) 21 fact_mid_body (FACT20, 1) in
    if 1 <? int_buffer then umul_u32_mut result int_buffer else Ok result
  else
    let* '(result, buffer) := for_ (Z.to_nat (n + 1 - 129)) 129 fact_big_body (FACT128, uone) in
    umul_mut result buffer.

(** ** funcs.rs:138-173 [fibonacci]; loop state (last, llast, result) *)
Definition FIB186 : ubig := [858943736; 3366396219; 4196493967; 4200843481].
Definition FIB185 : ubig := [3883453837; 806826839; 1203823756; 2596264053].
Definition fib_mid_body (i : Z) (s : Z * Z * Z) : res (Z * Z * Z) :=
  let '(last, llast, _) := s in
  let* result := addw 128 last llast in Ok (result, last, result).
Definition fib_big_body (i : Z) (s : ubig * ubig * ubig) : res (ubig * ubig * ubig) :=
  let '(last, llast, _) := s in
  let* result := uadd last llast in Ok (result, last, result).
Definition ufibonacci (n : Z) : res ubig :=
  if n <? 14 then
    let* x := getv [0; 1; 1; 2; 3; 5; 8; 13; 21; 34; 55; 89; 144; 233] (Z.to_nat n) in Ok (ufrom_u32 x)
  else if n <? 187 then
    let* '(_, _, result) := for_ (Z.to_nat (n - 13)) 0 fib_mid_body (233, 144, 0) in Ok (ufrom_u128 result)
  else
    let* '(_, _, result) := for_ (Z.to_nat (n - 186)) 0 fib_big_body (FIB186, FIB185, uzero) in Ok result.

(** ** funcs.rs:175-239 [is_prime] *)
(** funcs.rs:201-209 *)
Definition prime_small (self_ n : Z) (self : Z -> res bool) (div : Z) : res bool :=
  if div <? n then
    let* r := remw self_ div in
    if r =? 0 then Ok false else let* div := addw 32 div 2 in self div
  else Ok true.
(** funcs.rs:227-235 *)
Definition prime_big (a : ubig) (self : ubig -> res bool) (div : ubig) : res bool :=
  let* sq := umul div div in
  if uleq sq a then
    let* r := urem a div in
    if uis_zero r then Ok false else let* div := uadd_u32_mut div 2 in self div
  else Ok true.
(** funcs.rs:212-235: the counted loop (i iterations left), then the unbounded one *)
Definition prime_mid (a : ubig) (self : Z * Z -> res bool) (s : Z * Z) : res bool :=
  let '(i, div) := s in
  if 0 <? i then
    let* r := urem_u32 a div in
    if uis_zero r then Ok false else let* div := addw 32 div 2 in self (i - 1, div)
  else
    let* m := remw 4294967295 2 in
    let* d1 := addw 64 4294967295 m in
    let* d := addw 64 d1 1 in
    loopn (ufuel a) (prime_big a) (ufrom_u64 d).
Definition uis_prime (a : ubig) : res bool :=
  let* a0 := getv a 0 in
  if a0 mod 2 =? 0 then Ok ((a0 =? 2) && (length a =? 1)%nat)
  else if uis_one a then Ok false
  else
    let* s := usqrt a in
    let* iter_until := uadd_u32 s 1 in
    match uto_u32_opt iter_until with
    | Some n =>
        let* self_ := expect (uto_u64_opt a) in
        loopn 32 (prime_small self_ n) 3
    | None => loopn 32 (prime_mid a) (4294967295 / 2 - 1, 3)
    end.

(** ** funcs.rs:241-278 [prime_factorial]; [result] is the pushed list, in push order *)
(** funcs.rs:245-248 *)
Definition pf_two (self : ubig * list ubig -> res (ubig * list ubig)) (s : ubig * list ubig)
  : res (ubig * list ubig) :=
  let '(a, result) := s in
  let* g := ugt_u32 a 1 in
  let* even := if g then let* r := urem_pow2 a 2 in Ok (uis_zero r) else Ok false in
  if even then
    let* a := udiv_u32_mut a 2 in self (a, result ++ [ufrom_u32 2])
  else Ok (a, result).
(** funcs.rs:253-256 *)
Definition pf_div32 (div : Z) (self : ubig * list ubig -> res (ubig * list ubig)) (s : ubig * list ubig)
  : res (ubig * list ubig) :=
  let '(a, result) := s in
  let* r := urem_u32 a div in
  if uis_zero r then
    let* a := udiv_u32_mut a div in self (a, result ++ [ufrom_u32 div])
  else Ok (a, result).
(** funcs.rs:252-259 *)
Definition pf_odd32 (self : ubig * list ubig * Z -> res (ubig * list ubig)) (s : ubig * list ubig * Z)
  : res (ubig * list ubig) :=
  let '(a, result, div) := s in
  let* d2 := mulw 64 div div in
  if ugeq a (ufrom_u64 d2) then
    let* '(a, result) := loopn (ufuel a) (pf_div32 div) (a, result) in
    let* div := addw 32 div 2 in
    self (a, result, div)
  else Ok (a, result).
(** funcs.rs:265-268 *)
Definition pf_divbig (div : ubig) (self : ubig * list ubig -> res (ubig * list ubig)) (s : ubig * list ubig)
  : res (ubig * list ubig) :=
  let '(a, result) := s in
  let* r := urem a div in
  if uis_zero r then
    let* a := udiv_mut a div in self (a, result ++ [div])
  else Ok (a, result).
(** funcs.rs:264-271 *)
Definition pf_big (self : ubig * list ubig * ubig -> res (ubig * list ubig)) (s : ubig * list ubig * ubig)
  : res (ubig * list ubig) :=
  let '(a, result, div) := s in
  let* d2 := umul div div in
  if ugeq a d2 then
    let* '(a, result) := loopn (ufuel a) (pf_divbig div) (a, result) in
    let* div := uadd_u32_mut div 2 in
    self (a, result, div)
  else Ok (a, result).
Definition uprime_factorial (a : ubig) : res (list ubig) :=
  let* '(a, result) := loopn (ufuel a) pf_two (a, []) in
  let* '(a, result) := loopn 33 pf_odd32 (a, result, 3) in
  let* '(a, result) := loopn (ufuel a) pf_big (a, result, ufrom_u32 4294967295) in
  let* g := ugt_u32 a 1 in
  if g || (length result =? 0)%nat then Ok (result ++ [a]) else Ok result.

(** ** funcs/log.rs *)
(** log.rs:41-43 *)
Definition log2_u32 (n : Z) : Z := if n =? 0 then 0 else Z.log2 n.
(** log.rs:7-10; [len as u64] *)
Definition ulog2 (a : ubig) : res ubig :=
  let* l := subw (castw 64 (Z.of_nat (length a))) 1 in
  let* l32 := mulw 64 l 32 in
  let* i := subn (length a) 1 in
  let* top := getv a i in
  let* r := addw 64 l32 (log2_u32 top) in
  Ok (ufrom_u64 r).
(** log.rs:24-31 *)
Definition log2_acc_body (_ : Z) (s : ubig * Z) : res (ubig * Z) :=
  let '(x, result) := s in
  let* x := umul x x in
  let* x := umul x x in
  let* result := mulw 64 result 4 in
  if (6 <? length x)%nat then
    let* d := subn (length x) 6 in
    let* e := mulw 64 (castw 64 (Z.of_nat d)) 32 in
    let* result := addw 64 result e in
    Ok (ushift_right x d, result)
  else Ok (x, result).
(** log.rs:14-37 *)
Definition ulog2_accurate (a : ubig) : res ubig :=
  let* '(x, result) :=
    if (8 <? length a)%nat then
      let* d := subn (length a) 8 in
      let* e := mulw 64 (castw 64 (Z.of_nat d)) 32 in
      Ok (ushift_right a d, e)
    else Ok (a, 0) in
  let* '(x, result) := for_ 16 0 log2_acc_body (x, result) in
  let* l := subw (castw 64 (Z.of_nat (length x))) 1 in
  let* l32 := mulw 64 l 32 in
  let* i := subn (length x) 1 in
  let* top := getv x i in
  let* e := addw 64 l32 (log2_u32 top) in
  let* result := addw 64 result e in
  Ok (ufrom_u64 result).
