(** Model of the approximate text output of src/ratio/convert.rs: [to_approx_string], [to_scientific_notation], [Display]. *)
From Verif Require Import Base UBig UFun UStr BBig RBig RIeee RIter XFun.

(** convert.rs:242, 457: the difference of the scaled logarithms *)
Definition log2_diff (r : rat) : res bint :=
  let* a := blog2_accurate (rnum r) in
  let* b := blog2_accurate (rden r) in
  bsub a b.
(** convert.rs:245, 457: [.mul_i32(21306).div_i32(70777).shift_right(1).to_i64().unwrap()] *)
Definition log10_i64 (log2 : bint) : res Z :=
  let* t := bmul_i32 log2 21306 in
  let* t := bdiv_i32 t 70777 in
  unwrap (bto_i64 (bshift_right t 1)).

(** convert.rs:500-528 [exp10] *)
Definition exp10_body (n : rat) (_ : Z) (s : bint * rat * bint * rat) : res (bint * rat * bint * rat) :=
  let '(small, small_exp, big, big_exp) := s in
  let* m := bmul small big in
  let* mid := bsqrt m in
  let* t := radd small_exp big_exp in
  let* mid_exp := rdiv_i32 t 2 in
  let* c := rlt mid_exp n in
  Ok (if c then (mid, mid_exp, big, big_exp) else (small, small_exp, mid, mid_exp)).
Definition exp10 (n : rat) : res Z :=
  let* ten := bfrom_i32 10 in
  let* '(small, _, _, _) := for_ 32 0 (exp10_body n) (mkB [0; 1] false, rzero, bshift_left ten 1, rone) in
  unwrap (bto_i64 small).

(** convert.rs:251-291: more than 9990 digits before or after the point *)
Definition ta_extreme (sign_part : list Z) (log2 : bint) : res (list Z) :=
  let* d := bfrom_i64 (70777 * 2 ^ 32) in
  let* n := bmul_i32 log2 21306 in
  let* log10 := from_dn d n in
  let* '(exp, frac) := rtruncate_and_frac log10 in
  let* '(exp, frac) :=
    if bneg exp && negb (ris_zero frac) then
      let* exp := bsub_i32_mut exp 1 in
      let frac := rabs_mut frac in
      let* frac := rsub rone frac in
      Ok (exp, frac)
    else Ok (exp, frac) in
  let* x := exp10 frac in
  let* d := bfrom_i64 (2 ^ 32) in
  let* n := bfrom_i64 x in
  let* r := from_dn d n in
  let* r := rmul_i32 r 1000000 in
  let* t := rtruncate_bi r in
  let* digits := unwrap (bto_i32 t) in
  let* digits := if 992 <? Z.rem digits 1000 then
                   let* k := ssub 32 1000 (Z.rem digits 1000) in sadd 32 digits k
                 else Ok digits in
  let digits := Z.quot digits 1000 in
  let text := if Z.rem digits 1000 =? 0 then fmt_sint (Z.quot digits 1000)
    else if Z.rem digits 100 =? 0 then fmt_sint (Z.quot digits 1000) ++ [46] ++ fmt_sint (Z.rem (Z.quot digits 100) 10)
    else if Z.rem digits 10 =? 0 then fmt_sint (Z.quot digits 1000) ++ [46] ++ zpad 2 (fmt_sint (Z.quot (Z.rem digits 1000) 10))
    else fmt_sint (Z.quot digits 1000) ++ [46] ++ zpad 3 (fmt_sint (Z.rem digits 1000)) in
  let* e := bto_string_dec exp in
  Ok (sign_part ++ text ++ [101] ++ e).

(** [digits.pop()] while the last digit is zero, on the vector in push order (last element first) *)
Fixpoint pop0 (rd : list Z) : list Z :=
  match rd with [] => [] | d :: t => if d =? 0 then pop0 t else rd end.
(** convert.rs:320-322: the same, keeping one digit *)
Fixpoint pop1 (rd : list Z) : list Z :=
  match rd with d :: ((_ :: _) as t) => if d =? 0 then pop1 t else rd | _ => rd end.
(** convert.rs:394-397: pop while too long *)
Fixpoint popn (max_len : nat) (rd : list Z) (curr_len : nat) : list Z :=
  match rd with [] => [] | _ :: t => if (max_len <? curr_len)%nat then popn max_len t (curr_len - 1) else rd end.

(** convert.rs:305-308: divide by ten until the value is at most 1_000_000_000 *)
Definition ta_cut (self : bint * Z -> res (bint * Z)) (s : bint * Z) : res (bint * Z) :=
  let '(bi, exp) := s in
  let* c := if (1 <? blen bi)%nat then Ok true else bgt_i32 bi 1000000000 in
  if c then
    let* bi := bdiv_i32_mut bi 10 in
    let* exp := sadd 64 exp 1 in self (bi, exp)
  else Ok (bi, exp).
(** convert.rs:313-317: the digits in push order *)
Definition ta_digs (self : Z * list Z * Z -> res (list Z * Z)) (s : Z * list Z * Z) : res (list Z * Z) :=
  let '(bi, digits, exp) := s in
  if 0 <? bi then
    let* exp := sadd 64 exp 1 in self (Z.quot bi 10, Z.rem bi 10 :: digits, exp)
  else Ok (digits, exp).
(** [s.get(0..n).unwrap()] of an ASCII string *)
Definition sget (s : list Z) (n : nat) : res (list Z) := if (n <=? length s)%nat then Ok (firstn n s) else Panic.
(** [ends_with('.')], then drop that character *)
Definition drop_dot (s : list Z) : list Z := if last s 0 =? 46 then removelast s else s.
(** digits most significant first, a point behind the first one; [digits[0]] panics on an empty vector *)
Definition dotted (digits : list Z) : res (list Z) :=
  match digits with
  | [] => Panic
  | [d] => Ok (fmt_sint d)
  | d :: t => Ok (fmt_sint d ++ [46] ++ concat (map fmt_sint t))
  end.
(** convert.rs:293-351 *)
Definition ta_large (r : rat) (sign_part : list Z) (max_len : nat) (log10i64 : Z) : res (list Z) :=
  let* bi := rtruncate_bi r in
  let bi := babs_mut bi in
  let* '(bi, exp) :=
    if 15 <? log10i64 then
      let* k := subw (castw 32 log10i64) 10 in
      let* ten := bfrom_i32 10 in
      let* p := bpow_u32 ten k in
      let* bi := bdiv_mut bi p in
      let* e := ssub 64 log10i64 10 in
      Ok (bi, e)
    else Ok (bi, 0) in
  let* '(bi, exp) := loopn (ufuel (bmag bi)) ta_cut (bi, exp) in
  let* bi := unwrap (bto_i32 bi) in
  let* '(digits, exp) := loopn 32 ta_digs (bi, [], exp) in
  let* exp := ssub 64 exp 1 in
  let digits := rev (pop1 (rev digits)) in
  let* digits := dotted digits in
  let exp := 101 :: fmt_sint exp in
  let max_len := Nat.max max_len (length exp + 3) in
  let* digits :=
    if (max_len <? length digits + length exp + length sign_part)%nat then
      let* k := subn max_len (length exp) in
      let* k := subn k (length sign_part) in
      let* digits := sget digits k in
      Ok (drop_dot digits)
    else Ok digits in
  Ok (sign_part ++ digits ++ exp).

(** convert.rs:362-365, 367-370: cancel factors [p] (2 or 5) of the denominator *)
Definition ta_cancel (p : Z) (self : bint * Z -> res (bint * Z)) (s : bint * Z) : res (bint * Z) :=
  let '(d, k) := s in
  if 0 <? k then
    let* m := if p =? 2 then brem_pow2 d 2 else brem_i32 d p in
    if bis_zero m then
      let* d := bdiv_i32_mut d p in
      let* k := ssub 64 k 1 in self (d, k)
    else Ok (d, k)
  else Ok (d, k).
(** convert.rs:382-386: the digits in push order, then reversed (387) *)
Definition ta_bdigs (self : bint * list Z * Z -> res (list Z * Z)) (s : bint * list Z * Z) : res (list Z * Z) :=
  let '(n, digits, exp) := s in
  let* c := bgt_i32 n 0 in
  if c then
    let* m := brem_i32 n 10 in
    let* d := unwrap (bto_i32 m) in
    let* n := bdiv_i32_mut n 10 in
    let* exp := sadd 64 exp 1 in self (n, d :: digits, exp)
  else Ok (digits, exp).
(** convert.rs:353-410 *)
Definition ta_small (r : rat) (sign_part : list Z) (max_len : nat) (log10i64 : Z) : res (list Z) :=
  let self_clone := rabs r in
  let* '(self_clone, exp) :=
    if log10i64 <? -6 then
      let* pow10 := sneg 64 log10i64 in
      let* '(d, pow2) := loopn 64 (ta_cancel 2) (rden self_clone, pow10) in
      let* '(d, pow5) := loopn 64 (ta_cancel 5) (d, pow10) in
      let* five := bfrom_i32 5 in
      let* p5 := bpow_u32 five (castw 32 pow5) in
      let* f := bmul (bexp2 (castw 64 pow2)) p5 in
      let* n := bmul_mut (rnum self_clone) f in
      let* e := ssub 64 (-1) pow10 in
      Ok (mkR d n, e)
    else Ok (self_clone, -1) in
  let* t := rmul_i32 self_clone 1000000000 in
  let* self_int := rtruncate_bi t in
  let* exp := ssub 64 exp 9 in
  let* '(digits, exp) := loopn (ufuel (bmag self_int)) ta_bdigs (self_int, [], exp) in
  let exp := 101 :: fmt_sint exp in
  let max_len := Nat.max max_len (length exp + 3) in
  let curr_len := (length digits + length sign_part + length exp + 1)%nat in
  let digits := rev (pop0 (popn max_len (rev digits) curr_len)) in
  let* digits := dotted digits in
  Ok (sign_part ++ digits ++ exp).

(** convert.rs:419-424; the loop runs while [curr_len < max_len] *)
Fixpoint ta_frac (n : nat) (frac_part : rat) (digits : list Z) : res (list Z) :=
  match n with
  | O => Ok digits
  | S m =>
      let* f := rmul_i32_mut frac_part 10 in
      let* t := rtruncate_bi f in
      let* d := unwrap (bto_i32 t) in
      let* f := rfrac_mut f in
      ta_frac m f (digits ++ [d])
  end.
(** convert.rs:412-434 *)
Definition ta_mid (r : rat) (sign_part : list Z) (max_len : nat) : res (list Z) :=
  let* t := rtruncate_bi r in
  let* int_part := bto_string_dec (babs t) in
  let* frac_part := rfrac (rabs r) in
  let curr_len := (length int_part + 1 + length sign_part)%nat in
  let* digits := ta_frac (max_len - curr_len) frac_part [] in
  let digits := rev (pop0 (rev digits)) in
  Ok (if (0 <? length digits)%nat then sign_part ++ int_part ++ [46] ++ concat (map fmt_sint digits)
      else sign_part ++ int_part).

(** convert.rs:239-438; the final assertion is compiled for tests only *)
Definition rto_approx_string (r : rat) (max_len : nat) : res (list Z) :=
  let max_len := Nat.max max_len 6 in
  let* log2 := log2_diff r in
  let* log10i64 := log10_i64 log2 in
  let sign_part := if ris_neg r then [45] else [] in
  let* a := sabs 64 log10i64 in
  if 9990 <? a then ta_extreme sign_part log2
  else
    let* m := ssub 64 (casts 64 (Z.of_nat max_len)) 3 in
    if m <? log10i64 then ta_large r sign_part max_len log10i64
    else
      let* m' := sneg 64 m in
      if log10i64 <? m' then ta_small r sign_part max_len log10i64
      else ta_mid r sign_part max_len.
(** convert.rs:480-482, 530-534: [to_string] and [Display] *)
Definition rto_string (r : rat) : res (list Z) := rto_approx_string r 12.

(** convert.rs:442-476 *)
Definition rto_scientific_notation (r : rat) (max : nat) : res (list Z) :=
  let len_min := Nat.min (blen (rnum r)) (blen (rden r)) in
  let* c := if (4 <? len_min)%nat then
              from_dn (bshift_right (rden r) (len_min - 4)) (bshift_right (rnum r) (len_min - 4))
            else Ok r in
  let c := rabs_mut c in
  let* l := log2_diff c in
  let* approx_digits := log10_i64 l in
  let* ten := bfrom_i32 10 in
  let* '(exp, x) :=
    if approx_digits <? 17 then
      let* k := ssub 64 17 approx_digits in
      let* exp := ssub 64 0 k in
      let* p := bpow_u32 ten (castw 32 k) in
      let* n := bmul (rnum c) p in
      let* q := bdiv n (rden c) in
      let* x := unwrap (bto_i64 q) in Ok (exp, x)
    else
      let* exp := ssub 64 approx_digits 17 in
      let* k := subw (castw 32 approx_digits) 17 in
      let* p := bpow_u32 ten k in
      let* d := bmul (rden c) p in
      let* q := bdiv (rnum c) d in
      let* x := unwrap (bto_i64 q) in Ok (exp, x) in
  let* '(digits, new_exp) := sci_u64 (castw 64 x) max in
  let* e := sadd 64 exp new_exp in
  Ok ((if ris_neg r then [45] else []) ++ digits ++ [101] ++ fmt_sint e).
