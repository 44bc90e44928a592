(** Model of src/bigint.rs and src/bigint/{arith,comp,convert,funcs}: signed big integers. *)
From Verif Require Import Base UBig UFun UStr.

(** src/bigint.rs:8-13; the [val] and [_is_neg] fields *)
Record bint : Type := mkB { bmag : ubig; bneg : bool }.

(** src/bigint.rs:23-57 *)
Definition bzero : bint := mkB uzero false.
Definition bone : bint := mkB uone false.
Definition bis_zero (a : bint) : bool := uis_zero (bmag a).
Definition bis_one (a : bint) : bool := uis_one (bmag a) && negb (bneg a).

(** src/bigint/convert.rs:76-79 *)
Definition from_ubi (n : ubig) (neg : bool) : bint := mkB n (neg && negb (uis_zero n)).

(** ** bigint/arith/add.rs *)
(** add.rs:12-28, also sub.rs:12-28: the branch that subtracts magnitudes; [^], [&] and [!] on bool *)
Definition bdiff (a b : bint) : res (ubig * bool) :=
  let self_less := ult (bmag a) (bmag b) in
  let* d := if self_less then usub (bmag b) (bmag a) else usub (bmag a) (bmag b) in
  Ok (d, xorb self_less (bneg a) && negb (uis_zero d)).
(** add.rs:6-34 *)
Definition badd (a b : bint) : res bint :=
  if Bool.eqb (bneg a) (bneg b) then
    let* s := uadd (bmag a) (bmag b) in Ok (from_ubi s (bneg a))
  else let* '(d, s) := bdiff a b in Ok (from_ubi d s).
(** add.rs:36-54 *)
Definition badd_mut (a b : bint) : res bint :=
  if Bool.eqb (bneg a) (bneg b) then Ok (mkB (uadd_mut (bmag a) (bmag b)) (bneg a))
  else
    let self_less := ult (bmag a) (bmag b) in
    let* d := if self_less then usub (bmag b) (bmag a) else usub_mut (bmag a) (bmag b) in
    Ok (mkB d (xorb self_less (bneg a) && negb (uis_zero d))).
(** add.rs:63-72, sub.rs:67-76 *)
Definition bdiff_i32 (a : bint) (other : Z) : res (ubig * bool) :=
  let* o := sabs 32 other in
  let other_abs := castw 32 o in
  let* self_less := ult_u32 (bmag a) other_abs in
  let* d := if self_less then
              let* x := expect (uto_u32_opt (bmag a)) in
              let* y := subw other_abs x in Ok (ufrom_u32 y)
            else usub_u32 (bmag a) other_abs in
  Ok (d, xorb self_less (bneg a) && negb (uis_zero d)).
(** add.rs:57-78 *)
Definition badd_i32 (a : bint) (other : Z) : res bint :=
  if Bool.eqb (bneg a) (other <? 0) then
    let* o := sabs 32 other in
    let* s := uadd_u32 (bmag a) (castw 32 o) in Ok (from_ubi s (bneg a))
  else let* '(d, s) := bdiff_i32 a other in Ok (from_ubi d s).
(** add.rs:80-98; the same steps, stored in place *)
Definition badd_i32_mut (a : bint) (other : Z) : res bint :=
  if Bool.eqb (bneg a) (other <? 0) then
    let* o := sabs 32 other in
    let* s := uadd_u32_mut (bmag a) (castw 32 o) in Ok (mkB s (bneg a))
  else let* '(d, s) := bdiff_i32 a other in Ok (mkB d s).

(** ** bigint/arith/sub.rs *)
(** sub.rs:6-34 *)
Definition bsub (a b : bint) : res bint :=
  if negb (Bool.eqb (bneg a) (bneg b)) then
    let* s := uadd (bmag a) (bmag b) in Ok (from_ubi s (bneg a))
  else let* '(d, s) := bdiff a b in Ok (from_ubi d s).
(** sub.rs:36-58 *)
Definition bsub_mut (a b : bint) : res bint :=
  if negb (Bool.eqb (bneg a) (bneg b)) then Ok (mkB (uadd_mut (bmag a) (bmag b)) (bneg a))
  else
    let self_less := ult (bmag a) (bmag b) in
    let* d := if self_less then usub (bmag b) (bmag a) else usub_mut (bmag a) (bmag b) in
    Ok (mkB d (xorb self_less (bneg a) && negb (uis_zero d))).
(** sub.rs:61-82 *)
Definition bsub_i32 (a : bint) (other : Z) : res bint :=
  if negb (Bool.eqb (bneg a) (other <? 0)) then
    let* o := sabs 32 other in
    let* s := uadd_u32 (bmag a) (castw 32 o) in Ok (from_ubi s (bneg a))
  else let* '(d, s) := bdiff_i32 a other in Ok (from_ubi d s).
(** sub.rs:84-106 *)
Definition bsub_i32_mut (a : bint) (other : Z) : res bint :=
  if negb (Bool.eqb (bneg a) (other <? 0)) then
    let* o := sabs 32 other in
    let* s := uadd_u32_mut (bmag a) (castw 32 o) in Ok (mkB s (bneg a))
  else let* '(d, s) := bdiff_i32 a other in Ok (mkB d s).

(** ** bigint/arith/mul.rs *)
(** mul.rs:6-15 *)
Definition bmul (a b : bint) : res bint :=
  let* v := umul (bmag a) (bmag b) in
  Ok (from_ubi v (negb (uis_zero v) && negb (Bool.eqb (bneg a) (bneg b)))).
(** mul.rs:17-21 *)
Definition bmul_mut (a b : bint) : res bint :=
  let* v := umul_mut (bmag a) (bmag b) in
  Ok (mkB v (negb (uis_zero v) && negb (Bool.eqb (bneg a) (bneg b)))).
(** mul.rs:24-33 *)
Definition bmul_i32 (a : bint) (other : Z) : res bint :=
  let* o := sabs 32 other in
  let* v := umul_u32 (bmag a) (castw 32 o) in
  Ok (from_ubi v (negb (uis_zero v) && negb (Bool.eqb (bneg a) (other <? 0)))).
(** mul.rs:35-39 *)
Definition bmul_i32_mut (a : bint) (other : Z) : res bint :=
  let* o := sabs 32 other in
  let* v := umul_u32_mut (bmag a) (castw 32 o) in
  Ok (mkB v (negb (uis_zero v) && negb (Bool.eqb (bneg a) (other <? 0)))).
(** mul.rs:43-45 *)
Definition bmul_pow2 (a : bint) (e : Z) : res bint :=
  let* v := umul_pow2 (bmag a) e in Ok (from_ubi v (bneg a)).
(** mul.rs:48-50 *)
Definition bmul_pow2_mut (a : bint) (e : Z) : res bint :=
  let* v := umul_pow2_mut (bmag a) e in Ok (mkB v (bneg a)).

(** ** bigint/arith/div.rs *)
(** div.rs:6-15 *)
Definition bdiv (a b : bint) : res bint :=
  let* v := udiv (bmag a) (bmag b) in
  Ok (from_ubi v (negb (uis_zero v) && negb (Bool.eqb (bneg a) (bneg b)))).
(** div.rs:17-21 *)
Definition bdiv_mut (a b : bint) : res bint :=
  let* v := udiv_mut (bmag a) (bmag b) in
  Ok (mkB v (negb (uis_zero v) && negb (Bool.eqb (bneg a) (bneg b)))).
(** div.rs:24-33 *)
Definition bdiv_i32 (a : bint) (other : Z) : res bint :=
  let* o := sabs 32 other in
  let* v := udiv_u32 (bmag a) (castw 32 o) in
  Ok (from_ubi v (negb (uis_zero v) && negb (Bool.eqb (bneg a) (other <? 0)))).
(** div.rs:35-39 *)
Definition bdiv_i32_mut (a : bint) (other : Z) : res bint :=
  let* o := sabs 32 other in
  let* v := udiv_u32_mut (bmag a) (castw 32 o) in
  Ok (mkB v (negb (uis_zero v) && negb (Bool.eqb (bneg a) (other <? 0)))).

(** ** bigint/arith/rem.rs *)
(** rem.rs:7-16 *)
Definition brem (a b : bint) : res bint :=
  let* sdo := bdiv a b in
  let* sdo := bmul_mut sdo b in
  bsub a sdo.
(** rem.rs:18-23 *)
Definition brem_mut (a b : bint) : res bint :=
  let* sdo := bdiv a b in
  let* sdo := bmul_mut sdo b in
  bsub_mut a sdo.
(** rem.rs:28-37 *)
Definition brem_i32 (a : bint) (other : Z) : res bint :=
  let* o := sabs 32 other in
  let* v := urem_u32 (bmag a) (castw 32 o) in
  Ok (from_ubi v (bneg a && negb (uis_zero v))).
(** rem.rs:39-43 *)
Definition brem_i32_mut (a : bint) (other : Z) : res bint :=
  let* o := sabs 32 other in
  let* v := urem_u32_mut (bmag a) (castw 32 o) in
  Ok (mkB v (bneg a && negb (uis_zero v))).
(** rem.rs:47-52 *)
Definition brem_pow2 (a : bint) (other : Z) : res bint :=
  let* o := sabs 32 other in
  let* v := urem_pow2 (bmag a) (castw 32 o) in
  Ok (from_ubi v (bneg a && negb (uis_zero v))).

(** ** bigint/arith/pow.rs *)
(** pow.rs:7-9 *)
Definition bpow_u32 (a : bint) (e : Z) : res bint :=
  let* v := upow_u32 (bmag a) e in Ok (from_ubi v (bneg a && (e mod 2 =? 1))).
(** pow.rs:11-14 *)
Definition bpow_u32_mut (a : bint) (e : Z) : res bint :=
  let* v := upow_u32_mut (bmag a) e in Ok (mkB v (bneg a && (e mod 2 =? 1))).
(** pow.rs:18-20 *)
Definition bpow2 (e : Z) : bint := from_ubi (upow2 e) false.

(** ** bigint/comp.rs *)
(** comp.rs:7-29 *)
Definition blt (a b : bint) : bool :=
  if negb (Bool.eqb (bneg a) (bneg b)) then bneg a
  else match ucomp (bmag a) (bmag b) with
       | Eq => false
       | Lt => if bneg a then false else true
       | Gt => if bneg a then true else false
       end.
(** comp.rs:32-54 *)
Definition bgt (a b : bint) : bool :=
  if negb (Bool.eqb (bneg a) (bneg b)) then bneg b
  else match ucomp (bmag a) (bmag b) with
       | Eq => false
       | Lt => if bneg a then true else false
       | Gt => if bneg a then false else true
       end.
(** comp.rs:58-64: the derived [PartialEq] compares both fields *)
Definition beq (a b : bint) : bool := ueq (bmag a) (bmag b) && Bool.eqb (bneg a) (bneg b).
Definition bneq (a b : bint) : bool := negb (beq a b).
(** comp.rs:67-74 *)
Definition bleq (a b : bint) : bool := negb (bgt a b).
Definition bgeq (a b : bint) : bool := negb (blt a b).
(** comp.rs:76-96, 195-205 *)
Definition bcomp (a b : bint) : comparison :=
  if negb (Bool.eqb (bneg a) (bneg b)) then if bneg a then Lt else Gt
  else match ucomp (bmag a) (bmag b) with
       | Eq => Eq
       | Lt => if bneg a then Gt else Lt
       | Gt => if bneg a then Lt else Gt
       end.
(** comp.rs:99-121 *)
Definition blt_i32 (a : bint) (other : Z) : res bool :=
  if negb (Bool.eqb (bneg a) (other <? 0)) then Ok (bneg a)
  else
    let* o := sabs 32 other in
    let* c := ucomp_u32 (bmag a) (castw 32 o) in
    Ok (match c with Eq => false | Lt => if bneg a then false else true | Gt => if bneg a then true else false end).
(** comp.rs:124-146 *)
Definition bgt_i32 (a : bint) (other : Z) : res bool :=
  if negb (Bool.eqb (bneg a) (other <? 0)) then Ok (other <? 0)
  else
    let* o := sabs 32 other in
    let* c := ucomp_u32 (bmag a) (castw 32 o) in
    Ok (match c with Eq => false | Lt => if bneg a then true else false | Gt => if bneg a then false else true end).
(** comp.rs:148-156 *)
Definition beq_i32 (a : bint) (other : Z) : res bool :=
  if negb (Bool.eqb (bneg a) (other <? 0)) then Ok false
  else
    let* x := expect (uto_u32_opt (bmag a)) in
    let* o := sabs 32 other in
    Ok (x =? castw 32 o).
(** comp.rs:158-170 *)
Definition bneq_i32 (a : bint) (other : Z) : res bool := let* r := beq_i32 a other in Ok (negb r).
Definition bleq_i32 (a : bint) (other : Z) : res bool := let* r := bgt_i32 a other in Ok (negb r).
Definition bgeq_i32 (a : bint) (other : Z) : res bool := let* r := blt_i32 a other in Ok (negb r).
(** comp.rs:172-192 *)
Definition bcomp_i32 (a : bint) (other : Z) : res comparison :=
  if negb (Bool.eqb (bneg a) (other <? 0)) then Ok (if bneg a then Lt else Gt)
  else
    let* o := sabs 32 other in
    let* c := ucomp_u32 (bmag a) (castw 32 o) in
    Ok (match c with Eq => Eq | Lt => if bneg a then Gt else Lt | Gt => if bneg a then Lt else Gt end).

(** ** bigint/convert.rs *)
(** convert.rs:10-17, 32-39, 54-61; [n.abs() as u..] *)
Definition bfrom_i32 (n : Z) : res bint := let* x := sabs 32 n in Ok (mkB (ufrom_u32 (castw 32 x)) (n <? 0)).
Definition bfrom_i64 (n : Z) : res bint := let* x := sabs 64 n in Ok (mkB (ufrom_u64 (castw 64 x)) (n <? 0)).
Definition bfrom_i128 (n : Z) : res bint := let* x := sabs 128 n in Ok (mkB (ufrom_u128 (castw 128 x)) (n <? 0)).
(** [as] cast to a signed width *)
Definition casts (w x : Z) : Z := (x + 2 ^ (w - 1)) mod 2 ^ w - 2 ^ (w - 1).
(** convert.rs:19-30: [(i32::MIN as i64).abs() as u32] is 2^31; [-(n as i64)] cannot overflow; error texts abstracted *)
Definition bto_i32 (a : bint) : rslt Z cerr :=
  match uto_u32_opt (bmag a) with
  | Some n => if negb (bneg a) && (n <=? 2147483647) then ROk (casts 32 n)
              else if bneg a && (n <=? 2147483648) then ROk (casts 32 (- n))
              else RErr NotInRange
  | None => RErr NotInRange
  end.
(** convert.rs:41-52 *)
Definition bto_i64 (a : bint) : rslt Z cerr :=
  match uto_u64_opt (bmag a) with
  | Some n => if negb (bneg a) && (n <=? 9223372036854775807) then ROk (casts 64 n)
              else if bneg a && (n <=? 9223372036854775808) then ROk (casts 64 (- n))
              else RErr NotInRange
  | None => RErr NotInRange
  end.
(** convert.rs:63-74: [-(n as i128)] with n < 2^127, so neither the cast nor the negation wraps *)
Definition bto_i128 (a : bint) : rslt Z cerr :=
  match uto_u128_opt (bmag a) with
  | Some n => if negb (bneg a) && (n <=? 170141183460469231731687303715884105727) then ROk (casts 128 n)
              else if bneg a && (n <? 170141183460469231731687303715884105728) then ROk (- casts 128 n)
              else RErr NotInRange
  | None => RErr NotInRange
  end.
(** convert.rs:81-89 *)
Definition bto_ubi (a : bint) : rslt ubig cerr := if bneg a then RErr NotInRange else ROk (bmag a).

(** convert.rs:93-128; [s.get(1..)] is the tail because '-' is one byte long, and never [None] *)
Definition bfrom_string (s : list Z) : res (rslt bint cerr) :=
  match s with
  | [] => Ok (RErr NoData)
  | 45 :: t => rbind (ufrom_string t) (fun n => Ok (ROk (mkB n (negb (uis_zero n)))))
  | _ => rbind (ufrom_string s) (fun n => Ok (ROk (mkB n false)))
  end.
(** convert.rs:131-173 *)
Definition bsign (a : bint) : list Z := if bneg a then [45] else [].
Definition bto_scientific_notation (a : bint) (max : nat) : res (list Z) :=
  let* s := uto_scientific_notation (bmag a) max in Ok (bsign a ++ s).
Definition bto_string_dec (a : bint) : res (list Z) := let* s := uto_string_dec (bmag a) in Ok (bsign a ++ s).
Definition bto_string_hex (a : bint) (p : bool) : res (list Z) := let* s := uto_string_hex (bmag a) p in Ok (bsign a ++ s).
Definition bto_string_oct (a : bint) (p : bool) : res (list Z) := let* s := uto_string_oct (bmag a) p in Ok (bsign a ++ s).
Definition bto_string_bin (a : bint) (p : bool) : res (list Z) := let* s := uto_string_bin (bmag a) p in Ok (bsign a ++ s).

(** ** bigint/funcs.rs *)
(** funcs.rs:10-31 *)
Definition bexp2 (n : Z) : bint := from_ubi (uexp2 n) false.
Definition blog2 (a : bint) : res bint := let* v := ulog2 (bmag a) in Ok (from_ubi v false).
Definition blog2_accurate (a : bint) : res bint := let* v := ulog2_accurate (bmag a) in Ok (from_ubi v false).
Definition bsqrt (a : bint) : res bint := let* v := usqrt (bmag a) in Ok (from_ubi v (bneg a)).
(** funcs.rs:34-53; the field of the struct is called [bneg] here, hence [bopp] for [neg] *)
Definition bopp (a : bint) : bint := from_ubi (bmag a) (negb (bneg a) && negb (uis_zero (bmag a))).
Definition bopp_mut (a : bint) : bint := mkB (bmag a) (negb (bneg a) && negb (uis_zero (bmag a))).
Definition babs (a : bint) : bint := from_ubi (bmag a) false.
Definition babs_mut (a : bint) : bint := mkB (bmag a) false.
(** funcs.rs:56-73 *)
Definition bis_prime (a : bint) : res bool := uis_prime (bmag a).
Definition bprime_factorial (a : bint) : res (list bint) :=
  let* l := uprime_factorial (bmag a) in Ok (map (fun n => from_ubi n false) l).
Definition bfactorial (n : Z) : res bint := let* v := ufactorial n in Ok (from_ubi v false).
Definition bfibonacci (n : Z) : res bint := let* v := ufibonacci n in Ok (from_ubi v false).
(** funcs.rs:77-116 *)
Definition bshift_right (a : bint) (n : nat) : bint :=
  let v := ushift_right (bmag a) n in from_ubi v (negb (uis_zero v) && bneg a).
Definition bshift_right_mut (a : bint) (n : nat) : bint :=
  let v := ushift_right_mut (bmag a) n in mkB v (negb (uis_zero v) && bneg a).
Definition bshift_left (a : bint) (n : nat) : bint := from_ubi (ushift_left (bmag a) n) (bneg a).
Definition bshift_left_mut (a : bint) (n : nat) : bint := mkB (ushift_left_mut (bmag a) n) (bneg a).
Definition bslice_right (a : bint) (n : nat) : res bint :=
  let* v := uslice_right (bmag a) n in Ok (from_ubi v (negb (uis_zero v) && bneg a)).
Definition bslice_right_mut (a : bint) (n : nat) : res bint :=
  let* v := uslice_right_mut (bmag a) n in Ok (mkB v (negb (uis_zero v) && bneg a)).
(** funcs.rs:132-134 *)
Definition bgcd (a b : bint) : res bint := let* v := ugcd (bmag a) (bmag b) in Ok (from_ubi v false).
