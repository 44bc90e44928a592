(** Model of src/ratio.rs and src/ratio/{arith,comp,funcs}: rational numbers; also the primitive-integer conversions. *)
From Verif Require Import Base UBig UFun UStr BBig.

(** src/ratio.rs:14-20 *)
Record rat : Type := mkR { rden : bint; rnum : bint }.

(** ratio.rs:47-77 *)
Definition rzero : rat := mkR bone bzero.
Definition rone : rat := mkR bone bone.
Definition ris_neg (r : rat) : bool := bneg (rnum r).
Definition ris_one (r : rat) : bool := bis_one (rden r) && bis_one (rnum r).
Definition ris_zero (r : rat) : bool := bis_one (rden r) && bis_zero (rnum r).
Definition ris_integer (r : rat) : bool := bis_one (rden r).

(** ratio.rs:85-98 *)
Definition rfit (r : rat) : res rat :=
  let r := if bneg (rden r) then mkR (bopp_mut (rden r)) (bopp_mut (rnum r)) else r in
  let* g := bgcd (rden r) (rnum r) in
  if negb (bis_one g) then
    let* d := bdiv_mut (rden r) g in
    let* n := bdiv_mut (rnum r) g in
    Ok (mkR d n)
  else Ok r.

(** ** ratio/convert.rs: constructors *)
(** convert.rs:14-19, 44-46 *)
Definition from_dn (d n : bint) : res rat := rfit (mkR d n).
(** convert.rs:22-36; the i32 operations are checked ([i32::MIN / -1] cannot arise since gcd_i32 is not negative) *)
Definition from_dn_i32 (denom numer : Z) : res rat :=
  let* r := gcd_i32 denom numer in
  let* '(denom, numer) :=
    if negb (r =? 1) then
      if r =? 0 then Panic else
      let* d := sres 32 (Z.quot denom r) in
      let* n := sres 32 (Z.quot numer r) in Ok (d, n)
    else Ok (denom, numer) in
  let* '(denom, numer) :=
    if denom <? 0 then
      let* d := smul 32 denom (-1) in
      let* n := smul 32 numer (-1) in Ok (d, n)
    else Ok (denom, numer) in
  let* d := bfrom_i32 denom in
  let* n := bfrom_i32 numer in
  Ok (mkR d n).
(** convert.rs:48-75 *)
Definition rfrom_bi (n : bint) : rat := mkR bone n.
Definition rfrom_ubi (n : ubig) : rat := mkR bone (from_ubi n false).
Definition rfrom_i32 (n : Z) : res rat := let* b := bfrom_i32 n in Ok (mkR bone b).
Definition rfrom_i64 (n : Z) : res rat := let* b := bfrom_i64 n in Ok (mkR bone b).
Definition rfrom_i128 (n : Z) : res rat := let* b := bfrom_i128 n in Ok (mkR bone b).

(** ** ratio/arith/add.rs *)
(** add.rs:6-15 *)
Definition radd (a b : rat) : res rat :=
  let* d := bmul (rden a) (rden b) in
  let* x := bmul (rden a) (rnum b) in
  let* y := bmul (rden b) (rnum a) in
  let* n := badd x y in
  from_dn d n.
(** add.rs:17-22 *)
Definition radd_mut (a b : rat) : res rat :=
  let* x := bmul (rden a) (rnum b) in
  let* y := bmul (rden b) (rnum a) in
  let* n := badd x y in
  let* d := bmul_mut (rden a) (rden b) in
  rfit (mkR d n).
(** add.rs:25-36 *)
Definition radd_bi (a : rat) (b : bint) : res rat :=
  let* x := bmul (rden a) b in
  let* n := badd (rnum a) x in
  Ok (mkR (rden a) n).
(** add.rs:38-41 *)
Definition radd_bi_mut (a : rat) (b : bint) : res rat :=
  let* x := bmul (rden a) b in
  let* n := badd_mut (rnum a) x in
  Ok (mkR (rden a) n).
(** add.rs:44-55 *)
Definition radd_i32 (a : rat) (o : Z) : res rat :=
  let* x := bmul_i32 (rden a) o in
  let* n := badd (rnum a) x in
  Ok (mkR (rden a) n).
(** add.rs:57-60 *)
Definition radd_i32_mut (a : rat) (o : Z) : res rat :=
  let* x := bmul_i32 (rden a) o in
  let* n := badd_mut (rnum a) x in
  Ok (mkR (rden a) n).

(** ** ratio/arith/sub.rs *)
(** sub.rs:6-15 *)
Definition rsub (a b : rat) : res rat :=
  let* d := bmul (rden a) (rden b) in
  let* x := bmul (rnum a) (rden b) in
  let* y := bmul (rnum b) (rden a) in
  let* n := bsub x y in
  from_dn d n.
(** sub.rs:17-22 *)
Definition rsub_mut (a b : rat) : res rat :=
  let* x := bmul (rnum a) (rden b) in
  let* y := bmul (rnum b) (rden a) in
  let* n := bsub x y in
  let* d := bmul_mut (rden a) (rden b) in
  rfit (mkR d n).
(** sub.rs:25-36 *)
Definition rsub_bi (a : rat) (b : bint) : res rat :=
  let* x := bmul (rden a) b in
  let* n := bsub (rnum a) x in
  Ok (mkR (rden a) n).
(** sub.rs:38-41 *)
Definition rsub_bi_mut (a : rat) (b : bint) : res rat :=
  let* x := bmul (rden a) b in
  let* n := bsub_mut (rnum a) x in
  Ok (mkR (rden a) n).
(** sub.rs:44-55 *)
Definition rsub_i32 (a : rat) (o : Z) : res rat :=
  let* x := bmul_i32 (rden a) o in
  let* n := bsub (rnum a) x in
  Ok (mkR (rden a) n).
(** sub.rs:57-60 *)
Definition rsub_i32_mut (a : rat) (o : Z) : res rat :=
  let* x := bmul_i32 (rden a) o in
  let* n := bsub_mut (rnum a) x in
  Ok (mkR (rden a) n).

(** ** ratio/arith/mul.rs *)
(** mul.rs:6-15 *)
Definition rmul (a b : rat) : res rat :=
  let* d := bmul (rden a) (rden b) in
  let* n := bmul (rnum a) (rnum b) in
  from_dn d n.
(** mul.rs:17-23 *)
Definition rmul_mut (a b : rat) : res rat :=
  let* d := bmul_mut (rden a) (rden b) in
  let* n := bmul_mut (rnum a) (rnum b) in
  rfit (mkR d n).
(** mul.rs:33-46 *)
Definition rmul_bi_mut (a : rat) (b : bint) : res rat :=
  let* r := bgcd (rden a) b in
  if bis_one r then
    let* n := bmul_mut (rnum a) b in Ok (mkR (rden a) n)
  else
    let* q := bdiv b r in
    let* n := bmul_mut (rnum a) q in
    let* d := bdiv_mut (rden a) r in
    Ok (mkR d n).
(** mul.rs:26-31: clone, then the in-place form *)
Definition rmul_bi := rmul_bi_mut.
(** mul.rs:49-58 *)
Definition rmul_i32 (a : rat) (o : Z) : res rat :=
  let* n := bmul_i32 (rnum a) o in from_dn (rden a) n.
(** mul.rs:60-65 *)
Definition rmul_i32_mut (a : rat) (o : Z) : res rat :=
  let* n := bmul_i32_mut (rnum a) o in rfit (mkR (rden a) n).

(** ** ratio/arith/div.rs *)
(** div.rs:6-15 *)
Definition rdiv (a b : rat) : res rat :=
  let* d := bmul (rden a) (rnum b) in
  let* n := bmul (rnum a) (rden b) in
  from_dn d n.
(** div.rs:17-23 *)
Definition rdiv_mut (a b : rat) : res rat :=
  let* d := bmul_mut (rden a) (rnum b) in
  let* n := bmul_mut (rnum a) (rden b) in
  rfit (mkR d n).
(** div.rs:33-55 *)
Definition rdiv_bi_mut (a : rat) (b : bint) : res rat :=
  if bis_zero b then Panic else
  let* r := bgcd (rnum a) b in
  let* a :=
    if bis_one r then
      let* d := bmul_mut (rden a) b in Ok (mkR d (rnum a))
    else
      let* q := bdiv b r in
      let* d := bmul_mut (rden a) q in
      let* n := bdiv_mut (rnum a) r in
      Ok (mkR d n) in
  Ok (if bneg (rden a) then mkR (bopp_mut (rden a)) (bopp_mut (rnum a)) else a).
(** div.rs:26-31 *)
Definition rdiv_bi := rdiv_bi_mut.
(** div.rs:58-67 *)
Definition rdiv_i32 (a : rat) (o : Z) : res rat :=
  let* d := bmul_i32 (rden a) o in from_dn d (rnum a).
(** div.rs:69-74 *)
Definition rdiv_i32_mut (a : rat) (o : Z) : res rat :=
  let* d := bmul_i32_mut (rden a) o in rfit (mkR d (rnum a)).

(** ** ratio/funcs.rs *)
(** funcs.rs:40-57 *)
Definition ropp (a : rat) : rat := mkR (rden a) (bopp (rnum a)).
Definition ropp_mut (a : rat) : rat := mkR (rden a) (bopp_mut (rnum a)).
Definition rabs (a : rat) : rat := mkR (rden a) (babs (rnum a)).
Definition rabs_mut (a : rat) : rat := mkR (rden a) (babs_mut (rnum a)).
(** funcs.rs:61-80 *)
Definition rreci (a : rat) : res rat :=
  let r := mkR (rnum a) (rden a) in
  if bis_zero (rden r) then Panic
  else Ok (if bneg (rden r) then mkR (bopp_mut (rden r)) (bopp_mut (rnum r)) else r).
(** funcs.rs:83-85 *)
Definition rreci_mut := rreci.
(** funcs.rs:100-106 *)
Definition rtruncate_bi (a : rat) : res bint := bdiv (rnum a) (rden a).
(** funcs.rs:88-90 *)
Definition rtruncate (a : rat) : res rat := let* t := rtruncate_bi a in Ok (rfrom_bi t).
(** funcs.rs:92-97 *)
Definition rtruncate_mut (a : rat) : res rat := let* n := bdiv_mut (rnum a) (rden a) in Ok (mkR bone n).
(** funcs.rs:110-125 *)
Definition rfrac (a : rat) : res rat := let* n := brem (rnum a) (rden a) in Ok (mkR (rden a) n).
(** funcs.rs:128-130 *)
Definition rfrac_mut (a : rat) : res rat := let* n := brem_mut (rnum a) (rden a) in Ok (mkR (rden a) n).
(** funcs.rs:133-142 *)
Definition rtruncate_and_frac (a : rat) : res (bint * rat) :=
  let* t := rtruncate_bi a in
  let* x := bmul (rden a) t in
  let* n := bsub (rnum a) x in
  Ok (t, mkR (rden a) n).
(** funcs.rs:150-164 *)
Definition rfloor_bi (a : rat) : res bint :=
  if ris_neg a then
    if ris_integer a then Ok (rnum a)
    else let* t := rtruncate_bi a in bsub_i32 t 1
  else rtruncate_bi a.
(** funcs.rs:145-147 *)
Definition rfloor (a : rat) : res rat := let* t := rfloor_bi a in Ok (rfrom_bi t).
(** funcs.rs:173-192 *)
Definition rround_bi (a : rat) : res bint :=
  let* '(trun, frac) := rtruncate_and_frac a in
  let* x := bmul_i32 (rnum frac) 2 in
  match bcomp (babs x) (rden frac) with
  | Lt => Ok trun
  | _ => if ris_neg a then bsub_i32 trun 1 else badd_i32 trun 1
  end.
(** funcs.rs:169-171 *)
Definition rround (a : rat) : res rat := let* t := rround_bi a in Ok (rfrom_bi t).
(** funcs.rs:21-35 *)
Definition common_denom (a b : rat) : res (bint * bint * bint) :=
  let* g := bgcd (rden a) (rden b) in
  let* ag := bdiv (rden a) g in
  let* bg := bdiv (rden b) g in
  let* v1 := bmul (rnum a) bg in
  let* v2 := bmul (rnum b) ag in
  let* v3 := bmul (rden a) bg in
  Ok (v1, v2, v3).

(** ** ratio/arith/pow.rs *)
(** pow.rs:6-20 *)
Definition rpow_i32 (a : rat) (e : Z) : res rat :=
  let* x := sabs 32 e in
  let* d := bpow_u32 (rden a) (castw 32 x) in
  let* n := bpow_u32 (rnum a) (castw 32 x) in
  if e <? 0 then rreci_mut (mkR d n) else Ok (mkR d n).
(** pow.rs:22-31 *)
Definition rpow_i32_mut (a : rat) (e : Z) : res rat :=
  let* x := sabs 32 e in
  let* d := bpow_u32_mut (rden a) (castw 32 x) in
  let* n := bpow_u32_mut (rnum a) (castw 32 x) in
  if e <? 0 then rreci_mut (mkR d n) else Ok (mkR d n).

(** ** ratio/comp.rs *)
(** comp.rs:7-10 *)
Definition rlt (a b : rat) : res bool := let* d := rsub a b in Ok (ris_neg d).
(** comp.rs:13-16 *)
Definition rgt (a b : rat) : res bool := let* d := rsub b a in Ok (ris_neg d).
(** comp.rs:19-26: derived [PartialEq] *)
Definition req (a b : rat) : bool := beq (rden a) (rden b) && beq (rnum a) (rnum b).
Definition rneq (a b : rat) : bool := negb (req a b).
(** comp.rs:29-36 *)
Definition rleq (a b : rat) : res bool := let* g := rgt a b in Ok (negb g).
Definition rgeq (a b : rat) : res bool := let* l := rlt a b in Ok (negb l).
(** comp.rs:38-40, 87-97 *)
Definition rcomp (a b : rat) : res comparison :=
  let* x := bmul (rnum a) (rden b) in
  let* y := bmul (rnum b) (rden a) in
  Ok (bcomp x y).
(** comp.rs:43-50 *)
Definition rlt_one (a : rat) : bool := ris_neg a || blt (rnum a) (rden a).
Definition rgt_one (a : rat) : bool := negb (ris_neg a) && bgt (rnum a) (rden a).
(** comp.rs:53-84 *)
Definition rlt_i32 (a : rat) (o : Z) : res bool := let* x := bmul_i32 (rden a) o in Ok (blt (rnum a) x).
Definition rgt_i32 (a : rat) (o : Z) : res bool := let* x := bmul_i32 (rden a) o in Ok (bgt (rnum a) x).
Definition req_i32 (a : rat) (o : Z) : res bool := if bis_one (rden a) then beq_i32 (rnum a) o else Ok false.
Definition rneq_i32 (a : rat) (o : Z) : res bool := let* e := req_i32 a o in Ok (negb e).
Definition rleq_i32 (a : rat) (o : Z) : res bool := let* g := rgt_i32 a o in Ok (negb g).
Definition rgeq_i32 (a : rat) (o : Z) : res bool := let* l := rlt_i32 a o in Ok (negb l).
Definition rcomp_i32 (a : rat) (o : Z) : res comparison := let* x := bmul_i32 (rden a) o in Ok (bcomp (rnum a) x).

(** ** ratio.rs:105-164 [shrink]: the final value of [self] and the returned [Result] *)
Definition blen (a : bint) : nat := length (bmag a).
Definition rshrink (a : rat) (limit : nat) : res (rat * rslt nat nat) :=
  if (limit <? 3)%nat then Ok (a, RErr 0%nat)
  else
    let nl := blen (rnum a) in
    let dl := blen (rden a) in
    let* numer_shrink := subn (Nat.max nl limit) limit in
    let* denom_shrink := subn (Nat.max dl limit) limit in
    let shrink := Nat.max numer_shrink denom_shrink in
    if (shrink =? 0)%nat then Ok (a, ROk 0%nat)
    else if (shrink + 2 <? Nat.min nl dl)%nat then
      let n := bshift_right_mut (rnum a) shrink in
      let d := bshift_right_mut (rden a) shrink in
      let* r := rfit (mkR d n) in
      Ok (r, ROk shrink)
    else if (nl + 4 <? dl)%nat then
      let* d := bdiv_mut (rden a) (rnum a) in
      let r := if bneg d then mkR (babs_mut d) (bopp bone) else mkR d bone in
      let* s := subn nl 1 in
      Ok (r, if (limit <? blen (rden r))%nat then RErr s else ROk s)
    else if (dl + 4 <? nl)%nat then
      let* n := bdiv_mut (rnum a) (rden a) in
      let r := mkR bone n in
      let* s := subn dl 1 in
      Ok (r, if (limit <? blen n)%nat then RErr s else ROk s)
    else Ok (a, RErr 0%nat).

(** ** primitive integers *)
(** [TryFrom] between Rust's own integer types: Err when the value does not fit *)
Definition prim_u (w x : Z) : rslt Z cerr := if (0 <=? x) && (x <? 2 ^ w) then ROk x else RErr TryFromIntError.
Definition prim_s (w x : Z) : rslt Z cerr := if in_s w x then ROk x else RErr TryFromIntError.
Definition rslt_bind {A C} (m : rslt A cerr) (k : A -> rslt C cerr) : rslt C cerr :=
  match m with ROk a => k a | RErr e => RErr e end.
(** bigint/convert/into.rs:42-56, 68-80 (isize and usize have 64 bits); [t] is the width, [s] signedness *)
Inductive prim := U8 | U16 | U32 | U64 | Usize | U128 | I8 | I16 | I32 | I64 | Isize | I128.
Definition btry_into (p : prim) (a : bint) : rslt Z cerr :=
  match p with
  | I8 => rslt_bind (bto_i32 a) (prim_s 8)
  | I16 => rslt_bind (bto_i32 a) (prim_s 16)
  | I32 => bto_i32 a
  | I64 => bto_i64 a
  | Isize => rslt_bind (bto_i64 a) (prim_s 64)
  | I128 => bto_i128 a
  | U8 => rslt_bind (bto_i32 a) (prim_u 8)
  | U16 => rslt_bind (bto_i32 a) (prim_u 16)
  | U32 => rslt_bind (bto_i64 a) (prim_u 32)
  | U64 => rslt_bind (bto_i128 a) (prim_u 64)
  | Usize => rslt_bind (bto_i128 a) (prim_u 64)
  | U128 => if bneg a then RErr NotInRange else uto_u128 (bmag a)
  end.
(** bigint/convert/from.rs:59-95 *)
Definition bfrom_prim (p : prim) (n : Z) : res bint :=
  match p with
  | I8 | I16 | I32 | U8 | U16 => bfrom_i32 n
  | I64 | Isize | U32 => bfrom_i64 n
  | I128 => bfrom_i128 n
  | U64 | Usize => Ok (from_ubi (ufrom_u64 n) false)
  | U128 => Ok (from_ubi (ufrom_u128 n) false)
  end.
(** ratio/convert/into.rs:25-42 *)
Definition rtry_into (p : prim) (a : rat) : res (rslt Z cerr) := let* t := rtruncate_bi a in Ok (btry_into p t).
(** ratio/convert/from.rs:60-94 *)
Definition rfrom_prim (p : prim) (n : Z) : res rat :=
  match p with
  | I8 | I16 | I32 | U8 | U16 => rfrom_i32 n
  | I64 | Isize | U32 => rfrom_i64 n
  | I128 => rfrom_i128 n
  | U64 | Usize => Ok (rfrom_bi (from_ubi (ufrom_u64 n) false))
  | U128 => Ok (rfrom_bi (from_ubi (ufrom_u128 n) false))
  end.
(** ubigint/convert/into.rs: usize goes through u32 *)
Definition utry_into (p : prim) (a : ubig) : rslt Z cerr :=
  match p with
  | U8 => rslt_bind (uto_u32 a) (prim_u 8)
  | U16 => rslt_bind (uto_u32 a) (prim_u 16)
  | U32 => uto_u32 a
  | U64 => uto_u64 a
  | Usize => rslt_bind (uto_u32 a) (prim_u 64)
  | U128 => uto_u128 a
  | I8 => rslt_bind (uto_u32 a) (prim_s 8)
  | I16 => rslt_bind (uto_u32 a) (prim_s 16)
  | I32 => rslt_bind (uto_u32 a) (prim_s 32)
  | I64 => rslt_bind (uto_u64 a) (prim_s 64)
  | Isize => rslt_bind (uto_u64 a) (prim_s 64)
  | I128 => rslt_bind (uto_u128 a) (prim_s 128)
  end.
