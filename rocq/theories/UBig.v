(** Model of src/ubigint.rs, src/utils.rs and src/ubigint/{arith,comp,convert,funcs}: unsigned big integers.
    A [UBigInt] is its vector of u32 limbs, least significant first (src/ubigint.rs:9).
    Left-to-right (or right-to-left) index loops over a whole vector are written as structural recursion over the list;
    an index that could run off the end of a vector becomes an explicit [Panic] branch. *)
From Verif Require Import Base.

Notation B := 4294967296 (only parsing).
Notation MAX32 := 4294967295 (only parsing).

Notation ubig := (list Z) (only parsing).

(** src/ubigint.rs:15-37 *)
Definition ulen (a : ubig) : nat := length a.
Definition uzero : ubig := [0].
Definition uone : ubig := [1].
Definition uis_zero (a : ubig) : bool := match a with [x] => x =? 0 | _ => false end.
Definition uis_one (a : ubig) : bool := match a with [x] => x =? 1 | _ => false end.

(** src/utils.rs:7-27 [v64_to_v32]: carry sweep.  The loop adds the carry of position i to position i+1; here the carry is
    passed along ([addw] of a zero carry is the code's "no addition").  An empty vector panics ([v64.len() - 1]). *)
Fixpoint v64_sweep (c : Z) (l : list Z) : res (list Z) :=
  match l with
  | [] => Panic
  | x :: t =>
      let* x' := addw 64 x c in
      match t with
      | [] => if B <=? x' then Ok [x' mod B; x' / B] else Ok [x']
      | _ :: _ => let* r := v64_sweep (x' / B) t in Ok (x' mod B :: r)
      end
  end.
Definition v64_to_v32 (l : list Z) : res (list Z) :=
  let* r := v64_sweep 0 l in Ok (map (castw 32) r).

(** src/utils.rs:29-33 [remove_suffix_0]: drop trailing zeros while more than one limb is left. *)
Fixpoint strip0 (l : list Z) : list Z :=
  match l with
  | [] => []
  | x :: t => match strip0 t with
              | [] => if x =? 0 then [] else [x]
              | t' => x :: t'
              end
  end.
Definition remove_suffix_0 (l : list Z) : list Z :=
  match l with [] => [] | x :: t => x :: strip0 t end.

(** src/ubigint/arith/add.rs:7-34 [add]: limbwise u64 sums over the common length, then the rest of the longer one. *)
Fixpoint add_zip (a b : list Z) : res (list Z) :=
  match a, b with
  | x :: a', y :: b' =>
      let* s := addw 64 x y in
      let* r := add_zip a' b' in Ok (s :: r)
  | [], _ => Ok b
  | _, [] => Ok a
  end.
Definition uadd (a b : ubig) : res ubig :=
  let* r := add_zip a b in v64_to_v32 r.

(** src/ubigint/arith/add.rs:63-81: pushing the rest of a longer [other] *)
Fixpoint add_mut_push (b : list Z) (carry : bool) : list Z * bool :=
  match b with
  | [] => ([], carry)
  | y :: b' =>
      let '(y', carry') :=
        if carry then match checked_add 32 y 1 with Some n => (n, false) | None => (0, true) end
        else (y, carry) in
      let '(r, c) := add_mut_push b' carry' in (y' :: r, c)
  end.
(** src/ubigint/arith/add.rs:83-95: propagating the carry into a longer [self] (only entered with carry set) *)
Fixpoint add_mut_incr (a : list Z) : list Z * bool :=
  match a with
  | [] => ([], true)
  | x :: a' => if x =? MAX32 then let '(r, c) := add_mut_incr a' in (0 :: r, c)
               else (x + 1 :: a', false)
  end.
(** src/ubigint/arith/add.rs:39-61: the common part *)
Fixpoint add_mut_go (a b : list Z) (carry : bool) : list Z * bool :=
  match a, b with
  | x :: a', y :: b' =>
      let '(z, carry') :=
        match checked_add 32 x y with
        | Some n => if carry then match checked_add 32 n 1 with
                                  | Some n' => (n', false)
                                  | None => ((x + y + 1) mod B, carry)
                                  end
                    else (n, carry)
        | None => if carry then ((x + y + 1) mod B, carry) else ((x + y) mod B, true)
        end in
      let '(r, c) := add_mut_go a' b' carry' in (z :: r, c)
  | [], _ => add_mut_push b carry
  | _, [] => if carry then add_mut_incr a else (a, carry)
  end.
(** src/ubigint/arith/add.rs:36-100 *)
Definition uadd_mut (a b : ubig) : ubig :=
  let '(r, carry) := add_mut_go a b false in
  if carry then r ++ [1] else r.

(** src/ubigint/arith/add.rs:119-131 (and 103-117) *)
Definition uadd_u32_mut (a : ubig) (o : Z) : res ubig :=
  match a with
  | [] => Panic
  | x :: t => match checked_add 32 x o with
              | Some n => Ok (n :: t)
              | None => let* x' := addw 64 x o in v64_to_v32 (x' :: t)
              end
  end.
Definition uadd_u32 := uadd_u32_mut.

(** src/ubigint/arith/sub.rs:53-62: propagate the borrow; falls off the end silently *)
Fixpoint sub_borrow (a : list Z) : list Z :=
  match a with
  | [] => []
  | x :: a' => if 0 <? x then x - 1 :: a' else MAX32 :: sub_borrow a'
  end.
(** src/ubigint/arith/sub.rs:24-63 *)
Fixpoint sub_go (a b : list Z) (carry : bool) {struct b} : res (list Z) :=
  match b with
  | [] => if carry then match a with [] => Panic | _ => Ok (sub_borrow a) end else Ok a
  | y :: b' =>
      match a with
      | [] => Panic
      | x :: a' =>
          let* '(z, carry') :=
            if carry then
              if negb (y =? MAX32) && (y + 1 <=? x) then
                let* z := expect (checked_sub x (y + 1)) in Ok (z, false)
              else
                let* d := expect (checked_sub y x) in
                let* z := subw MAX32 d in Ok (z, carry)
            else
              if y <=? x then
                let* z := expect (checked_sub x y) in Ok (z, carry)
              else
                let* d := expect (checked_sub y x) in
                let* z := subw MAX32 d in
                let* z1 := addw 32 z 1 in Ok (z1, true) in
          let* r := sub_go a' b' carry' in Ok (z :: r)
      end
  end.
(** src/ubigint/arith/sub.rs:16-67 (and 8-13) *)
Definition usub_mut (a b : ubig) : res ubig :=
  let* r := sub_go a b false in Ok (remove_suffix_0 r).
Definition usub := usub_mut.

(** src/ubigint/arith/sub.rs:91-98: the [while self.0[i] == 0] search, then the decrement *)
Fixpoint sub_u32_borrow (a : list Z) : res (list Z) :=
  match a with
  | [] => Panic
  | x :: a' => if x =? 0 then let* r := sub_u32_borrow a' in Ok (MAX32 :: r)
               else let* x' := subw x 1 in Ok (x' :: a')
  end.
(** src/ubigint/arith/sub.rs:85-108 (and 71-82) *)
Definition usub_u32_mut (a : ubig) (o : Z) : res ubig :=
  match a with
  | [] => Panic
  | x :: t =>
      if o <=? x then let* x' := subw x o in Ok (x' :: t)
      else match t with
           | _ :: _ =>
               let* t' := sub_u32_borrow t in
               let* d := subw MAX32 o in
               let* e := addw 32 d x in
               let* x' := addw 32 e 1 in
               Ok (remove_suffix_0 (x' :: t'))
           | [] => Panic
           end
  end.
Definition usub_u32 := usub_u32_mut.

(** ** src/ubigint/comp.rs *)
(** comp.rs:19-27, 46-54, 92-101: limb comparison from the most significant end; arguments are the reversed vectors *)
Fixpoint lt_rev (a b : list Z) : bool :=
  match a, b with
  | x :: a', y :: b' => if x <? y then true else if y <? x then false else lt_rev a' b'
  | _, _ => false
  end.
Fixpoint gt_rev (a b : list Z) : bool :=
  match a, b with
  | x :: a', y :: b' => if x <? y then false else if y <? x then true else gt_rev a' b'
  | _, _ => false
  end.
Fixpoint comp_rev (a b : list Z) : comparison :=
  match a, b with
  | x :: a', y :: b' => if y <? x then Gt else if x <? y then Lt else comp_rev a' b'
  | _, _ => Eq
  end.
(** comp.rs:7-31 *)
Definition ult (a b : ubig) : bool :=
  if (length b <? length a)%nat then false
  else if (length a <? length b)%nat then true
  else lt_rev (rev a) (rev b).
(** comp.rs:34-58 *)
Definition ugt (a b : ubig) : bool :=
  if (length b <? length a)%nat then true
  else if (length a <? length b)%nat then false
  else gt_rev (rev a) (rev b).
(** derived [PartialEq] on the limb vector (src/ubigint.rs:8, comp.rs:62-68) *)
Fixpoint list_eqb (a b : list Z) : bool :=
  match a, b with
  | [], [] => true
  | x :: a', y :: b' => (x =? y) && list_eqb a' b'
  | _, _ => false
  end.
Definition ueq (a b : ubig) : bool := list_eqb a b.
Definition uneq (a b : ubig) : bool := negb (list_eqb a b).
(** comp.rs:71-78 *)
Definition uleq (a b : ubig) : bool := negb (ugt a b).
Definition ugeq (a b : ubig) : bool := negb (ult a b).
(** comp.rs:80-105, 164-174 *)
Definition ucomp (a b : ubig) : comparison :=
  if (length b <? length a)%nat then Gt
  else if (length a <? length b)%nat then Lt
  else comp_rev (rev a) (rev b).
(** comp.rs:108-161: the _u32 forms index [self.0[0]], so an empty vector would panic *)
Definition head0 (a : ubig) : res Z := getv a 0.
Definition ult_u32 (a : ubig) (o : Z) : res bool :=
  if (1 <? length a)%nat then Ok false else let* x := head0 a in Ok (x <? o).
Definition ugt_u32 (a : ubig) (o : Z) : res bool :=
  if (1 <? length a)%nat then Ok true else let* x := head0 a in Ok (o <? x).
Definition ueq_u32 (a : ubig) (o : Z) : res bool :=
  if (1 <? length a)%nat then Ok false else let* x := head0 a in Ok (x =? o).
Definition uneq_u32 (a : ubig) (o : Z) : res bool := let* b := ueq_u32 a o in Ok (negb b).
Definition uleq_u32 (a : ubig) (o : Z) : res bool := let* b := ugt_u32 a o in Ok (negb b).
Definition ugeq_u32 (a : ubig) (o : Z) : res bool := let* b := ult_u32 a o in Ok (negb b).
Definition ucomp_u32 (a : ubig) (o : Z) : res comparison :=
  if (1 <? length a)%nat then Ok Gt else let* x := head0 a in Ok (x ?= o).

(** ** src/ubigint/funcs/shift.rs *)
(** shift.rs:7-26 *)
Definition ushift_right (a : ubig) (n : nat) : ubig :=
  if (length a <=? n)%nat then uzero else skipn n a.
(** shift.rs:30-51 *)
Definition ushift_left (a : ubig) (n : nat) : ubig :=
  if uis_zero a then uzero else repeat 0 n ++ a.
(** shift.rs:44-51: the mutating form leaves [self] alone when it is zero *)
Definition ushift_left_mut (a : ubig) (n : nat) : ubig :=
  if negb (uis_zero a) then repeat 0 n ++ a else a.
(** shift.rs:56-88: [self.0[0..n]] panics when n exceeds the length *)
Definition uslice_right (a : ubig) (n : nat) : res ubig :=
  if (n =? 0)%nat then Ok uzero
  else if (n <=? length a)%nat then Ok (remove_suffix_0 (firstn n a)) else Panic.

(** shift.rs:18-26 and 73-88: the mutating twins repeat the text and store the result *)
Definition ushift_right_mut (a : ubig) (n : nat) : ubig :=
  if (length a <=? n)%nat then uzero else skipn n a.
Definition uslice_right_mut (a : ubig) (n : nat) : res ubig :=
  if (n =? 0)%nat then Ok uzero
  else if (n <=? length a)%nat then Ok (remove_suffix_0 (firstn n a)) else Panic.

(** ** src/ubigint/convert.rs:12-77 (error values are built in UStr.v, where printing is modelled) *)
Definition ufrom_u32 (n : Z) : ubig := [n].
Definition ufrom_u64 (n : Z) : ubig :=
  if B <=? n then [n mod B; castw 32 (n / 2 ^ 32)] else [castw 32 n].
Definition ufrom_u128 (n : Z) : ubig :=
  if n <? 2 ^ 32 then [castw 32 n]
  else if n <? 2 ^ 64 then [n mod B; castw 32 (n / 2 ^ 32)]
  else if n <? 2 ^ 96 then [n mod B; (n / 2 ^ 32) mod B; castw 32 (n / 2 ^ 64)]
  else [n mod B; (n / 2 ^ 32) mod B; (n / 2 ^ 64) mod B; castw 32 (n / 2 ^ 96)].
(** The [Ok] part of [to_u32], [to_u64], [to_u128]; [None] is the [Err] case. *)
Definition uto_u32_opt (a : ubig) : option Z :=
  match a with [x] => Some x | _ => None end.
Definition uto_u64_opt (a : ubig) : option Z :=
  match a with [x] => Some x | [x; y] => Some (x + y * 2 ^ 32) | _ => None end.
Definition uto_u128_opt (a : ubig) : option Z :=
  match a with
  | [x] => Some x
  | [x; y] => Some (x + y * 2 ^ 32)
  | [x; y; z] => Some (x + y * 2 ^ 32 + z * 2 ^ 64)
  | [x; y; z; t] => Some (x + y * 2 ^ 32 + z * 2 ^ 64 + t * 2 ^ 96)
  | _ => None
  end.

(** ** src/ubigint/arith/mul.rs *)
(** mul.rs:57-61, the inner loop for one limb [x] of [self], on the accumulator from index i on *)
Fixpoint mul_row (x : Z) (b : list Z) (acc : list Z) : res (list Z) :=
  match b with
  | [] => Ok acc
  | y :: b' =>
      match acc with
      | a0 :: a1 :: acc' =>
          let* curr := mulw 64 x y in
          let* a0' := addw 64 a0 (curr mod B) in
          let* a1' := addw 64 a1 (curr / 2 ^ 32) in
          let* r := mul_row x b' (a1' :: acc') in Ok (a0' :: r)
      | _ => Panic
      end
  end.
(** mul.rs:56-62: the outer loop; position i is final once row i is done *)
Fixpoint mul_rows (a b acc : list Z) : res (list Z) :=
  match a with
  | [] => Ok acc
  | x :: a' =>
      let* acc1 := mul_row x b acc in
      match acc1 with
      | [] => Panic
      | c :: rest => let* r := mul_rows a' b rest in Ok (c :: r)
      end
  end.
(** mul.rs:54-71 *)
Definition umul_school (a b : ubig) : res ubig :=
  let* acc := mul_rows a b (repeat 0 (length a + length b)) in
  let* r := v64_to_v32 acc in
  Ok (remove_suffix_0 r).
(** mul.rs:4 *)
Definition KARATSUBA_THRES : nat := 64.
(** mul.rs:15-72: the recursion is bounded by [fuel] *)
Fixpoint umul_fuel (fuel : nat) (a b : ubig) : res ubig :=
  match fuel with
  | O => NoFuel
  | S f =>
      if (KARATSUBA_THRES <? length a)%nat && (KARATSUBA_THRES <? length b)%nat then
        let m := Nat.min (length a / 2) (length b / 2) in
        let x1 := ushift_right a m in
        let* x0 := uslice_right a m in
        let y1 := ushift_right b m in
        let* y0 := uslice_right b m in
        let* z2 := umul_fuel f x1 y1 in
        let* z0 := umul_fuel f x0 y0 in
        let* sx := uadd x1 x0 in
        let* sy := uadd y1 y0 in
        let* p := umul_fuel f sx sy in
        let* p1 := usub p z2 in
        let* z1 := usub p1 z0 in
        let* s := uadd (ushift_left z2 (2 * m)) (ushift_left z1 m) in
        uadd s z0
      else umul_school a b
  end.
Definition umul (a b : ubig) : res ubig := umul_fuel (S (length a + length b)) a b.
(** mul.rs:74-77 *)
Definition umul_mut := umul.

(** mul.rs:96-118: the carry is a u64; [carry as u32] truncates *)
Fixpoint mul_u32_go (a : list Z) (o carry : Z) : res (list Z) :=
  match a with
  | [] => if 0 <? carry then Ok [castw 32 carry] else Ok []
  | x :: a' =>
      let* '(z, carry') :=
        match checked_mul 32 x o with
        | Some n => match checked_add 32 n (castw 32 carry) with
                    | Some n' => Ok (n', 0)
                    | None => let* s := addw 64 n carry in Ok (s mod B, s / 2 ^ 32)
                    end
        | None => let* p := mulw 64 x o in
                  let* s := addw 64 p carry in
                  Ok (s mod B, s / 2 ^ 32)
        end in
      let* r := mul_u32_go a' o carry' in Ok (z :: r)
  end.
(** mul.rs:93-122 (and 80-91) *)
Definition umul_u32_mut (a : ubig) (o : Z) : res ubig :=
  let* r := mul_u32_go a o 0 in Ok (remove_suffix_0 r).
Definition umul_u32 := umul_u32_mut.
(** mul.rs:127-142 *)
Definition umul_pow2_mut (a : ubig) (e : Z) : res ubig :=
  let* small := shlw 32 1 (e mod 32) in
  let big := e / 32 in
  let* r := umul_u32_mut a small in
  Ok (ushift_left_mut r (Z.to_nat big)).
Definition umul_pow2 := umul_pow2_mut.

(** ** src/ubigint/arith/div.rs *)
(** div.rs:142-146: from the most significant limb down; [carry] is already shifted by 32.
    The list argument is the reversed vector, so is the result. *)
Fixpoint div_u32_go (ra : list Z) (o carry : Z) : res (list Z) :=
  match ra with
  | [] => Ok []
  | x :: ra' =>
      let* curr := addw 64 x carry in
      let* q := divw curr o in
      let* r := remw curr o in
      let* carry' := shlw 64 r 32 in
      let* rest := div_u32_go ra' o carry' in
      Ok (castw 32 q :: rest)
  end.
(** div.rs:138-151 (and 123-136) *)
Definition udiv_u32_mut (a : ubig) (o : Z) : res ubig :=
  let* r := div_u32_go (rev a) o 0 in Ok (remove_suffix_0 (rev r)).
Definition udiv_u32 := udiv_u32_mut.

(** div.rs:154-163 *)
Definition div_approx (d : list Z) (divisor : Z) : res ubig :=
  let* d4 := getv d 4 in
  let* d3 := getv d 3 in
  let* d2 := getv d 2 in
  let* s4 := shlw 128 d4 64 in
  let* s3 := shlw 128 d3 32 in
  let* c1 := addw 128 s4 s3 in
  let* curr := addw 128 c1 d2 in
  let* q1 := divw curr divisor in
  let quotient1 := castw 64 q1 in
  let* curr := remw curr divisor in
  let* curr := shlw 128 curr 64 in
  let* d1 := getv d 1 in
  let* s1 := shlw 128 d1 32 in
  let* d0 := getv d 0 in
  let* c2 := addw 128 s1 d0 in
  let* curr := addw 128 curr c2 in
  let* q2 := divw curr divisor in
  let quotient2 := castw 64 q2 in
  v64_to_v32 [quotient2; 0; quotient1].

(** the two most significant limbs as a u64 (div.rs:22, 91, 92) *)
Definition top2 (a : ubig) : res Z :=
  let n := length a in
  let* i1 := subn n 1 in
  let* h := getv a i1 in
  let* i2 := subn n 2 in
  let* l := getv a i2 in
  let* s := shlw 64 h 32 in
  addw 64 s l.

(** div.rs:8-115, one unfolding; [self_div] is the recursive call *)
Definition udiv_body (self_div : ubig * ubig -> res ubig) (ab : ubig * ubig) : res ubig :=
  let '(a, b) := ab in
  let la := length a in
  let lb := length b in
  if (la <? lb)%nat then Ok uzero
  else if (la <? 5)%nat && (lb <? 5)%nat then
    let* x := expect (uto_u128_opt a) in
    let* y := expect (uto_u128_opt b) in
    let* q := divw x y in Ok (ufrom_u128 q)
  else if (lb =? 1)%nat then
    let* y := getv b 0 in udiv_u32 a y
  else if (lb <? la)%nat then
    let* other_approx := top2 b in
    let* i5 := subn la 5 in
    let self_approx := skipn i5 a in
    let* approx1 :=
      if other_approx =? 2 ^ 64 - 1 then Ok (skipn 2 self_approx)
      else let* o1 := addw 64 other_approx 1 in div_approx self_approx o1 in
    if (la - lb <? 3)%nat then
      let* sh := subn (3 + lb) la in
      let approx := ushift_right approx1 sh in
      let* p := umul b approx in
      let* d := usub a p in
      let* q := self_div (d, b) in
      uadd approx q
    else if (lb =? 2)%nat then
      let* sh := subn (la - lb) 3 in
      let approx := ushift_left approx1 sh in
      let* p := umul b approx1 in
      let* d := usub a (ushift_left p sh) in
      let* q := self_div (d, b) in
      uadd approx q
    else
      let* approx2 := div_approx self_approx other_approx in
      if ueq approx2 approx1 then
        let* sh := subn (la - lb) 3 in
        let approx := ushift_left approx2 sh in
        let* p := umul b approx2 in
        let* d := usub a (ushift_left p sh) in
        let* q := self_div (d, b) in
        uadd approx q
      else
        let* i3 := subn lb 3 in
        let* b3 := getv b i3 in
        let* b3s := shrw 64 b3 24 in
        let* rr := addw 64 b3s 1 in
        let ratio := castw 32 rr in
        let* m1 := umul_u32 approx1 ratio in
        let* cr := subw 256 ratio in
        let* m2 := umul_u32 approx2 cr in
        let* ms := uadd m1 m2 in
        let* approx3 := udiv_u32 ms 256 in
        let* sh := subn (la - lb) 3 in
        let approx := ushift_left approx3 sh in
        let* p := umul b approx3 in
        let tmp := ushift_left p sh in
        if ugeq a tmp then
          let* d := usub a tmp in
          let* tmp2 := self_div (d, b) in
          uadd approx tmp2
        else
          let* d := usub tmp a in
          let* tmp2 := self_div (d, b) in
          let* approx4 := usub approx tmp2 in
          let* p4 := umul approx4 b in
          if uleq p4 a then Ok approx4 else usub_u32 approx4 1
  else
    let* self_approx := top2 a in
    let* other_approx := top2 b in
    if self_approx <? other_approx then Ok uzero
    else if other_approx <? self_approx then
      let* o1 := addw 64 other_approx 1 in
      let* q := divw self_approx o1 in
      let approx := ufrom_u64 q in
      let* p := umul b approx in
      let* d := usub a p in
      let* q2 := self_div (d, b) in
      uadd approx q2
    else if ugt b a then Ok uzero else Ok uone.
Definition udiv (a b : ubig) : res ubig := loopn (34 * S (length a)) udiv_body (a, b).
(** div.rs:117-120 *)
Definition udiv_mut := udiv.

(** ** src/ubigint/arith/rem.rs *)
(** rem.rs:7-21 *)
Definition urem (a b : ubig) : res ubig :=
  let* q := udiv a b in
  let* sdo := umul q b in
  usub a sdo.
Definition urem_mut := urem.
(** rem.rs:30-34, all words are u64 *)
Fixpoint rem_u32_go (a : list Z) (o unit curr_power result : Z) : res Z :=
  match a with
  | [] => Ok result
  | d :: a' =>
      let* dm := remw d o in
      let* p := mulw 64 dm curr_power in
      let* pm := remw p o in
      let* result' := addw 64 result pm in
      let* cp := mulw 64 curr_power unit in
      let* cp' := remw cp o in
      rem_u32_go a' o unit cp' result'
  end.
(** rem.rs:24-45 *)
Definition urem_u32 (a : ubig) (o : Z) : res ubig :=
  let* unit := remw B o in
  let* r := rem_u32_go a o unit 1 0 in
  let* rm := remw r o in
  Ok (ufrom_u32 (castw 32 rm)).
(** rem.rs:52-56, the same with u32 words *)
Fixpoint rem_u32_mut_go (a : list Z) (o unit curr_power result : Z) : res Z :=
  match a with
  | [] => Ok result
  | d :: a' =>
      let* dm := remw d o in
      let* p := mulw 32 dm curr_power in
      let* pm := remw p o in
      let* result' := addw 32 result pm in
      let* cp := mulw 32 curr_power unit in
      let* cp' := remw cp o in
      rem_u32_mut_go a' o unit cp' result'
  end.
(** rem.rs:47-65 *)
Definition urem_u32_mut (a : ubig) (o : Z) : res ubig :=
  let* u := remw B o in
  let unit := castw 32 u in
  let* r := rem_u32_mut_go a o unit 1 0 in
  let* rm := remw r o in
  Ok (ufrom_u32 rm).
(** rem.rs:69-78 *)
Definition urem_pow2 (a : ubig) (o : Z) : res ubig :=
  let* x := head0 a in
  let* r := remw x o in
  Ok (ufrom_u32 r).

(** ** src/ubigint/arith/sub.rs:110-128 *)
Definition uabs_diff (a b : ubig) : res ubig := if ugeq a b then usub a b else usub b a.
Definition uabs_diff_u32 (a : ubig) (o : Z) : res ubig :=
  let* g := ugeq_u32 a o in
  if g then usub_u32 a o
  else let* x := expect (uto_u32_opt a) in
       let* d := subw o x in Ok (ufrom_u32 d).

(** ** src/ubigint/arith/pow.rs *)
(** pow.rs:28-31: [powers] is a stack, its head is the last element of the vector *)
Definition pow_up_body (self : Z * list ubig * Z -> res (list ubig * Z)) (s : Z * list ubig * Z)
  : res (list ubig * Z) :=
  let '(exp, powers, curr_exp) := s in
  let* c2 := mulw 32 curr_exp 2 in
  if c2 <=? exp then
    match powers with
    | p :: _ => let* p2 := umul p p in self (exp, p2 :: powers, c2)
    | [] => Panic
    end
  else Ok (powers, curr_exp).
(** pow.rs:37-46 *)
Definition pow_down_body (self : ubig * Z * list ubig * Z -> res ubig) (s : ubig * Z * list ubig * Z)
  : res ubig :=
  let '(result, exp, powers, curr_exp) := s in
  if 0 <? curr_exp then
    match powers with
    | [] => Panic
    | l :: powers' =>
        if curr_exp <=? exp then
          let* result' := umul result l in
          let* exp' := subw exp curr_exp in
          self (result', exp', powers', curr_exp / 2)
        else self (result, exp, powers', curr_exp / 2)
    end
  else Ok result.
(** pow.rs:8-56 *)
Definition upow_u32 (a : ubig) (e : Z) : res ubig :=
  if e <? 3 then
    if e =? 0 then Ok uone else if e =? 1 then Ok a else umul a a
  else
    let* '(powers, curr_exp) := loopn 6 pow_up_body (e, [a], 1) in
    match powers with
    | [] => Panic
    | result :: powers' =>
        let* e' := subw e curr_exp in
        loopn 6 pow_down_body (result, e', powers', curr_exp / 2)
    end.
Definition upow_u32_mut := upow_u32.
(** pow.rs:60-67 *)
Definition upow2 (e : Z) : ubig := repeat 0 (Z.to_nat (e / 32)) ++ [2 ^ (e mod 32)].
(** src/ubigint/funcs/exp.rs:6-8 *)
Definition uexp2 (n : Z) : ubig :=
  ushift_left (ufrom_u32 (2 ^ castw 32 (n mod 32))) (Z.to_nat (n / 32)).
