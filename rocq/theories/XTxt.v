(** Model of [FromStr] for F192, src/fp192/convert/string.rs:6-218.  A string is the list of its code points. *)
From Verif Require Import Base UBig UStr RBig XNum XFun.

(** string.rs:6-13 [ParseState] *)
Inductive pst := PInit | PInitZero | PReadDigit | PReadBase (base : Z) | PReadSub | PReadExp.
Definition is_digit (c : Z) : bool := (48 <=? c) && (c <=? 57).
Definition is_exp (c : Z) : bool := (c =? 101) || (c =? 69).
(** the five mutable variables of the scan: curr_state, is_neg, digit_buffer, exp, exp_buffer *)
Definition pvars : Type := pst * bool * list Z * Z * list Z.
(** string.rs:25-130: one character *)
Definition pstep (v : pvars) (c : Z) : res (rslt pvars cerr) :=
  let '(st, neg, digs, exp, ebuf) := v in
  match st with
  | PInit =>
      if c =? 45 then if neg then Ok (RErr (InvalidChar c)) else Ok (ROk (PInit, true, digs, exp, ebuf))
      else if c =? 48 then Ok (ROk (PInitZero, neg, digs, exp, ebuf))
      else if is_digit c then Ok (ROk (PReadDigit, neg, digs ++ [c], exp, ebuf))
      else Ok (RErr (InvalidChar c))
  | PInitZero =>
      if (c =? 120) || (c =? 88) then Ok (ROk (PReadBase 16, neg, digs, exp, ebuf))
      else if (c =? 111) || (c =? 79) then Ok (ROk (PReadBase 8, neg, digs, exp, ebuf))
      else if (c =? 98) || (c =? 66) then Ok (ROk (PReadBase 2, neg, digs, exp, ebuf))
      else if is_exp c then Ok (ROk (PReadExp, neg, digs, exp, ebuf))
      else if c =? 46 then Ok (ROk (PReadSub, neg, digs, exp, ebuf))
      else Ok (RErr (InvalidChar c))
  | PReadBase base =>
      match to_digit base c with
      | Some n => let* m := addw 8 (castw 8 n) 32 in Ok (ROk (PReadBase base, neg, digs ++ [m], exp, ebuf))
      | None => if c =? 95 then Ok (ROk v) else Ok (RErr (InvalidChar c))
      end
  | PReadDigit =>
      if is_digit c then Ok (ROk (PReadDigit, neg, digs ++ [c], exp, ebuf))
      else if c =? 95 then Ok (ROk v)
      else if c =? 46 then Ok (ROk (PReadSub, neg, digs, exp, ebuf))
      else if is_exp c then Ok (ROk (PReadExp, neg, digs, exp, ebuf))
      else Ok (RErr (InvalidChar c))
  | PReadSub =>
      if is_digit c then let* exp := ssub 64 exp 1 in Ok (ROk (PReadSub, neg, digs ++ [c], exp, ebuf))
      else if c =? 95 then Ok (ROk v)
      else if is_exp c then Ok (ROk (PReadExp, neg, digs, exp, ebuf))
      else Ok (RErr (InvalidChar c))
  | PReadExp => Ok (ROk (PReadExp, neg, digs, exp, ebuf ++ [c]))
  end.
(** string.rs:25 [for c in s.chars()] *)
Fixpoint pscan (s : list Z) (v : pvars) : res (rslt pvars cerr) :=
  match s with
  | [] => Ok (ROk v)
  | c :: t => rbind (pstep v c) (pscan t)
  end.
(** value of a run of ASCII digits *)
Definition dec_run (l : list Z) : Z := fold_left (fun a c => a * 10 + (c - 48)) l 0.
(** the standard library's [str::parse::<i64>]: an optional sign, then at least one digit, in range *)
Definition parse_i64 (s : list Z) : option Z :=
  let go (neg : bool) (d : list Z) :=
    match d with
    | [] => None
    | _ => if forallb is_digit d then let n := if neg then - dec_run d else dec_run d in if (- 2 ^ 63 <=? n) && (n <? 2 ^ 63) then Some n else None
           else None
    end in
  match s with
  | c :: t => if c =? 43 then go false t else if c =? 45 then go true t else go false s
  | [] => None
  end.
(** string.rs:140-171: digits after a base prefix; the sign is not used *)
Definition base_step (base : Z) (s : Z * Z * f192) (digit : Z) : res (Z * Z * f192) :=
  let '(curr, exp, result) := s in
  let* n := subw digit 32 in
  let* exp := mulw 64 exp base in
  let* curr := mulw 64 curr base in
  let* curr := addw 64 curr n in
  if 2 ^ 56 <? exp then
    let* e := xfrom_prim U64 exp in
    let* result := xmul result e in
    let* d := xfrom_prim U64 curr in
    let* result := xadd result d in
    Ok (0, 1, result)
  else Ok (curr, exp, result).
Fixpoint base_loop (base : Z) (digs : list Z) (s : Z * Z * f192) : res (Z * Z * f192) :=
  match digs with
  | [] => Ok s
  | d :: t => let* s := base_step base s d in base_loop base t s
  end.
Definition base_value (base : Z) (digs : list Z) : res f192 :=
  let* '(curr, exp, result) := base_loop base digs (0, 1, xZERO) in
  if 1 <? exp then
    let* e := xfrom_prim U64 exp in
    let* result := xmul result e in
    let* d := xfrom_prim U64 curr in
    xadd result d
  else Ok result.
(** string.rs:191-199: six digits at a time while more than six are left; [parse::<u32>] of six ASCII digits does not fail *)
Definition run6_body (self : list Z * f192 -> res (list Z * f192)) (s : list Z * f192) : res (list Z * f192) :=
  let '(digs, result) := s in
  if (6 <? length digs)%nat then
    let* result := xmul_i32 result 1000000 in
    let* d := xfrom_prim U32 (dec_run (firstn 6 digs)) in
    let* result := xadd result d in
    self (skipn 6 digs, result)
  else Ok s.
(** string.rs:201-205: the rest one at a time *)
Fixpoint run1 (digs : list Z) (result : f192) : res f192 :=
  match digs with
  | [] => Ok result
  | c :: t =>
      let* result := xmul_i32 result 10 in
      let* b := subw (castw 8 c) 48 in
      let* d := xfrom_prim U8 b in
      let* result := xadd result d in
      run1 t result
  end.
Definition run_value (digs : list Z) : res f192 :=
  let* '(digs, result) := loopn 8 run6_body (digs, xZERO) in run1 digs result.
(** string.rs:132-216 *)
Definition pfinish (v : pvars) : res (rslt f192 cerr) :=
  let '(st, neg, digs, exp, ebuf) := v in
  match st with
  | PInit => Ok (RErr NoData)
  | PInitZero => Ok (ROk xZERO)
  | PReadBase base => let* r := base_value base digs in Ok (ROk r)
  | _ =>
      rbind (match ebuf with
             | [] => Ok (ROk exp)
             | _ => match parse_i64 ebuf with
                    | Some e => let* e := sadd 64 exp e in Ok (ROk e)
                    | None => Ok (RErr TryFromIntError)
                    end
             end) (fun exp =>
      if negb (match ebuf with [] => true | _ => false end) && match digs with [] => true | _ => false end then Ok (ROk xZERO) else
      if exp <? - EXPC then Ok (ROk xZERO) else
      let* '(exp, digs) := if (39 <? length digs)%nat then let* m := ssub 64 (Z.of_nat (length digs)) 39 in let* exp := sadd 64 exp m in Ok (exp, firstn 39 digs) else Ok (exp, digs) in
      let* result := run_value digs in
      let result := if neg then xneg result else result in
      if exp =? 0 then Ok (ROk result)
      else let* p := xpow10 exp in let* r := xmul result p in Ok (ROk r))
  end.
(** string.rs:18-218 *)
Definition xfrom_str (s : list Z) : res (rslt f192 cerr) := rbind (pscan s (PInit, false, [], 0, [])) pfinish.
