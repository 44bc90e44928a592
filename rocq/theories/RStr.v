(** Model of the text conversions of src/ratio/convert.rs. A string is the list of its code points. *)
From Verif Require Import Base UBig UStr BBig RBig.

(** [str::find] of a character predicate: index of the first match.  The code's indices are byte offsets; they are only
    used to cut the string next to an ASCII character, so character positions give the same pieces. *)
Fixpoint sfind (p : Z -> bool) (s : list Z) : option nat :=
  match s with
  | [] => None
  | c :: t => if p c then Some 0%nat else match sfind p t with Some i => Some (S i) | None => None end
  end.
(** convert.rs:484-499 [get_non_decimal_char] *)
Fixpoint non_decimal (s : list Z) : option Z :=
  match s with
  | [] => None
  | c :: t =>
      let l := ascii_lower c in
      if (l =? 45) || (l =? 48) || (l =? 46) then non_decimal t
      else match to_digit 10 l with Some _ => None | None => Some c end
  end.
(** convert.rs:143-155 *)
Fixpoint frac_loop (s : list Z) (denom numer : bint) : res (rslt (bint * bint) cerr) :=
  match s with
  | [] => Ok (ROk (denom, numer))
  | c :: t =>
      if c =? 95 then frac_loop t denom numer
      else match to_digit 10 c with
           | Some x =>
               let* denom := bmul_i32_mut denom 10 in
               let* numer := bmul_i32_mut numer 10 in
               let* numer := badd_i32_mut numer x in
               frac_loop t denom numer
           | None => Ok (RErr (InvalidChar c))
           end
  end.
(** convert.rs:196-199, 209-212: [while x.rem_pow2(2).is_zero() && e.rem_pow2(2).is_zero()] *)
Definition cancel2_body (self : bint * bint -> res (bint * bint)) (s : bint * bint) : res (bint * bint) :=
  let '(x, e) := s in
  let* r := brem_pow2 x 2 in
  if bis_zero r then
    let* r := brem_pow2 e 2 in
    if bis_zero r then
      let* x := bdiv_i32_mut x 2 in
      let* e := bdiv_i32_mut e 2 in
      self (x, e)
    else Ok (x, e)
  else Ok (x, e).
Definition cancel2 : bint * bint -> res (bint * bint) := loopn 32 cancel2_body.
(** convert.rs:201-204, 214-217 *)
Definition cancel5_body (self : bint * bint -> res (bint * bint)) (s : bint * bint) : res (bint * bint) :=
  let '(x, e) := s in
  let* r := brem_i32 x 5 in
  if bis_zero r then
    let* r := brem_i32 e 5 in
    if bis_zero r then
      let* x := bdiv_i32_mut x 5 in
      let* e := bdiv_i32_mut e 5 in
      self (x, e)
    else Ok (x, e)
  else Ok (x, e).
Definition cancel5 : bint * bint -> res (bint * bint) := loopn 32 cancel5_body.
(** convert.rs:190-224 *)
Definition scale10 (result : rat) (exponential_part : Z) : res rat :=
  if exponential_part =? 0 then Ok result
  else
    let* x := sabs 32 exponential_part in
    let* ten := bfrom_i32 10 in
    let* e := bpow_u32 ten (castw 32 x) in
    if 0 <? exponential_part then
      let* '(d, e) := cancel2 (rden result, e) in
      let* '(d, e) := cancel5 (d, e) in
      let* n := bmul_mut (rnum result) e in
      Ok (mkR d n)
    else
      let* '(n, e) := cancel2 (rnum result, e) in
      let* '(n, e) := cancel5 (n, e) in
      let* d := bmul_mut (rden result) e in
      Ok (mkR d n).
(** convert.rs:77-227 *)
Definition rfrom_string (s : list Z) : res (rslt rat cerr) :=
  match s with
  | [] => Ok (RErr NoData)
  | c0 :: _ =>
      let dot_index := sfind (fun c => c =? 46) s in
      let find_e := sfind (fun c => ascii_lower c =? 101) s in
      let e_index :=
        match non_decimal s with
        | Some c => if negb (ascii_lower c =? 120) then find_e else None
        | None => find_e
        end in
      match dot_index, e_index with
      | None, None => rbind (bfrom_string s) (fun n => Ok (ROk (rfrom_bi n)))
      | _, _ =>
          match
            match non_decimal s with
            | Some c => if negb (ascii_lower c =? 101) then Some c else None
            | None => None
            end
          with
          | Some c => Ok (RErr (InvalidChar c))
          | None =>
              let is_neg := c0 =? 45 in
              let integer_end_index := match dot_index, e_index with Some i, _ => i | None, Some i => i | None, None => 0%nat end in
              rbind (bfrom_string (firstn integer_end_index s)) (fun integer_part =>
              rbind (match dot_index with
                     | None => Ok (ROk rzero)
                     | Some i =>
                         let fend := match e_index with Some ii => ii | None => length s end in
                         if (i + 1 <=? fend)%nat then
                           rbind (frac_loop (skipn (i + 1) (firstn fend s)) bone bzero) (fun '(denom, numer) =>
                           let* r := from_dn denom numer in Ok (ROk r))
                         else Ok (RErr UnexpectedEnd)
                     end) (fun fractional_part =>
              rbind (match e_index with
                     | None => Ok (ROk 0)
                     | Some i => rbind (bfrom_string (skipn (i + 1) s)) (fun n => Ok (bto_i32 n))
                     end) (fun exponential_part =>
              let fractional_part := if is_neg then ropp_mut fractional_part else fractional_part in
              let* result := radd_mut (rfrom_bi integer_part) fractional_part in
              let* r := scale10 result exponential_part in
              Ok (ROk r))))
          end
      end
  end.
(** convert.rs:230-236 *)
Definition rto_ratio_string (r : rat) : res (list Z) :=
  if bis_one (rden r) then bto_string_dec (rnum r)
  else
    let* n := bto_string_dec (rnum r) in
    let* d := bto_string_dec (rden r) in
    Ok (n ++ [47] ++ d).
