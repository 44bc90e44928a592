(** Model of the text conversions of src/ubigint/convert.rs.  A string is the list of its code points. *)
From Verif Require Import Base UBig UFun.

(** src/err.rs:3-25; the strings inside [NotInRange] are not modelled *)
Inductive cerr : Type :=
| NoData | InvalidChar (c : Z) | NotInRange | UnexpectedEnd | Infinity | NegInfinity | NotANumber | TryFromIntError.
(** Rust's [Result]; a panic is the outer [res] *)
Inductive rslt (A E : Type) : Type := ROk (a : A) | RErr (e : E).
Arguments ROk {A E} a.
Arguments RErr {A E} e.
(** the [?] operator *)
Definition rbind {A C E} (m : res (rslt A E)) (k : A -> res (rslt C E)) : res (rslt C E) :=
  let* r := m in match r with ROk a => k a | RErr e => Ok (RErr e) end.

(** [char::to_digit] of the standard library *)
Definition to_digit (radix c : Z) : option Z :=
  let d := if (48 <=? c) && (c <=? 57) then c - 48
           else if (97 <=? c) && (c <=? 122) then c - 87
           else if (65 <=? c) && (c <=? 90) then c - 55
           else 1000 in
  if d <? radix then Some d else None.
(** [char::to_ascii_lowercase] *)
Definition ascii_lower (c : Z) : Z := if (65 <=? c) && (c <=? 90) then c + 32 else c.

(** Standard library integer formatting: digits most significant first; [{}], [{:x}], [{:o}], [{:b}] *)
Fixpoint zdigs (fuel : nat) (b n : Z) : list Z :=
  match fuel with
  | O => []
  | S f => if n <? b then [n] else zdigs f b (n / b) ++ [n mod b]
  end.
Definition zdigits (b n : Z) : list Z := zdigs (S (S (Z.to_nat (Z.log2 n)))) b n.
Definition dchar (d : Z) : Z := if d <? 10 then 48 + d else 87 + d.
Definition fmt_uint (b n : Z) : list Z := map dchar (zdigits b n).
(** [{:0w}]: zero padding on the left *)
Definition zpad (w : nat) (s : list Z) : list Z := repeat 48 (w - length s) ++ s.
(** [trim_start_matches('0')] *)
Fixpoint trim0 (s : list Z) : list Z :=
  match s with [] => [] | c :: t => if c =? 48 then trim0 t else s end.

(** ** convert.rs:83-180 [from_string] *)
Inductive fsm := Init | InitialZero | InitNum | ReadNum.
Fixpoint from_string_go (s : list Z) (st : fsm) (int_buffer : Z) (ubi_buffer : ubig) (coeff base : Z)
  : res (rslt ubig cerr) :=
  match s with
  | [] =>
      match st with
      | InitialZero => Ok (ROk uzero)
      | ReadNum =>
          if 1 <? coeff then
            let* u := umul_u32_mut ubi_buffer coeff in
            let* u := uadd_u32_mut u int_buffer in Ok (ROk u)
          else Ok (ROk ubi_buffer)
      | Init => Ok (RErr NoData)
      | InitNum => Ok (RErr NoData)
      end
  | c :: t =>
      if (c =? 95) && negb (match st with Init => true | _ => false end)
      then from_string_go t st int_buffer ubi_buffer coeff base
      else
        match st with
        | Init =>
            if c =? 48 then from_string_go t InitialZero int_buffer ubi_buffer coeff base
            else match to_digit 10 c with
                 | Some n => from_string_go t ReadNum n ubi_buffer 10 base
                 | None => Ok (RErr (InvalidChar c))
                 end
        | InitialZero =>
            if ascii_lower c =? 120 then from_string_go t InitNum int_buffer ubi_buffer coeff 16
            else if ascii_lower c =? 98 then from_string_go t InitNum int_buffer ubi_buffer coeff 2
            else if ascii_lower c =? 111 then from_string_go t InitNum int_buffer ubi_buffer coeff 8
            else Ok (RErr (InvalidChar c))
        | InitNum =>
            match to_digit 16 c with
            | Some n => if n <? base then from_string_go t ReadNum n ubi_buffer base base
                        else Ok (RErr (InvalidChar c))
            | None => Ok (RErr (InvalidChar c))
            end
        | ReadNum =>
            match to_digit 16 c with
            | Some n =>
                if n <? base then
                  let* ib := mulw 32 int_buffer base in
                  let* ib := addw 32 ib n in
                  let* coeff := mulw 32 coeff base in
                  if 134217728 <? coeff then
                    let* u := umul_u32_mut ubi_buffer coeff in
                    let* u := uadd_u32_mut u ib in
                    from_string_go t ReadNum 0 u 1 base
                  else from_string_go t ReadNum ib ubi_buffer coeff base
                else Ok (RErr (InvalidChar c))
            | None => Ok (RErr (InvalidChar c))
            end
        end
  end.
Definition ufrom_string (s : list Z) : res (rslt ubig cerr) := from_string_go s Init 0 uzero 1 10.

(** ** convert.rs:209-222 [to_string_dec] *)
Definition dec_body (self : ubig * list (list Z) -> res (list (list Z))) (s : ubig * list (list Z))
  : res (list (list Z)) :=
  let '(n, buffer) := s in
  if (1 <? length n)%nat then
    let* r := urem_u32 n 1000000000 in
    let* x := getv r 0 in
    let* n := udiv_u32_mut n 1000000000 in
    self (n, buffer ++ [zpad 9 (fmt_uint 10 x)])
  else
    let* x := getv n 0 in Ok (buffer ++ [fmt_uint 10 x]).
Definition uto_string_dec (a : ubig) : res (list Z) :=
  let* buffer := loopn (ufuel a) dec_body (a, []) in Ok (concat (rev buffer)).

(** convert.rs:230-239, 253-263, 272-281: put the prefix in front, trim the most significant chunk *)
Definition finish_radix (pre : list Z) (buffer : list (list Z)) : res (list Z) :=
  match rev buffer with
  | [] => Panic
  | top :: rest =>
      let top := trim0 top in
      let top := match top with [] => [48] | _ => top end in
      Ok (pre ++ top ++ concat rest)
  end.
(** convert.rs:225-240 *)
Definition uto_string_hex (a : ubig) (prefix : bool) : res (list Z) :=
  finish_radix (if prefix then [48; 120] else []) (map (fun n => zpad 8 (fmt_uint 16 n)) a).
(** convert.rs:267-282 *)
Definition uto_string_bin (a : ubig) (prefix : bool) : res (list Z) :=
  finish_radix (if prefix then [48; 98] else []) (map (fun n => zpad 32 (fmt_uint 2 n)) a).
(** convert.rs:243-264 *)
Definition oct_body (self : ubig * list (list Z) -> res (list (list Z))) (s : ubig * list (list Z))
  : res (list (list Z)) :=
  let '(n, buffer) := s in
  if (1 <? length n)%nat then
    let* r := urem_pow2 n 1073741824 in
    let* x := getv r 0 in
    let* n := udiv_u32_mut n 1073741824 in
    self (n, buffer ++ [zpad 10 (fmt_uint 8 x)])
  else
    let* x := getv n 0 in Ok (buffer ++ [fmt_uint 8 x]).
Definition uto_string_oct (a : ubig) (prefix : bool) : res (list Z) :=
  let* buffer := loopn (ufuel a) oct_body (a, []) in
  finish_radix (if prefix then [48; 111] else []) buffer.

(** ** convert.rs:331-360 [_to_scientific_notation] *)
(** convert.rs:335-339: [digits] in push order (least significant first) *)
Definition sci_digits_body (self : Z * list Z * Z -> res (list Z * Z)) (s : Z * list Z * Z) : res (list Z * Z) :=
  let '(n, digits, exp) := s in
  if 0 <? n then self (n / 10, digits ++ [n mod 10], exp + 1) else Ok (digits, exp).
(** convert.rs:347-349, on the reversed digit vector, so popping removes the head *)
Fixpoint sci_pop (max : nat) (rd : list Z) : list Z :=
  match rd with
  | [] => []
  | d :: t => if (max <? length rd)%nat || ((1 <? length rd)%nat && (d =? 0)) then sci_pop max t else rd
  end.
Definition sci_render (digits : list Z) : list Z :=
  match digits with
  | [] => [48]
  | [d] => fmt_uint 10 d
  | d :: t => fmt_uint 10 d ++ [46] ++ concat (map (fmt_uint 10) t)
  end.
(** the digits kept and the exponent *)
Definition sci_parts (n : Z) (max : nat) : res (list Z * Z) :=
  let* '(digits, exp) := loopn 64 sci_digits_body (n, [], 0) in
  let exp := if (0 <? length digits)%nat then exp - 1 else exp in
  Ok (rev (sci_pop max digits), exp).
Definition sci_u64 (n : Z) (max : nat) : res (list Z * Z) :=
  let* '(digits, exp) := sci_parts n max in Ok (sci_render digits, exp).

(** ** convert.rs:183-207 [to_scientific_notation] *)
Definition P64 : ubig := [0; 0; 3211403009; 1849224548; 3668416493; 3913284084; 1593091].
Definition sci_big (self : ubig * Z -> res (ubig * Z)) (s : ubig * Z) : res (ubig * Z) :=
  let '(n, exp) := s in
  if (8 <? length n)%nat then
    let* n := udiv_mut n P64 in
    let* exp := addw 64 exp 64 in self (n, exp)
  else Ok (n, exp).
Definition sci_mid (self : ubig * Z -> res (ubig * Z)) (s : ubig * Z) : res (ubig * Z) :=
  let '(n, exp) := s in
  if (2 <? length n)%nat then
    let* n := udiv_u32_mut n 1000000000 in
    let* exp := addw 64 exp 9 in self (n, exp)
  else Ok (n, exp).
(** digits and exponent before they are joined by [format!("{digits}e{}", ..)] *)
Definition uto_sci_parts (a : ubig) (max : nat) : res (list Z * Z) :=
  let* '(n, exp) := loopn (ufuel a) sci_big (a, 0) in
  let* '(n, exp) := loopn (ufuel a) sci_mid (n, exp) in
  let* x := expect (uto_u64_opt n) in
  let* '(digits, new_exp) := sci_parts x max in
  let* e := addw 64 exp new_exp in
  Ok (digits, e).
Definition uto_scientific_notation (a : ubig) (max : nat) : res (list Z) :=
  let* '(digits, e) := uto_sci_parts a max in
  Ok (sci_render digits ++ [101] ++ fmt_uint 10 e).

(** ** convert.rs:17-76 with their error values *)
Definition of_opt {A} (o : option A) (e : cerr) : rslt A cerr := match o with Some a => ROk a | None => RErr e end.
Definition uto_u32 (a : ubig) : rslt Z cerr := of_opt (uto_u32_opt a) NotInRange.
Definition uto_u64 (a : ubig) : rslt Z cerr := of_opt (uto_u64_opt a) NotInRange.
Definition uto_u128 (a : ubig) : rslt Z cerr := of_opt (uto_u128_opt a) NotInRange.
