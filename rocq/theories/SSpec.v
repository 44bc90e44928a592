(** What numerals mean, independent of the code.  A string is the list of its Unicode code points. *)
From Verif Require Import Base.

(** value of a hexadecimal (hence also decimal, octal, binary) digit character *)
Definition cdig (c : Z) : option Z :=
  if (48 <=? c) && (c <=? 57) then Some (c - 48)
  else if (97 <=? c) && (c <=? 102) then Some (c - 87)
  else if (65 <=? c) && (c <=? 70) then Some (c - 55)
  else None.
Definition bdig (b c : Z) : option Z :=
  match cdig c with Some d => if d <? b then Some d else None | None => None end.
(** positional value of a digit string, [None] if some character is not a digit of the base *)
Fixpoint dvalue (b acc : Z) (s : list Z) : option Z :=
  match s with
  | [] => Some acc
  | c :: t => match bdig b c with Some d => dvalue b (acc * b + d) t | None => None end
  end.

(** [s] without underscores *)
Definition no_us (s : list Z) : list Z := filter (fun c => negb (c =? 95)) s.
(** base announced by the letter after a leading zero *)
Definition prefix_base (c : Z) : option Z :=
  if (c =? 120) || (c =? 88) then Some 16
  else if (c =? 98) || (c =? 66) then Some 2
  else if (c =? 111) || (c =? 79) then Some 8
  else None.
(** the numbers the documented notation denotes: decimal without superfluous zero, or 0x / 0b / 0o and digits;
    underscores anywhere but at the start *)
Definition uread (s : list Z) : option Z :=
  match s with
  | 95 :: _ => None
  | _ =>
      match no_us s with
      | [] => None
      | 48 :: [] => Some 0
      | 48 :: p :: rest =>
          match prefix_base p with
          | Some b => match rest with [] => None | _ => dvalue b 0 rest end
          | None => None
          end
      | l => dvalue 10 0 l
      end
  end.

(** [s] is the canonical base-[b] numeral of [n]: lower-case digits of value [n], no superfluous leading zero *)
Definition numeral (b n : Z) (s : list Z) : Prop :=
  s <> [] /\ dvalue b 0 s = Some n /\ Forall (fun c => 48 <= c <= 57 \/ 97 <= c <= 102) s /\
  (forall t, s = 48 :: t -> n = 0 /\ t = []).
