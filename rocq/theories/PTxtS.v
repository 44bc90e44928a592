(** What the text of a polynomial or a matrix means, independent of the code.  A string is the list of its code points. *)
From Coq Require Import QArith.
From Verif Require Import Base SSpec RSpec.
Local Open Scope Z_scope.

(** the pieces between the characters [c] *)
Fixpoint pieces (c : Z) (s : list Z) : list (list Z) :=
  match s with
  | [] => [[]]
  | x :: t => if x =? c then [] :: pieces c t else match pieces c t with w :: r => (x :: w) :: r | [] => [[x]] end
  end.
(** 12 or 12/5 *)
Definition nat_read (s : list Z) : option Z := match s with [] => None | _ => dvalue 10 0 s end.
Definition fread (s : list Z) : option Q :=
  match cut (fun c => c =? 47) s with
  | Some (n, d) => match nat_read n, nat_read d with Some n, Some d => if 0 <? d then Some (inject_Z n / inject_Z d)%Q else None | _, _ => None end
  | None => match nat_read s with Some n => Some (inject_Z n) | None => None end
  end.
(** x or x^12 *)
Definition mono_read (w : list Z) : option Z :=
  match w with
  | [] => None
  | c :: r => if c =? 120 then match r with [] => Some 1 | d :: k => if d =? 94 then nat_read k else None end else None
  end.
(** the word made of the one character [c] *)
Definition is_word (c : Z) (w : list Z) : bool := match w with [x] => x =? c | _ => false end.
(** the words of a sum, cut before every + and - into signed terms *)
Fixpoint signed_terms (neg : bool) (cur : list (list Z)) (ws : list (list Z)) : list (bool * list (list Z)) :=
  match ws with
  | [] => [(neg, cur)]
  | w :: t =>
      if is_word 43 w then (neg, cur) :: signed_terms false [] t
      else if is_word 45 w then (neg, cur) :: signed_terms true [] t
      else signed_terms neg (cur ++ [w]) t
  end.
(** a term: coefficient and exponent; [cr] reads coefficients without sign *)
Definition term_read (cr : list Z -> option Q) (g : bool * list (list Z)) : option (Q * Z) :=
  let '(neg, ws) := g in
  let sgn (q : Q) := if (neg : bool) then (- q)%Q else q in
  match ws with
  | [w] => match mono_read w with Some k => Some (sgn 1%Q, k) | None => match cr w with Some q => Some (sgn q, 0) | None => None end end
  | [w; o; m] => if is_word 42 o then match cr w, mono_read m with Some q, Some k => Some (sgn q, k) | _, _ => None end else None
  | _ => None
  end.
Fixpoint all_read {A C} (f : A -> option C) (l : list A) : option (list C) :=
  match l with
  | [] => Some []
  | a :: t => match f a, all_read f t with Some c, Some r => Some (c :: r) | _, _ => None end
  end.
(** the terms of the text of a polynomial *)
Definition poly_read (cr : list Z -> option Q) (s : list Z) : option (list (Q * Z)) :=
  all_read (term_read cr) (match s with c :: t => if c =? 45 then signed_terms true [] (pieces 32 t) else signed_terms false [] (pieces 32 s) | [] => [] end).
(** the coefficient of x^k in a list of terms *)
Definition coeff (ts : list (Q * Z)) (k : Z) : Q := fold_right (fun '(q, i) a => if i =? k then (q + a)%Q else a) 0%Q ts.

(** ** matrices: [[1, 2/3], [-4, 5]] *)
Definition sfread (s : list Z) : option Q :=
  match s with c :: t => if c =? 45 then match fread t with Some q => Some (- q)%Q | None => None end else fread s | [] => None end.
Fixpoint strip (p s : list Z) : option (list Z) :=
  match p, s with
  | [], _ => Some s
  | c :: p, d :: s => if c =? d then strip p s else None
  | _, _ => None
  end.
(** what [r] reads after the prefix [p] *)
Definition after {A} (p : list Z) (r : list Z -> option A) (s : list Z) : option A := match strip p s with Some t => r t | None => None end.
Definition row_read (s : list Z) : option (list Q) :=
  match s with
  | [] => Some []
  | _ => match pieces 44 s with
         | c :: r => match sfread c, all_read (after [32] sfread) r with Some q, Some l => Some (q :: l) | _, _ => None end
         | [] => None
         end
  end.
(** cut at the closing brackets; the last row ends with two of them *)
Definition mat_read (s : list Z) : option (list (list Q)) :=
  match rev (pieces 93 s) with
  | [] :: r =>
      match r with
      | [] :: r' =>
          match rev r' with
          | f :: rows => match after [91; 91] row_read f, all_read (after [44; 32; 91] row_read) rows with Some x, Some l => Some (x :: l) | _, _ => None end
          | [] => None
          end
      | [w] => if is_word 91 w then Some [] else None
      | _ => None
      end
  | _ => None
  end.
