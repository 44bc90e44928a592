(** Model of src/matrix.rs and src/matrix/*.rs. *)
From Verif Require Import Base UBig UStr BBig RBig RStr RIeee.
Open Scope nat_scope.

(** matrix.rs:12-16 *)
Record mat := mkM { mdata : list (list rat); mcols : nat; mrows : nat }.
(** matrix/err.rs:2-17 *)
Inductive merr := WrongDimension (expected got : nat * nat) | InconsistentRow | NotSquare (cols rows : nat)
  | EmptyMatrix | ZeroDeterminant.

(** ** Iterators *)
(** [for x in l], threading the mutable state *)
Fixpoint fold_m {A S} (f : S -> A -> res S) (l : list A) (s : S) : res S :=
  match l with [] => Ok s | x :: t => let* s' := f s x in fold_m f t s' end.
(** [l.map(f).collect()] *)
Fixpoint map_m {A C} (f : A -> res C) (l : list A) : res (list C) :=
  match l with [] => Ok [] | x :: t => let* y := f x in let* r := map_m f t in Ok (y :: r) end.
(** [l.enumerate()] *)
Definition enum {A} (l : list A) : list (nat * A) := combine (seq 0 (length l)) l.
(** [a..b]; empty when b <= a *)
Definition range (a b : nat) : list nat := seq a (b - a).

(** ** src/matrix.rs *)
(** matrix.rs:68-70 *)
Definition mempty : mat := mkM [] 0 0.
(** matrix.rs:19-34 *)
Definition mfrom_vec (data : list (list rat)) : res (rslt mat merr) :=
  match data with
  | [] => Ok (ROk mempty)
  | row0 :: _ =>
      if forallb (fun row => length row =? length row0) data
      then Ok (ROk (mkM data (length row0) (length data)))
      else Ok (RErr InconsistentRow)
  end.
(** matrix.rs:36-44; the element conversion is a parameter *)
Definition mfrom_vec_generic {T} (into : T -> res rat) (data : list (list T)) : res (rslt mat merr) :=
  let* d := map_m (map_m into) data in mfrom_vec d.
(** matrix.rs:46-54 (the #[cfg(test)] assertion is not part of the library) *)
Definition mfrom_raw (data : list (list rat)) (cols rows : nat) : mat := mkM data cols rows.
(** matrix.rs:57-66 *)
Definition mgenerate (cols rows : nat) (f : nat -> nat -> res rat) : res mat :=
  let* d := map_m (fun i => map_m (fun j => f i j) (range 0 cols)) (range 0 rows) in Ok (mkM d cols rows).
(** matrix.rs:72-77 *)
Definition mzeros (cols rows : nat) : mat := mkM (repeat (repeat rzero cols) rows) cols rows.
(** matrix.rs:95-97 *)
Definition mget (m : mat) (i j : nat) : res rat := let* r := getv (mdata m) i in getv r j.
(** matrix.rs:101-103, followed by an assignment through the reference *)
Definition mset (m : mat) (i j : nat) (x : rat) : res mat :=
  let* r := getv (mdata m) i in
  let* r' := setv r j x in
  let* d := setv (mdata m) i r' in
  Ok (mkM d (mcols m) (mrows m)).
(** matrix.rs:79-87 *)
Definition midentity (n : nat) : res mat :=
  fold_m (fun result i => mset result i i rone) (range 0 n) (mzeros n n).
(** matrix.rs:89-91 *)
Definition mis_square (m : mat) : bool := mcols m =? mrows m.
Definition same_dim (a b : mat) : bool := (mcols a =? mcols b) && (mrows a =? mrows b).
Definition wrong_dim (a b : mat) : merr := WrongDimension (mcols a, mrows a) (mcols b, mrows b).
(** matrix.rs:106-130 *)
Definition madd (a b : mat) : res (rslt mat merr) :=
  if negb (same_dim a b) then Ok (RErr (wrong_dim a b))
  else
    let* d := map_m (fun '(row_ind, row) =>
                map_m (fun '(col_ind, n) => let* o := mget b row_ind col_ind in radd n o) (enum row)) (enum (mdata a)) in
    Ok (ROk (mfrom_raw d (mcols a) (mrows a))).
(** matrix.rs:132-147 *)
Definition madd_mut (a b : mat) : res (rslt mat merr) :=
  if negb (same_dim a b) then Ok (RErr (wrong_dim a b))
  else
    let* r := fold_m (fun s i => fold_m (fun s j =>
                let* x := mget s i j in
                let* o := mget b i j in
                let* y := radd_mut x o in
                mset s i j y) (range 0 (mcols a)) s) (range 0 (mrows a)) a in
    Ok (ROk r).
(** matrix.rs:150-169, for [k] already a Ratio *)
Definition mmul_k (a : mat) (k : rat) : res mat :=
  let* d := map_m (map_m (fun n => rmul n k)) (mdata a) in
  Ok (mfrom_raw d (mcols a) (mrows a)).
(** matrix.rs:171-179 *)
Definition mmul_k_mut (a : mat) (k : rat) : res mat :=
  fold_m (fun s i => fold_m (fun s j =>
    let* x := mget s i j in
    let* y := rmul_mut x k in
    mset s i j y) (range 0 (mcols a)) s) (range 0 (mrows a)) a.
(** matrix.rs:182-201 *)
Definition mmul (a b : mat) : res (rslt mat merr) :=
  if negb (mcols a =? mrows b) then Ok (RErr (WrongDimension (mcols b, mcols a) (mcols b, mrows b)))
  else
    let* r := fold_m (fun s i => fold_m (fun s j => fold_m (fun s k =>
                let* x := mget a i k in
                let* y := mget b k j in
                let* p := rmul x y in
                let* z := mget s i j in
                let* z := radd_mut z p in
                mset s i j z) (range 0 (mcols a)) s) (range 0 (mcols b)) s) (range 0 (mrows a))
              (mzeros (mcols b) (mrows a)) in
    Ok (ROk r).
(** matrix.rs:204-213 *)
Definition mtranspose (a : mat) : res mat :=
  let* d := map_m (fun i => map_m (fun j => mget a j i) (range 0 (mrows a))) (range 0 (mcols a)) in
  Ok (mfrom_raw d (mrows a) (mcols a)).
(** matrix.rs:215-218 *)
Definition mtranspose_mut : mat -> res mat := mtranspose.
(** matrix.rs:220-230; [join sep] is slice::join *)
Fixpoint join (sep : list Z) (l : list (list Z)) : list Z :=
  match l with
  | [] => []
  | x :: t => match t with [] => x | _ :: _ => x ++ sep ++ join sep t end
  end.
Definition bracket (s : list Z) : list Z := [91%Z] ++ s ++ [93%Z].
Definition comma : list Z := [44%Z; 32%Z].
Definition mto_ratio_string (a : mat) : res (list Z) :=
  let* rows := map_m (fun row => let* l := map_m rto_ratio_string row in Ok (bracket (join comma l))) (mdata a) in
  Ok (bracket (join comma rows)).

(** ** src/matrix/det.rs *)
(** det.rs:15-17 *)
Definition dhack2 (a b c d : rat) : res rat :=
  let* ad := rmul a d in let* bc := rmul b c in rsub ad bc.
(** det.rs:20-22 *)
Definition dhack2n (a b c d : rat) : res rat :=
  let* bc := rmul b c in let* ad := rmul a d in rsub bc ad.
Definition rmul3 (a b c : rat) : res rat := let* bc := rmul b c in rmul a bc.
(** det.rs:25-37 *)
Definition dhack3 (a b c d e f g h i : rat) : res rat :=
  let* s := rmul3 a e i in
  let* t := rmul3 b f g in let* s := radd s t in
  let* t := rmul3 c d h in let* s := radd s t in
  let* t := rmul3 c e g in let* s := rsub s t in
  let* t := rmul3 b d i in let* s := rsub s t in
  let* t := rmul3 a f h in rsub s t.
(** det.rs:40-52 *)
Definition dhack3n (a b c d e f g h i : rat) : res rat :=
  let* s := rmul3 c e g in
  let* t := rmul3 b d i in let* s := radd s t in
  let* t := rmul3 a f h in let* s := radd s t in
  let* t := rmul3 a e i in let* s := rsub s t in
  let* t := rmul3 b f g in let* s := rsub s t in
  let* t := rmul3 c d h in rsub s t.
(** det.rs:91-98 *)
Definition mdet2 (m : mat) : res rat :=
  let* a := mget m 0 0 in let* b := mget m 0 1 in
  let* c := mget m 1 0 in let* d := mget m 1 1 in
  dhack2 a b c d.
(** det.rs:101-113 *)
Definition mdet3 (m : mat) : res rat :=
  let* a := mget m 0 0 in let* b := mget m 0 1 in let* c := mget m 0 2 in
  let* d := mget m 1 0 in let* e := mget m 1 1 in let* f := mget m 1 2 in
  let* g := mget m 2 0 in let* h := mget m 2 1 in let* i := mget m 2 2 in
  dhack3 a b c d e f g h i.
(** det.rs:116-157 *)
Definition mdet4 (m : mat) : res rat :=
  let* a00 := mget m 0 0 in let* a01 := mget m 0 1 in let* a02 := mget m 0 2 in let* a03 := mget m 0 3 in
  let* a10 := mget m 1 0 in let* a11 := mget m 1 1 in let* a12 := mget m 1 2 in let* a13 := mget m 1 3 in
  let* a20 := mget m 2 0 in let* a21 := mget m 2 1 in let* a22 := mget m 2 2 in let* a23 := mget m 2 3 in
  let* a30 := mget m 3 0 in let* a31 := mget m 3 1 in let* a32 := mget m 3 2 in let* a33 := mget m 3 3 in
  let* result := dhack3 a11 a12 a13 a21 a22 a23 a31 a32 a33 in
  let* result := rmul_mut result a00 in
  let* d := dhack3n a10 a12 a13 a20 a22 a23 a30 a32 a33 in
  let* d := rmul_mut d a01 in
  let* result := radd_mut result d in
  let* d := dhack3 a10 a11 a13 a20 a21 a23 a30 a31 a33 in
  let* d := rmul_mut d a02 in
  let* result := radd_mut result d in
  let* d := dhack3n a10 a11 a12 a20 a21 a22 a30 a31 a32 in
  let* d := rmul_mut d a03 in
  radd_mut result d.
(** matrix/utils.rs:16-30; [det] is the recursive call to [determinant] *)
Definition mminor_ (det : mat -> res (rslt rat merr)) (m : mat) (i j : nat) : res rat :=
  let rows := range 0 i ++ range (i + 1) (mrows m) in
  let cols := range 0 j ++ range (j + 1) (mcols m) in
  let* r1 := subn (mrows m) 1 in
  let* c1 := subn (mcols m) 1 in
  let* result := fold_m (fun s '(i_i, i_o) => fold_m (fun s '(j_i, j_o) =>
                   let* x := mget m i_o j_o in mset s i_i j_i x) (enum cols) s) (enum rows) (mzeros r1 c1) in
  let* d := det result in
  unwrap d.
(** matrix/utils.rs:5-13 *)
Definition mcofactor_ (det : mat -> res (rslt rat merr)) (m : mat) (i j : nat) : res rat :=
  let* c := mminor_ det m i j in
  Ok (if (i + j) mod 2 =? 1 then ropp_mut c else c).
(** det.rs:56-88; [fuel] bounds the depth of the recursion through [cofactor] *)
Fixpoint mdet_f (fuel : nat) (m : mat) : res (rslt rat merr) :=
  match fuel with
  | O => NoFuel
  | S fuel =>
      if negb (mis_square m) then Ok (RErr (NotSquare (mcols m) (mrows m)))
      else
        let n := mcols m in
        if n <? 5 then
          if n <? 3 then
            if n =? 0 then Ok (RErr EmptyMatrix)
            else if n =? 1 then let* x := mget m 0 0 in Ok (ROk x)
            else let* d := mdet2 m in Ok (ROk d)
          else if n =? 3 then let* d := mdet3 m in Ok (ROk d)
          else let* d := mdet4 m in Ok (ROk d)
        else
          let* result := fold_m (fun result j =>
                           let* x := mget m 0 j in
                           let* c := mcofactor_ (mdet_f fuel) m 0 j in
                           let* p := rmul x c in
                           radd_mut result p) (range 0 n) rzero in
          Ok (ROk result)
  end.
Definition mdet (m : mat) : res (rslt rat merr) := mdet_f (S (mcols m)) m.
Definition mminor : mat -> nat -> nat -> res rat := mminor_ mdet.
Definition mcofactor : mat -> nat -> nat -> res rat := mcofactor_ mdet.

(** ** src/matrix/inv.rs *)
(** inv.rs:46-67 *)
Definition madj3 (m : mat) : res mat :=
  let* a00 := mget m 0 0 in let* a01 := mget m 0 1 in let* a02 := mget m 0 2 in
  let* a10 := mget m 1 0 in let* a11 := mget m 1 1 in let* a12 := mget m 1 2 in
  let* a20 := mget m 2 0 in let* a21 := mget m 2 1 in let* a22 := mget m 2 2 in
  let* b00 := dhack2 a11 a12 a21 a22 in let* b01 := dhack2n a01 a02 a21 a22 in let* b02 := dhack2 a01 a02 a11 a12 in
  let* b10 := dhack2n a10 a12 a20 a22 in let* b11 := dhack2 a00 a02 a20 a22 in let* b12 := dhack2n a00 a02 a10 a12 in
  let* b20 := dhack2 a10 a11 a20 a21 in let* b21 := dhack2n a00 a01 a20 a21 in let* b22 := dhack2 a00 a01 a10 a11 in
  Ok (mfrom_raw [[b00; b01; b02]; [b10; b11; b12]; [b20; b21; b22]] 3 3).
(** inv.rs:69-119 *)
Definition madj4 (m : mat) : res mat :=
  let* a00 := mget m 0 0 in let* a01 := mget m 0 1 in let* a02 := mget m 0 2 in let* a03 := mget m 0 3 in
  let* a10 := mget m 1 0 in let* a11 := mget m 1 1 in let* a12 := mget m 1 2 in let* a13 := mget m 1 3 in
  let* a20 := mget m 2 0 in let* a21 := mget m 2 1 in let* a22 := mget m 2 2 in let* a23 := mget m 2 3 in
  let* a30 := mget m 3 0 in let* a31 := mget m 3 1 in let* a32 := mget m 3 2 in let* a33 := mget m 3 3 in
  let* b00 := dhack3 a11 a12 a13 a21 a22 a23 a31 a32 a33 in
  let* b01 := dhack3n a01 a02 a03 a21 a22 a23 a31 a32 a33 in
  let* b02 := dhack3 a01 a02 a03 a11 a12 a13 a31 a32 a33 in
  let* b03 := dhack3n a01 a02 a03 a11 a12 a13 a21 a22 a23 in
  let* b10 := dhack3n a10 a12 a13 a20 a22 a23 a30 a32 a33 in
  let* b11 := dhack3 a00 a02 a03 a20 a22 a23 a30 a32 a33 in
  let* b12 := dhack3n a00 a02 a03 a10 a12 a13 a30 a32 a33 in
  let* b13 := dhack3 a00 a02 a03 a10 a12 a13 a20 a22 a23 in
  let* b20 := dhack3 a10 a11 a13 a20 a21 a23 a30 a31 a33 in
  let* b21 := dhack3n a00 a01 a03 a20 a21 a23 a30 a31 a33 in
  let* b22 := dhack3 a00 a01 a03 a10 a11 a13 a30 a31 a33 in
  let* b23 := dhack3n a00 a01 a03 a10 a11 a13 a20 a21 a23 in
  let* b30 := dhack3n a10 a11 a12 a20 a21 a22 a30 a31 a32 in
  let* b31 := dhack3 a00 a01 a02 a20 a21 a22 a30 a31 a32 in
  let* b32 := dhack3n a00 a01 a02 a10 a11 a12 a30 a31 a32 in
  let* b33 := dhack3 a00 a01 a02 a10 a11 a12 a20 a21 a22 in
  Ok (mfrom_raw [[b00; b01; b02; b03]; [b10; b11; b12; b13]; [b20; b21; b22; b23]; [b30; b31; b32; b33]] 4 4).
(** inv.rs:16-42 *)
Definition madjugate (m : mat) : res mat :=
  let n := mcols m in
  if n <? 5 then
    if n <? 2 then Ok m
    else if n =? 2 then
      let* d11 := mget m 1 1 in let* d01 := mget m 0 1 in
      let* d10 := mget m 1 0 in let* d00 := mget m 0 0 in
      Ok (mfrom_raw [[d11; ropp d01]; [ropp d10; d00]] 2 2)
    else if n =? 3 then madj3 m
    else madj4 m
  else mgenerate (mcols m) (mrows m) (fun i j => mcofactor m j i).
(** inv.rs:4-14 *)
Definition minverse (m : mat) : res (rslt mat merr) :=
  let* det := mdet m in
  match det with
  | RErr e => Ok (RErr e)
  | ROk det =>
      if ris_zero det then Ok (RErr ZeroDeterminant)
      else
        let* result := madjugate m in
        let* k := rreci det in
        let* result := mmul_k_mut result k in
        Ok (ROk result)
  end.
