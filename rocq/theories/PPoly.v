(** Model of src/poly.rs, src/poly/from_points.rs and src/complex. *)
From Verif Require Import Base UBig UStr BBig RBig RStr RFmt RIeee MMat.
Open Scope nat_scope.

(** poly.rs:9-11: a Polynomial is its coefficient vector, highest degree first *)
Definition poly := list rat.
(** poly.rs:14-33: the scan for the first non-zero coefficient and the slice behind it *)
Fixpoint lead_zeros (l : list rat) : nat :=
  match l with [] => 0 | n :: t => if ris_zero n then S (lead_zeros t) else 0 end.
Definition pfrom_vec (coeffs : list rat) : poly :=
  let i := lead_zeros coeffs in
  let coeffs := if negb (i =? 0) then skipn i coeffs else coeffs in
  match coeffs with [] => [rzero] | _ :: _ => coeffs end.
(** poly.rs:35-39; the element conversion is a parameter *)
Definition pfrom_vec_generic {T} (into : T -> res rat) (coeffs : list T) : res poly :=
  match coeffs with [] => Ok (pfrom_vec []) | _ :: _ => map_m into coeffs end.
(** poly.rs:45-53 *)
Definition pto_vec_ieee (F : fmt) (p : poly) : res (list Z) :=
  map_m (fun n => let* r := to_ieee754 F n in unwrap r) p.
(** poly.rs:65-80 *)
Definition pmul_k (p : poly) (k : rat) : res poly := let* l := map_m (fun n => rmul n k) p in Ok (pfrom_vec l).
(** poly.rs:82-93 *)
Definition pmul_k_mut (p : poly) (k : rat) : res poly :=
  if ris_zero k then Ok (pfrom_vec []) else map_m (fun n => rmul_mut n k) p.
(** [Vec::pop().unwrap()] *)
Definition pop_unwrap {A} (l : list A) : res (list A) := match l with [] => Panic | _ :: _ => Ok (removelast l) end.
(** poly.rs:105-128 *)
Definition pdifferentiate (p : poly) : res poly :=
  let* result := map_m (fun '(ind, value) => rmul_i32 value (casts 32 (Z.of_nat ind))) (rev (enum (rev p))) in
  let* result := pop_unwrap result in
  let result := match result with [] => [rzero] | _ :: _ => result end in
  Ok (pfrom_vec result).
(** poly.rs:130-140 *)
Definition pdifferentiate_mut (p : poly) : res poly :=
  let* l := map_m (fun '(ind, value) => rmul_i32_mut value (casts 32 (Z.of_nat ind))) (enum (rev p)) in
  let* result := pop_unwrap (rev l) in
  Ok (match result with [] => [rzero] | _ :: _ => result end).
(** poly.rs:143-152 *)
Definition pcalc (p : poly) (x : rat) : res rat :=
  fold_m (fun result coeff => let* result := rmul_mut result x in radd_mut result coeff) p rzero.
(** poly.rs:155-165 *)
Definition pnewton (p : poly) (x : rat) (prime : option poly) : res rat :=
  let* fpx := match prime with
              | Some q => pcalc q x
              | None => let* fp := pdifferentiate p in pcalc fp x
              end in
  let* fx := pcalc p x in
  let* q := rdiv fx fpx in
  rsub x q.
(** poly.rs:175-227: [result] is the vector of pieces, concatenated at the end; [show] is the text of a coefficient, chosen by [approx] *)
Definition pto_string (show : rat -> res (list Z)) (p : poly) : res (list Z) :=
  let* result := fold_m (fun result '(ind, value) =>
      if ris_zero value then Ok result
      else
        let abs_val := rabs value in
        let result := match result with
                      | _ :: _ => if ris_neg value then result ++ [[32; 45; 32]%Z] else result ++ [[32; 43; 32]%Z]
                      | [] => if ris_neg value then result ++ [[45]%Z] else result
                      end in
        let* result :=
          if negb (ris_one abs_val) then
            let* s := show abs_val in
            Ok (if 0 <? ind then result ++ [s] ++ [[32; 42; 32]%Z] else result ++ [s])
          else if ind =? 0 then let* s := show abs_val in Ok (result ++ [s])
          else Ok result in
        let result := if negb (ind =? 0) then result ++ [[120]%Z] else result in
        Ok (if 1 <? ind then result ++ [[94]%Z ++ fmt_uint 10 (Z.of_nat ind)] else result)) (rev (enum (rev p))) [] in
  let result := match result with [] => [[48]%Z] | _ :: _ => result end in
  Ok (concat result).
(** poly.rs:167-169 *)
Definition pto_approx_string (p : poly) (max_len : nat) : res (list Z) := pto_string (fun n => rto_approx_string n max_len) p.
(** poly.rs:171-173 *)
Definition pto_ratio_string (p : poly) : res (list Z) := pto_string rto_ratio_string p.

(** ** src/poly/from_points.rs *)
(** from_points.rs:9-60 *)
Definition from_points (p : list (rat * rat)) : res (rslt poly merr) :=
  let n := length p in
  let* '(mat1, mat2) := fold_m (fun '(mat1, mat2) i =>
      let* '(mat1, curr) := fold_m (fun '(mat1, curr) j =>
          let* c := subn n j in
          let* mat1 := mset mat1 i c curr in
          let* pi := getv p i in
          let* curr := rmul_mut curr (fst pi) in
          Ok (mat1, curr)) (range 1 (n + 1)) (mat1, rone) in
      let* pi := getv p i in
      let* mat2 := mset mat2 i 0 (snd pi) in
      Ok (mat1, mat2)) (range 0 n) (mzeros n n, mzeros 1 n) in
  let* inv := minverse mat1 in
  match inv with
  | RErr _ => Ok (RErr ZeroDeterminant)
  | ROk mat1_inv =>
      let* r := mmul mat1_inv mat2 in
      let* result := unwrap r in
      let* l := map_m (fun i => mget result i 0) (range 0 n) in
      Ok (ROk (pfrom_vec l))
  end.
(** from_points.rs:63-67 *)
Definition from_points_generic {T} (into : T -> res rat) (points : list (T * T)) : res (rslt poly merr) :=
  let* l := map_m (fun '(x, y) => let* x := into x in let* y := into y in Ok (x, y)) points in
  from_points l.
(** from_points.rs:166-178 *)
Definition linear_2_points (a b v1 v2 : rat) : res poly :=
  let* tan := if req a b then Ok rzero else let* n := rsub v2 v1 in let* d := rsub b a in rdiv n d in
  let* at_ := rmul a tan in
  let* c := rsub v1 at_ in
  Ok (pfrom_vec [tan; c]).
(** from_points.rs:124-162 *)
Definition quadratic_3_points (a b c v1 v2 v3 : rat) : res poly :=
  let* m := mfrom_vec [[v1]; [v2]; [v3]] in
  let* mat1 := unwrap m in
  let* aa := rmul a a in let* bb := rmul b b in let* cc := rmul c c in
  let* m := mfrom_vec [[aa; a; rone]; [bb; b; rone]; [cc; c; rone]] in
  let* m := unwrap m in
  let* inv := minverse m in
  match inv with
  | RErr _ => if req a b then linear_2_points a c v1 v3 else linear_2_points a b v1 v2
  | ROk mat2 =>
      let* r := mmul mat2 mat1 in
      let* result := unwrap r in
      let* r0 := mget result 0 0 in let* r1 := mget result 1 0 in let* r2 := mget result 2 0 in
      Ok (pfrom_vec [r0; r1; r2])
  end.
(** from_points.rs:71-120 *)
Definition cubic_2_points (a b v1 v2 v3 v4 : rat) : res poly :=
  let* m := mfrom_vec [[v1]; [v2]; [v3]; [v4]] in
  let* mat1 := unwrap m in
  let* aa := rmul a a in
  let* bb := rmul b b in
  let* aaa := rmul aa a in let* bbb := rmul bb b in
  let* aa3 := rmul_i32 aa 3 in let* a2 := rmul_i32 a 2 in
  let* bb3 := rmul_i32 bb 3 in let* b2 := rmul_i32 b 2 in
  let* m := mfrom_vec [[aaa; aa; a; rone]; [bbb; bb; b; rone]; [aa3; a2; rone; rzero]; [bb3; b2; rone; rzero]] in
  let* m := unwrap m in
  let* inv := minverse m in
  match inv with
  | RErr _ =>
      if req a b then
        let* av3 := rmul a v3 in let* c := rsub v1 av3 in Ok (pfrom_vec [v3; c])
      else Panic
  | ROk mat2 =>
      let* r := mmul mat2 mat1 in
      let* result := unwrap r in
      let* r0 := mget result 0 0 in let* r1 := mget result 1 0 in
      let* r2 := mget result 2 0 in let* r3 := mget result 3 0 in
      Ok (pfrom_vec [r0; r1; r2; r3])
  end.

(** ** src/complex.rs, complex/convert.rs, complex/arith/add.rs *)
Record cplx := mkC { creal : rat; cimag : rat }.
(** complex/convert.rs:13-18; the element conversions are parameters *)
Definition cfrom {R I} (fr : R -> res rat) (fi : I -> res rat) (r : R) (i : I) : res cplx :=
  let* r := fr r in let* i := fi i in Ok (mkC r i).
(** complex/convert.rs:4-11 *)
Definition ctry_from {R I} (fr : R -> res (rslt rat cerr)) (fi : I -> res (rslt rat cerr)) (r : R) (i : I) : res (rslt cplx cerr) :=
  rbind (fr r) (fun r => rbind (fi i) (fun i => Ok (ROk (mkC r i)))).
(** complex/arith/add.rs:6-11 *)
Definition cadd (a b : cplx) : res cplx :=
  let* r := radd (creal a) (creal b) in let* i := radd (cimag a) (cimag b) in Ok (mkC r i).
(** complex/arith/add.rs:13-16 *)
Definition cadd_mut (a b : cplx) : res cplx :=
  let* r := radd_mut (creal a) (creal b) in let* i := radd_mut (cimag a) (cimag b) in Ok (mkC r i).
(** complex/arith/add.rs:19-24 *)
Definition cadd_i32 (a : cplx) (o : Z) : res cplx := let* r := radd_i32 (creal a) o in Ok (mkC r (cimag a)).
(** complex/arith/add.rs:26-28 *)
Definition cadd_i32_mut (a : cplx) (o : Z) : res cplx := let* r := radd_i32_mut (creal a) o in Ok (mkC r (cimag a)).
