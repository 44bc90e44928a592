(** Property theorems for Ratio: C24-C28, C33, C55, the Ratio part of C53, and C57 (primitive integer conversions). *)
From Verif Require Import Base USpec UFacts UBig UStr UAddSub UEq UFun UPow BBig BSpec BEq RBig RSpec REq RShrink.
From Coq Require Import Znumtheory Zquot Qpower.
Local Open Scope Z_scope.

Lemma rr m q : m = Ok (rof q) -> returns m (fun c => rwf c /\ (rval c == q)%Q).
Proof. intros ->. apply returns_ok. split; [apply rof_wf | apply rof_val]. Qed.
Lemma rrv c q : c = rof q -> rwf c /\ (rval c == q)%Q.
Proof. intros ->. split; [apply rof_wf | apply rof_val]. Qed.
Ltac tor := repeat match goal with H : rwf ?a |- _ =>
  let q := fresh "q" in let E := fresh "E" in
  pose proof (rof_rval a H) as E; set (q := rval a) in *; clearbody q; subst a; clear H end.
Ltac tob := repeat match goal with H : bwf ?a |- _ =>
  let z := fresh "z" in let E := fresh "E" in
  pose proof (bof_bval a H) as E; set (z := bval a) in *; clearbody z; subst a; clear H; rewrite ?bof_val end.

(** ** C24 lowest terms *)
Theorem C24_canonical_unique : forall r s, rwf r -> rwf s -> (rval r == rval s)%Q <-> r = s.
Proof. intros r s Hr Hs. split; [apply rval_inj; auto | intros ->; reflexivity]. Qed.
Theorem C24_zero_is_0_over_1 : forall r, rwf r -> (rval r == 0)%Q -> rden r = bone /\ rnum r = bzero.
Proof.
  intros r Hr E. assert (r = rzero). { apply rval_inj; auto. apply (rof_wf 0). } subst r. split; reflexivity.
Qed.
Theorem C24_from_denom_and_numer : forall d n, bwf d -> bwf n -> bval d <> 0 ->
  returns (from_dn d n) (fun r => rwf r /\ (rval r == inject_Z (bval n) / inject_Z (bval d))%Q).
Proof. intros d n Hd Hn. tob. intros N. apply rr. now apply from_dn_ok. Qed.
(** Full claim: every pair of i32 with non-zero denominator.  Missing: the least i32, where the code panics (next theorem). *)
Theorem C24_from_denom_and_numer_i32_partial : forall d n, - 2 ^ 31 < d < 2 ^ 31 -> - 2 ^ 31 < n < 2 ^ 31 -> d <> 0 ->
  returns (from_dn_i32 d n) (fun r => rwf r /\ (rval r == inject_Z n / inject_Z d)%Q).
Proof. intros. apply rr. now apply from_dn_i32_ok. Qed.
Theorem C24_from_denom_and_numer_i32_min_refuted : forall n, from_dn_i32 (- 2 ^ 31) n = Panic.
Proof. intros n. unfold from_dn_i32. now rewrite gcd_i32_min. Qed.
Theorem C24_constructors : forall b u n32 n64 n128, bwf b -> uwf u ->
  - 2 ^ 31 < n32 < 2 ^ 31 -> - 2 ^ 63 < n64 < 2 ^ 63 -> - 2 ^ 127 < n128 < 2 ^ 127 ->
  (rwf (rfrom_bi b) /\ (rval (rfrom_bi b) == inject_Z (bval b))%Q) /\
  (rwf (rfrom_ubi u) /\ (rval (rfrom_ubi u) == inject_Z (uval u))%Q) /\
  returns (rfrom_i32 n32) (fun r => rwf r /\ (rval r == inject_Z n32)%Q) /\
  returns (rfrom_i64 n64) (fun r => rwf r /\ (rval r == inject_Z n64)%Q) /\
  returns (rfrom_i128 n128) (fun r => rwf r /\ (rval r == inject_Z n128)%Q) /\
  (rwf rzero /\ (rval rzero == 0)%Q) /\ (rwf rone /\ (rval rone == 1)%Q).
Proof.
  intros b u n32 n64 n128 Hb Hu H1 H2 H3. tob. rewrite <- (uof_of_wf u Hu). pose proof (uwf_nonneg u Hu). set (k := uval u) in *. clearbody k. clear Hu u.
  rewrite uof_uval by auto.
  split; [apply rrv, Rfrom_bi |]. split; [apply rrv; now apply Rfrom_ubi |].
  split; [apply rr; now apply Rfrom_i32 |]. split; [apply rr; now apply Rfrom_i64 |]. split; [apply rr; now apply Rfrom_i128 |].
  split; apply rrv; reflexivity.
Qed.
Theorem C24_predicates : forall r, rwf r ->
  (ris_zero r = true <-> (rval r == 0)%Q) /\ (ris_one r = true <-> (rval r == 1)%Q) /\ (ris_neg r = true <-> (rval r < 0)%Q) /\
  (ris_integer r = true <-> exists z, (rval r == inject_Z z)%Q).
Proof.
  intros r Hr. tor. rewrite Ris_zero, Ris_one, Ris_neg, Ris_integer.
  split; [rewrite ?rof_val; apply qeqb_eq |]. split; [rewrite ?rof_val; apply qeqb_eq |]. split; [rewrite ?rof_val; apply qltb_lt |]. rewrite qeqb_eq. split.
  - intros E. exists (qtrunc q). rewrite ?rof_val. exact E.
  - intros [z E]. rewrite ?rof_val in E. rewrite E. unfold qtrunc. cbn [Qnum Qden inject_Z]. now rewrite Z.quot_1_r.
Qed.
Example C24_ex : from_dn (mkB [4] true) (mkB [6] false) = Ok (mkR (mkB [2] false) (mkB [3] true)) /\
  from_dn_i32 (-4) 6 = Ok (mkR (mkB [2] false) (mkB [3] true)) /\ rwf (mkR (mkB [2] false) (mkB [3] true)).
Proof.
  split; [vm_compute; reflexivity |]. split; [vm_compute; reflexivity |].
  change (mkR _ _) with (rof (-3 # 2)). apply rof_wf.
Qed.

(** ** C25 exact arithmetic *)
Theorem C25_add_sub_mul : forall r s, rwf r -> rwf s ->
  returns (radd r s) (fun t => rwf t /\ (rval t == rval r + rval s)%Q) /\ returns (radd_mut r s) (fun t => rwf t /\ (rval t == rval r + rval s)%Q) /\
  returns (rsub r s) (fun t => rwf t /\ (rval t == rval r - rval s)%Q) /\ returns (rsub_mut r s) (fun t => rwf t /\ (rval t == rval r - rval s)%Q) /\
  returns (rmul r s) (fun t => rwf t /\ (rval t == rval r * rval s)%Q) /\ returns (rmul_mut r s) (fun t => rwf t /\ (rval t == rval r * rval s)%Q).
Proof.
  intros r s Hr Hs. tor. repeat apply conj; apply rr; rewrite ?Radd, ?Radd_mut, ?Rsub, ?Rsub_mut, ?Rmul, ?Rmul_mut; now rewrite ?rof_val.
Qed.
Theorem C25_div : forall r s, rwf r -> rwf s -> ~ (rval s == 0)%Q ->
  returns (rdiv r s) (fun t => rwf t /\ (rval t == rval r / rval s)%Q) /\ returns (rdiv_mut r s) (fun t => rwf t /\ (rval t == rval r / rval s)%Q).
Proof.
  intros r s Hr Hs. tor. rewrite ?rof_val. intros N. split; apply rr; rewrite ?Rdiv, ?Rdiv_mut by auto; now rewrite ?rof_val.
Qed.
Theorem C25_bigint_operand : forall r b, rwf r -> bwf b -> let z := inject_Z (bval b) in
  returns (radd_bi r b) (fun t => rwf t /\ (rval t == rval r + z)%Q) /\ returns (radd_bi_mut r b) (fun t => rwf t /\ (rval t == rval r + z)%Q) /\
  returns (rsub_bi r b) (fun t => rwf t /\ (rval t == rval r - z)%Q) /\ returns (rsub_bi_mut r b) (fun t => rwf t /\ (rval t == rval r - z)%Q) /\
  returns (rmul_bi r b) (fun t => rwf t /\ (rval t == rval r * z)%Q) /\ returns (rmul_bi_mut r b) (fun t => rwf t /\ (rval t == rval r * z)%Q) /\
  (bval b <> 0 -> returns (rdiv_bi r b) (fun t => rwf t /\ (rval t == rval r / z)%Q)) /\
  (bval b <> 0 -> returns (rdiv_bi_mut r b) (fun t => rwf t /\ (rval t == rval r / z)%Q)).
Proof.
  intros r b Hr Hb. tor. tob. cbv zeta. unfold rmul_bi, rdiv_bi.
  repeat apply conj; intros; apply rr; rewrite ?Radd_bi, ?Radd_bi_mut, ?Rsub_bi, ?Rsub_bi_mut, ?Rmul_bi, ?Rdiv_bi by auto; now rewrite ?rof_val.
Qed.
(** Full claim: every i32.  Missing: the least i32, on which these panic (C25_i32_min_refuted). *)
Theorem C25_i32_operand_partial : forall r o, rwf r -> - 2 ^ 31 < o < 2 ^ 31 -> let z := inject_Z o in
  returns (radd_i32 r o) (fun t => rwf t /\ (rval t == rval r + z)%Q) /\ returns (radd_i32_mut r o) (fun t => rwf t /\ (rval t == rval r + z)%Q) /\
  returns (rsub_i32 r o) (fun t => rwf t /\ (rval t == rval r - z)%Q) /\ returns (rsub_i32_mut r o) (fun t => rwf t /\ (rval t == rval r - z)%Q) /\
  returns (rmul_i32 r o) (fun t => rwf t /\ (rval t == rval r * z)%Q) /\ returns (rmul_i32_mut r o) (fun t => rwf t /\ (rval t == rval r * z)%Q) /\
  (o <> 0 -> returns (rdiv_i32 r o) (fun t => rwf t /\ (rval t == rval r / z)%Q)) /\
  (o <> 0 -> returns (rdiv_i32_mut r o) (fun t => rwf t /\ (rval t == rval r / z)%Q)).
Proof.
  intros r o Hr Ho. change (- 2 ^ 31 < o < 2 ^ 31) with (i32r o) in Ho. tor. cbv zeta.
  repeat apply conj; intros; apply rr; rewrite ?Radd_i32, ?Radd_i32_mut, ?Rsub_i32, ?Rsub_i32_mut, ?Rmul_i32, ?Rmul_i32_mut, ?Rdiv_i32, ?Rdiv_i32_mut by auto;
  now rewrite ?rof_val.
Qed.
Theorem C25_i32_min_refuted : forall r, rwf r ->
  radd_i32 r (- 2 ^ 31) = Panic /\ rsub_i32 r (- 2 ^ 31) = Panic /\ rmul_i32 r (- 2 ^ 31) = Panic /\ rdiv_i32 r (- 2 ^ 31) = Panic /\
  rlt_i32 r (- 2 ^ 31) = Panic /\ rcomp_i32 r (- 2 ^ 31) = Panic.
Proof.
  intros r Hr. unfold radd_i32, rsub_i32, rmul_i32, rdiv_i32, rlt_i32, rcomp_i32, bmul_i32. rewrite sabs32_min. repeat apply conj; reflexivity.
Qed.
Theorem C25_neg_abs_reci : forall r, rwf r ->
  (rwf (ropp r) /\ (rval (ropp r) == - rval r)%Q) /\ (rwf (ropp_mut r) /\ (rval (ropp_mut r) == - rval r)%Q) /\
  (rwf (rabs r) /\ (rval (rabs r) == Qabs (rval r))%Q) /\ (rwf (rabs_mut r) /\ (rval (rabs_mut r) == Qabs (rval r))%Q) /\
  (~ (rval r == 0)%Q -> returns (rreci r) (fun t => rwf t /\ (rval t == / rval r)%Q) /\ returns (rreci_mut r) (fun t => rwf t /\ (rval t == / rval r)%Q)).
Proof.
  intros r Hr. tor. split; [| split; [| split; [| split]]]; try (apply rrv; rewrite ?Ropp, ?Ropp_mut, ?Rabs, ?Rabs_mut; now rewrite ?rof_val).
  rewrite ?rof_val. intros N. split; apply rr; unfold rreci_mut; rewrite Rreci by auto; now rewrite ?rof_val.
Qed.
(** Full claim: every i32 exponent.  Missing: the least i32 (panics in [abs]). *)
Theorem C25_pow_i32_partial : forall r e, rwf r -> - 2 ^ 31 < e < 2 ^ 31 -> ~ (rval r == 0)%Q \/ 0 <= e ->
  returns (rpow_i32 r e) (fun t => rwf t /\ (rval t == rval r ^ e)%Q) /\ returns (rpow_i32_mut r e) (fun t => rwf t /\ (rval t == rval r ^ e)%Q).
Proof.
  intros r e Hr He. change (- 2 ^ 31 < e < 2 ^ 31) with (i32r e) in He. tor. rewrite ?rof_val. intros C.
  split; apply rr; rewrite ?Rpow, ?Rpow_mut by auto; now rewrite ?rof_val.
Qed.
Theorem C25_pow_i32_min_refuted : forall r, rpow_i32 r (- 2 ^ 31) = Panic /\ rpow_i32_mut r (- 2 ^ 31) = Panic.
Proof. intros r. unfold rpow_i32, rpow_i32_mut. rewrite sabs32_min. split; reflexivity. Qed.
(** [from_denom_and_numer]-style helper: both numbers over the least common denominator. *)
Theorem C25_common_denom : forall r s, rwf r -> rwf s ->
  exists x y d, common_denom r s = Ok (x, y, d) /\ bwf x /\ bwf y /\ bwf d /\ bval d = Z.lcm (bval (rden r)) (bval (rden s)) /\
    (rval r == inject_Z (bval x) / inject_Z (bval d))%Q /\ (rval s == inject_Z (bval y) / inject_Z (bval d))%Q.
Proof.
  intros r s Hr Hs. tor. destruct (Rcommon q0 q) as (x & y & d & E & L & V1 & V2). exists (bof x), (bof y), (bof d).
  rewrite !rden_rof, !bof_val, ?rof_val. splits; auto using bof_wf.
Qed.
Example C25_ex : radd (rof (1 # 6)) (rof (1 # 3)) = Ok (rof (1 # 2)) /\ rpow_i32 (rof (-2 # 3)) (-3) = Ok (rof (-27 # 8)) /\
  rdiv_bi (rof (4 # 5)) (bof (-6)) = Ok (rof (-2 # 15)) /\ common_denom (rof (1 # 4)) (rof (5 # 6)) = Ok (bof 3, bof 10, bof 12).
Proof. repeat apply conj; vm_compute; reflexivity. Qed.

(** ** C26 division by zero *)
Theorem C26_panics_partial : forall r, rwf r ->
  rdiv_bi r bzero = Panic /\ rdiv_bi_mut r bzero = Panic /\
  ((rval r == 0)%Q -> rreci r = Panic /\ rreci_mut r = Panic /\ rdiv r rzero = Panic /\ rdiv_mut r rzero = Panic /\ rdiv_i32 r 0 = Panic /\ rdiv_i32_mut r 0 = Panic) /\
  (forall e, (rval r == 0)%Q -> - 2 ^ 31 < e < 0 -> rpow_i32 r e = Panic /\ rpow_i32_mut r e = Panic).
Proof.
  intros r Hr. tor. rewrite ?rof_val. split; [reflexivity |]. split; [reflexivity |]. split.
  - intros E. rewrite (rof_qeq _ _ E). repeat apply conj; vm_compute; reflexivity.
  - intros e E [H1 H2]. apply Rpow_zero; auto. unfold i32r. lia.
Qed.
(** A non-zero number divided by zero is not rejected: the result is ±1/0. *)
Theorem C26_div_by_zero_refuted : forall r, rwf r -> ~ (rval r == 0)%Q ->
  exists t, rdiv r rzero = Ok t /\ rdiv_mut r rzero = Ok t /\ rdiv_i32 r 0 = Ok t /\ rdiv_i32_mut r 0 = Ok t /\
    bval (rden t) = 0 /\ bval (rnum t) = Z.sgn (bval (rnum r)) /\ ~ rwf t.
Proof.
  intros r Hr. tor. rewrite ?rof_val. intros N.
  exists (mkR (bof 0) (bof (Z.sgn (Qnum (Qred q))))).
  assert (NZ : (Qnum (Qred q) =? 0) = false) by (apply Z.eqb_neq; now apply nb_nz).
  assert (K : (let* d := bmul (rden (rof q)) (rnum (rof 0)) in let* n := bmul (rnum (rof q)) (rden (rof 0)) in rfit (mkR d n)) =
              Ok (mkR (bof 0) (bof (Z.sgn (Qnum (Qred q)))))).
  { rewrite !rden_rof, !rnum_rof, !Bmul. cbn [bind]. change (Qnum (Qred 0)) with 0. change (Qden (Qred 0)) with 1%positive. rewrite Z.mul_0_r, Z.mul_1_r, Rfit_zero. now rewrite NZ. }
  split; [exact K |]. split; [|].
  { unfold rdiv_mut. change rzero with (rof 0). rewrite <- K. rewrite !rden_rof, !rnum_rof, !Bmul, !Bmul_mut. reflexivity. }
  rewrite Rdiv_i32_zero, Rdiv_i32_mut_zero, NZ. cbn [rden rnum]. rewrite rnum_rof, !bof_val.
  repeat apply conj; try reflexivity. intros (_ & _ & C & _). cbn [rden] in C. rewrite bof_val in C. lia.
Qed.
Example C26_ex : rdiv (rof (3 # 2)) rzero = Ok (mkR (bof 0) (bof 1)) /\ rdiv_bi (rof (3 # 2)) bzero = Panic.
Proof. split; vm_compute; reflexivity. Qed.

(** ** C27 comparisons *)
Theorem C27_order : forall r s, rwf r -> rwf s ->
  returns (rlt r s) (fun b => b = true <-> (rval r < rval s)%Q) /\ returns (rgt r s) (fun b => b = true <-> (rval s < rval r)%Q) /\
  returns (rleq r s) (fun b => b = true <-> (rval r <= rval s)%Q) /\ returns (rgeq r s) (fun b => b = true <-> (rval s <= rval r)%Q) /\
  (req r s = true <-> (rval r == rval s)%Q) /\ (rneq r s = true <-> ~ (rval r == rval s)%Q) /\
  rcomp r s = Ok (rval r ?= rval s)%Q.
Proof.
  intros r s Hr Hs. tor. rewrite ?rof_val.
  rewrite Rlt, Rgt, Rleq, Rgeq, Req, Rneq, Rcomp.
  repeat split; try (apply returns_ok; rewrite ?rof_val; (apply qltb_lt || apply qleb_le)); try (now apply qeqb_eq).
  - intros H C. apply qeqb_eq in C. rewrite C in H. discriminate.
  - intros H. destruct (qeqb_qeq q0 q); [tauto | reflexivity].
Qed.
Theorem C27_one : forall r, rwf r -> (rlt_one r = true <-> (rval r < 1)%Q) /\ (rgt_one r = true <-> (1 < rval r)%Q).
Proof. intros r Hr. tor. rewrite ?rof_val, Rlt_one, Rgt_one. split; apply qltb_lt. Qed.
(** Full claim: every i32 and every Ratio.  Missing: the least i32 (panics), and eq_i32 on integers of 2^32 and more (C27_eq_i32_refuted). *)
Theorem C27_order_i32_partial : forall r o, rwf r -> - 2 ^ 31 < o < 2 ^ 31 -> let z := inject_Z o in
  returns (rlt_i32 r o) (fun b => b = true <-> (rval r < z)%Q) /\ returns (rgt_i32 r o) (fun b => b = true <-> (z < rval r)%Q) /\
  returns (rleq_i32 r o) (fun b => b = true <-> (rval r <= z)%Q) /\ returns (rgeq_i32 r o) (fun b => b = true <-> (z <= rval r)%Q) /\
  rcomp_i32 r o = Ok (rval r ?= z)%Q /\
  (bval (rden r) <> 1 \/ Z.abs (bval (rnum r)) < 2 ^ 32 ->
   returns (req_i32 r o) (fun b => b = true <-> (rval r == z)%Q) /\ returns (rneq_i32 r o) (fun b => b = true <-> ~ (rval r == z)%Q)).
Proof.
  intros r o Hr Ho. change (- 2 ^ 31 < o < 2 ^ 31) with (i32r o) in Ho. tor. cbv zeta. rewrite rden_rof, rnum_rof, !bof_val.
  rewrite Rlt_i32, Rgt_i32, Rleq_i32, Rgeq_i32, Rcomp_i32 by auto.
  split; [apply returns_ok; rewrite ?rof_val; apply qltb_lt |]. split; [apply returns_ok; rewrite ?rof_val; apply qltb_lt |].
  split; [apply returns_ok; rewrite ?rof_val; apply qleb_le |]. split; [apply returns_ok; rewrite ?rof_val; apply qleb_le |].
  split; [reflexivity |].
  intros C. unfold rneq_i32. rewrite Req_i32 by (auto; intros E; left; change B with (2 ^ 32); lia). cbn [bind].
  split; apply returns_ok; rewrite ?rof_val; destruct (qeqb_qeq q (inject_Z o)); cbn [negb]; split; intros; try tauto; try discriminate.
Qed.
Theorem C27_eq_i32_refuted : req_i32 (rfrom_bi (mkB [0; 1] false)) 5 = Panic /\ rwf (rfrom_bi (mkB [0; 1] false)).
Proof. split; [vm_compute; reflexivity |]. change (mkB [0; 1] false) with (bof (2 ^ 32)). rewrite Rfrom_bi. apply rof_wf. Qed.
Example C27_ex : rlt (rof (1 # 3)) (rof (2 # 5)) = Ok true /\ rcomp (rof (-1 # 3)) (rof (-2 # 5)) = Ok Gt /\ rgeq_i32 (rof (-7 # 2)) (-3) = Ok false.
Proof. repeat apply conj; vm_compute; reflexivity. Qed.

(** ** C28 rounding *)
Lemma qle_int a z : (a <= inject_Z z)%Q <-> Qnum a <= z * QDen a.
Proof. unfold Qle, inject_Z. cbn [Qnum Qden]. lia. Qed.
Lemma qtrunc_spec q : (Qabs (inject_Z (qtrunc q)) <= Qabs q)%Q /\ (Qabs q < Qabs (inject_Z (qtrunc q)) + 1)%Q /\ (0 <= inject_Z (qtrunc q) * q)%Q.
Proof.
  destruct q as [n d]. unfold qtrunc, Qle, Qlt, Qabs, Qplus, Qmult, inject_Z. cbn [Qnum Qden]. rewrite Pos.mul_1_r. 
  set (D := Z.pos d). assert (0 < D) by lia. clearbody D.
  assert (E : Z.abs n = D * Z.abs (n ÷ D) + Z.abs (Z.rem n D)).
  { rewrite <- Z.quot_abs, <- Z.rem_abs by lia. rewrite (Z.abs_eq D) by lia. apply Z.quot_rem. lia. }
  pose proof (Z.rem_bound_abs n D ltac:(lia)). pose proof (Z.quot_rem' n D).
  pose proof (Z.abs_nonneg (n ÷ D)). pose proof (Z.abs_nonneg (Z.rem n D)).
  split; [lia |]. split; [lia |]. rewrite !Z.mul_1_r. change (0 * _) with 0.
  destruct (Z.le_gt_cases 0 n).
  - assert (0 <= n ÷ D) by (apply Z.quot_pos; lia). nia.
  - assert (n ÷ D <= 0). { replace n with (- - n) by lia. rewrite Z.quot_opp_l by lia. assert (0 <= (- n) ÷ D) by (apply Z.quot_pos; lia). lia. } nia.
Qed.
Lemma qfloor_spec q : (inject_Z (qfloor q) <= q)%Q /\ (q < inject_Z (qfloor q) + 1)%Q.
Proof.
  destruct q as [n d]. unfold qfloor, Qle, Qlt, Qplus, inject_Z. cbn [Qnum Qden]. 
  pose proof (Z.div_mod n (Z.pos d) ltac:(lia)). pose proof (Z.mod_pos_bound n (Z.pos d) ltac:(lia)). split; lia.
Qed.
Lemma qround_spec q : (Qabs (q - inject_Z (qround q)) <= 1 # 2)%Q /\ ((Qabs (q - inject_Z (qround q)) == 1 # 2)%Q -> (Qabs q < Qabs (inject_Z (qround q)))%Q).
Proof.
  destruct q as [n d]. unfold qround, Qeq, Qle, Qlt, Qminus, Qplus, Qopp, Qabs, inject_Z. cbn [Qnum Qden]. rewrite Pos.mul_1_r.
  set (D := Z.pos d). assert (0 < D) by lia. clearbody D. rewrite !Z.mul_1_r.
  pose proof (Z.div_mod (2 * Z.abs n + D) (2 * D) ltac:(lia)). pose proof (Z.mod_pos_bound (2 * Z.abs n + D) (2 * D) ltac:(lia)).
  set (k := (2 * Z.abs n + D) / (2 * D)) in *. set (r := _ mod _) in *. clearbody k r.
  assert (0 <= k) by nia. destruct (Z.sgn_spec n) as [(S1 & S2) | [(S1 & S2) | (S1 & S2)]]; rewrite S2.
  - rewrite Z.abs_eq in H0 by lia. replace (n + - (1 * k) * D) with (n - k * D) by ring. rewrite (Z.abs_eq n) by lia. replace (Z.abs (1 * k)) with k by lia. split; nia.
  - subst n. replace (0 + - (0 * k) * D) with 0 by ring. rewrite Z.mul_0_l. change (Z.abs 0) with 0. split; lia.
  - rewrite Z.abs_neq in H0 by lia. replace (n + - (-1 * k) * D) with (n + k * D) by ring. rewrite (Z.abs_neq n) by lia.
    replace (Z.abs (-1 * k)) with k by lia. split; nia.
Qed.
(** [t] is [x] rounded toward zero / down / to nearest, halves away from zero *)
Definition is_trunc (x : Q) (t : Z) : Prop := (Qabs (inject_Z t) <= Qabs x)%Q /\ (Qabs x < Qabs (inject_Z t) + 1)%Q /\ (0 <= inject_Z t * x)%Q.
Definition is_floor (x : Q) (t : Z) : Prop := (inject_Z t <= x)%Q /\ (x < inject_Z t + 1)%Q.
Definition is_round (x : Q) (t : Z) : Prop := (Qabs (x - inject_Z t) <= 1 # 2)%Q /\ ((Qabs (x - inject_Z t) == 1 # 2)%Q -> (Qabs x < Qabs (inject_Z t))%Q).
Theorem C28_truncate : forall r, rwf r -> exists t, is_trunc (rval r) t /\
  rtruncate_bi r = Ok (bof t) /\
  returns (rtruncate r) (fun s => rwf s /\ (rval s == inject_Z t)%Q) /\ returns (rtruncate_mut r) (fun s => rwf s /\ (rval s == inject_Z t)%Q) /\
  returns (rfrac r) (fun s => rwf s /\ (rval s == rval r - inject_Z t)%Q) /\ returns (rfrac_mut r) (fun s => rwf s /\ (rval s == rval r - inject_Z t)%Q) /\
  returns (rtruncate_and_frac r) (fun p => fst p = bof t /\ rwf (snd p) /\ (rval (snd p) == rval r - inject_Z t)%Q).
Proof.
  intros r Hr. tor. exists (qtrunc q). split.
  { destruct (qtrunc_spec q) as (H1 & H2 & H3). unfold is_trunc. now rewrite ?rof_val. }
  split; [apply Rtruncate_bi |]. rewrite Rtruncate, Rtruncate_mut, Rfrac, Rfrac_mut, Rtruncate_and_frac.
  repeat apply conj; try (apply rr; now rewrite ?rof_val).
  apply returns_ok. cbn [fst snd]. split; [reflexivity |]. apply rrv. now rewrite ?rof_val.
Qed.
Theorem C28_floor : forall r, rwf r -> exists t, is_floor (rval r) t /\ rfloor_bi r = Ok (bof t) /\
  returns (rfloor r) (fun s => rwf s /\ (rval s == inject_Z t)%Q).
Proof.
  intros r Hr. tor. exists (qfloor q). split. { destruct (qfloor_spec q). unfold is_floor. now rewrite ?rof_val. }
  split; [apply Rfloor_bi |]. apply rr. apply Rfloor.
Qed.
Theorem C28_round : forall r, rwf r -> exists t, is_round (rval r) t /\ rround_bi r = Ok (bof t) /\
  returns (rround r) (fun s => rwf s /\ (rval s == inject_Z t)%Q).
Proof.
  intros r Hr. tor. exists (qround q). split. { destruct (qround_spec q). unfold is_round. now rewrite ?rof_val. }
  split; [apply Rround_bi |]. apply rr. apply Rround.
Qed.
Example C28_ex : rround_bi (rof (-5 # 2)) = Ok (bof (-3)) /\ rfloor_bi (rof (-5 # 2)) = Ok (bof (-3)) /\ rtruncate_bi (rof (-5 # 2)) = Ok (bof (-2)) /\
  rfrac (rof (-5 # 2)) = Ok (rof (-1 # 2)) /\ rround_bi (rof (12 # 5)) = Ok (bof 2).
Proof. repeat apply conj; vm_compute; reflexivity. Qed.

(** ** C33 shrink *)
Theorem C33_shrink : forall r limit, rwf r -> exists r' o, rshrink r limit = Ok (r', o) /\ rwf r' /\
  ((limit < 3)%nat -> r' = r /\ o = RErr 0%nat) /\
  ((3 <= limit)%nat -> match o with ROk _ => fits r' limit | RErr _ => ~ fits r' limit end) /\
  ((3 <= limit)%nat -> fits r limit -> r' = r /\ o = ROk 0%nat) /\
  (Qabs (rval r' - rval r) * inject_Z (2 ^ 64) <= Qabs (rval r))%Q.
Proof.
  intros r limit Hr. tor. destruct (Rshrink q limit) as (q' & o & E & H1 & H2 & H3 & H4).
  exists (rof q'), o. split; [exact E |]. split; [apply rof_wf |]. split; [| split; [| split]].
  - intros L. destruct (H1 L) as [-> ->]. split; reflexivity.
  - exact H2.
  - intros L F. destruct (H3 L F) as [-> ->]. split; reflexivity.
  - rewrite ?rof_val. exact H4.
Qed.
Example C33_ex : match rshrink (mkR (mkB [1; 0; 0; 0; 0; 0; 0; 1] false) (mkB [7; 0; 0; 0; 0; 0; 0; 3] true)) 6 with
  Ok (r, ROk 2%nat) => r = rof (-3 # 1) | _ => False end.
Proof. vm_compute. reflexivity. Qed.

(** ** C55 integers out of a Ratio, C57 primitive integers *)
(** the range of a Rust primitive *)
Definition prim_has (p : prim) (z : Z) : Prop :=
  match p with
  | U8 => 0 <= z < 2 ^ 8 | U16 => 0 <= z < 2 ^ 16 | U32 => 0 <= z < 2 ^ 32 | U64 | Usize => 0 <= z < 2 ^ 64 | U128 => 0 <= z < 2 ^ 128
  | I8 => - 2 ^ 7 <= z < 2 ^ 7 | I16 => - 2 ^ 15 <= z < 2 ^ 15 | I32 => - 2 ^ 31 <= z < 2 ^ 31
  | I64 | Isize => - 2 ^ 63 <= z < 2 ^ 63 | I128 => - 2 ^ 127 <= z < 2 ^ 127
  end.
Definition ranged (p : prim) (z : Z) (x : rslt Z cerr) : Prop :=
  (prim_has p z -> x = ROk z) /\ (~ prim_has p z -> exists e, x = RErr e).
Lemma btry_into_ok p z : (p = I128 -> z <> - 2 ^ 127) -> ranged p z (btry_into p (bof z)).
Proof.
  intros M. unfold ranged. destruct p; cbn [btry_into prim_has]; rewrite ?Bto_i32, ?Bto_i64, ?Bto_i128, ?Bneg, ?Bmag; unfold uto_u128; rewrite ?Eto_u128 by (clear; lia);
  unfold in_s, prim_s, prim_u, in_s;
  change (2 ^ (32 - 1)) with 2147483648; change (2 ^ (64 - 1)) with 9223372036854775808; change (2 ^ 127) with 170141183460469231731687303715884105728 in *;
  change (2 ^ 128) with 340282366920938463463374607431768211456; change (2 ^ (8 - 1)) with 128; change (2 ^ (16 - 1)) with 32768;
  change (2 ^ 7) with 128; change (2 ^ 8) with 256; change (2 ^ 15) with 32768; change (2 ^ 16) with 65536; change (2 ^ 31) with 2147483648;
  change (2 ^ 32) with 4294967296; change (2 ^ 63) with 9223372036854775808; change (2 ^ 64) with 18446744073709551616;
  repeat match goal with |- context [?a <? ?b] => destruct (Z.ltb_spec a b) | |- context [?a <=? ?b] => destruct (Z.leb_spec a b) end;
  cbn [andb rslt_bind of_opt]; try (specialize (M eq_refl));
  repeat match goal with |- context [?a <? ?b] => destruct (Z.ltb_spec a b) | |- context [?a <=? ?b] => destruct (Z.leb_spec a b) end;
  cbn [andb rslt_bind of_opt]; (split; intros); try lia; try (eexists; reflexivity); try reflexivity; try (f_equal; lia).
Qed.
(** Full claim: all primitives and all numbers.  Missing: i128's least value, which is rejected (C55_i128_min_refuted). *)
Theorem C55_ratio_to_primitive_partial : forall p r, rwf r -> exists t, is_trunc (rval r) t /\
  ((p = I128 -> t <> - 2 ^ 127) -> returns (rtry_into p r) (ranged p t)).
Proof.
  intros p r Hr. tor. exists (qtrunc q). split. { destruct (qtrunc_spec q) as (H1 & H2 & H3). unfold is_trunc. now rewrite ?rof_val. }
  intros M. unfold rtry_into. rewrite Rtruncate_bi. cbn [bind]. apply returns_ok. now apply btry_into_ok.
Qed.
Theorem C55_i128_min_refuted : prim_has I128 (- 2 ^ 127) /\ rtry_into I128 (rof (inject_Z (- 2 ^ 127))) = Ok (RErr NotInRange).
Proof. split; [cbn; lia | vm_compute; reflexivity]. Qed.
Theorem C57_bigint_to_primitive_partial : forall p a, bwf a -> (p = I128 -> bval a <> - 2 ^ 127) -> ranged p (bval a) (btry_into p a).
Proof. intros p a Ha. tob. apply btry_into_ok. Qed.
Theorem C57_ubigint_to_primitive_partial : forall p u, uwf u -> p <> Usize -> ranged p (uval u) (utry_into p u).
Proof.
  intros p u Hu Hp. rewrite <- (uof_of_wf u Hu). pose proof (uwf_nonneg u Hu) as H0. set (z := uval u) in *. clearbody z. clear Hu u.
  rewrite uof_uval by auto. unfold ranged. destruct p; try congruence; cbn [utry_into prim_has]; unfold uto_u32, uto_u64, uto_u128; rewrite ?Eto_u32, ?Eto_u64, ?Eto_u128 by lia;
  unfold in_s, prim_s, prim_u, in_s;
  change (2 ^ (32 - 1)) with 2147483648; change (2 ^ (64 - 1)) with 9223372036854775808; change (2 ^ 127) with 170141183460469231731687303715884105728 in *;
  change (2 ^ 128) with 340282366920938463463374607431768211456; change (2 ^ (8 - 1)) with 128; change (2 ^ (16 - 1)) with 32768;
  change (2 ^ (128 - 1)) with 170141183460469231731687303715884105728;
  change (2 ^ 7) with 128; change (2 ^ 8) with 256; change (2 ^ 15) with 32768; change (2 ^ 16) with 65536; change (2 ^ 31) with 2147483648;
  change (2 ^ 32) with 4294967296; change (2 ^ 63) with 9223372036854775808; change (2 ^ 64) with 18446744073709551616;
  repeat match goal with |- context [?a <? ?b] => destruct (Z.ltb_spec a b) | |- context [?a <=? ?b] => destruct (Z.leb_spec a b) end;
  cbn [andb rslt_bind of_opt];
  repeat match goal with |- context [?a <? ?b] => destruct (Z.ltb_spec a b) | |- context [?a <=? ?b] => destruct (Z.leb_spec a b) end;
  cbn [andb rslt_bind of_opt]; (split; intros); try lia; try (eexists; reflexivity); reflexivity.
Qed.
(** usize goes through to_u32: a 64-bit value is rejected although it fits *)
Theorem C57_ubigint_to_usize_refuted : prim_has Usize (uval [0; 1]) /\ utry_into Usize [0; 1] = RErr NotInRange.
Proof. split; [cbn; lia | vm_compute; reflexivity]. Qed.
(** Full claim: every value of the primitive.  Missing: the least value of i32, i64, isize and i128 (panic). *)
Theorem C57_from_primitive_partial : forall p n, prim_has p n ->
  match p with I32 => n <> - 2 ^ 31 | I64 | Isize => n <> - 2 ^ 63 | I128 => n <> - 2 ^ 127 | _ => True end ->
  bfrom_prim p n = Ok (bof n) /\ rfrom_prim p n = Ok (rof (inject_Z n)).
Proof.
  intros p n H N.
  assert (K32 : - 2 ^ 31 < n < 2 ^ 31 -> bfrom_i32 n = Ok (bof n) /\ rfrom_i32 n = Ok (rof (inject_Z n))) by (split; [now apply Bfrom_i32 | now apply Rfrom_i32]).
  assert (K64 : - 2 ^ 63 < n < 2 ^ 63 -> bfrom_i64 n = Ok (bof n) /\ rfrom_i64 n = Ok (rof (inject_Z n))) by (split; [now apply Bfrom_i64 | now apply Rfrom_i64]).
  assert (K128 : - 2 ^ 127 < n < 2 ^ 127 -> bfrom_i128 n = Ok (bof n) /\ rfrom_i128 n = Ok (rof (inject_Z n))) by (split; [now apply Bfrom_i128 | now apply Rfrom_i128]).
  assert (KU : 0 <= n -> Ok (from_ubi (uof n) false) = Ok (bof n) /\ Ok (rfrom_bi (from_ubi (uof n) false)) = Ok (rof (inject_Z n))).
  { intros Hn. rewrite Bfrom_ubi by auto. rewrite Rfrom_bi. split; reflexivity. }
  destruct p; cbn [prim_has] in H; cbn [bfrom_prim rfrom_prim]; try (apply K32; lia); try (apply K64; lia); try (apply K128; lia).
  - rewrite ufrom_u64_spec by exact H. apply KU. lia.
  - rewrite ufrom_u64_spec by exact H. apply KU. lia.
  - rewrite ufrom_u128_spec by exact H. apply KU. lia.
Qed.
Theorem C57_from_primitive_min_refuted :
  bfrom_prim I32 (- 2 ^ 31) = Panic /\ bfrom_prim I64 (- 2 ^ 63) = Panic /\ bfrom_prim Isize (- 2 ^ 63) = Panic /\ bfrom_prim I128 (- 2 ^ 127) = Panic.
Proof. repeat apply conj; vm_compute; reflexivity. Qed.
Example C55_ex : rtry_into I8 (rof (-513 # 4)) = Ok (ROk (-128)) /\ rtry_into I8 (rof (-129 # 1)) = Ok (RErr TryFromIntError) /\ rtry_into U8 (rof (511 # 2)) = Ok (ROk 255).
Proof. repeat apply conj; vm_compute; reflexivity. Qed.

(** ** C53 mutating pairs, Ratio *)
Theorem C53_ratio_pairs_agree : forall r s b o e, rwf r -> rwf s -> bwf b -> - 2 ^ 31 < o < 2 ^ 31 ->
  radd r s = radd_mut r s /\ rsub r s = rsub_mut r s /\ rmul r s = rmul_mut r s /\ rdiv r s = rdiv_mut r s /\
  radd_bi r b = radd_bi_mut r b /\ rsub_bi r b = rsub_bi_mut r b /\ rmul_bi r b = rmul_bi_mut r b /\ rdiv_bi r b = rdiv_bi_mut r b /\
  radd_i32 r o = radd_i32_mut r o /\ rsub_i32 r o = rsub_i32_mut r o /\ rmul_i32 r o = rmul_i32_mut r o /\ rdiv_i32 r o = rdiv_i32_mut r o /\
  ropp r = ropp_mut r /\ rabs r = rabs_mut r /\ rreci r = rreci_mut r /\
  rtruncate r = rtruncate_mut r /\ rfrac r = rfrac_mut r /\ (- 2 ^ 31 <= e < 2 ^ 31 -> rpow_i32 r e = rpow_i32_mut r e).
Proof.
  intros r s b o e Hr Hs Hb Ho. change (- 2 ^ 31 < o < 2 ^ 31) with (i32r o) in Ho. tor. tob.
  split; [now rewrite Radd, Radd_mut |]. split; [now rewrite Rsub, Rsub_mut |]. split; [now rewrite Rmul, Rmul_mut |].
  split. { unfold rdiv, rdiv_mut, from_dn. now rewrite !rden_rof, !rnum_rof, !Bmul, !Bmul_mut. }
  split; [now rewrite Radd_bi, Radd_bi_mut |]. split; [now rewrite Rsub_bi, Rsub_bi_mut |]. split; [reflexivity |]. split; [reflexivity |].
  split; [now rewrite Radd_i32, Radd_i32_mut |]. split; [now rewrite Rsub_i32, Rsub_i32_mut |]. split; [now rewrite Rmul_i32, Rmul_i32_mut |].
  split. { unfold rdiv_i32, rdiv_i32_mut, from_dn. now rewrite !rden_rof, Bmul_i32, Bmul_i32_mut by auto. }
  split; [now rewrite Ropp, Ropp_mut |]. split; [now rewrite Rabs, Rabs_mut |]. split; [reflexivity |].
  split; [now rewrite Rtruncate, Rtruncate_mut |]. split; [now rewrite Rfrac, Rfrac_mut |].
  intros He. destruct (Z.eq_dec e (- 2 ^ 31)) as [-> | N].
  { unfold rpow_i32, rpow_i32_mut. now rewrite sabs32_min. }
  assert (Hi : i32r e) by (unfold i32r; lia). destruct (qeqb_qeq q0 0) as [Z0 | Z0].
  - destruct (Z.lt_ge_cases e 0). destruct (Rpow_zero q0 e Hi Z0) as [-> ->]; auto. rewrite Rpow, Rpow_mut by auto. reflexivity.
  - rewrite Rpow, Rpow_mut by auto. reflexivity.
Qed.
Print Assumptions C24_constructors.
Print Assumptions C25_bigint_operand.
Print Assumptions C27_order.
Print Assumptions C28_round.
Print Assumptions C33_shrink.
Print Assumptions C55_ratio_to_primitive_partial.
