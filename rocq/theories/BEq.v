(** BigInt: every operation on canonical arguments, as an equation over integers. *)
From Verif Require Import Base USpec UFacts UBig UAddSub UMul UDiv UEq UFun UPow USqrt UPrime UStr UMisc BBig BSpec.

Lemma bof_wf z : bwf (bof z).
Proof. split; cbn [bof bmag bneg]. apply uof_wf; lia. rewrite uof_uval by lia. zb; lia. Qed.
Lemma bof_val z : bval (bof z) = z.
Proof. unfold bval; cbn [bof bmag bneg]. rewrite uof_uval by lia. zb; lia. Qed.
Lemma bof_bval a : bwf a -> bof (bval a) = a.
Proof.
  destruct a as [m s]. unfold bwf, bof, bval; cbn [bmag bneg]. intros (W & H). pose proof (uwf_nonneg m W).
  destruct s; f_equal.
  - rewrite Z.abs_neq, Z.opp_involutive by lia. now apply uof_of_wf.
  - specialize (H eq_refl). zb; lia.
  - rewrite Z.abs_eq by lia. now apply uof_of_wf.
  - zb; lia.
Qed.
Lemma bval_inj a b : bwf a -> bwf b -> bval a = bval b -> a = b.
Proof. intros. rewrite <- (bof_bval a), <- (bof_bval b) by auto. congruence. Qed.

Lemma mkB_bof m s z : m = Z.abs z -> s = (z <? 0) -> mkB (uof m) s = bof z.
Proof. intros -> ->. reflexivity. Qed.
Lemma ubi_bof m s z : m = Z.abs z -> (z <> 0 -> s = (z <? 0)) -> from_ubi (uof m) s = bof z.
Proof.
  intros -> H. unfold from_ubi. rewrite Eis_zero by lia. apply mkB_bof; auto.
  destruct (Z.eq_dec z 0) as [->|N]. cbn. now rewrite andb_false_r.
  rewrite H by auto. zb; lia.
Qed.
Lemma sabs_ok w x : - 2 ^ (w - 1) < x < 2 ^ (w - 1) -> sabs w x = Ok (Z.abs x).
Proof. intros. apply sres_ok. lia. Qed.
Lemma sabs32 x : - 2 ^ 31 < x < 2 ^ 31 -> sabs 32 x = Ok (Z.abs x) /\ castw 32 (Z.abs x) = Z.abs x.
Proof. intros. split. now apply sabs_ok. unfold castw. apply Z.mod_small. lia. Qed.
Lemma sabs32_min : sabs 32 (- 2 ^ 31) = Panic. Proof. reflexivity. Qed.

Ltac bsign := cbn [bind bmag bneg]; rewrite ?Eis_zero, ?Elt, ?Ecomp by lia;
  repeat match goal with
  | |- context [?x <? ?y] => destruct (Z.ltb_spec x y)
  | |- context [?x =? ?y] => destruct (Z.eqb_spec x y)
  | |- context [?x <=? ?y] => destruct (Z.leb_spec x y)
  | |- context [?x ?= ?y] => destruct (Z.compare_spec x y)
  end; cbn [Bool.eqb negb andb orb xorb]; try lia; try reflexivity.

Lemma Bzero : bzero = bof 0. Proof. reflexivity. Qed.
Lemma Bone : bone = bof 1. Proof. reflexivity. Qed.
Lemma Bis_zero a : bis_zero (bof a) = (a =? 0).
Proof. unfold bis_zero, bof; cbn [bmag bneg]. rewrite Eis_zero by lia. zb; lia. Qed.
Lemma Bis_one a : bis_one (bof a) = (a =? 1).
Proof. unfold bis_one, bof; cbn [bmag bneg]. rewrite Eis_one by lia. zb; lia. Qed.
Lemma Bneg a : bneg (bof a) = (a <? 0). Proof. reflexivity. Qed.
Lemma Bmag a : bmag (bof a) = uof (Z.abs a). Proof. reflexivity. Qed.

Section B.
Variables a b : Z.

Lemma bdiff_eq : bdiff (bof a) (bof b) = Ok (uof (Z.abs (Z.abs a - Z.abs b)),
  if Z.abs a =? Z.abs b then false else xorb (Z.abs a <? Z.abs b) (a <? 0)).
Proof.
  unfold bdiff. rewrite !Bneg, !Bmag. rewrite Elt by lia.
  destruct (Z.ltb_spec (Z.abs a) (Z.abs b)); rewrite Esub by lia; cbn [bind]; rewrite Eis_zero by lia;
  f_equal; f_equal; [f_equal; lia | bsign | f_equal; lia | bsign].
Qed.
Ltac bfin := apply f_equal; first [apply ubi_bof | apply mkB_bof]; [lia | intros; bsign].
Ltac bcase := destruct (Z.ltb_spec a 0), (Z.ltb_spec b 0); cbn [Bool.eqb negb bind xorb].

Lemma Badd : badd (bof a) (bof b) = Ok (bof (a + b)).
Proof. unfold badd. rewrite bdiff_eq, !Bneg, !Bmag, Eadd by lia. bcase; bfin. Qed.
Lemma Bsub : bsub (bof a) (bof b) = Ok (bof (a - b)).
Proof. unfold bsub. rewrite bdiff_eq, !Bneg, !Bmag, Eadd by lia. bcase; bfin. Qed.
Ltac bdm := destruct (Z.ltb_spec (Z.abs a) (Z.abs b)); change usub_mut with usub; rewrite Esub by lia; cbn [bind];
  rewrite Eis_zero by lia.
Lemma Badd_mut : badd_mut (bof a) (bof b) = Ok (bof (a + b)).
Proof. unfold badd_mut. rewrite !Bneg, !Bmag, Eadd_mut, Elt by lia. bdm; bcase; bfin. Qed.
Lemma Bsub_mut : bsub_mut (bof a) (bof b) = Ok (bof (a - b)).
Proof. unfold bsub_mut. rewrite !Bneg, !Bmag, Eadd_mut, Elt by lia. bdm; bcase; bfin. Qed.

Lemma Bmul : bmul (bof a) (bof b) = Ok (bof (a * b)).
Proof.
  unfold bmul. rewrite !Bneg, !Bmag, Emul by lia. cbn [bind]. rewrite Eis_zero by lia.
  apply f_equal, ubi_bof; [lia|]. intros. destruct (Z.eqb_spec (Z.abs a * Z.abs b) 0); [nia|]. bcase; symmetry; zb; nia.
Qed.
Lemma Bmul_mut : bmul_mut (bof a) (bof b) = Ok (bof (a * b)).
Proof.
  unfold bmul_mut, umul_mut. rewrite !Bneg, !Bmag, Emul by lia. cbn [bind]. rewrite Eis_zero by lia.
  apply f_equal, mkB_bof; [lia|]. destruct (Z.eqb_spec (Z.abs a * Z.abs b) 0); bcase; symmetry; zb; nia.
Qed.
Lemma quot_abs : b <> 0 -> Z.abs a / Z.abs b = Z.abs (a ÷ b).
Proof. intros. rewrite <- Z.quot_abs by lia. rewrite Z.quot_div_nonneg by lia. reflexivity. Qed.
Lemma quot_sign : b <> 0 -> a ÷ b <> 0 -> (a ÷ b < 0 <-> (a < 0 <-> 0 < b)).
Proof.
  intros N0 N. assert (a <> 0) by (intros ->; apply N; now apply Z.quot_0_l).
  pose proof (Z.quot_rem' a b). pose proof (Z.rem_bound_abs a b N0).
  pose proof (Z.rem_sign_mul a b N0).
  split; intros; [|destruct (Z.lt_ge_cases (a ÷ b) 0); auto; exfalso]; nia.
Qed.
Lemma Bdiv : b <> 0 -> bdiv (bof a) (bof b) = Ok (bof (a ÷ b)).
Proof.
  intros N. unfold bdiv. rewrite !Bneg, !Bmag, Ediv, quot_abs by lia. cbn [bind]. rewrite Eis_zero by lia.
  apply f_equal, ubi_bof; [lia|]. intros N2. pose proof (quot_sign N N2).
  destruct (Z.eqb_spec (Z.abs (a ÷ b)) 0); [lia|]. bcase; symmetry; zb; lia.
Qed.
Lemma Bdiv_mut : b <> 0 -> bdiv_mut (bof a) (bof b) = Ok (bof (a ÷ b)).
Proof.
  intros N. unfold bdiv_mut, udiv_mut. rewrite !Bneg, !Bmag, Ediv, quot_abs by lia. cbn [bind]. rewrite Eis_zero by lia.
  apply f_equal, mkB_bof; [lia|]. pose proof (quot_sign N).
  destruct (Z.eqb_spec (Z.abs (a ÷ b)) 0). zb; lia. bcase; symmetry; zb; lia.
Qed.
End B.
Lemma Brem a b : b <> 0 -> brem (bof a) (bof b) = Ok (bof (Z.rem a b)).
Proof.
  intros. unfold brem. rewrite Bdiv by auto. cbn [bind]. rewrite Bmul_mut. cbn [bind]. rewrite Bsub.
  do 2 f_equal. pose proof (Z.quot_rem' a b). lia.
Qed.
Lemma Brem_mut a b : b <> 0 -> brem_mut (bof a) (bof b) = Ok (bof (Z.rem a b)).
Proof.
  intros. unfold brem_mut. rewrite Bdiv by auto. cbn [bind]. rewrite Bmul_mut. cbn [bind]. rewrite Bsub_mut.
  do 2 f_equal. pose proof (Z.quot_rem' a b). lia.
Qed.
Lemma Bdiv_zero a : bdiv (bof a) (bof 0) = Panic.
Proof. unfold bdiv. rewrite !Bmag. change (Z.abs 0) with 0. rewrite Ediv_zero by lia. reflexivity. Qed.
Lemma Brem_zero a : brem (bof a) (bof 0) = Panic.
Proof. unfold brem. now rewrite Bdiv_zero. Qed.

(** ** i32 operands *)
Definition i32r (o : Z) : Prop := - 2147483648 < o < 2147483648.
Lemma mod_abs a p : p <> 0 -> Z.abs a mod Z.abs p = Z.abs (Z.rem a p).
Proof. intros. rewrite <- Z.rem_abs by lia. rewrite Z.rem_mod_nonneg by lia. reflexivity. Qed.
Lemma rem_sgn a p : p <> 0 -> Z.rem a p <> 0 -> (Z.rem a p < 0 <-> a < 0).
Proof. intros N N2. pose proof (Z.rem_sign_nz a p N N2). destruct a, (Z.rem _ p); cbn in *; lia. Qed.
Section I.
Variables a o : Z.
Hypothesis Ho : i32r o.
Let S32 : sabs 32 o = Ok (Z.abs o). Proof. apply sabs32; unfold i32r in *; lia. Qed.
Let C32 : castw 32 (Z.abs o) = Z.abs o. Proof. apply sabs32; unfold i32r in *; lia. Qed.
Let Lo : Z.abs o < B. Proof. unfold i32r in *; lia. Qed.
Ltac bcase := destruct (Z.ltb_spec a 0), (Z.ltb_spec o 0); cbn [Bool.eqb negb bind xorb].
Ltac bfin := apply f_equal; first [apply ubi_bof | apply mkB_bof]; [lia | intros; bsign].

Lemma bdiff_i32_eq : bdiff_i32 (bof a) o = Ok (uof (Z.abs (Z.abs a - Z.abs o)),
  if Z.abs a =? Z.abs o then false else xorb (Z.abs a <? Z.abs o) (a <? 0)).
Proof.
  unfold bdiff_i32. rewrite S32. cbn [bind]. cbv zeta. rewrite C32, !Bneg, !Bmag. rewrite Elt_u32 by lia. cbn [bind].
  destruct (Z.ltb_spec (Z.abs a) (Z.abs o)).
  - rewrite Eto_u32 by lia. destruct (Z.ltb_spec (Z.abs a) B); [|lia]. cbn [expect bind].
    rewrite subw_ok by lia. cbn [bind]. unfold ufrom_u32. rewrite <- uof_small by lia. rewrite Eis_zero by lia.
    f_equal; f_equal; [f_equal; lia | bsign].
  - unfold usub_u32. rewrite Esub_u32 by lia. cbn [bind]. rewrite Eis_zero by lia.
    f_equal; f_equal; [f_equal; lia | bsign].
Qed.
Lemma Badd_i32 : badd_i32 (bof a) o = Ok (bof (a + o)).
Proof.
  unfold badd_i32, uadd_u32. rewrite bdiff_i32_eq, S32, !Bneg, !Bmag. cbn [bind]. rewrite C32, Eadd_u32 by lia.
  bcase; bfin.
Qed.
Lemma Badd_i32_mut : badd_i32_mut (bof a) o = Ok (bof (a + o)).
Proof.
  unfold badd_i32_mut. rewrite bdiff_i32_eq, S32, !Bneg, !Bmag. cbn [bind]. rewrite C32, Eadd_u32 by lia.
  bcase; bfin.
Qed.
Lemma Bsub_i32 : bsub_i32 (bof a) o = Ok (bof (a - o)).
Proof.
  unfold bsub_i32, uadd_u32. rewrite bdiff_i32_eq, S32, !Bneg, !Bmag. cbn [bind]. rewrite C32, Eadd_u32 by lia.
  bcase; bfin.
Qed.
(** [0 - 0] and [x - 0] leave the sign alone, so the in-place form is also exact *)
Lemma Bsub_i32_mut : bsub_i32_mut (bof a) o = Ok (bof (a - o)).
Proof.
  unfold bsub_i32_mut. rewrite bdiff_i32_eq, S32, !Bneg, !Bmag. cbn [bind]. rewrite C32, Eadd_u32 by lia.
  bcase; bfin.
Qed.
Lemma Bmul_i32 : bmul_i32 (bof a) o = Ok (bof (a * o)).
Proof.
  unfold bmul_i32, umul_u32. rewrite S32, !Bneg, !Bmag. cbn [bind]. rewrite C32, Emul_u32 by lia. cbn [bind].
  rewrite Eis_zero by lia.
  apply f_equal, ubi_bof; [lia|]. intros. destruct (Z.eqb_spec (Z.abs a * Z.abs o) 0); [nia|]. bcase; symmetry; zb; nia.
Qed.
Lemma Bmul_i32_mut : bmul_i32_mut (bof a) o = Ok (bof (a * o)).
Proof.
  unfold bmul_i32_mut. rewrite S32, !Bneg, !Bmag. cbn [bind]. rewrite C32, Emul_u32 by lia. cbn [bind].
  rewrite Eis_zero by lia.
  apply f_equal, mkB_bof; [lia|]. destruct (Z.eqb_spec (Z.abs a * Z.abs o) 0); bcase; symmetry; zb; nia.
Qed.
Lemma Bdiv_i32 : o <> 0 -> bdiv_i32 (bof a) o = Ok (bof (a ÷ o)).
Proof.
  intros N. unfold bdiv_i32, udiv_u32. rewrite S32, !Bneg, !Bmag. cbn [bind].
  rewrite C32, Ediv_u32, quot_abs by lia. cbn [bind]. rewrite Eis_zero by lia.
  apply f_equal, ubi_bof; [lia|]. intros N2. pose proof (quot_sign a o N N2).
  destruct (Z.eqb_spec (Z.abs (a ÷ o)) 0); [lia|]. bcase; symmetry; zb; lia.
Qed.
Lemma Bdiv_i32_mut : o <> 0 -> bdiv_i32_mut (bof a) o = Ok (bof (a ÷ o)).
Proof.
  intros N. unfold bdiv_i32_mut. rewrite S32, !Bneg, !Bmag. cbn [bind].
  rewrite C32, Ediv_u32, quot_abs by lia. cbn [bind]. rewrite Eis_zero by lia.
  apply f_equal, mkB_bof; [lia|]. pose proof (quot_sign a o N).
  destruct (Z.eqb_spec (Z.abs (a ÷ o)) 0). zb; lia. bcase; symmetry; zb; lia.
Qed.
Lemma Brem_i32 : o <> 0 -> Z.of_nat (length (uof (Z.abs a))) < B -> brem_i32 (bof a) o = Ok (bof (Z.rem a o)).
Proof.
  intros N L. unfold brem_i32. rewrite S32, !Bneg, !Bmag. cbn [bind].
  rewrite C32, Erem_u32, mod_abs by lia. cbn [bind]. rewrite Eis_zero by lia.
  apply f_equal, ubi_bof; [lia|]. intros N2. pose proof (rem_sgn a o N N2). zb; lia.
Qed.
Lemma Blt_i32 : blt_i32 (bof a) o = Ok (a <? o).
Proof.
  unfold blt_i32. rewrite S32, !Bneg, !Bmag. cbn [bind]. rewrite C32, Ecomp_u32 by lia. cbn [bind].
  bcase; bsign.
Qed.
Lemma Bgt_i32 : bgt_i32 (bof a) o = Ok (o <? a).
Proof.
  unfold bgt_i32. rewrite S32, !Bneg, !Bmag. cbn [bind]. rewrite C32, Ecomp_u32 by lia. cbn [bind].
  bcase; bsign.
Qed.
Lemma Bleq_i32 : bleq_i32 (bof a) o = Ok (a <=? o).
Proof. unfold bleq_i32. rewrite Bgt_i32. cbn [bind]. now rewrite Z.leb_antisym. Qed.
Lemma Bgeq_i32 : bgeq_i32 (bof a) o = Ok (o <=? a).
Proof. unfold bgeq_i32. rewrite Blt_i32. cbn [bind]. now rewrite Z.leb_antisym. Qed.
Lemma Bcomp_i32 : bcomp_i32 (bof a) o = Ok (a ?= o).
Proof.
  unfold bcomp_i32. rewrite S32, !Bneg, !Bmag. cbn [bind]. rewrite C32, Ecomp_u32 by lia. cbn [bind].
  bcase; bsign.
Qed.
Lemma Beq_i32 : Z.abs a < B \/ (a < 0 <-> 0 <= o) -> beq_i32 (bof a) o = Ok (a =? o).
Proof.
  intros H. unfold beq_i32. rewrite !Bneg, !Bmag. rewrite Eto_u32 by lia.
  destruct (Z.ltb_spec (Z.abs a) B); cbn [expect].
  - rewrite S32. cbn [bind]. rewrite C32. bcase; bsign.
  - bcase; bsign.
Qed.
Lemma Beq_i32_panic : B <= Z.abs a -> (a < 0 <-> o < 0) -> beq_i32 (bof a) o = Panic.
Proof.
  intros H. unfold beq_i32. rewrite !Bneg, !Bmag. rewrite Eto_u32 by lia.
  destruct (Z.ltb_spec (Z.abs a) B); [lia|]; cbn [expect]. bcase; bsign.
Qed.
End I.

Section C.
Variables a b : Z.
Ltac bcase := destruct (Z.ltb_spec a 0), (Z.ltb_spec b 0); cbn [Bool.eqb negb bind xorb].
Lemma Blt : blt (bof a) (bof b) = (a <? b).
Proof. unfold blt. rewrite !Bneg, !Bmag, Ecomp by lia. bcase; bsign. Qed.
Lemma Bgt : bgt (bof a) (bof b) = (b <? a).
Proof. unfold bgt. rewrite !Bneg, !Bmag, Ecomp by lia. bcase; bsign. Qed.
Lemma Bleq : bleq (bof a) (bof b) = (a <=? b).
Proof. unfold bleq. now rewrite Bgt, Z.leb_antisym. Qed.
Lemma Bgeq : bgeq (bof a) (bof b) = (b <=? a).
Proof. unfold bgeq. now rewrite Blt, Z.leb_antisym. Qed.
Lemma Bcomp : bcomp (bof a) (bof b) = (a ?= b).
Proof. unfold bcomp. rewrite !Bneg, !Bmag, Ecomp by lia. bcase; bsign. Qed.
Lemma Beq : beq (bof a) (bof b) = (a =? b).
Proof. unfold beq. rewrite !Bneg, !Bmag, Eeq by lia. bcase; bsign. Qed.
Lemma Bneq : bneq (bof a) (bof b) = negb (a =? b).
Proof. unfold bneq. now rewrite Beq. Qed.
Lemma Bgcd : bgcd (bof a) (bof b) = Ok (bof (Z.gcd a b)).
Proof.
  unfold bgcd. rewrite !Bmag, Egcd by lia. cbn [bind]. rewrite Z.gcd_abs_l, Z.gcd_abs_r.
  pose proof (Z.gcd_nonneg a b). apply f_equal, ubi_bof; [lia|]. intros. zb; lia.
Qed.
End C.

Lemma Bopp a : bopp (bof a) = bof (- a).
Proof. unfold bopp. rewrite !Bneg, !Bmag, Eis_zero by lia. apply ubi_bof; [lia|]. intros. bsign. Qed.
Lemma Bopp_mut a : bopp_mut (bof a) = bof (- a).
Proof. unfold bopp_mut. rewrite !Bneg, !Bmag, Eis_zero by lia. apply mkB_bof; [lia|]. bsign. Qed.
Lemma Babs a : babs (bof a) = bof (Z.abs a).
Proof. unfold babs. rewrite !Bmag. apply ubi_bof; [lia|]. intros. bsign. Qed.
Lemma Babs_mut a : babs_mut (bof a) = bof (Z.abs a).
Proof. unfold babs_mut. rewrite !Bmag. apply mkB_bof; [lia|]. bsign. Qed.
Lemma Bmul_pow2 a e : 0 <= e -> bmul_pow2 (bof a) e = Ok (bof (a * 2 ^ e)).
Proof.
  intros. unfold bmul_pow2, umul_pow2. rewrite !Bneg, !Bmag, Emul_pow2 by lia. cbn [bind].
  assert (0 < 2 ^ e) by (apply Z.pow_pos_nonneg; lia). apply f_equal, ubi_bof; [nia|]. intros. zb; nia.
Qed.
Lemma Bmul_pow2_mut a e : 0 <= e -> bmul_pow2_mut (bof a) e = Ok (bof (a * 2 ^ e)).
Proof.
  intros. unfold bmul_pow2_mut. rewrite !Bneg, !Bmag, Emul_pow2 by lia. cbn [bind].
  assert (0 < 2 ^ e) by (apply Z.pow_pos_nonneg; lia). apply f_equal, mkB_bof; [nia|]. zb; nia.
Qed.
Lemma Brem_pow2 a e : 0 <= e < 31 -> brem_pow2 (bof a) (2 ^ e) = Ok (bof (Z.rem a (2 ^ e))).
Proof.
  intros He. assert (0 < 2 ^ e < 2147483648).
  { split. apply Z.pow_pos_nonneg; lia. change 2147483648 with (2 ^ 31). apply Z.pow_lt_mono_r; lia. }
  unfold brem_pow2. destruct (sabs32 (2 ^ e)) as (-> & Hc). lia. cbn [bind]. rewrite Hc.
  rewrite Bmag, Bneg. rewrite (Z.abs_eq (2 ^ e)) by lia. rewrite Erem_pow2 by lia. cbn [bind].
  assert (N : 2 ^ e <> 0) by lia. pose proof (mod_abs a (2 ^ e) N) as M. rewrite (Z.abs_eq (2 ^ e)) in M by lia.
  rewrite M. rewrite Eis_zero by lia.
  apply f_equal, ubi_bof; [lia|]. intros N2. pose proof (rem_sgn a (2 ^ e) ltac:(lia) N2). zb; lia.
Qed.

(** ** powers, shifts, roots *)
Lemma pow_abs a e : 0 <= e -> Z.abs a ^ e = Z.abs (a ^ e).
Proof. intros. symmetry. apply Z.abs_pow. Qed.
Lemma pow_neg a e : 0 <= e -> a < 0 -> (a ^ e < 0 <-> e mod 2 = 1).
Proof.
  intros He Ha. assert (E : a = - 1 * Z.abs a) by lia. rewrite E, Z.pow_mul_l.
  assert (0 < Z.abs a ^ e) by (apply Z.pow_pos_nonneg; lia).
  pose proof (Z.div_mod e 2 ltac:(lia)). pose proof (Z.mod_pos_bound e 2 ltac:(lia)).
  assert (0 <= e / 2) by (apply Z.div_pos; lia).
  assert ((-1) ^ e = if e mod 2 =? 0 then 1 else -1).
  { rewrite H0 at 1. rewrite Z.pow_add_r, Z.pow_mul_r by lia. change ((-1) ^ 2) with 1. rewrite Z.pow_1_l by lia.
    destruct (Z.eqb_spec (e mod 2) 0) as [-> | N]. reflexivity. replace (e mod 2) with 1 by lia. reflexivity. }
  rewrite H3. destruct (Z.eqb_spec (e mod 2) 0); split; nia.
Qed.
Lemma pow_nonneg a e : 0 <= e -> 0 <= a -> 0 <= a ^ e. Proof. intros. now apply Z.pow_nonneg. Qed.
Lemma Bpow a e : 0 <= e < 2 ^ 31 -> bpow_u32 (bof a) e = Ok (bof (a ^ e)).
Proof.
  intros. unfold bpow_u32. rewrite Bmag, Bneg, Epow, pow_abs by lia. cbn [bind].
  apply f_equal, ubi_bof; [lia|]. intros N. pose proof (pow_neg a e). pose proof (pow_nonneg a e). clear - H0 H1 H N.
  set (x := a ^ e) in *. clearbody x. zb; lia.
Qed.
Lemma Bpow_mut a e : 0 <= e < 2 ^ 31 -> bpow_u32_mut (bof a) e = Ok (bof (a ^ e)).
Proof.
  intros. unfold bpow_u32_mut, upow_u32_mut. rewrite Bmag, Bneg, Epow, pow_abs by lia. cbn [bind].
  apply f_equal, mkB_bof; [lia|]. pose proof (pow_neg a e). pose proof (pow_nonneg a e). clear - H0 H1 H.
  set (x := a ^ e) in *. clearbody x. zb; lia.
Qed.
Lemma Bpow_panic a e : 2 ^ 31 <= e < 2 ^ 32 -> bpow_u32 (bof a) e = Panic.
Proof. intros. unfold bpow_u32. rewrite Bmag, Epow_panic by lia. reflexivity. Qed.
Lemma Bpow2 e : 0 <= e -> bpow2 e = bof (2 ^ e).
Proof. intros. unfold bpow2. rewrite Epow2 by lia. assert (0 < 2 ^ e) by (apply Z.pow_pos_nonneg; lia). apply ubi_bof; zb; lia. Qed.
Lemma Bexp2 e : 0 <= e -> bexp2 e = bof (2 ^ e).
Proof. intros. unfold bexp2. rewrite Eexp2 by lia. assert (0 < 2 ^ e) by (apply Z.pow_pos_nonneg; lia). apply ubi_bof; zb; lia. Qed.
Lemma Blog2 a : Z.of_nat (length (uof (Z.abs a))) < 2 ^ 58 -> blog2 (bof a) = Ok (bof (Z.log2 (Z.abs a))).
Proof.
  intros. unfold blog2. rewrite Bmag, Elog2 by lia. cbn [bind]. pose proof (Z.log2_nonneg (Z.abs a)).
  apply f_equal, ubi_bof; zb; lia.
Qed.
Lemma Bsqrt a : top64 (Z.abs a) < KSQ -> bsqrt (bof a) = Ok (bof (Z.sgn a * Z.sqrt (Z.abs a))).
Proof.
  intros. unfold bsqrt. rewrite Bmag, Bneg, Esqrt by lia. cbn [bind]. pose proof (Z.sqrt_nonneg (Z.abs a)).
  apply f_equal, ubi_bof. destruct (Z.sgn_spec a) as [(?&->)|[(?&->)|(?&->)]]; try lia. subst a. reflexivity.
  intros. destruct (Z.sgn_spec a) as [(?&E)|[(?&E)|(?&E)]]; rewrite E in *; zb; lia.
Qed.
Lemma shr_quot a n : Z.abs a / BB n = Z.abs (a ÷ BB n).
Proof. pose proof (BB_pos n). rewrite <- (Z.abs_eq (BB n)) at 1 by lia. now rewrite quot_abs by lia. Qed.
Lemma Bshr a n : bshift_right (bof a) n = bof (a ÷ BB n).
Proof.
  pose proof (BB_pos n).
  unfold bshift_right. cbv zeta. rewrite !Bmag, Bneg, Eshr, shr_quot by lia. rewrite Eis_zero by lia.
  apply ubi_bof. lia. intros N. pose proof (quot_sign a (BB n) ltac:(lia) N). zb; lia.
Qed.
Lemma Bshr_mut a n : bshift_right_mut (bof a) n = bof (a ÷ BB n).
Proof. rewrite <- Bshr. unfold bshift_right_mut, bshift_right, from_ubi. change ushift_right_mut with ushift_right. cbv zeta. now destruct (uis_zero _), (bneg _). Qed.
Lemma Bshl a n : bshift_left (bof a) n = bof (a * BB n).
Proof.
  pose proof (BB_pos n). unfold bshift_left. rewrite !Bmag, Bneg, Eshl by lia. apply ubi_bof; zb; nia.
Qed.
Lemma Bshl_mut a n : bshift_left_mut (bof a) n = bof (a * BB n).
Proof.
  pose proof (BB_pos n). unfold bshift_left_mut. rewrite !Bmag, Bneg, Eshl_mut by lia. apply mkB_bof; zb; nia.
Qed.

(** ** fixed-width conversions *)
Lemma Bfrom_i32 n : - 2 ^ 31 < n < 2 ^ 31 -> bfrom_i32 n = Ok (bof n).
Proof.
  intros. unfold bfrom_i32. rewrite sabs_ok by (cbn; lia). cbn [bind]. unfold castw. rewrite Z.mod_small by lia.
  rewrite ufrom_u32_spec by lia. reflexivity.
Qed.
Lemma Bfrom_i64 n : - 2 ^ 63 < n < 2 ^ 63 -> bfrom_i64 n = Ok (bof n).
Proof.
  intros. unfold bfrom_i64. rewrite sabs_ok by (cbn; lia). cbn [bind]. unfold castw. rewrite Z.mod_small by lia.
  rewrite ufrom_u64_spec by lia. reflexivity.
Qed.
Lemma Bfrom_i128 n : - 2 ^ 127 < n < 2 ^ 127 -> bfrom_i128 n = Ok (bof n).
Proof.
  intros. unfold bfrom_i128. rewrite sabs_ok by (cbn; lia). cbn [bind]. unfold castw. rewrite Z.mod_small by lia.
  rewrite ufrom_u128_spec by lia. reflexivity.
Qed.
Lemma casts_small w x : 0 < w -> - 2 ^ (w - 1) <= x < 2 ^ (w - 1) -> casts w x = x.
Proof.
  intros. unfold casts. assert (2 ^ w = 2 * 2 ^ (w - 1)). { rewrite <- Z.pow_succ_r by lia. f_equal. lia. }
  rewrite Z.mod_small by lia. lia.
Qed.
Lemma Bto_i32 z : bto_i32 (bof z) = if in_s 32 z then ROk z else RErr NotInRange.
Proof.
  unfold bto_i32, in_s. rewrite Bmag, Bneg, Eto_u32 by lia. change (2 ^ (32 - 1)) with 2147483648.
  destruct (Z.ltb_spec (Z.abs z) 4294967296); [|zb; cbn [andb]; try lia; reflexivity].
  destruct (Z.ltb_spec z 0); cbn [negb andb].
  - destruct (Z.leb_spec (Z.abs z) 2147483648).
    + rewrite casts_small by (cbn; lia). zb; cbn [andb]; try lia. f_equal; lia.
    + zb; cbn [andb]; try lia; reflexivity.
  - destruct (Z.leb_spec (Z.abs z) 2147483647).
    + rewrite casts_small by (cbn; lia). zb; cbn [andb]; try lia. f_equal; lia.
    + zb; cbn [andb]; try lia; reflexivity.
Qed.
Lemma Bto_i64 z : bto_i64 (bof z) = if in_s 64 z then ROk z else RErr NotInRange.
Proof.
  unfold bto_i64, in_s. rewrite Bmag, Bneg, Eto_u64 by lia. change (2 ^ (64 - 1)) with 9223372036854775808.
  change (2 ^ 64) with 18446744073709551616.
  destruct (Z.ltb_spec (Z.abs z) 18446744073709551616); [|zb; cbn [andb]; try lia; reflexivity].
  destruct (Z.ltb_spec z 0); cbn [negb andb].
  - destruct (Z.leb_spec (Z.abs z) 9223372036854775808).
    + rewrite casts_small by (change (2 ^ (64 - 1)) with 9223372036854775808; lia). zb; cbn [andb]; try lia. f_equal; lia.
    + zb; cbn [andb]; try lia; reflexivity.
  - destruct (Z.leb_spec (Z.abs z) 9223372036854775807).
    + rewrite casts_small by (change (2 ^ (64 - 1)) with 9223372036854775808; lia). zb; cbn [andb]; try lia. f_equal; lia.
    + zb; cbn [andb]; try lia; reflexivity.
Qed.
(** the minimum of i128 is refused *)
Lemma Bto_i128 z : bto_i128 (bof z) = if (- 2 ^ 127 <? z) && (z <? 2 ^ 127) then ROk z else RErr NotInRange.
Proof.
  unfold bto_i128. rewrite Bmag, Bneg, Eto_u128 by lia.
  change (2 ^ 128) with 340282366920938463463374607431768211456.
  change (2 ^ 127) with 170141183460469231731687303715884105728.
  destruct (Z.ltb_spec (Z.abs z) 340282366920938463463374607431768211456); [|zb; cbn [andb]; try lia; reflexivity].
  destruct (Z.ltb_spec z 0); cbn [negb andb].
  - destruct (Z.ltb_spec (Z.abs z) 170141183460469231731687303715884105728).
    + rewrite casts_small by (change (2 ^ (128 - 1)) with 170141183460469231731687303715884105728; lia). zb; cbn [andb]; try lia. f_equal; lia.
    + zb; cbn [andb]; try lia; reflexivity.
  - destruct (Z.leb_spec (Z.abs z) 170141183460469231731687303715884105727).
    + rewrite casts_small by (change (2 ^ (128 - 1)) with 170141183460469231731687303715884105728; lia). zb; cbn [andb]; try lia. f_equal; lia.
    + zb; cbn [andb]; try lia; reflexivity.
Qed.
Lemma Bto_ubi z : bto_ubi (bof z) = if z <? 0 then RErr NotInRange else ROk (uof z).
Proof. unfold bto_ubi. rewrite Bneg, Bmag. zb; [reflexivity | now rewrite Z.abs_eq by lia]. Qed.
Lemma Bfrom_ubi n s : 0 <= n -> from_ubi (uof n) s = bof (if s then - n else n).
Proof. intros. apply ubi_bof; destruct s; zb; lia. Qed.
