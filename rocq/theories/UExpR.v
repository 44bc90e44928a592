(** exp2_accurate against the real function 2^x *)
From Coq Require Import Reals Lra Lia ZArith List.
From Verif Require Import Base USpec UFacts UBig UMore UMoreP RReal.
Import ListNotations.
Local Open Scope R_scope.

Notation E2 x := (Rpower 2 x).
Lemma E2_pos x : 0 < E2 x. Proof. apply exp_pos. Qed.
Lemma E2_0 : E2 0 = 1. Proof. apply Rpower_O. lra. Qed.
Lemma E2_1 : E2 1 = 2. Proof. apply Rpower_1. lra. Qed.
Lemma E2_Z z : (0 <= z)%Z -> E2 (IZR z) = IZR (2 ^ z).
Proof.
  intros H. rewrite <- (Z2Nat.id z) by auto. rewrite <- INR_IZR_INZ, Rpower_pow by lra. rewrite <- pow_IZR. reflexivity.
Qed.
Lemma sqrt_Z z : (0 <= z)%Z -> IZR (Z.sqrt z) <= sqrt (IZR z) < IZR (Z.sqrt z) + 1.
Proof.
  intros H. pose proof (Z.sqrt_spec z H) as (S1 & S2). pose proof (Z.sqrt_nonneg z) as S0. pose proof (IZR_le _ _ S0) as S0'. split.
  - rewrite <- (sqrt_square (IZR (Z.sqrt z))) by lra. apply sqrt_le_1_alt. rewrite <- mult_IZR. now apply IZR_le.
  - rewrite <- (sqrt_square (IZR (Z.sqrt z) + 1)) by lra. apply sqrt_lt_1_alt. split; [now apply IZR_le |].
    rewrite <- plus_IZR, <- mult_IZR. apply IZR_lt. unfold Z.succ in S2. lia.
Qed.
Lemma E2_half x : sqrt (E2 x) = E2 (x / 2).
Proof.
  rewrite <- (sqrt_square (E2 (x / 2))) by (left; apply E2_pos). f_equal. rewrite <- Rpower_plus. f_equal. lra.
Qed.
Lemma div_Z a b : (0 < b)%Z -> IZR (a / b) <= IZR a / IZR b < IZR (a / b) + 1.
Proof.
  intros H. pose proof (IZR_lt _ _ H) as H'. pose proof (Z.mod_pos_bound a b H). pose proof (Z.div_mod a b ltac:(lia)).
  assert (L : (a / b * b <= a < (a / b + 1) * b)%Z) by nia. destruct L as (L1 & L2). apply IZR_le in L1. apply IZR_lt in L2.
  rewrite mult_IZR in L1, L2. rewrite plus_IZR in L2. split.
  - apply Rmult_le_reg_r with (IZR b); auto. unfold Rdiv. rewrite Rmult_assoc, Rinv_l by lra. lra.
  - apply Rmult_lt_reg_r with (IZR b); auto. unfold Rdiv. rewrite Rmult_assoc, Rinv_l by lra. lra.
Qed.

(** ** the table holds the floors of 2^(62 + i/512), by interval arithmetic on 128-bit fixed point *)
Definition SC : Z := 2 ^ 128.
Definition enc (l h : Z) (x : R) : Prop := (0 <= l)%Z /\ IZR l <= IZR SC * x <= IZR h.
Lemma SC_pos : 0 < IZR SC. Proof. apply IZR_lt. reflexivity. Qed.
Lemma enc_sqrt l h x : 0 < x -> enc l h x -> enc (Z.sqrt (l * SC)) (Z.sqrt (h * SC) + 1) (sqrt x).
Proof.
  intros Hx (H0 & H1 & H2). pose proof SC_pos. assert (0 < IZR SC * x) by (apply Rmult_lt_0_compat; auto).
  assert (0 <= h)%Z by (apply le_IZR; lra). split; [apply Z.sqrt_nonneg |].
  assert (E : IZR SC * sqrt x = sqrt (IZR SC * x * IZR SC)).
  { rewrite <- (sqrt_square (IZR SC)) at 1 by lra. rewrite <- sqrt_mult by nra. f_equal. ring. }
  rewrite E. rewrite plus_IZR. assert (0 < SC)%Z by reflexivity.
  pose proof (sqrt_Z (l * SC) ltac:(nia)) as (A1 & _). pose proof (sqrt_Z (h * SC) ltac:(nia)) as (_ & A2). rewrite mult_IZR in A1, A2.
  split.
  - eapply Rle_trans; [exact A1 |]. apply sqrt_le_1_alt. apply Rmult_le_compat_r; lra.
  - apply Rlt_le. eapply Rle_lt_trans; [| exact A2]. apply sqrt_le_1_alt. apply Rmult_le_compat_r; lra.
Qed.
Lemma enc_mul l h x l2 h2 y : 0 < x -> 0 < y -> enc l h x -> enc l2 h2 y -> enc (l * l2 / SC) (h * h2 / SC + 1) (x * y).
Proof.
  intros Hx Hy (H0 & H1 & H2) (G0 & G1 & G2). pose proof SC_pos. assert (0 < SC)%Z by reflexivity.
  apply IZR_le in H0 as H0'. apply IZR_le in G0 as G0'.
  split; [apply Z.div_pos; nia |]. rewrite plus_IZR. pose proof (div_Z (l * l2) SC ltac:(auto)) as (A1 & _). pose proof (div_Z (h * h2) SC ltac:(auto)) as (_ & A2).
  rewrite mult_IZR in A1, A2. assert (E : IZR SC * (x * y) = (IZR SC * x) * (IZR SC * y) / IZR SC) by (field; lra). rewrite E. split.
  - eapply Rle_trans; [exact A1 |]. unfold Rdiv. apply Rmult_le_compat_r; [left; now apply Rinv_0_lt_compat |]. apply Rmult_le_compat; lra.
  - apply Rlt_le. eapply Rle_lt_trans; [| exact A2]. unfold Rdiv. apply Rmult_le_compat_r; [left; now apply Rinv_0_lt_compat |].
    assert (0 < IZR SC * x) by (apply Rmult_lt_0_compat; auto). assert (0 < IZR SC * y) by (apply Rmult_lt_0_compat; auto).
    apply Rmult_le_compat; lra.
Qed.
Fixpoint roots (k : nat) (lh : Z * Z) : Z * Z :=
  match k with O => lh | S m => roots m (Z.sqrt (fst lh * SC), (Z.sqrt (snd lh * SC) + 1)%Z) end.
Lemma roots_enc k : forall lh x, enc (fst lh) (snd lh) (E2 x) -> enc (fst (roots k lh)) (snd (roots k lh)) (E2 (x / 2 ^ k)).
Proof.
  induction k as [| k IH]; intros lh x H; cbn [roots pow]. { now replace (x / 1) with x by lra. }
  replace (x / (2 * 2 ^ k)) with (x / 2 / 2 ^ k) by (field; apply pow_nonzero; lra).
  apply IH. cbn [fst snd]. rewrite <- E2_half. apply enc_sqrt; auto. apply E2_pos.
Qed.
Definition RT : Z * Z := Eval vm_compute in roots 9 (2 * SC, 2 * SC)%Z.
Lemma RT_enc : enc (fst RT) (snd RT) (E2 (1 / 512)).
Proof.
  replace (1 / 512) with (1 / 2 ^ 9) by (cbn; lra). change RT with (roots 9 (2 * SC, 2 * SC)%Z). apply roots_enc. cbn [fst snd].
  rewrite E2_1. split; [discriminate |]. rewrite mult_IZR. lra.
Qed.
Fixpoint tabchk (t : list Z) (l h : Z) : bool :=
  match t with
  | [] => true
  | v :: t => (v * 2 ^ 66 <=? l)%Z && (h <? (v + 1) * 2 ^ 66)%Z && tabchk t (l * fst RT / SC) (h * snd RT / SC + 1)
  end.
Lemma tabchk_ok t : forall l h x, enc l h (E2 x) -> tabchk t l h = true ->
  forall i, (i < length t)%nat -> IZR (nth i t 0%Z) <= E2 (x + 62 + INR i / 512) < IZR (nth i t 0%Z) + 1.
Proof.
  induction t as [| v t IH]; intros l h x He H i Hi; cbn [length] in Hi; [lia |]. cbn [tabchk] in H.
  apply andb_true_iff in H as [H H3]. apply andb_true_iff in H as [H1 H2]. apply Z.leb_le in H1. apply Z.ltb_lt in H2.
  destruct i as [| i]; cbn [nth].
  - destruct He as (_ & E1 & E3). apply IZR_le in H1. apply IZR_lt in H2. rewrite mult_IZR in H1, H2. rewrite plus_IZR in H2.
    replace (x + 62 + INR 0 / 512) with (IZR 62 + x) by (cbn; lra). rewrite Rpower_plus, E2_Z by lia.
    assert (EQ : IZR SC = IZR (2 ^ 62) * IZR (2 ^ 66)) by (rewrite <- mult_IZR; reflexivity). rewrite EQ in *.
    assert (P : 0 < IZR (2 ^ 66)) by (apply IZR_lt; reflexivity). split.
    + apply Rmult_le_reg_r with (IZR (2 ^ 66)); lra.
    + apply Rmult_lt_reg_r with (IZR (2 ^ 66)); lra.
  - replace (x + 62 + INR (S i) / 512) with ((x + 1 / 512) + 62 + INR i / 512) by (rewrite S_INR; lra).
    apply (IH (l * fst RT / SC)%Z (h * snd RT / SC + 1)%Z); auto; try lia.
    rewrite Rpower_plus. apply enc_mul; auto using E2_pos, RT_enc.
Qed.
Lemma tabchk_all : tabchk (firstn 512 EXP2_TABLE) SC SC = true.
Proof. vm_compute. reflexivity. Qed.
Lemma tab_real i : (0 <= i <= 512)%Z -> IZR (tabE i) <= E2 (62 + IZR i / 512) < IZR (tabE i) + 1.
Proof.
  intros Hi. destruct (Z.eq_dec i 512) as [-> | N].
  - replace (62 + 512 / 512) with (IZR 63) by lra. rewrite E2_Z by lia. change (tabE 512) with (2 ^ 63)%Z. lra.
  - assert (He : enc SC SC (E2 0)) by (rewrite E2_0; split; [discriminate | lra]).
    assert (L : length (firstn 512 EXP2_TABLE) = 512%nat) by reflexivity.
    pose proof (tabchk_ok _ _ _ 0 He tabchk_all (Z.to_nat i) ltac:(rewrite L; lia)) as H.
    rewrite INR_IZR_INZ, Z2Nat.id, Rplus_0_l in H by lia.
    replace (nth (Z.to_nat i) (firstn 512 EXP2_TABLE) 0%Z) with (tabE i) in H; auto.
    unfold tabE. rewrite <- (firstn_skipn 512 EXP2_TABLE) at 1. rewrite app_nth1; [reflexivity | rewrite L; lia].
Qed.

(** ** the bisection keeps floors of 2^a and 2^(a+h) up to a relative error of 2^-62 per step *)
Definition ulp62 : R := / IZR (2 ^ 62).
Lemma ulp62_val : ulp62 * IZR (2 ^ 62) = 1. Proof. unfold ulp62. apply Rinv_l. apply not_0_IZR. discriminate. Qed.
Lemma ulp62_pos : 0 < ulp62. Proof. apply Rinv_0_lt_compat, IZR_lt. reflexivity. Qed.
Lemma ulp62_small : ulp62 < 1 / 10 ^ 18.
Proof. unfold ulp62. replace (1 / 10 ^ 18) with (/ IZR 1000000000000000000) by lra. apply Rinv_lt_contravar. rewrite <- mult_IZR; apply IZR_lt; reflexivity. apply IZR_lt. reflexivity. Qed.
Definition e2inv (t h d : R) (s : Z * Z * Z) : Prop :=
  let '(f1, f2, fr) := s in exists a, 0 <= h /\ 0 <= d < 1 /\
    (1 - d) * E2 a <= IZR f1 <= E2 a /\ (1 - d) * E2 (a + h) <= IZR f2 <= E2 (a + h) /\ a + h * (IZR fr / IZR (2 ^ 23)) = t.
Lemma mid_real a h d f1 f2 : (2 ^ 62 <= f1)%Z -> (2 ^ 62 <= f2)%Z -> 0 <= h -> 0 <= d < 1 ->
  (1 - d) * E2 a <= IZR f1 <= E2 a -> (1 - d) * E2 (a + h) <= IZR f2 <= E2 (a + h) ->
  (1 - (d + ulp62)) * E2 (a + h / 2) <= IZR (Z.sqrt (f1 * f2)) <= E2 (a + h / 2).
Proof.
  intros B1 B2 Hh Hd H1 H2. pose proof (sqrt_Z (f1 * f2) ltac:(nia)) as (S1 & S2). rewrite mult_IZR in S1, S2.
  apply IZR_le in B1. apply IZR_le in B2. pose proof ulp62_pos as U. pose proof ulp62_val as UV.
  assert (P : 0 < IZR (2 ^ 62)) by (apply IZR_lt; reflexivity).
  assert (M : E2 (a + h / 2) = sqrt (E2 a * E2 (a + h))).
  { rewrite <- Rpower_plus, E2_half. f_equal. lra. }
  assert (G : IZR (2 ^ 62) <= E2 (a + h / 2)). { eapply Rle_trans; [apply B1 |]. eapply Rle_trans; [apply H1 |]. apply Rle_Rpower; lra. }
  pose proof (E2_pos a) as Pa. pose proof (E2_pos (a + h)) as Pb. split.
  - assert (L : (1 - d) * E2 (a + h / 2) <= sqrt (IZR f1 * IZR f2)).
    { rewrite M. rewrite <- (sqrt_square (1 - d)) at 1 by lra. rewrite <- sqrt_mult by nra. apply sqrt_le_1_alt.
      replace ((1 - d) * (1 - d) * (E2 a * E2 (a + h))) with (((1 - d) * E2 a) * ((1 - d) * E2 (a + h))) by ring.
      apply Rmult_le_compat; try lra; apply Rmult_le_pos; lra. }
    assert (1 <= ulp62 * E2 (a + h / 2)) by (rewrite <- UV; apply Rmult_le_compat_l; lra). lra.
  - eapply Rle_trans; [apply S1 |]. rewrite M. apply sqrt_le_1_alt. apply Rmult_le_compat; lra.
Qed.
Lemma e2inv_step t h d s : e2ok s -> d + ulp62 < 1 -> e2inv t h d s -> e2inv t (h / 2) (d + ulp62) (e2step s).
Proof.
  destruct s as [[f1 f2] fr]. unfold e2ok, e2inv, e2step. intros (O1 & O2 & O3 & O4) Hdd (a & Hh & Hd & H1 & H2 & Ht).
  pose proof (mid_real a h d f1 f2 O1 ltac:(lia) Hh Hd H1 H2) as M. pose proof ulp62_pos as U.
  pose proof (E2_pos a). pose proof (E2_pos (a + h)).
  assert (W : forall y f, 0 < y -> (1 - d) * y <= f -> (1 - (d + ulp62)) * y <= f).
  { intros y f Hy Hf. assert (0 < ulp62 * y) by (apply Rmult_lt_0_compat; auto). lra. }
  assert (P23 : 0 < IZR (2 ^ 23)) by (apply IZR_lt; reflexivity).
  destruct (Z.ltb_spec (2 ^ 22) fr) as [L | L].
  - exists (a + h / 2). replace (a + h / 2 + h / 2) with (a + h) by lra. split; [lra |]. split; [lra |]. split; [exact M |].
    split; [split; [apply W; lra | lra] |]. rewrite <- Ht, mult_IZR, minus_IZR.
    replace (IZR (2 ^ 23)) with (2 * IZR (2 ^ 22)) by (rewrite <- mult_IZR; reflexivity). field. apply not_0_IZR. discriminate.
  - exists a. split; [lra |]. split; [lra |]. split; [split; [apply W; lra | lra] |]. split; [exact M |].
    rewrite <- Ht, mult_IZR. field. lra.
Qed.
Lemma e2inv_iter k : forall t h d s, e2ok s -> d + INR k * ulp62 < 1 -> e2inv t h d s -> e2inv t (h / 2 ^ k) (d + INR k * ulp62) (e2iter k s).
Proof.
  pose proof ulp62_pos as U. induction k as [| k IH]; intros t h d s O L H; cbn [e2iter].
  - replace (h / 2 ^ 0) with h by (cbn; lra). replace (d + INR 0 * ulp62) with d by (cbn; lra). auto.
  - rewrite S_INR in L |- *. replace (h / 2 ^ S k) with (h / 2 / 2 ^ k) by (cbn [pow]; field; apply pow_nonzero; lra).
    replace (d + (INR k + 1) * ulp62) with (d + ulp62 + INR k * ulp62) by lra. pose proof (pos_INR k).
    assert (0 <= INR k * ulp62) by (apply Rmult_le_pos; lra).
    apply IH; [now apply e2step_ok | lra |]. apply e2inv_step; auto. lra.
Qed.
Lemma e2inv_start n : (0 <= n)%Z -> e2inv (62 + IZR (n mod 2 ^ 32) / IZR (2 ^ 32)) (1 / 512) ulp62 (e2start n).
Proof.
  intros Hn. unfold e2start. pose proof (Z.mod_pos_bound n (2 ^ 32) ltac:(lia)) as M. set (fr := (n mod 2 ^ 32)%Z) in *. clearbody fr.
  assert (I : (0 <= fr / 2 ^ 23 < 512)%Z) by (split; [apply Z.div_pos; lia | apply Z.div_lt_upper_bound; lia]).
  pose proof (Z.div_mod fr (2 ^ 23) ltac:(lia)) as DM. set (i := (fr / 2 ^ 23)%Z) in *. set (m := (fr mod 2 ^ 23)%Z) in *. clearbody i m.
  unfold e2inv. exists (62 + IZR i / 512). pose proof ulp62_pos as U. pose proof ulp62_small as U2. pose proof ulp62_val as UV.
  assert (K : forall j, (0 <= j <= 512)%Z -> (1 - ulp62) * E2 (62 + IZR j / 512) <= IZR (tabE j) <= E2 (62 + IZR j / 512)).
  { intros j Hj. destruct (tab_real j Hj) as (T1 & T2). destruct (tab_spec j Hj) as (_ & (T3 & _) & _). apply IZR_le in T3.
    assert (1 <= ulp62 * E2 (62 + IZR j / 512)) by (rewrite <- UV; apply Rmult_le_compat_l; lra). split; lra. }
  split; [lra |]. split; [lra |]. split; [apply K; lia |]. split.
  - replace (62 + IZR i / 512 + 1 / 512) with (62 + IZR (i + 1) / 512) by (rewrite plus_IZR; lra). apply K. lia.
  - rewrite DM, plus_IZR, mult_IZR. replace (IZR (2 ^ 32)) with (512 * IZR (2 ^ 23)) by (rewrite <- mult_IZR; reflexivity).
    field. apply not_0_IZR. discriminate.
Qed.

(** ** the chord of the last interval *)
Lemma ln2_lo_hi : 0 < ln 2 <= 7 / 10.
Proof.
  split; [pose proof ln_lt_2; lra |]. rewrite <- (ln_exp (7 / 10)).
  assert (H : 2 <= exp (7 / 10)).
  { destruct (exp_rem_pos 4 (7 / 10) ltac:(lra)) as (H & _). unfold exp_rsum in H. cbn in H. lra. }
  destruct H as [H | <-]; [left; apply ln_increasing; lra | lra].
Qed.
Lemma exp_up y : 0 <= y <= 1 / 16384 -> exp y <= 1 + y + y * y * (5005 / 10000).
Proof.
  intros Hy. destruct (exp_rem_pos 2 y ltac:(lra)) as (_ & H). unfold exp_rsum in H. cbn in H.
  assert (L : exp y <= 1001 / 1000).
  { pose proof (exp_ineq1_le (- y)) as I. rewrite exp_Ropp in I. pose proof (exp_pos y) as P.
    assert ((1 - y) * exp y <= 1). { apply Rmult_le_reg_r with (/ exp y); [now apply Rinv_0_lt_compat |]. rewrite Rmult_assoc, Rinv_r by lra. lra. }
    nra. }
  assert (0 <= y * y) by nra. nra.
Qed.
Lemma chord a h s : h = 1 / 16384 -> 0 <= s <= 1 ->
  E2 (a + s * h) <= (1 - s) * E2 a + s * E2 (a + h) <= E2 (a + s * h) * (1 + / IZR (2 ^ 30)).
Proof.
  intros Hh Hs. destruct ln2_lo_hi as (L1 & L2). rewrite !Rpower_plus. pose proof (E2_pos a) as P.
  set (y := h * ln 2).
  assert (Y : 0 <= y <= 7 / 163840) by (unfold y; subst h; lra).
  replace (E2 (s * h)) with (exp (s * y)) by (unfold Rpower, y; f_equal; ring). change (E2 h) with (exp y).
  assert (C1 : exp (s * y) <= (1 - s) + s * exp y).
  { pose proof (exp_pos (s * y)) as Q. pose proof (exp_ineq1_le ((1 - s) * y)) as I1. pose proof (exp_ineq1_le (- (s * y))) as I2.
    assert (J1 : exp (s * y) * (1 + (1 - s) * y) <= exp y).
    { replace (exp y) with (exp (s * y) * exp ((1 - s) * y)) by (rewrite <- exp_plus; f_equal; ring). apply Rmult_le_compat_l; lra. }
    assert (J2 : exp (s * y) * (1 - s * y) <= 1).
    { replace 1 with (exp (s * y) * exp (- (s * y))) at 2 by (rewrite <- exp_plus, <- exp_0; f_equal; ring). apply Rmult_le_compat_l; lra. }
    assert (s * (exp (s * y) * (1 + (1 - s) * y)) <= s * exp y) by (apply Rmult_le_compat_l; lra).
    assert ((1 - s) * (exp (s * y) * (1 - s * y)) <= (1 - s) * 1) by (apply Rmult_le_compat_l; lra).
    replace (exp (s * y)) with (s * (exp (s * y) * (1 + (1 - s) * y)) + (1 - s) * (exp (s * y) * (1 - s * y))) by ring. lra. }
  assert (C2 : (1 - s) + s * exp y <= exp (s * y) * (1 + / IZR (2 ^ 30))).
  { pose proof (exp_up y ltac:(lra)) as U. pose proof (exp_ineq1_le (s * y)) as I.
    assert (YY : y * y * (5005 / 10000) <= / IZR (2 ^ 30)).
    { assert (y * y <= (7 / 163840) * (7 / 163840)) by (apply Rmult_le_compat; lra).
      replace (/ IZR (2 ^ 30)) with (1 / 1073741824) by (change (2 ^ 30)%Z with 1073741824%Z; lra). lra. }
    assert (s * exp y <= s * (1 + y + / IZR (2 ^ 30))) by (apply Rmult_le_compat_l; lra).
    assert (Z0 : 0 < / IZR (2 ^ 30)) by (apply Rinv_0_lt_compat, IZR_lt; reflexivity).
    assert (0 <= s * y) by (apply Rmult_le_pos; lra).
    assert ((1 + s * y) * (1 + / IZR (2 ^ 30)) <= exp (s * y) * (1 + / IZR (2 ^ 30))) by (apply Rmult_le_compat_r; lra).
    assert (s * / IZR (2 ^ 30) <= / IZR (2 ^ 30)) by nra.
    assert (0 <= s * y * / IZR (2 ^ 30)) by (apply Rmult_le_pos; lra). lra. }
  set (z := exp (s * y)) in *. set (w := exp y) in *. clearbody z w. split.
  - replace ((1 - s) * E2 a + s * (E2 a * w)) with (E2 a * ((1 - s) + s * w)) by ring. apply Rmult_le_compat_l; lra.
  - replace ((1 - s) * E2 a + s * (E2 a * w)) with (E2 a * ((1 - s) + s * w)) by ring. rewrite Rmult_assoc. apply Rmult_le_compat_l; lra.
Qed.
Lemma e2g_real n : (0 <= n)%Z -> let T := E2 (62 + IZR (n mod 2 ^ 32) / IZR (2 ^ 32)) in
  T * (1 - 7 * ulp62) <= IZR (e2g (e2iter 5 (e2start n))) <= T * (1 + / IZR (2 ^ 30)).
Proof.
  intros Hn T. pose proof (e2inv_start n Hn) as H. pose proof ulp62_small as U2. pose proof ulp62_pos as U. pose proof ulp62_val as UV.
  apply (e2inv_iter 5) in H; [| apply e2start_ok | cbn; lra].
  destruct (e2loop 5 0 (e2start n) (e2start_ok n)) as (_ & O). destruct (e2iter 5 (e2start n)) as [[f1 f2] fr].
  unfold e2ok in O. destruct O as (O1 & O2 & O3 & O4). unfold e2inv in H. destruct H as (a & _ & Hd & H1 & H2 & Ht). unfold e2g.
  replace (1 / 512 / 2 ^ 5) with (1 / 16384) in * by (cbn; lra). replace (ulp62 + INR 5 * ulp62) with (6 * ulp62) in * by (cbn; lra).
  set (s := IZR fr / IZR (2 ^ 23)) in *. assert (P23 : 0 < IZR (2 ^ 23)) by (apply IZR_lt; reflexivity).
  assert (Hs : 0 <= s <= 1).
  { destruct O4 as (O4 & O5). apply IZR_le in O4. apply IZR_le in O5. unfold s. split.
    - apply Rmult_le_reg_r with (IZR (2 ^ 23)); auto. unfold Rdiv. rewrite Rmult_assoc, Rinv_l by lra. lra.
    - apply Rmult_le_reg_r with (IZR (2 ^ 23)); auto. unfold Rdiv. rewrite Rmult_assoc, Rinv_l by lra. lra. }
  destruct (chord a (1 / 16384) s eq_refl Hs) as (C1 & C2).
  replace (a + s * (1 / 16384)) with (62 + IZR (n mod 2 ^ 32) / IZR (2 ^ 32)) in C1, C2 by lra. fold T in C1, C2.
  pose proof (div_Z ((f2 - f1) * fr) (2 ^ 23) ltac:(lia)) as (D1 & D2). rewrite mult_IZR, minus_IZR in D1, D2. rewrite plus_IZR.
  replace ((IZR f2 - IZR f1) * IZR fr / IZR (2 ^ 23)) with ((IZR f2 - IZR f1) * s) in D1, D2 by (unfold s; field; lra).
  assert (E : IZR f1 + (IZR f2 - IZR f1) * s = (1 - s) * IZR f1 + s * IZR f2) by ring.
  assert (K1 : (1 - s) * IZR f1 + s * IZR f2 <= (1 - s) * E2 a + s * E2 (a + 1 / 16384)).
  { apply Rplus_le_compat; apply Rmult_le_compat_l; lra. }
  assert (K2 : (1 - 6 * ulp62) * ((1 - s) * E2 a + s * E2 (a + 1 / 16384)) <= (1 - s) * IZR f1 + s * IZR f2).
  { replace ((1 - 6 * ulp62) * ((1 - s) * E2 a + s * E2 (a + 1 / 16384))) with
      ((1 - s) * ((1 - 6 * ulp62) * E2 a) + s * ((1 - 6 * ulp62) * E2 (a + 1 / 16384))) by ring.
    apply Rplus_le_compat; apply Rmult_le_compat_l; lra. }
  assert (K3 : (1 - 6 * ulp62) * T <= (1 - 6 * ulp62) * ((1 - s) * E2 a + s * E2 (a + 1 / 16384))) by (apply Rmult_le_compat_l; lra).
  split; [| lra].
  assert (G : 1 <= ulp62 * T).
  { rewrite <- UV. apply Rmult_le_compat_l; [lra |]. rewrite <- (E2_Z 62) by lia. unfold T. apply Rle_Rpower; [lra |].
    pose proof (Z.mod_pos_bound n (2 ^ 32) ltac:(lia)) as (M & _). apply IZR_le in M.
    assert (0 < / IZR (2 ^ 32)) by (apply Rinv_0_lt_compat, IZR_lt; reflexivity).
    assert (0 <= IZR (n mod 2 ^ 32) / IZR (2 ^ 32)) by (apply Rmult_le_pos; lra). lra. }
  lra.
Qed.
Lemma Rabs_def2_le x b : Rabs x <= b -> - b <= x <= b.
Proof. unfold Rabs. destruct (Rcase_abs x); lra. Qed.
Lemma e2val_real n : (0 <= n)%Z -> let X := E2 (IZR n / IZR (2 ^ 32)) in
  X * (1 - / IZR (2 ^ 59)) - (1 / 2 + / IZR (2 ^ 30)) <= IZR (e2val n) <= X * (1 + / IZR (2 ^ 30)) + 1 / 2.
Proof.
  intros Hn X. destruct (e2g_real n Hn) as (G1 & G2). unfold e2val, e2p. set (g := e2g (e2iter 5 (e2start n))) in *. clearbody g.
  set (q := (n / 2 ^ 32)%Z). assert (Hq : (0 <= q)%Z) by (apply Z.div_pos; lia).
  set (T := E2 (62 + IZR (n mod 2 ^ 32) / IZR (2 ^ 32))) in *. cbv zeta.
  assert (EX : IZR (2 ^ q) * T = X * IZR (2 ^ 62)).
  { rewrite <- (E2_Z q), <- (E2_Z 62) by lia. unfold T, X. rewrite <- !Rpower_plus. f_equal.
    pose proof (Z.div_mod n (2 ^ 32) ltac:(lia)) as DM. fold q in DM. apply (f_equal IZR) in DM. rewrite plus_IZR, mult_IZR in DM. rewrite DM.
    field. apply not_0_IZR. discriminate. }
  assert (PX : 0 < X) by apply E2_pos. assert (P2 : 0 < IZR (2 ^ q)) by (apply IZR_lt; apply Z.pow_pos_nonneg; lia).
  assert (B1 : X * IZR (2 ^ 62) * (1 - 7 * ulp62) <= IZR (2 ^ q * g)).
  { rewrite mult_IZR, <- EX, Rmult_assoc. apply Rmult_le_compat_l; lra. }
  assert (B2 : IZR (2 ^ q * g) <= X * IZR (2 ^ 62) * (1 + / IZR (2 ^ 30))).
  { rewrite mult_IZR, <- EX, Rmult_assoc. apply Rmult_le_compat_l; lra. }
  pose proof (div_Z (2 ^ q * g) (2 ^ 32) ltac:(lia)) as (D1 & D2). set (p := (2 ^ q * g / 2 ^ 32)%Z) in *.
  set (V := IZR (2 ^ q * g)) in *. clearbody p V.
  assert (RD : Rabs (IZR (p / 2 ^ 30 + (if (2 ^ 29 <? p mod 2 ^ 30)%Z then 1 else 0)) - IZR p / IZR (2 ^ 30)) <= 1 / 2).
  { pose proof (Z.div_mod p (2 ^ 30) ltac:(lia)) as DM. pose proof (Z.mod_pos_bound p (2 ^ 30) ltac:(lia)) as MB.
    set (u := (p / 2 ^ 30)%Z) in *. set (v := (p mod 2 ^ 30)%Z) in *. clearbody u v.
    replace (IZR p / IZR (2 ^ 30)) with (IZR u + IZR v / IZR (2 ^ 30)).
    2: { rewrite DM, plus_IZR, mult_IZR. field. apply not_0_IZR. discriminate. }
    rewrite plus_IZR. destruct MB as (M1 & M2). apply IZR_le in M1. assert (M3 : (v <= 2 ^ 30)%Z) by lia. apply IZR_le in M3.
    change (IZR (2 ^ 30)) with 1073741824 in *. apply Rabs_le. destruct (Z.ltb_spec (2 ^ 29) v) as [L | L].
    - assert (L' : (2 ^ 29 <= v)%Z) by lia. apply IZR_le in L'. change (IZR (2 ^ 29)) with 536870912 in *. lra.
    - apply IZR_le in L. change (IZR (2 ^ 29)) with 536870912 in *. lra. }
  set (r := IZR (p / 2 ^ 30 + (if (2 ^ 29 <? p mod 2 ^ 30)%Z then 1 else 0))) in *. clearbody r. apply Rabs_def2_le in RD.
  unfold ulp62 in *. change (IZR (2 ^ 30)) with 1073741824 in *. change (IZR (2 ^ 32)) with 4294967296 in *.
  change (IZR (2 ^ 62)) with 4611686018427387904 in *. change (IZR (2 ^ 59)) with 576460752303423488 in *. lra.
Qed.

Lemma IZR_Zpow z k : (0 < z)%Z -> (0 <= k)%Z -> IZR (z ^ k) = Rpower (IZR z) (IZR k).
Proof.
  intros Hz Hk. apply IZR_lt in Hz. rewrite <- (Z2Nat.id k) by auto. rewrite <- INR_IZR_INZ, Rpower_pow by auto. rewrite <- pow_IZR. reflexivity.
Qed.
(** integers L, n related by 2^L <= n^W < 2^(L+2) *)
Lemma log_real W n L : (0 < W)%Z -> (0 < n)%Z -> (0 <= L)%Z -> (2 ^ L <= n ^ W)%Z -> (n ^ W < 2 ^ (L + 2))%Z ->
  E2 (IZR L / IZR W) <= IZR n < E2 (IZR L / IZR W) * E2 (2 / IZR W).
Proof.
  intros HW Hn HL L1 L2. apply IZR_le in L1. apply IZR_lt in L2. rewrite !IZR_Zpow in L1, L2 by lia. apply IZR_lt in HW. apply IZR_lt in Hn.
  assert (K : IZR n = Rpower (Rpower (IZR n) (IZR W)) (/ IZR W)). { rewrite Rpower_mult, Rinv_r, Rpower_1 by lra. reflexivity. }
  assert (Wp : 0 < / IZR W) by now apply Rinv_0_lt_compat. split.
  - rewrite K. unfold Rdiv. rewrite <- Rpower_mult. apply Rle_Rpower_l; [lra |]. split; [apply exp_pos | auto].
  - rewrite <- Rpower_plus. replace (IZR L / IZR W + 2 / IZR W) with (IZR (L + 2) * / IZR W) by (rewrite plus_IZR; field; lra).
    rewrite K at 1. rewrite <- (Rpower_mult 2). apply Rlt_Rpower_l; [lra |]. split; [apply exp_pos | auto].
Qed.
Lemma E2_tiny : E2 (2 / IZR (2 ^ 32)) <= 1 + 3 / 2 / IZR (2 ^ 32).
Proof.
  destruct ln2_lo_hi as (L1 & L2). unfold Rpower. change (IZR (2 ^ 32)) with 4294967296.
  set (y := 2 / 4294967296 * ln 2). assert (0 <= y <= 14 / 42949672960) by (unfold y; lra).
  pose proof (exp_up y ltac:(lra)). assert (y * y <= y * (1 / 100)) by (apply Rmult_le_compat_l; lra). lra.
Qed.
Lemma e2val_nonneg n : (0 <= n)%Z -> (0 <= e2val n)%Z.
Proof.
  intros Hn. unfold e2val, e2p. destruct (e2loop 5 0 (e2start n) (e2start_ok n)) as (_ & O). destruct (e2iter 5 (e2start n)) as [[f1 f2] fr].
  unfold e2ok in O. destruct O as (O1 & O2 & O3 & O4). unfold e2g. cbv zeta.
  assert (0 <= (f2 - f1) * fr / 2 ^ 23)%Z by (apply Z.div_pos; nia).
  assert (0 <= 2 ^ (n / 2 ^ 32))%Z by (apply Z.pow_nonneg; lia).
  set (p := (2 ^ (n / 2 ^ 32) * (f1 + (f2 - f1) * fr / 2 ^ 23) / 2 ^ 32)%Z). assert (0 <= p)%Z by (apply Z.div_pos; nia).
  assert (0 <= p / 2 ^ 30)%Z by (apply Z.div_pos; lia). destruct (2 ^ 29 <? p mod 2 ^ 30)%Z; lia.
Qed.
Lemma e2val_pow k : (0 <= k)%Z -> e2val (k * 2 ^ 32) = (2 ^ k)%Z.
Proof.
  intros Hk. assert (E : e2start (k * 2 ^ 32) = e2start 0) by (unfold e2start; rewrite Z.mod_mul by lia; reflexivity).
  assert (G : e2g (e2iter 5 (e2start 0)) = (2 ^ 62)%Z) by (vm_compute; reflexivity).
  unfold e2val, e2p. rewrite E, G, Z.div_mul by lia.
  replace (2 ^ k * 2 ^ 62)%Z with (2 ^ k * 2 ^ 30 * 2 ^ 32)%Z by lia. rewrite Z.div_mul by lia. cbv zeta. rewrite Z.div_mul, Z.mod_mul by lia.
  replace (2 ^ 29 <? 0)%Z with false by reflexivity. lia.
Qed.
