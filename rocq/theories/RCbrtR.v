(** cbrt_iter against the real cube root *)
From Verif Require Import Base USpec UFacts UBig UStr UEq UFun BBig BSpec BEq RBig RSpec REq RFmtP UMore UMoreP UExpR RReal RCbrt RCbrtP.
From Coq Require Import Reals Lra Lia ZArith QArith Qabs Qreals.
Local Open Scope R_scope.

(** ** the first approximation *)
Lemma cube_le a b : 0 <= b -> a ^ 3 <= b ^ 3 -> a <= b.
Proof. intros Hb H. destruct (Rle_or_lt a b) as [L | L]; auto. exfalso. assert (b * b < a * a) by nra. cbn [pow] in H. assert (b * (b * b) < a * (a * a)) by nra. lra. Qed.
Lemma cube_lt a b : 0 <= b -> a ^ 3 < b ^ 3 -> a < b.
Proof. intros Hb H. destruct (Rle_or_lt b a) as [L | L]; auto. exfalso. assert (b * b <= a * a) by nra. cbn [pow] in H. assert (b * (b * b) <= a * (a * a)) by nra. lra. Qed.
Lemma start_Z z : z <> 0%Z -> (Z.of_nat (length (uof (Z.abs z))) + 1 < 2 ^ 27)%Z ->
  exists L, (0 <= L < 2 ^ 96)%Z /\ cbrt_start (bof z) = Ok (uof (e2val (L / 3))) /\
    E2 (IZR L / IZR (2 ^ 32)) <= IZR (Z.abs z) * IZR (2 ^ 32) < E2 (IZR L / IZR (2 ^ 32)) * E2 (2 / IZR (2 ^ 32)).
Proof.
  intros Hz Hl. unfold cbrt_start. rewrite Bshl. change (BB 1) with (2 ^ 32)%Z.
  assert (LN : (Z.of_nat (length (uof (Z.abs (z * 2 ^ 32)))) < 2 ^ 27)%Z).
  { destruct (len_uof_bounds (Z.abs z) ltac:(lia)) as (A & C & _).
    assert (length (uof (Z.abs (z * 2 ^ 32))) <= S (length (uof (Z.abs z))))%nat; [| lia].
    apply nlimbs_iff; [lia | lia |]. rewrite Z.abs_mul. change (Z.abs (2 ^ 32)) with (BB 1). replace (S (length (uof (Z.abs z)))) with (length (uof (Z.abs z)) + 1)%nat by lia.
    rewrite BB_add. apply Z.mul_lt_mono_pos_r; [reflexivity | auto]. }
  remember (2 ^ 32)%Z as W eqn:EW. assert (W0 : (0 < W)%Z) by (subst W; reflexivity).
  destruct (Blog2_acc_abs (z * W) W EW ltac:(nia) LN) as (L & E1 & R1 & R2 & R3). rewrite E1. cbn [bind].
  rewrite Bdiv_i32 by (unfold i32r; lia). cbn [bind]. rewrite Bto_ubi. rewrite Z.quot_div_nonneg by lia.
  assert (D0 : (0 <= L / 3)%Z) by (apply Z.div_pos; lia). destruct (Z.ltb_spec (L / 3) 0); [lia |].
  assert (LW : (L < 2 ^ 64)%Z) by (clear - R1 EW; subst W; change (2 ^ 64)%Z with (2 ^ 32 * 2 ^ 32)%Z; lia).
  assert (DL : (L / 3 < 2 ^ 96)%Z) by (clear - LW; apply Z.div_lt_upper_bound; lia).
  exists L. split; [clear - R1 LW; lia |]. split.
  { rewrite Eexp2_accurate by auto. apply Z.ltb_lt in DL. now rewrite DL. }
  assert (EN : IZR (Z.abs z) * IZR W = IZR (Z.abs (z * W))) by (rewrite Z.abs_mul, (Z.abs_eq W), mult_IZR by lia; reflexivity).
  rewrite EN. clear E1 LN Hl. apply log_real; auto; try lia; nia.
Qed.
Lemma start_real z c : z <> 0%Z -> (Z.of_nat (length (uof (Z.abs z))) + 1 < 2 ^ 27)%Z -> 0 < c -> c ^ 3 = IZR (Z.abs z) * IZR (2 ^ 32) ->
  exists s, (0 < s)%Z /\ cbrt_start (bof z) = Ok (uof s) /\ Rabs (IZR s - c) <= c * / 3200.
Proof.
  intros Hz Hl Hc Ec. destruct (start_Z z Hz Hl) as (L & HL & ES & B1 & B2). rewrite <- Ec in B1, B2.
  exists (e2val (L / 3)). assert (D0 : (0 <= L / 3)%Z) by (apply Z.div_pos; lia).
  pose proof (Z.div_mod L 3 ltac:(lia)) as DM. pose proof (Z.mod_pos_bound L 3 ltac:(lia)) as MB.
  pose proof (e2val_real (L / 3) D0) as V. cbv zeta in V. set (X := E2 (IZR (L / 3) / IZR (2 ^ 32))) in *.
  assert (PX : 0 < X) by apply E2_pos. set (T := E2 (2 / IZR (2 ^ 32))) in *. pose proof E2_tiny as ET. fold T in ET. assert (PT : 0 < T) by apply E2_pos.
  assert (W0 : 0 < IZR (2 ^ 32)) by (apply IZR_lt; reflexivity).
  assert (X3 : X ^ 3 = E2 (IZR (3 * (L / 3)) / IZR (2 ^ 32))).
  { unfold X. cbn [pow]. rewrite Rmult_1_r, <- !Rpower_plus. f_equal. rewrite mult_IZR. field. lra. }
  assert (C1 : X ^ 3 <= c ^ 3).
  { eapply Rle_trans; [| exact B1]. rewrite X3. apply Rle_Rpower; [lra |]. apply Rmult_le_compat_r; [left; now apply Rinv_0_lt_compat |]. apply IZR_le. lia. }
  assert (C2 : c ^ 3 < X ^ 3 * (T * T)).
  { eapply Rlt_le_trans; [exact B2 |]. rewrite <- Rmult_assoc. apply Rmult_le_compat_r; [lra |]. rewrite X3. unfold T. rewrite <- Rpower_plus. apply Rle_Rpower; [lra |].
    unfold Rdiv. rewrite <- Rmult_plus_distr_r. apply Rmult_le_compat_r; [left; now apply Rinv_0_lt_compat |]. rewrite <- (plus_IZR _ 2). apply IZR_le. lia. }
  set (t := 3 / 2 / IZR (2 ^ 32)) in *. assert (Ht : 0 < t <= 1 / 2000000000) by (unfold t; change (IZR (2 ^ 32)) with 4294967296; lra).
  apply cube_le in C1; [| lra].
  assert (C3 : c < X * (1 + t)).
  { apply cube_lt; [nra |]. eapply Rlt_le_trans; [exact C2 |]. rewrite Rpow_mult_distr. apply Rmult_le_compat_l; [left; now apply pow_lt |].
    assert (T * T <= (1 + t) * (1 + t)) by (apply Rmult_le_compat; lra). cbn [pow]. nra. }
  assert (C4 : 1625 <= c).
  { apply cube_le; [lra |]. rewrite Ec. assert (1 <= Z.abs z)%Z by lia. apply IZR_le in H. change (IZR (2 ^ 32)) with 4294967296. lra. }
  assert (XL : c * (1 - t) <= X) by nra.
  change (IZR (2 ^ 30)) with 1073741824 in V. change (IZR (2 ^ 59)) with 576460752303423488 in V. clear B1 B2 C2 X3 ET.
  assert (K : Rabs (IZR (e2val (L / 3)) - c) <= c * / 3200) by (apply Rabs_le; nra).
  split; [| split; auto]. apply lt_IZR. apply Rabs_def2_le in K. nra.
Qed.

(** ** a Newton step *)
Lemma newton_rel c q e : c <> 0 -> q = c * (1 + e) -> Rabs e <= / 512 -> q * (2 / 3) + c ^ 3 / 3 / q / q = c * (1 + e * e * ((1 + 2 / 3 * e) / ((1 + e) * (1 + e)))).
Proof. intros Hc -> He. apply Rabs_def2_le in He. field. split; [lra | auto]. Qed.
Lemma newton_err e : Rabs e <= / 512 -> 0 <= e * e * ((1 + 2 / 3 * e) / ((1 + e) * (1 + e))) <= e * e * (101 / 100).
Proof.
  intros He. apply Rabs_def2_le in He. assert (P : 0 < (1 + e) * (1 + e)) by nra. assert (0 <= e * e) by nra.
  assert (0 <= (1 + 2 / 3 * e) / ((1 + e) * (1 + e)) <= 101 / 100).
  { split.
    - apply Rmult_le_pos; [lra | left; now apply Rinv_0_lt_compat].
    - apply Rmult_le_reg_r with ((1 + e) * (1 + e)); auto. unfold Rdiv at 1. rewrite Rmult_assoc, Rinv_l by lra. nra. }
  split; [apply Rmult_le_pos; lra | apply Rmult_le_compat_l; lra].
Qed.
Definition eps3 (k : nat) : R := / 2 ^ (9 * 2 ^ k + 1).
Lemma eps3_S k : eps3 (S k) = 2 * (eps3 k * eps3 k).
Proof.
  unfold eps3. rewrite <- Rinv_mult, <- pow_add. replace (9 * 2 ^ k + 1 + (9 * 2 ^ k + 1))%nat with (S (9 * 2 ^ S k + 1))%nat by (cbn [Nat.pow]; lia).
  cbn [pow]. field. apply pow_nonzero. lra.
Qed.
Lemma eps3_0 : eps3 0 = / 1024. Proof. unfold eps3. change (9 * 2 ^ 0 + 1)%nat with 10%nat. lra. Qed.
Lemma eps3_bd k : 0 < eps3 k <= / 1024.
Proof. induction k as [| k IH]; [rewrite eps3_0; lra |]. rewrite eps3_S. nra. Qed.
Definition b127 : R := / 2 ^ 127.
Lemma b127_bd : 0 < b127 <= / 1000000. Proof. unfold b127. split; [apply Rinv_0_lt_compat, pow_lt; lra |]. apply Rinv_le_contravar; [lra |]. replace 1000000 with (IZR 1000000) by lra. rewrite pow_IZR. apply IZR_le. cbn. lia. Qed.
Lemma step_err c q q' k : c <> 0 -> Rabs (q - c) <= Rabs c * (eps3 k + b127) ->
  Rabs (q' - (q * (2 / 3) + c ^ 3 / 3 / q / q)) * 2 ^ 128 <= Rabs (q * (2 / 3) + c ^ 3 / 3 / q / q) ->
  Rabs (q' - c) <= Rabs c * (eps3 (S k) + b127).
Proof.
  intros Hc H Hq. pose proof (eps3_bd k) as EB. pose proof b127_bd as BB. set (e := q / c - 1).
  assert (Eq : q = c * (1 + e)) by (unfold e; field; auto).
  assert (Pc : 0 < Rabs c) by now apply Rabs_pos_lt.
  assert (He : Rabs e <= eps3 k + b127).
  { apply Rmult_le_reg_l with (Rabs c); auto. rewrite <- Rabs_mult. replace (c * e) with (q - c) by (rewrite Eq; ring). auto. }
  assert (He' : Rabs e <= / 512) by lra. rewrite (newton_rel c q e Hc Eq He') in Hq. pose proof (newton_err e He') as N.
  set (d := e * e * ((1 + 2 / 3 * e) / ((1 + e) * (1 + e)))) in *. clearbody d.
  assert (E2e : e * e <= (eps3 k + b127) * (eps3 k + b127)). { rewrite <- (Rabs_pos_eq (e * e)) by nra. rewrite Rabs_mult. apply Rmult_le_compat; auto using Rabs_pos. }
  rewrite eps3_S. set (a := eps3 k) in *. clearbody a. set (f := q' / c - 1).
  assert (Ef : q' - c = c * f) by (unfold f; field; auto). rewrite Ef, Rabs_mult. apply Rmult_le_compat_l; [lra |].
  replace (q' - c * (1 + d)) with (c * (f - d)) in Hq by (unfold f; field; auto). rewrite !Rabs_mult, Rmult_assoc in Hq.
  apply Rmult_le_reg_l in Hq; auto. rewrite (Rabs_pos_eq (1 + d)) in Hq by lra.
  assert (P128 : 0 < 2 ^ 128) by (apply pow_lt; lra). assert (PB : b127 = 2 * / 2 ^ 128) by (unfold b127; change 128%nat with (S 127); cbn [pow]; field; apply pow_nonzero; lra).
  assert (F : Rabs (f - d) <= (1 + d) * (b127 / 2)).
  { rewrite PB. replace (2 * / 2 ^ 128 / 2) with (/ 2 ^ 128) by lra. apply Rmult_le_reg_r with (2 ^ 128); auto. rewrite Rmult_assoc, Rinv_l by lra. lra. }
  set (b := b127) in *. clearbody b. clear Hq P128 PB Eq Ef H.
  assert (D1 : d <= 101 / 100 * (a * a) + 1 / 100 * b) by nra. apply Rabs_def2_le in F.
  assert (A1 : 0 <= a * a <= / 1000) by nra. assert (D3 : d <= / 10) by lra. assert (D2 : (1 + d) * (b / 2) <= 6 / 10 * b) by (clear - D3 BB N; nra).
  apply Rabs_le. clear - F D1 D2 N A1 BB. set (w := (1 + d) * (b / 2)) in *. clearbody w. set (y := a * a) in *. clearbody y. lra.
Qed.
Lemma Q2R_abs x : Q2R (Qabs x) = Rabs (Q2R x).
Proof.
  apply Qabs_case; intros H; apply Qle_Rle in H; rewrite RMicromega.Q2R_0 in H; [rewrite Rabs_pos_eq; auto | rewrite Rabs_left1, Q2R_opp; auto].
Qed.
Lemma newton3_R x q c : ~ (q == 0)%Q -> c ^ 3 = Q2R x -> Q2R (newton3 x q) = Q2R q * (2 / 3) + c ^ 3 / 3 / Q2R q / Q2R q.
Proof.
  intros Hq Hc. unfold newton3. rewrite Q2R_plus, Q2R_mult, !Q2R_div, Q2R_Z, Hc by (auto; discriminate). replace (Q2R (2 # 3)) with (2 / 3) by (unfold Q2R; cbn; lra). reflexivity.
Qed.

Definition near (x : Q) (k : Z) (s : rat) : Prop := exists q, s = rof q /\ forall c, c ^ 3 = Q2R x -> Rabs (Q2R q - c) <= Rabs c * (eps3 (Z.to_nat k) + b127).
Lemma cbrt_exists y : exists c, c ^ 3 = y.
Proof.
  assert (P : forall y, 0 < y -> exists c, 0 < c /\ c ^ 3 = y).
  { intros z Hz. exists (Rpower z (/ 3)). split; [apply exp_pos |]. rewrite <- Rpower_pow by apply exp_pos. rewrite Rpower_mult. replace (/ 3 * INR 3) with 1 by (cbn; lra). now apply Rpower_1. }
  destruct (Rtotal_order y 0) as [H | [-> | H]].
  - destruct (P (- y) ltac:(lra)) as (c & _ & E). exists (- c). cbn [pow] in *. lra.
  - exists 0. cbn. lra.
  - destruct (P y H) as (c & _ & E). eauto.
Qed.
Lemma cube_nz c x : ~ (x == 0)%Q -> c ^ 3 = Q2R x -> c <> 0.
Proof. intros Hx Hc ->. apply Hx. apply eqR_Qeq. rewrite RMicromega.Q2R_0, <- Hc. cbn. lra. Qed.
Lemma near_step x k i s : ~ (x == 0)%Q -> (0 <= k)%Z -> near x k s -> returns (cbrt_body (rof (x / inject_Z 3)) (rof (2 # 3)) i s) (near x (k + 1)).
Proof.
  intros Hx Hk (q & -> & H).
  assert (Hq : ~ (q == 0)%Q).
  { intros E0. destruct (cbrt_exists (Q2R x)) as (c & Hc). specialize (H c Hc). pose proof (cube_nz c x Hx Hc) as Nc. apply Qeq_eqR in E0. rewrite RMicromega.Q2R_0 in E0. rewrite E0 in H.
    replace (0 - c) with (- c) in H by ring. rewrite Rabs_Ropp in H. pose proof (eps3_bd (Z.to_nat k)). pose proof b127_bd. pose proof (Rabs_pos_lt c Nc). nra. }
  destruct (cbrt_step x q i Hq) as (q' & E & B). exists (rof q'). split; auto. exists q'. split; auto. intros c Hc. pose proof (cube_nz c x Hx Hc) as Nc.
  replace (Z.to_nat (k + 1)) with (S (Z.to_nat k)) by lia. apply (step_err c (Q2R q)); auto.
  apply Qle_Rle in B. rewrite Q2R_mult, !Q2R_abs, Q2R_minus, Q2R_Z, (newton3_R x q c Hq Hc) in B. change (2 ^ 128)%Z with (2 ^ Z.of_nat 128)%Z in B. rewrite <- pow_IZR in B. exact B.
Qed.
Lemma ratio_err a b : Rabs (a - 1) <= / 3200 -> Rabs (b - 1) <= / 3200 -> Rabs (a / b - 1) <= / 1024.
Proof.
  intros Ha Hb. apply Rabs_def2_le in Ha. apply Rabs_def2_le in Hb. apply Rabs_le. assert (P : 0 < b) by lra.
  assert (X : a / b * b = a) by (field; lra). nra.
Qed.
Lemma cube_inj a b : a ^ 3 = b ^ 3 -> a = b.
Proof. intros H. cbn [pow] in H. assert ((a - b) * (a * a + a * b + b * b) = 0) by lra. destruct (Rmult_integral _ _ H0); [lra |]. assert (a * a + a * b + b * b = (a + b / 2) * (a + b / 2) + 3 / 4 * (b * b)) by field. pose proof (Rle_0_sqr (a + b / 2)) as S1. pose proof (Rle_0_sqr b) as S2. unfold Rsqr in S1, S2. assert (Hb : b * b = 0) by lra. apply Rmult_integral in Hb. assert (b = 0) by tauto. subst b. assert (Ha : a * a = 0) by lra. apply Rmult_integral in Ha. tauto. Qed.
Theorem cbrt_iter_real x k : ~ (x == 0)%Q -> (Z.of_nat (length (uof (Z.abs (qn x)))) + 1 < 2 ^ 27)%Z -> (Z.of_nat (length (uof (qd x))) + 1 < 2 ^ 27)%Z ->
  returns (cbrt_iter (rof x) k) (near x (Z.of_nat k)).
Proof.
  intros Hx L1 L2. unfold cbrt_iter. rewrite Ris_zero. destruct (qeqb_qeq x 0) as [E0 | _]; [contradiction |].
  assert (Dp : (0 < qd x)%Z) by apply rof_den_pos. assert (Nz : qn x <> 0%Z). { intros E0. apply Hx. rewrite (qred_eta x), E0. reflexivity. }
  rewrite rden_rof, rnum_rof. destruct (cbrt_exists (Q2R x)) as (c & Hc). pose proof (cube_nz c x Hx Hc) as Nc. assert (Pc : 0 < Rabs c) by now apply Rabs_pos_lt.
  assert (Dr : 0 < IZR (qd x)) by now apply IZR_lt. assert (W0 : 0 < IZR (2 ^ 32)) by (apply IZR_lt; reflexivity).
  assert (VX : Q2R x = IZR (qn x) / IZR (qd x)). { rewrite (Qeq_eqR _ _ (qred_eta x)) at 1. unfold Q2R. cbn [Qnum Qden]. destruct (qd x); try lia. reflexivity. }
  destruct (cbrt_exists (IZR (qd x) * IZR (2 ^ 32))) as (cd & Hd).
  assert (Pd : 0 < cd). { destruct (Rlt_or_le 0 cd) as [H | H]; auto. exfalso. pose proof (pow_le (- cd) 3 ltac:(lra)) as K. cbn [pow] in K, Hd. assert (0 < IZR (qd x) * IZR (2 ^ 32)) by (apply Rmult_lt_0_compat; auto). lra. }
  destruct (start_real (qd x) cd ltac:(lia)) as (sd & S1 & S2 & S3); [rewrite Z.abs_eq by lia; exact L2 | auto | rewrite Z.abs_eq by lia; exact Hd |].
  destruct (start_real (qn x) (Rabs c * cd) Nz L1) as (sn & T1 & T2 & T3); [now apply Rmult_lt_0_compat | |].
  { rewrite Rpow_mult_distr, Hd, RPow_abs, Hc, VX. unfold Rdiv. rewrite Rabs_mult, (Rabs_pos_eq (/ _)) by (left; now apply Rinv_0_lt_compat). rewrite abs_IZR. field. lra. }
  rewrite S2. cbn [bind]. rewrite T2. cbn [bind]. rewrite Ris_neg, !Bfrom_ubi by lia. set (N := if qltb x 0 then (- sn)%Z else sn).
  rewrite from_dn_ok by lia. cbn [bind]. rewrite Rdiv_i32 by (unfold i32r; lia). cbn [bind]. rewrite from_dn_i32_ok by (unfold i32r; lia). cbn [bind].
  rewrite (rof_qeq (inject_Z 2 / inject_Z 3) (2 # 3)) by reflexivity.
  apply (for_spec _ (near x) k 0).
  2: { intros j s Hj. apply near_step; auto. lia. }
  exists (inject_Z N / inject_Z sd)%Q. split; auto. intros c' Hc'. assert (c' = c) by (apply cube_inj; lra). subst c'.
  apply IZR_lt in S1. apply IZR_lt in T1. rewrite Q2R_div, !Q2R_Z by (intros E0; apply Qeq_eqR in E0; rewrite RMicromega.Q2R_0, Q2R_Z in E0; lra).
  assert (SG : IZR N = c / Rabs c * IZR sn).
  { unfold N. pose proof (qltb_qlt x 0) as Q. destruct Q as [Q | Q].
    - apply Qlt_Rlt in Q. rewrite RMicromega.Q2R_0, <- Hc in Q. assert (c < 0). { destruct (Rlt_or_le c 0); auto. pose proof (pow_le c 3 H). lra. } rewrite opp_IZR, Rabs_left by auto. field. lra.
    - apply Qnot_lt_le, Qle_Rle in Q. rewrite RMicromega.Q2R_0, <- Hc in Q. assert (0 < c). { destruct (Rlt_or_le 0 c); auto. pose proof (pow_lt (- c) 3 ltac:(lra)) as K. cbn [pow] in K, Q. lra. } rewrite Rabs_pos_eq by lra. field. lra. }
  set (a := IZR sn / (Rabs c * cd)). set (b := IZR sd / cd).
  assert (Ha : Rabs (a - 1) <= / 3200). { apply Rmult_le_reg_l with (Rabs c * cd); [now apply Rmult_lt_0_compat |]. rewrite <- (Rabs_pos_eq (Rabs c * cd)) at 1 by nra. rewrite <- Rabs_mult. replace (Rabs c * cd * (a - 1)) with (IZR sn - Rabs c * cd) by (unfold a; field; lra). exact T3. }
  assert (Hb : Rabs (b - 1) <= / 3200). { apply Rmult_le_reg_l with cd; auto. rewrite <- (Rabs_pos_eq cd) at 1 by lra. rewrite <- Rabs_mult. replace (cd * (b - 1)) with (IZR sd - cd) by (unfold b; field; lra). exact S3. }
  replace (IZR N / IZR sd - c) with (c * (a / b - 1)) by (rewrite SG; unfold a, b; field; lra).
  rewrite Rabs_mult. apply Rmult_le_compat_l; [lra |]. change (Z.to_nat 0) with 0%nat. rewrite eps3_0. pose proof (ratio_err a b Ha Hb). pose proof b127_bd. lra.
Qed.
