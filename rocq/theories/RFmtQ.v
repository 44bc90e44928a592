(** Approximate texts of rationals: scientific notation. *)
From Coq Require Import Zquot Qpower Qfield.
From Verif Require Import Base USpec SSpec UFacts UBig UFun UStr UStrP UEq UPow USci ULog BBig BSpec BEq RBig RSpec REq RShrink RStr RStrP RIeee RIter RIterL XFun RFmt RFmtP RFmtT.
Local Open Scope Z_scope.

Lemma qabs_val x : (Qabs x == inject_Z (Z.abs (qn x)) / inject_Z (qd x))%Q.
Proof. rewrite (qval x) at 1. unfold Qdiv. rewrite Qabs_Qmult. apply Qmult_comp; [reflexivity |]. rewrite Qabs_Qinv. now rewrite (Qabs_pos (inject_Z (qd x))) by (apply (inj_le 0); lia). Qed.
Lemma qn_nz x : ~ (x == 0)%Q -> qn x <> 0.
Proof.
  intros Hx C. apply Hx. pose proof (qn_zero x) as E. rewrite C, Z.eqb_refl in E. symmetry in E. apply Z.eqb_eq in E.
  unfold Qeq. rewrite E. cbn. lia.
Qed.
Lemma flq_up n d k v : 0 < d -> 0 <= k -> v = n * 10 ^ k / d ->
  (inject_Z v * inject_Z 10 ^ (- k) <= inject_Z n / inject_Z d)%Q /\ (inject_Z n / inject_Z d < inject_Z (v + 1) * inject_Z 10 ^ (- k))%Q.
Proof.
  intros Hd Hk ->. assert (P : 0 < 10 ^ k) by (apply Z.pow_pos_nonneg; lia). assert (D0 : (0 < inject_Z d)%Q) by (apply (inj_lt 0); lia).
  pose proof (Z.div_mod (n * 10 ^ k) d ltac:(lia)) as E. pose proof (Z.mod_pos_bound (n * 10 ^ k) d Hd) as M.
  assert (X : forall z : Z, (inject_Z z * inject_Z 10 ^ (- k) == inject_Z z / inject_Z (10 ^ k))%Q).
  { intros z. rewrite Qpower_opp, (qpow_Z k) by lia. reflexivity. }
  assert (P0 : (0 < inject_Z (10 ^ k))%Q) by (apply (inj_lt 0); lia). rewrite !X. set (w := n * 10 ^ k / d) in *. split.
  - apply Qle_shift_div_l; auto. setoid_replace (inject_Z w / inject_Z (10 ^ k) * inject_Z d)%Q with (inject_Z (w * d) / inject_Z (10 ^ k))%Q by (rewrite inject_Z_mult; field; apply INJ0; lia).
    apply Qle_shift_div_r; auto. rewrite <- inject_Z_mult. apply inj_le. lia.
  - apply Qlt_shift_div_r; auto. setoid_replace (inject_Z (w + 1) / inject_Z (10 ^ k) * inject_Z d)%Q with (inject_Z ((w + 1) * d) / inject_Z (10 ^ k))%Q by (rewrite inject_Z_mult; field; apply INJ0; lia).
    apply Qlt_shift_div_l; auto. rewrite <- inject_Z_mult. apply inj_lt. lia.
Qed.
Lemma flq_dn n d k v : 0 < d -> 0 <= k -> v = n / (d * 10 ^ k) ->
  (inject_Z v * inject_Z 10 ^ k <= inject_Z n / inject_Z d)%Q /\ (inject_Z n / inject_Z d < inject_Z (v + 1) * inject_Z 10 ^ k)%Q.
Proof.
  intros Hd Hk ->. assert (P : 0 < 10 ^ k) by (apply Z.pow_pos_nonneg; lia). assert (D0 : (0 < inject_Z d)%Q) by (apply (inj_lt 0); lia).
  assert (P1 : 0 < d * 10 ^ k) by (apply Z.mul_pos_pos; lia).
  pose proof (Z.div_mod n (d * 10 ^ k) ltac:(lia)) as E. pose proof (Z.mod_pos_bound n (d * 10 ^ k) P1) as M.
  rewrite !(qpow_Z k) by lia. set (w := n / (d * 10 ^ k)) in *. rewrite <- !inject_Z_mult. split.
  - apply Qle_shift_div_l; auto. rewrite <- inject_Z_mult. apply inj_le. lia.
  - apply Qlt_shift_div_r; auto. rewrite <- inject_Z_mult. apply inj_lt. lia.
Qed.

(** the sign flag *)
Lemma neg_iff x : (qltb x 0 = true <-> x < 0)%Q.
Proof. apply qltb_lt. Qed.
Lemma sg_neg x : (if qltb x 0 then [45] else []) = sg (qltb x 0). Proof. reflexivity. Qed.

(** convert.rs:442-476 behind the shortening of the operands *)
Definition sci_tail (neg : bool) (c : rat) (max : nat) : res (list Z) :=
  let* l := log2_diff c in
  let* approx_digits := log10_i64 l in
  let* ten := bfrom_i32 10 in
  let* '(exp, x) :=
    if approx_digits <? 17 then
      let* k := ssub 64 17 approx_digits in
      let* exp := ssub 64 0 k in
      let* p := bpow_u32 ten (castw 32 k) in
      let* n := bmul (rnum c) p in
      let* q := bdiv n (rden c) in
      let* x := unwrap (bto_i64 q) in Ok (exp, x)
    else
      let* exp := ssub 64 approx_digits 17 in
      let* k := subw (castw 32 approx_digits) 17 in
      let* p := bpow_u32 ten k in
      let* d := bmul (rden c) p in
      let* q := bdiv (rnum c) d in
      let* x := unwrap (bto_i64 q) in Ok (exp, x) in
  let* '(digits, new_exp) := sci_u64 (castw 64 x) max in
  let* e := sadd 64 exp new_exp in
  Ok (sg neg ++ digits ++ [101] ++ fmt_sint e).

Lemma castw_id w z : 0 <= z < 2 ^ w -> castw w z = z.
Proof. intros. unfold castw. now apply Z.mod_small. Qed.
Lemma s64 z : - 9223372036854775808 <= z < 9223372036854775808 -> sres 64 z = Ok z.
Proof. intros. apply sres_ok. exact H. Qed.

Lemma zdigits_len_bounds v a b : 1 <= v -> 0 <= a -> 10 ^ a <= v < 10 ^ b -> a < Z.of_nat (length (zdigits 10 v)) <= b.
Proof.
  intros Hv Ha H. pose proof (zdigits_len v Hv) as L. set (D := Z.of_nat (length (zdigits 10 v))) in *.
  assert (1 <= D). { unfold D. destruct (zdigits 10 v) eqn:EZ; [exfalso; revert EZ; apply zdigits_nonnil; lia | cbn [length]; lia]. }
  split; [apply (Z.pow_lt_mono_r_iff 10); lia |]. assert (0 <= b). { destruct (Z_le_gt_dec 0 b); auto. rewrite (Z.pow_neg_r 10 b) in H by lia. lia. }
  assert (D - 1 < b); [apply (Z.pow_lt_mono_r_iff 10); lia | lia].
Qed.

Lemma sci_tail_ok y neg max : ~ (y == 0)%Q -> small_rat (Qabs y) -> (neg = true <-> y < 0)%Q -> (1 <= max)%nat ->
  exists ds e q j, sci_tail neg (rof (Qabs y)) max = Ok (sg neg ++ mant ds ++ 101 :: fmt_sint e) /\ Forall digit ds /\ (1 <= length ds <= max)%nat /\
    (length ds = 1%nat \/ last ds 0 <> 0) /\ 
    rread (sg neg ++ mant ds ++ 101 :: fmt_sint e) = Some q /\ trunc_to q y j /\ (inject_Z 10 ^ e <= Qabs y)%Q /\ (Qabs y < inject_Z 10 ^ (e + 1))%Q /\
    e + 1 - Z.min (Z.of_nat max) 19 <= j <= e + 1 - Z.min (Z.of_nat max) 16.
Proof.
  intros Hy Hs Hn Hm. set (x := Qabs y) in *.
  assert (Hx : ~ (x == 0)%Q). { unfold x. clear - Hy. destruct y as [p q]. unfold Qeq in *. cbn in *. lia. }
  destruct (est x Hx Hs) as (l & a & E1 & E2 & Ra & _ & A). cbn zeta in A. destruct A as [A1 A2].
  pose proof (rof_den_pos x) as Dp. change (QDen (Qred x)) with (qd x) in Dp.
  assert (Np : 0 < qn x).
  { pose proof (qn_nz x Hx). assert (0 <= qn x); [| lia]. pose proof (qn_sgn x) as S. assert (0 <= x)%Q by apply Qabs_nonneg.
    assert (0 <= Qnum x) by (unfold Qle in H0; cbn in H0; lia). lia. }
  rewrite (Z.abs_eq (qn x)) in A1, A2 by lia. set (n := qn x) in *. set (d := qd x) in *.
  assert (Av : (Qabs y == inject_Z n / inject_Z d)%Q). { fold x. rewrite (qval x). reflexivity. }
  (* the integer that is printed *)
  assert (V : exists v, 5000000000000000 <= v < 2000000000000000000 /\
     (inject_Z v * inject_Z 10 ^ (a - 17) <= Qabs y)%Q /\ (Qabs y < inject_Z (v + 1) * inject_Z 10 ^ (a - 17))%Q /\
     v = if a <? 17 then n * 10 ^ (17 - a) / d else n / (d * 10 ^ (a - 17))).
  { eexists. split; [| split; [| split; [| reflexivity]]].
    - destruct (Z.ltb_spec a 17) as [C | C].
      + destruct (Z_le_gt_dec 0 l) as [L | L].
        * destruct (A1 L) as (B0 & B1 & B2). assert (P : 0 < 10 ^ (17 - a)) by (apply Z.pow_pos_nonneg; lia).
          assert (F : 10 ^ a * 10 ^ (17 - a) = 100000000000000000) by (rewrite <- Z.pow_add_r by lia; replace (a + (17 - a)) with 17 by lia; reflexivity).
          assert (F' : 10 ^ (a + 1) * 10 ^ (17 - a) = 1000000000000000000) by (rewrite <- Z.pow_add_r by lia; replace (a + 1 + (17 - a)) with 18 by lia; reflexivity).
          split; [apply Z.div_le_lower_bound | apply Z.div_lt_upper_bound]; try lia; nia.
        * destruct (A2 ltac:(lia)) as (B0 & B1 & B2).
          assert (F : 10 ^ (17 - a) = 10 ^ (- a) * 100000000000000000) by (replace (17 - a) with (- a + 17) by lia; rewrite Z.pow_add_r by lia; reflexivity).
          assert (F' : 10 ^ (- a + 1) = 10 ^ (- a) * 10) by (rewrite Z.pow_add_r by lia; reflexivity).
          assert (P : 0 < 10 ^ (- a)) by (apply Z.pow_pos_nonneg; lia). rewrite F, F' in *. generalize dependent (10 ^ (- a)). intros T; intros.
          split; [apply Z.div_le_lower_bound | apply Z.div_lt_upper_bound]; try lia.
      + assert (L : 0 <= l). { destruct (Z_le_gt_dec 0 l); auto. destruct (A2 ltac:(lia)). lia. } destruct (A1 L) as (B0 & B1 & B2).
        assert (P : 0 < 10 ^ (a - 17)) by (apply Z.pow_pos_nonneg; lia).
        assert (F : 10 ^ a = 10 ^ (a - 17) * 100000000000000000) by (replace a with (a - 17 + 17) at 1 by lia; rewrite Z.pow_add_r by lia; reflexivity).
        assert (F' : 10 ^ (a + 1) = 10 ^ (a - 17) * 1000000000000000000) by (replace (a + 1) with (a - 17 + 18) at 1 by lia; rewrite Z.pow_add_r by lia; reflexivity).
        rewrite F, F' in *. generalize dependent (10 ^ (a - 17)). intros T; intros.
        assert (0 < d * T) by (apply Z.mul_pos_pos; lia).
        split; [apply Z.div_le_lower_bound | apply Z.div_lt_upper_bound]; try lia.
    - rewrite Av. destruct (Z.ltb_spec a 17) as [C | C].
      + replace (a - 17) with (- (17 - a)) by lia. apply flq_up; auto; lia.
      + apply flq_dn; auto; lia.
    - rewrite Av. destruct (Z.ltb_spec a 17) as [C | C].
      + replace (a - 17) with (- (17 - a)) by lia. apply flq_up; auto; lia.
      + apply flq_dn; auto; lia. }
  destruct V as (v & Rv & V1 & V2 & V3).
  clear A1 A2.
  assert (G : (if a <? 17 then
      let* k := ssub 64 17 a in
      let* exp := ssub 64 0 k in
      let* p := bpow_u32 (bof 10) (castw 32 k) in
      let* n := bmul (bof n) p in
      let* q := bdiv n (bof d) in
      let* x := unwrap (bto_i64 q) in Ok (exp, x)
    else
      let* exp := ssub 64 a 17 in
      let* k := subw (castw 32 a) 17 in
      let* p := bpow_u32 (bof 10) k in
      let* d := bmul (bof d) p in
      let* q := bdiv (bof n) d in
      let* x := unwrap (bto_i64 q) in Ok (exp, x)) = Ok (a - 17, v)).
  { destruct (Z.ltb_spec a 17) as [C | C].
    - unfold ssub. rewrite s64 by lia. cbn [bind]. rewrite s64 by lia. cbn [bind]. rewrite castw_id by lia. rewrite Bpow by lia. cbn [bind].
      rewrite Bmul. cbn [bind]. rewrite Bdiv by lia. cbn [bind]. assert (P : 0 < 10 ^ (17 - a)) by (apply Z.pow_pos_nonneg; lia).
      rewrite Z.quot_div_nonneg by (try apply Z.mul_nonneg_nonneg; lia). rewrite <- V3, unwrap_i64 by lia. cbn [bind]. do 2 f_equal. lia.
    - unfold ssub. rewrite s64 by lia. cbn [bind]. rewrite castw_id by lia. unfold subw. destruct (Z.leb_spec 17 a); [| lia]. cbn [bind]. rewrite Bpow by lia. cbn [bind].
      rewrite Bmul. cbn [bind]. assert (P : 0 < 10 ^ (a - 17)) by (apply Z.pow_pos_nonneg; lia). rewrite Bdiv by nia. cbn [bind].
      rewrite Z.quot_div_nonneg by (try apply Z.mul_pos_pos; lia). rewrite <- V3, unwrap_i64 by lia. reflexivity. }
  clear V3 Av.
  destruct (sci_parts_cut v max ltac:(lia) Hm) as (ds & zs & rest & S1 & S2 & S3 & S4 & S5 & S6).
  assert (Lv : 15 < Z.of_nat (length (zdigits 10 v)) <= 19).
  { apply zdigits_len_bounds; lia. }
  pose proof (zdigits_digits 10 v ltac:(lia) ltac:(lia)) as Hd. rewrite S2 in Hd. apply Forall_app in Hd as [Hd _].
  assert (Nd : ds <> []) by (intros ->; cbn in S5; lia).
  set (D := Z.of_nat (length (zdigits 10 v))) in *.
  destruct (sci_text y neg v (a - 17) ds zs rest (a - 17 + D - 1) ltac:(lia) Hn V1 V2 S2 S3 Nd eq_refl ltac:(lia)) as (q & R & T & U1 & U2).
  exists ds, (a - 17 + D - 1), q, (a - 17 + Z.of_nat (length rest)). split; [| splits; auto; lia].
  unfold sci_tail. rewrite E1. cbn [bind]. rewrite E2. cbn [bind]. rewrite Bfrom_i32 by lia. cbn [bind]. rewrite rnum_rof, rden_rof. fold n d.
  rewrite G. cbn [bind]. rewrite castw_id by lia. unfold sci_u64. rewrite S1. cbn [bind]. rewrite sci_render_mant by auto.
  unfold sadd. fold D. rewrite s64 by lia. cbn [bind]. replace (a - 17 + (D - 1)) with (a - 17 + D - 1) by lia. reflexivity.
Qed.

Lemma small_le n d x : 0 < d -> (x == inject_Z n / inject_Z d)%Q -> Z.of_nat (length (uof (Z.abs n))) < 2 ^ 27 -> Z.of_nat (length (uof d)) < 2 ^ 27 -> small_rat x.
Proof.
  intros Hd E Ln Ld. pose proof (rof_gcd x) as G. pose proof (rof_den_pos x) as Dp. change (QDen (Qred x)) with (qd x) in Dp.
  assert (C : qn x * d = n * qd x).
  { rewrite (qval x) in E.
    assert (E' : (inject_Z (qn x) * inject_Z d == inject_Z n * inject_Z (qd x))%Q).
    { setoid_replace (inject_Z (qn x) * inject_Z d)%Q with (inject_Z (qn x) / inject_Z (qd x) * (inject_Z d * inject_Z (qd x)))%Q by (field; apply INJ0; lia).
      rewrite E. field. apply INJ0; lia. }
    rewrite <- !inject_Z_mult in E'. unfold Qeq in E'. cbn [Qnum Qden inject_Z] in E'. lia. }
  assert (D1 : (qd x | d)).
  { apply Z.gauss with (qn x); [| now rewrite Z.gcd_comm]. exists n. lia. }
  destruct D1 as [k Hk]. assert (0 < k) by nia. assert (n = k * qn x) by nia.
  assert (A : Z.abs n = k * Z.abs (qn x)) by (rewrite H0, Z.abs_mul, (Z.abs_eq k) by lia; reflexivity). pose proof (Z.abs_nonneg (qn x)).
  split; (eapply Z.le_lt_trans; [apply Nat2Z.inj_le, len_uof_mono |]); [| exact Ln | | exact Ld]; [rewrite A | rewrite Hk]; clear - H H1 Dp; nia.
Qed.
(** the operands cut to the same number of dropped limbs keep 96 bits *)
Lemma shorten_Z N D K P : 0 < K -> 0 <= P -> 0 <= N -> 0 <= D -> P <= N / K -> P <= D / K ->
  Z.abs (N / K * D - N * (D / K)) * P <= N * (D / K).
Proof.
  intros HK HP HN HD H1 H2. pose proof (Z.div_mod N K ltac:(lia)) as E1. pose proof (Z.div_mod D K ltac:(lia)) as E2.
  pose proof (Z.mod_pos_bound N K HK) as R1. pose proof (Z.mod_pos_bound D K HK) as R2.
  set (n := N / K) in *. set (d := D / K) in *. set (r := N mod K) in *. set (s := D mod K) in *. clearbody n d r s.
  replace (n * D - N * d) with (n * s - r * d) by (rewrite E1, E2; ring).
  assert (B0 : K * n * d <= N * d) by (apply Z.mul_le_mono_nonneg_r; lia).
  assert (B1 : n * s * P <= N * d). { eapply Z.le_trans; [| exact B0]. replace (K * n * d) with (n * (K * d)) by ring. rewrite <- Z.mul_assoc. apply Z.mul_le_mono_nonneg_l; [lia |]. apply Z.mul_le_mono_nonneg; lia. }
  assert (B2 : r * d * P <= N * d). { eapply Z.le_trans; [| exact B0]. replace (r * d * P) with (r * P * d) by ring. apply Z.mul_le_mono_nonneg_r; [lia |]. apply Z.mul_le_mono_nonneg; lia. }
  assert (0 <= n * s) by (apply Z.mul_nonneg_nonneg; lia). assert (0 <= r * d) by (apply Z.mul_nonneg_nonneg; lia).
  destruct (Z_le_gt_dec 0 (n * s - r * d)); [rewrite Z.abs_eq by lia | rewrite Z.abs_neq by lia].
  - eapply Z.le_trans; [| exact B1]. apply Z.mul_le_mono_nonneg_r; lia.
  - eapply Z.le_trans; [| exact B2]. apply Z.mul_le_mono_nonneg_r; lia.
Qed.
Lemma shorten x K : 0 < K -> let n := qn x ÷ K in let d := qd x ÷ K in 2 ^ 96 <= Z.abs n -> 2 ^ 96 <= d ->
  (Qabs (inject_Z n / inject_Z d - x) * inject_Z (2 ^ 96) <= Qabs x)%Q.
Proof.
  intros HK n d Hn Hd. pose proof (rof_den_pos x) as Dp. change (QDen (Qred x)) with (qd x) in Dp.
  assert (P96 : 0 < 2 ^ 96) by reflexivity. assert (D0 : 0 < d) by lia. set (P := 2 ^ 96) in *. clearbody P.
  assert (En : n = Z.sgn (qn x) * (Z.abs (qn x) / K)).
  { unfold n. rewrite <- (Z.quot_div_nonneg (Z.abs (qn x)) K) by lia. destruct (qn x); [reflexivity | rewrite Z.mul_1_l; reflexivity |].
    change (Z.neg p) with (- Z.pos p). rewrite Z.quot_opp_l by lia. cbn [Z.sgn Z.abs Z.opp]. lia. }
  assert (Ed : d = qd x / K) by (unfold d; apply Z.quot_div_nonneg; lia). clearbody n d.
  setoid_replace (inject_Z n / inject_Z d - x)%Q with (inject_Z (n * qd x - qn x * d) / inject_Z (d * qd x))%Q.
  2: { rewrite (qval x) at 1. unfold Z.sub. rewrite inject_Z_plus, inject_Z_opp, !inject_Z_mult. field. split; apply INJ0; lia. }
  unfold Qdiv. rewrite Qabs_Qmult, (qabs_val x). rewrite (Qabs_pos (/ inject_Z (d * qd x))).
  2: { apply Qinv_le_0_compat. apply (inj_le 0). apply Z.mul_nonneg_nonneg; lia. }
  apply Qle_shift_div_l; [apply (inj_lt 0); lia |].
  setoid_replace (Qabs (inject_Z (n * qd x - qn x * d)) * / inject_Z (d * qd x) * inject_Z P * inject_Z (qd x))%Q
    with (Qabs (inject_Z (n * qd x - qn x * d)) * inject_Z P / inject_Z d)%Q by (rewrite inject_Z_mult; field; split; apply INJ0; lia).
  apply Qle_shift_div_r; [apply (inj_lt 0); lia |].
  change (Qabs (inject_Z (n * qd x - qn x * d))) with (inject_Z (Z.abs (n * qd x - qn x * d))). rewrite <- !inject_Z_mult. apply inj_le.
  assert (A : Z.abs (n * qd x - qn x * d) = Z.abs (Z.abs (qn x) / K * qd x - Z.abs (qn x) * d)).
  { destruct (Z.eq_dec (qn x) 0) as [Z0 | Z0]. { exfalso. rewrite En, Z0 in Hn. cbn in Hn. lia. }
    rewrite En. clear - Z0. generalize (Z.abs (qn x) / K). intros w. destruct (qn x) as [| p | p]; [lia | |]; cbn [Z.sgn]; [| rewrite <- Z.abs_opp]; f_equal; cbn [Z.abs]; [ring |].
    change (Z.neg p) with (- Z.pos p). ring. }
  rewrite A, Ed. apply shorten_Z; try lia.
  rewrite En, Z.abs_mul in Hn. assert (0 <= Z.abs (qn x) / K) by (apply Z.div_pos; lia). rewrite (Z.abs_eq (_ / _)) in Hn by lia.
  destruct (qn x); cbn [Z.sgn Z.abs] in *; lia.
Qed.

Lemma qabs_div n d : 0 < d -> (Qabs (inject_Z n / inject_Z d) == inject_Z (Z.abs n) / inject_Z d)%Q.
Proof. intros H. unfold Qdiv. rewrite Qabs_Qmult. apply Qmult_comp; [reflexivity |]. rewrite Qabs_Qinv. now rewrite (Qabs_pos (inject_Z d)) by (apply (inj_le 0); lia). Qed.

Theorem sci_ok_rat x max : ~ (x == 0)%Q -> small_rat x -> (1 <= max)%nat ->
  exists y ds e q j, rto_scientific_notation (rof x) max = Ok (sg (qltb x 0) ++ mant ds ++ 101 :: fmt_sint e) /\
    Forall digit ds /\ (1 <= length ds <= max)%nat /\ (length ds = 1%nat \/ last ds 0 <> 0) /\
    rread (sg (qltb x 0) ++ mant ds ++ 101 :: fmt_sint e) = Some q /\ trunc_to q y j /\
    (inject_Z 10 ^ e <= Qabs y)%Q /\ (Qabs y < inject_Z 10 ^ (e + 1))%Q /\
    e + 1 - Z.min (Z.of_nat max) 19 <= j <= e + 1 - Z.min (Z.of_nat max) 16 /\
    (Qabs (y - x) * inject_Z (2 ^ 96) <= Qabs x)%Q /\
    (Z.abs (qn x) < 2 ^ 128 \/ qd x < 2 ^ 128 -> (y == x)%Q).
Proof.
  intros Hx Hs Hm. pose proof (rof_den_pos x) as Dp. change (QDen (Qred x)) with (qd x) in Dp.
  change (rto_scientific_notation (rof x) max) with
    (let* c := if (4 <? Nat.min (blen (rnum (rof x))) (blen (rden (rof x))))%nat then
              from_dn (bshift_right (rden (rof x)) (Nat.min (blen (rnum (rof x))) (blen (rden (rof x))) - 4)) (bshift_right (rnum (rof x)) (Nat.min (blen (rnum (rof x))) (blen (rden (rof x))) - 4))
            else Ok (rof x) in sci_tail (ris_neg (rof x)) (rabs_mut c) max).
  rewrite Ris_neg, rnum_rof, rden_rof, !blen_bof, (Z.abs_eq (qd x)) by lia.
  set (m := Nat.min (length (uof (Z.abs (qn x)))) (length (uof (qd x)))).
  destruct (Nat.ltb_spec 4 m) as [C | C].
  - rewrite !Bshr. set (K := BB (m - 4)). assert (HK : 0 < K) by apply BB_pos.
    assert (LB : forall z, 0 <= z -> (m <= length (uof z))%nat -> 2 ^ 96 <= z ÷ K).
    { intros z Hz Lz. rewrite Z.quot_div_nonneg by lia. apply Z.div_le_lower_bound; auto.
      destruct (Z_le_gt_dec (K * 2 ^ 96) z); auto. exfalso.
      assert (z < BB (m - 1)). { replace (m - 1)%nat with (m - 4 + 3)%nat by lia. rewrite BB_add. fold K. change (BB 3) with (2 ^ 96). lia. }
      apply nlimbs_iff in H; lia. }
    assert (Ld : 2 ^ 96 <= qd x ÷ K) by (apply LB; lia).
    assert (Ln : 2 ^ 96 <= Z.abs (qn x ÷ K)). { rewrite <- (Z.quot_abs (qn x) K) by lia. rewrite (Z.abs_eq K) by lia. apply LB; lia. }
    rewrite from_dn_ok by lia. cbn [bind]. rewrite Rabs_mut. set (y := (inject_Z (qn x ÷ K) / inject_Z (qd x ÷ K))%Q).
    assert (Ny : ~ (y == 0)%Q).
    { intros Cy. unfold y in Cy. assert (E : (inject_Z (qn x ÷ K) == 0)%Q).
      { setoid_replace (inject_Z (qn x ÷ K)) with (inject_Z (qn x ÷ K) / inject_Z (qd x ÷ K) * inject_Z (qd x ÷ K))%Q by (field; apply INJ0; lia). rewrite Cy. ring. }
      revert E. apply INJ0. lia. }
    assert (Sy : (qltb x 0 = true <-> y < 0)%Q).
    { rewrite <- Qnum_neg, <- qn_neg, Z.ltb_lt. unfold y. assert (D0 : 0 < qd x ÷ K) by lia. split; intros H.
      - apply Qlt_shift_div_r; [apply (inj_lt 0); lia |]. rewrite Qmult_0_l. apply (inj_lt _ 0).
        pose proof (Z.quot_opp_l (qn x) K ltac:(lia)). pose proof (Z.quot_pos (- qn x) K ltac:(lia) HK). lia.
      - destruct (Z_lt_le_dec (qn x) 0) as [| H0]; auto. exfalso. pose proof (Z.quot_pos (qn x) K H0 HK).
        apply Qlt_not_le in H. apply H. apply Qle_shift_div_l; [apply (inj_lt 0); lia |]. rewrite Qmult_0_l. apply (inj_le 0). lia. }
    assert (Sm : small_rat (Qabs y)).
    { destruct Hs as [S1 S2]. apply (small_le (Z.abs (qn x ÷ K)) (qd x ÷ K)); [lia | apply qabs_div; lia | |];
      (eapply Z.le_lt_trans; [apply Nat2Z.inj_le, len_uof_mono |]); [| exact S1 | | exact S2].
      - split; [lia |]. rewrite Z.abs_involutive, <- (Z.quot_abs (qn x) K) by lia. rewrite (Z.abs_eq K) by lia. rewrite Z.quot_div_nonneg by lia. apply Z.div_le_upper_bound; nia.
      - split; [lia |]. rewrite Z.quot_div_nonneg by lia. apply Z.div_le_upper_bound; nia. }
    destruct (sci_tail_ok y (qltb x 0) max Ny Sm Sy Hm) as (ds & e & q & j & T & T1 & T2 & T3 & T4 & T5 & T6 & T7 & T8).
    exists y, ds, e, q, j. rewrite T. clear T. splits; try reflexivity; try assumption; try (clear - T2; lia); try (clear - T8; lia).
    + apply shorten; auto.
    + intros [H | H]; exfalso; (apply (nlimbs_iff _ 4) in H; [| lia | lia]); lia.
  - cbn [bind]. rewrite Rabs_mut.
    assert (Sm : small_rat (Qabs x)).
    { destruct Hs as [S1 S2]. apply (small_le (Z.abs (qn x)) (qd x)); auto; [apply qabs_val | now rewrite Z.abs_involutive]. }
    destruct (sci_tail_ok x (qltb x 0) max Hx Sm (neg_iff x) Hm) as (ds & e & q & j & T & T1 & T2 & T3 & T4 & T5 & T6 & T7 & T8).
    exists x, ds, e, q, j. rewrite T. clear T. splits; try assumption; try (clear - T2; lia); try (clear - T8; lia); try reflexivity.
    setoid_replace (x - x)%Q with 0%Q by ring. change (Qabs 0) with 0%Q. rewrite Qmult_0_l. apply Qabs_nonneg.
Qed.
Lemma sci_rat_zero max : rto_scientific_notation (rof 0) max = Ok [48; 101; 45; 49; 55].
Proof. destruct max as [|[|m]]; try (vm_compute; reflexivity). Qed.
