(** F192: rounding of values, conversion from and to Ratio, addition and subtraction. *)
From Coq Require Import ZArith QArith Qabs Lqa Lia Bool.
From Verif Require Import Base UBig UStr USpec UAddSub UEq BBig BSpec BEq RBig RSpec REq RIeee FSpec RIeeeP XNum XSpec XP1.
Local Open Scope Z_scope.

Lemma xq_up m e : sigr m -> (xq m e < xq SIGNM (e + 1))%Q.
Proof. intros [H1 H2]. unfold xq. apply norm_lt; rewrite ?P128; change (2 ^ 127) with SIGNM; pose proof SIGNM_val; lia. Qed.
Lemma xq_le m n e : m <= n -> (xq m e <= xq n e)%Q. Proof. intros. apply tz_le. auto. Qed.
Lemma xq_lt m n e : m < n -> (xq m e < xq n e)%Q. Proof. intros. apply tz_lt. auto. Qed.
Lemma xq_mono m e n f : sigr m -> sigr n -> e < f -> (xq m e < xq n f)%Q.
Proof. intros [H1 H2] [H3 H4] He. unfold xq. apply norm_lt; rewrite ?P128; change (2 ^ 127) with SIGNM; pose proof SIGNM_val; lia. Qed.
Lemma xq_double m e : (xq (2 * m) e == xq m (e + 1))%Q.
Proof. rewrite xq_shift. unfold xq. rewrite inject_Z_mult. change (two 1) with 2%Q. change (inject_Z 2) with 2%Q. ring. Qed.
Lemma xq_add m n e : (xq m e + xq n e == xq (m + n) e)%Q. Proof. unfold xq. rewrite inject_Z_plus. ring. Qed.
Lemma xq_ulp s m e : (xq 1 e == xulp (xof s m e))%Q. Proof. unfold xq, xulp, xpow, xof. cbn [xe]. change (inject_Z 1) with 1%Q. change (2 ^ 48) with EXPC. ring. Qed.
Lemma sg_abs s q : (0 <= q)%Q -> (Qabs (sg s q) == q)%Q.
Proof. intros. unfold sg. destruct s; [rewrite Qabs_opp |]; apply Qabs_pos; auto. Qed.
Lemma sg_diff s p q : (Qabs (sg s p - sg s q) == Qabs (p - q))%Q.
Proof. unfold sg. destruct s; [| reflexivity]. rewrite <- Qabs_opp. apply Qabs_wd. ring. Qed.
Lemma Qabs_lt_iff x y : (Qabs x < y)%Q <-> (- y < x /\ x < y)%Q.
Proof. apply Qabs_case; intros; split; intros; lra. Qed.
Lemma Qabs_le_iff x y : (Qabs x <= y)%Q <-> (- y <= x /\ x <= y)%Q.
Proof. apply Qabs_Qle_condition. Qed.

(** a significand that brackets [Q] from below is the rounding toward zero *)
Lemma trunc_best s m e Q : sigr m -> expr e -> xnull (xof s m e) = false -> (xq m e <= Q)%Q -> (Q < xq (m + 1) e)%Q ->
  xrounds_down (sg s Q) (xof s m e).
Proof.
  intros Hm He N L U. assert (P := xq_pos m e Hm). assert (PQ : (0 <= Q)%Q) by lra.
  assert (Wc : xwf (xof s m e)) by now apply xof_wf.
  assert (V : (Qabs (xval (xof s m e)) == xq m e)%Q) by (rewrite xval_of by auto; apply sg_abs; lra).
  unfold xrounds_down. rewrite V. splits; auto.
  - rewrite sg_abs; auto.
  - rewrite xval_of by auto. unfold sg. destruct s; nra.
  - intros y Wy Hy. rewrite sg_abs in Hy by auto. rewrite V. clear V.
    destruct (xwf_cases y Wy) as [-> | (s' & n & f & -> & Hn & Hf & N')]; [cbn; lra |].
    rewrite xval_of in Hy |- * by auto. rewrite sg_abs in Hy |- * by (apply Qlt_le_weak, xq_pos; auto).
    destruct (Z.lt_trichotomy f e) as [F | [-> | F]].
    + apply Qlt_le_weak, xq_mono; auto.
    + apply xq_le. destruct (Z_le_gt_dec n m); auto. assert ((xq (m + 1) e <= xq n e)%Q) by (apply xq_le; lia). lra.
    + exfalso. assert (R : sigr SIGNM) by (unfold sigr; pose proof SIGNM_val; lia).
      assert ((xq (m + 1) e <= xq SIGNM (e + 1))%Q).
      { rewrite <- xq_double. apply xq_le. unfold sigr in *; lia. }
      assert ((xq SIGNM (e + 1) <= xq n f)%Q).
      { destruct (Z.eq_dec f (e + 1)) as [-> |]; [apply xq_le; unfold sigr in *; lia | apply Qlt_le_weak, xq_mono; auto; lia]. }
      lra.
  - rewrite xval_of by auto. rewrite sg_diff. rewrite <- xq_ulp. rewrite <- xq_add in U. apply Qabs_lt_iff. pose proof (tz_pos 1 (e - EXPC) eq_refl). fold (xq 1 e) in H. lra.
Qed.

(** a significand within half a unit is a nearest number *)
Lemma near_int M y z : (Qabs (inject_Z M - y) <= 1 # 2)%Q -> (Qabs (inject_Z M - y) <= Qabs (inject_Z z - y))%Q.
Proof.
  intros H. destruct (Z.eq_dec z M) as [-> |]; [apply Qle_refl |].
  assert (1 <= Z.abs (z - M)) by lia. apply Qle_trans with (1 # 2)%Q; auto.
  assert ((1 <= Qabs (inject_Z z - inject_Z M))%Q).
  { setoid_replace (inject_Z z - inject_Z M)%Q with (inject_Z (z - M)) by (rewrite <- Z.add_opp_r, inject_Z_plus, inject_Z_opp; ring).
    rewrite (Zle_Qle 1) in H0. change (Z.abs (z - M)) with (Qnum (Qabs (inject_Z (z - M)))) in H0. exact H0. }
  pose proof (Qabs_triangle (inject_Z z - y) (y - inject_Z M)) as T.
  setoid_replace (inject_Z z - y + (y - inject_Z M))%Q with (inject_Z z - inject_Z M)%Q in T by ring.
  rewrite (Qabs_Qminus y) in T. lra.
Qed.
Lemma near_best s M e y : sigr M -> expr e -> xnull (xof s M e) = false -> (inject_Z SIGNM <= y)%Q -> (y < inject_Z (2 * SIGNM))%Q ->
  (Qabs (inject_Z M - y) <= 1 # 2)%Q -> xnearest (sg s (y * two (e - EXPC))) (xof s M e).
Proof.
  intros Hm He N L U H. assert (T := two_pos (e - EXPC)). assert (P := xq_pos M e Hm).
  assert (Wc : xwf (xof s M e)) by now apply xof_wf.
  assert (PS : (0 < inject_Z SIGNM)%Q) by reflexivity.
  assert (PQ : (0 <= y * two (e - EXPC))%Q) by (apply Qmult_le_0_compat; lra).
  assert (D : (Qabs (xval (xof s M e) - sg s (y * two (e - EXPC))) == Qabs (inject_Z M - y) * two (e - EXPC))%Q).
  { rewrite xval_of by auto. rewrite sg_diff. unfold xq. setoid_replace (inject_Z M * two (e - EXPC) - y * two (e - EXPC))%Q with ((inject_Z M - y) * two (e - EXPC))%Q by ring.
    rewrite Qabs_Qmult. rewrite (Qabs_pos (two _)) by lra. reflexivity. }
  unfold xnearest. splits; auto.
  - intros v Wv. rewrite D.
    assert (K : forall z q, (Qabs (inject_Z z - y) * two (e - EXPC) <= Qabs (q - y * two (e - EXPC)))%Q ->
              (Qabs (inject_Z M - y) * two (e - EXPC) <= Qabs (q - y * two (e - EXPC)))%Q).
    { intros z q K. eapply Qle_trans; [| apply K]. apply Qmult_le_r; auto. apply near_int; auto. }
    assert (Sg : exists q, (Qabs (xval v - sg s (y * two (e - EXPC))) == Qabs (q - y * two (e - EXPC)))%Q /\ (q == xval v \/ q == - xval v)%Q).
    { exists (sg s (xval v)). split; [| unfold sg; destruct s; [right | left]; reflexivity].
      rewrite <- (sg_diff s (sg s (xval v))). apply Qabs_wd. unfold sg. destruct s; ring. }
    destruct Sg as (q & -> & Hq).
    assert (A : (Qabs q == xmag v)%Q).
    { rewrite <- (xabs_val v Wv). destruct Hq as [-> | ->]; [reflexivity | apply Qabs_opp]. }
    destruct (Qlt_le_dec q (inject_Z SIGNM * two (e - EXPC))) as [Q1 | Q1].
    { apply (K SIGNM). rewrite (Qabs_neg (inject_Z SIGNM - y)) by lra. rewrite (Qabs_neg (q - _)).
      - assert ((inject_Z SIGNM * two (e - EXPC) <= y * two (e - EXPC))%Q) by (apply Qmult_le_r; lra).
        setoid_replace (- (inject_Z SIGNM - y) * two (e - EXPC))%Q with (y * two (e - EXPC) - inject_Z SIGNM * two (e - EXPC))%Q by ring. lra.
      - assert ((inject_Z SIGNM * two (e - EXPC) <= y * two (e - EXPC))%Q) by (apply Qmult_le_r; lra). lra. }
    assert (0 <= q)%Q. { apply Qle_trans with (inject_Z SIGNM * two (e - EXPC))%Q; auto. apply Qmult_le_0_compat; lra. }
    rewrite Qabs_pos in A by auto.
    destruct (xwf_cases v Wv) as [-> | (s' & n & f & -> & Hn & Hf & N')].
    { exfalso. change (xmag xZERO) with 0%Q in A. rewrite A in Q1. assert ((0 < inject_Z SIGNM * two (e - EXPC))%Q) by (apply Qmult_lt_0_compat; auto). lra. }
    rewrite xmag_of in A by auto.
    destruct (Z.lt_trichotomy f e) as [F | [-> | F]].
    { exfalso. pose proof (xq_mono n f SIGNM e Hn ltac:(unfold sigr; pose proof SIGNM_val; lia) F). unfold xq in *. lra. }
    { apply (K n). rewrite A. unfold xq. setoid_replace (inject_Z n * two (e - EXPC) - y * two (e - EXPC))%Q with ((inject_Z n - y) * two (e - EXPC))%Q by ring.
      rewrite Qabs_Qmult, (Qabs_pos (two _)) by lra. apply Qle_refl. }
    apply (K (2 * SIGNM)).
    assert ((inject_Z (2 * SIGNM) * two (e - EXPC) <= q)%Q).
    { rewrite A. fold (xq (2 * SIGNM) e). rewrite xq_double. destruct (Z.eq_dec f (e + 1)) as [-> |]; [apply xq_le; unfold sigr in *; lia |].
      apply Qlt_le_weak, xq_mono; auto; [unfold sigr; pose proof SIGNM_val; lia | lia]. }
    rewrite Qabs_pos by lra. assert ((y * two (e - EXPC) <= inject_Z (2 * SIGNM) * two (e - EXPC))%Q) by (apply Qmult_le_r; lra).
    rewrite Qabs_pos by lra. setoid_replace ((inject_Z (2 * SIGNM) - y) * two (e - EXPC))%Q with (inject_Z (2 * SIGNM) * two (e - EXPC) - y * two (e - EXPC))%Q by ring. lra.
  - rewrite D. unfold xulp, xpow, xof. cbn [xe]. change (2 ^ 48) with EXPC. apply Qmult_le_r; lra.
Qed.

(** ** conversion to Ratio *)
Definition xdom (a : f192) : Prop := xwf a /\ xe a < 2 ^ 63.
Lemma xei_ok a : xdom a -> xei a = Ok (xe a - EXPC).
Proof.
  intros [[_ H1] H2]. unfold xei. rewrite casts_small by (change (64 - 1) with 63; lia). unfold ssub. apply sres_ok.
  change (64 - 1) with 63. unfold EXPC. lia.
Qed.
Lemma Rfrom_u128 n : 0 <= n < 2 ^ 128 -> rfrom_prim U128 n = Ok (rof (inject_Z n)).
Proof.
  intros. cbn [rfrom_prim]. rewrite ufrom_u128_spec by auto. rewrite (Bfrom_ubi n false) by lia. now rewrite Rfrom_bi.
Qed.
Lemma xsig_range m : sigr m -> 0 <= m < 2 ^ 128. Proof. unfold sigr. rewrite P128. assert (0 < SIGNM) by reflexivity. lia. Qed.
(** what the code computes: the exponent modulo 2^32 *)
Lemma xto_ratio_gen a : xdom a -> xnull a = false ->
  xto_ratio a = Ok (rof (sg (xsign a) (inject_Z (xsig a) * two (Z.sgn (xpow a) * (Z.abs (xpow a) mod 2 ^ 32))))).
Proof.
  intros D N. assert (W := proj1 D). unfold xto_ratio. rewrite xis_zero_null, N, (xei_ok a D).
  destruct (xof_of a W) as (E & S & X). cbn [bind]. change (xe a - EXPC) with (xpow a).
  replace (xhid (xd a)) with (xsig a) by (rewrite E at 2; unfold xof; cbn [xd]; now rewrite xhid_of).
  rewrite Rfrom_u128 by now apply xsig_range. cbn [bind]. destruct D as [_ D].
  assert (Pe : - 2 ^ 63 < xpow a < 2 ^ 63) by (unfold xpow, expr in *; lia).
  rewrite sabs_ok by (change (64 - 1) with 63; lia). cbn [bind]. rewrite Bone, Bmul_pow2 by (unfold castw; apply Z.mod_pos_bound; lia).
  cbn [bind]. rewrite Z.mul_1_l. unfold castw. pose proof (Z.mod_pos_bound (Z.abs (xpow a)) (2 ^ 32) eq_refl) as Hk.
  set (k := Z.abs (xpow a) mod 2 ^ 32) in *.
  assert (Fin : forall q, xis_neg a = xsign a -> (if xis_neg a then ropp_mut (rof q) else rof q) = rof (sg (xsign a) q)).
  { intros q ->. unfold sg. destruct (xsign a); [now rewrite Ropp_mut | reflexivity]. }
  destruct (Z.ltb_spec (xpow a) 0).
  - rewrite Rdiv_bi by (apply Z.pow_nonzero; lia). cbn [bind]. rewrite Fin by now apply xis_neg_sign. f_equal. apply rof_qeq. apply sg_eq.
    replace (Z.sgn (xpow a) * k) with (- k) by (rewrite Z.sgn_neg by lia; ring). rewrite two_opp, two_Z by lia. reflexivity.
  - rewrite Rmul_bi. cbn [bind]. rewrite Fin by now apply xis_neg_sign. f_equal. apply rof_qeq. apply sg_eq.
    replace (Z.sgn (xpow a) * k) with k. { now rewrite two_Z by lia. }
    destruct (Z.eq_dec (xpow a) 0) as [Z0 |]; [unfold k; rewrite Z0; reflexivity | rewrite Z.sgn_pos by lia; ring].
Qed.
Lemma xto_ratio_ok a : xwf a -> Z.abs (xpow a) < 2 ^ 32 -> xto_ratio a = Ok (rof (xval a)).
Proof.
  intros W H. destruct (xnull a) eqn:N. { rewrite (xnull_zero a N). reflexivity. }
  assert (D : xdom a) by (split; auto; unfold xpow in H; lia). rewrite xto_ratio_gen by auto. f_equal. apply rof_qeq.
  unfold xval. fold (sg (xsign a) (xmag a)). apply sg_eq. unfold xmag. rewrite N, Z.mod_small by lia.
  replace (Z.sgn (xpow a) * Z.abs (xpow a)) with (xpow a) by lia. reflexivity.
Qed.

(** ** conversion from Ratio *)
(** nearest integer, halves upward *)
Definition rnd_half (y : Q) : Z := if qleb (1 # 2) (y - inject_Z (qtrunc y)) then qtrunc y + 1 else qtrunc y.
Lemma rnd_half_near y : (0 <= y)%Q -> (Qabs (inject_Z (rnd_half y) - y) <= 1 # 2)%Q /\ qtrunc y <= rnd_half y <= qtrunc y + 1.
Proof.
  intros Hy. destruct (qtrunc_bounds F64 (or_intror eq_refl) y Hy) as [[B1 B2] B3]. unfold rnd_half.
  destruct (qleb_qle (1 # 2) (y - inject_Z (qtrunc y))); (split; [apply Qabs_Qle_condition | lia]).
  - rewrite inject_Z_plus. change (inject_Z 1) with 1%Q. split; lra.
  - split; lra.
Qed.
Lemma qtrunc_unique t z : (0 <= t)%Q -> (inject_Z z <= t < inject_Z z + 1)%Q -> qtrunc t = z.
Proof.
  intros Ht [H1 H2]. destruct (qtrunc_bounds F64 (or_intror eq_refl) t Ht) as [[B1 B2] B3].
  assert (A : (inject_Z (qtrunc t) < inject_Z (z + 1))%Q) by (rewrite inject_Z_plus; change (inject_Z 1) with 1%Q; lra).
  assert (A' : (inject_Z z < inject_Z (qtrunc t + 1))%Q) by (rewrite inject_Z_plus; change (inject_Z 1) with 1%Q; lra).
  rewrite <- Zlt_Qlt in A, A'. lia.
Qed.
Lemma rnd_half_int z : 0 <= z -> rnd_half (inject_Z z) = z.
Proof.
  intros. unfold rnd_half. assert (qtrunc (inject_Z z) = z) as -> by (unfold qtrunc; cbn [inject_Z Qnum Qden]; apply Z.quot_1_r).
  destruct (qleb_qle (1 # 2) (inject_Z z - inject_Z z)); auto. lra.
Qed.
Lemma rem32 y : (0 <= y)%Q -> (15 <? Z.rem (qtrunc (y * inject_Z 32)) 32) = qleb (1 # 2) (y - inject_Z (qtrunc y)).
Proof.
  intros Hy. destruct (qtrunc_bounds F64 (or_intror eq_refl) y Hy) as [[B1 B2] B3]. change (inject_Z 32) with 32%Q.
  destruct (qtrunc_bounds F64 (or_intror eq_refl) (y * 32) ltac:(lra)) as [[C1 C2] C3]. set (f := qtrunc y) in *. set (t := qtrunc (y * 32)) in *.
  assert (H1 : 32 * f <= t).
  { assert ((inject_Z (32 * f) < inject_Z (t + 1))%Q) by (rewrite inject_Z_plus, inject_Z_mult; change (inject_Z 1) with 1%Q; change (inject_Z 32) with 32%Q; lra).
    rewrite <- Zlt_Qlt in H. lia. }
  assert (H2 : t < 32 * f + 32).
  { assert ((inject_Z t < inject_Z (32 * f + 32))%Q) by (rewrite inject_Z_plus, inject_Z_mult; change (inject_Z 32) with 32%Q; lra).
    rewrite <- Zlt_Qlt in H. lia. }
  assert (R : Z.rem t 32 = t - 32 * f).
  { rewrite Z.rem_mod_nonneg by lia. symmetry. apply (Z.mod_unique _ _ f); [left; lia | ring]. }
  rewrite R. destruct (qleb_qle (1 # 2) (y - inject_Z f)) as [G | G].
  - apply Z.ltb_lt. assert ((inject_Z (32 * f + 16) < inject_Z (t + 1))%Q) by (rewrite !inject_Z_plus, inject_Z_mult; change (inject_Z 1) with 1%Q; change (inject_Z 32) with 32%Q; change (inject_Z 16) with 16%Q; lra).
    rewrite <- Zlt_Qlt in H. lia.
  - apply Z.ltb_ge. assert ((inject_Z t < inject_Z (32 * f + 16))%Q) by (rewrite !inject_Z_plus, inject_Z_mult; change (inject_Z 32) with 32%Q; change (inject_Z 16) with 16%Q; lra).
    rewrite <- Zlt_Qlt in H. lia.
Qed.
Lemma QS : (0 < inject_Z SIGNM)%Q. Proof. reflexivity. Qed.
Lemma Q2S : (inject_Z (2 * SIGNM) == 2 * inject_Z SIGNM)%Q. Proof. reflexivity. Qed.

Lemma loopn_stop {A C} n (F : (A -> res C) -> A -> res C) a v : (forall g, F g a = v) -> loopn n F a = v.
Proof.
  intros H. unfold loopn. generalize (@nofuel A C). induction n as [| k IH]; intros b; cbn [recn]; [apply H | apply IH].
Qed.
(** both loops: from [q] at [exp] to the normalised [y] at [E + EXPC] *)
Section Loops.
Variables (y : Q) (E : Z).
Hypothesis (Ly : (inject_Z SIGNM <= y)%Q) (Uy : (y < inject_Z (2 * SIGNM))%Q).
Definition at_ (s : rat * Z) : Prop := fst s = rof (y * two (E + EXPC - snd s)).
Lemma up_ok : 0 <= E + EXPC -> forall exp, E + EXPC <= exp < 2 ^ 64 ->
  returns (loopn 65 (xfr_up (rof (inject_Z SIGNM))) (rof (y * two (E + EXPC - exp)), exp)) (fun s => s = (rof y, E + EXPC)).
Proof.
  intros H0 exp He.
  apply (loopn_spec (xfr_up (rof (inject_Z SIGNM))) (fun s => at_ s /\ E + EXPC <= snd s) (fun _ s => s = (rof y, E + EXPC)) (fun s => snd s - (E + EXPC)));
    [| split; [reflexivity | cbn [snd]; lia] | cbn [snd]; change (Z.of_nat 65) with 65; lia].
  intros g [n x] [A B] IH. unfold at_ in A. cbn [fst snd] in *. subst n. unfold xfr_up. rewrite Rlt. cbn [bind].
  destruct (Z.eq_dec x (E + EXPC)) as [-> | ne].
  - assert (Hv : (y * two (E + EXPC - (E + EXPC)) == y)%Q) by (rewrite Z.sub_diag; change (two 0) with 1%Q; ring).
    destruct (qltb_qlt (y * two (E + EXPC - (E + EXPC))) (inject_Z SIGNM)); [rewrite Hv in q; lra |].
    apply returns_ok. f_equal. now apply rof_qeq.
  - assert (Hs : (y * two (E + EXPC - x) < inject_Z SIGNM)%Q).
    { assert (E2 : (two (E + EXPC - x) <= two (- (1)))%Q) by (apply two_le; lia). change (two (- (1))) with (1 # 2)%Q in E2.
      pose proof (two_pos (E + EXPC - x)). rewrite Q2S in Uy. pose proof QS. nra. }
    destruct (qltb_qlt (y * two (E + EXPC - x)) (inject_Z SIGNM)); [| lra].
    rewrite Rmul_i32_mut by (unfold i32r; lia). cbn [bind]. rewrite subw_ok by lia. cbn [bind]. apply IH; [| cbn [snd]; lia].
    unfold at_. cbn [fst snd]. split; [| lia]. apply rof_qeq. replace (E + EXPC - (x - 1)) with (E + EXPC - x + 1) by ring. rewrite two_S. change (inject_Z 2) with 2%Q. ring.
Qed.
Lemma down_ok : E + EXPC < 2 ^ 64 -> forall exp, 0 <= exp <= E + EXPC ->
  returns (loopn 65 (xfr_down (rof (inject_Z SIGNM * inject_Z 2))) (rof (y * two (E + EXPC - exp)), exp)) (fun s => s = (rof y, E + EXPC)).
Proof.
  intros H0 exp He.
  apply (loopn_spec (xfr_down (rof (inject_Z SIGNM * inject_Z 2))) (fun s => at_ s /\ snd s <= E + EXPC) (fun _ s => s = (rof y, E + EXPC)) (fun s => E + EXPC - snd s));
    [| split; [reflexivity | cbn [snd]; lia] | cbn [snd]; change (Z.of_nat 65) with 65; lia].
  intros g [n x] [A B] IH. unfold at_ in A. cbn [fst snd] in *. subst n. unfold xfr_down. rewrite Rgeq. cbn [bind].
  destruct (Z.eq_dec x (E + EXPC)) as [-> | ne].
  - assert (Hv : (y * two (E + EXPC - (E + EXPC)) == y)%Q) by (rewrite Z.sub_diag; change (two 0) with 1%Q; ring).
    destruct (qleb_qle (inject_Z SIGNM * inject_Z 2) (y * two (E + EXPC - (E + EXPC)))); [rewrite Hv in q; rewrite Q2S in Uy; change (inject_Z 2) with 2%Q in q; lra |].
    apply returns_ok. f_equal. now apply rof_qeq.
  - assert (Hs : (inject_Z SIGNM * inject_Z 2 <= y * two (E + EXPC - x))%Q).
    { assert (E2 : (two 1 <= two (E + EXPC - x))%Q) by (apply two_le; lia). change (two 1) with 2%Q in E2. change (inject_Z 2) with 2%Q.
      pose proof QS. nra. }
    destruct (qleb_qle (inject_Z SIGNM * inject_Z 2) (y * two (E + EXPC - x))); [| lra].
    rewrite Rdiv_i32_mut by (unfold i32r; lia). cbn [bind]. rewrite addw_ok by lia. cbn [bind]. apply IH; [| cbn [snd]; lia].
    unfold at_. cbn [fst snd]. split; [| lia]. apply rof_qeq. replace (E + EXPC - (x + 1)) with (E + EXPC - x - 1) by ring. rewrite two_P. change (inject_Z 2) with 2%Q. field.
Qed.
End Loops.

Opaque loopn.
Lemma Bto_u128 z : 0 <= z < 2 ^ 128 -> btry_into U128 (bof z) = ROk z.
Proof.
  intros. cbn [btry_into]. rewrite Bneg, Bmag. destruct (Z.ltb_spec z 0); [lia |]. rewrite Z.abs_eq by lia.
  unfold UStr.uto_u128. rewrite Eto_u128 by lia. destruct (Z.ltb_spec z (2 ^ 128)); [reflexivity | lia].
Qed.
Lemma Bto_u32 z : 0 <= z < 2 ^ 32 -> btry_into U32 (bof z) = ROk z.
Proof.
  intros. cbn [btry_into]. rewrite Bto_i64. unfold in_s. change (2 ^ (64 - 1)) with (2 ^ 63).
  destruct (Z.leb_spec (- 2 ^ 63) z); [| lia]. destruct (Z.ltb_spec z (2 ^ 63)); [| lia]. cbn. unfold prim_u.
  destruct (Z.leb_spec 0 z); [| lia]. destruct (Z.ltb_spec z (2 ^ 32)); [reflexivity | lia].
Qed.
Lemma xfrom_ratio_ok x E : let y := (Qabs x * two (- E))%Q in
  (inject_Z SIGNM <= y)%Q -> (y < inject_Z (2 * SIGNM))%Q -> 0 <= E + EXPC < 2 ^ 64 ->
  xfrom_ratio (rof x) = Ok (mkX (Z.lor (rnd_half y - SIGNM) (xbit (qltb x 0))) (E + EXPC)).
Proof.
  intros y Ly Uy HE. assert (Tp := two_pos E). assert (PS := QS).
  assert (Hx : (Qabs x == y * two E)%Q). { unfold y. rewrite two_opp. field. apply two_nz. }
  assert (Nz : ~ (x == 0)%Q). { intros Z0. rewrite Z0 in Hx. change (Qabs 0) with 0%Q in Hx. nra. }
  unfold xfrom_ratio. rewrite Ris_zero. destruct (qeqb_qeq x 0); [contradiction |].
  rewrite Rfrom_u128 by (rewrite P128; pose proof SIGNM_val; lia). cbn [bind]. rewrite Rmul_i32 by (unfold i32r; lia). cbn [bind]. rewrite Rabs.
  assert (L : returns (let* '(n_abs, exp) := loopn 65 (xfr_up (rof (inject_Z SIGNM))) (rof (Qabs x), EXPC) in
     loopn 65 (xfr_down (rof (inject_Z SIGNM * inject_Z 2))) (n_abs, exp)) (fun s => s = (rof y, E + EXPC))).
  { assert (R0 : rof (Qabs x) = rof (y * two (E + EXPC - EXPC))) by (apply rof_qeq; replace (E + EXPC - EXPC) with E by ring; exact Hx).
    rewrite R0. destruct (Z_le_gt_dec E 0) as [HE0 | HE0].
    - destruct (up_ok y E Ly Uy ltac:(lia) EXPC ltac:(unfold EXPC in *; lia)) as (s & -> & ->). cbn [bind].
      destruct (down_ok y E Ly Uy ltac:(lia) (E + EXPC) ltac:(lia)) as (s & Hs & ->).
      assert (R1 : rof (y * two (E + EXPC - (E + EXPC))) = rof y) by (apply rof_qeq; rewrite Z.sub_diag; change (two 0) with 1%Q; ring).
      rewrite R1 in Hs. rewrite Hs. now apply returns_ok.
    - assert (U0 : loopn 65 (xfr_up (rof (inject_Z SIGNM))) (rof (y * two (E + EXPC - EXPC)), EXPC) = Ok (rof (y * two (E + EXPC - EXPC)), EXPC)).
      { apply loopn_stop. intros g0. unfold xfr_up. rewrite Rlt. cbn [bind]. destruct (qltb_qlt (y * two (E + EXPC - EXPC)) (inject_Z SIGNM)); auto. exfalso.
        assert ((two 0 <= two (E + EXPC - EXPC))%Q) by (apply two_le; lia). change (two 0) with 1%Q in H. nra. }
      rewrite U0. cbn [bind]. apply down_ok; auto; unfold EXPC in *; lia. }
  destruct L as (s & Hl & ->).
  destruct (loopn 65 (xfr_up (rof (inject_Z SIGNM))) (rof (Qabs x), EXPC)) as [[n_abs exp] | |]; cbn [bind] in Hl |- *; try discriminate.
  rewrite Hl. cbn [bind]. clear Hl.
  rewrite Rmul_i32 by (unfold i32r; lia). cbn [bind]. rewrite Rtruncate_bi. cbn [bind].
  destruct (qtrunc_bounds F64 (or_intror eq_refl) y ltac:(lra)) as [[B1 B2] B3].
  assert (T32 : (0 <= y * inject_Z 32)%Q) by (change (inject_Z 32) with 32%Q; lra).
  destruct (qtrunc_bounds F64 (or_intror eq_refl) (y * inject_Z 32) T32) as [[C1 C2] C3].
  assert (By : qtrunc y < 2 * SIGNM) by (rewrite Zlt_Qlt; lra).
  assert (Ay : SIGNM <= qtrunc y).
  { assert (H : (inject_Z SIGNM < inject_Z (qtrunc y + 1))%Q) by (rewrite inject_Z_plus; change (inject_Z 1) with 1%Q; lra). rewrite <- Zlt_Qlt in H. lia. }
  rewrite Brem_i32; [| unfold i32r; lia | lia |].
  2:{ assert (U32 : qtrunc (y * inject_Z 32) < 2 ^ 133).
      { rewrite Zlt_Qlt. change (inject_Z (2 ^ 133)) with (inject_Z (2 * SIGNM) * 32)%Q. change (inject_Z 32) with 32%Q in *. lra. }
      rewrite Z.abs_eq by lia. assert (Hl : (length (uof (qtrunc (y * inject_Z 32))) <= 5)%nat).
      { apply nlimbs_iff; [lia | lia |]. eapply Z.lt_le_trans; [exact U32 |]. vm_compute. discriminate. }
      assert (5 < B) by reflexivity. lia. }
  cbn [bind]. assert (R0 : 0 <= Z.rem (qtrunc (y * inject_Z 32)) 32 < 32) by (apply Z.rem_bound_pos; lia).
  rewrite Bto_u32 by lia. cbn [unwrap bind]. rewrite Rsub_mut. cbn [bind]. rewrite Rtruncate_bi. cbn [bind].
  assert (TD : qtrunc (y - inject_Z SIGNM) = qtrunc y - SIGNM).
  { apply qtrunc_unique; [lra |]. rewrite <- Z.add_opp_r, inject_Z_plus, inject_Z_opp. split; lra. }
  rewrite TD, Bto_u128 by (rewrite P128; lia). cbn [unwrap bind]. rewrite rem32 by lra. unfold rnd_half. rewrite Ris_neg. fold y.
  destruct (qleb (1 # 2) (y - inject_Z (qtrunc y))).
  - destruct (Z.eqb_spec (qtrunc y - SIGNM) (2 ^ 128 - 1)); [rewrite P128 in *; lia |]. cbn [negb].
    rewrite addw_ok by (rewrite P128; lia). cbn [bind]. do 3 f_equal. ring.
  - reflexivity.
Qed.

Lemma scale_le x E k : (inject_Z k * two E <= x)%Q <-> (inject_Z k <= x * two (- E))%Q.
Proof.
  pose proof (two_pos E). assert (E1 : (x == (x * two (- E)) * two E)%Q) by (rewrite two_opp; field; apply two_nz).
  split; intros H0; [rewrite E1 in H0; apply Qmult_le_r in H0; auto | rewrite E1; apply Qmult_le_r; auto].
Qed.
Lemma scale_lt x E y : (x < y * two E)%Q <-> (x * two (- E) < y)%Q.
Proof.
  pose proof (two_pos E). assert (E1 : (x == (x * two (- E)) * two E)%Q) by (rewrite two_opp; field; apply two_nz).
  split; intros H0; [rewrite E1 in H0; apply Qmult_lt_r in H0; auto | rewrite E1; apply Qmult_lt_r; auto].
Qed.
Lemma scale_le' x E y : (y * two E <= x)%Q <-> (y <= x * two (- E))%Q.
Proof. pose proof (scale_lt x E y) as K. split; intros; apply Qnot_lt_le; intros C; apply K in C; lra. Qed.
Lemma sg_qltb x : ~ (x == 0)%Q -> (sg (qltb x 0) (Qabs x) == x)%Q.
Proof. intros N. unfold sg. destruct (qltb_qlt x 0); [rewrite Qabs_neg by lra; ring | rewrite Qabs_pos by lra; reflexivity]. Qed.
Lemma xfrom_ratio_near x E : (inject_Z SIGNM * two E <= Qabs x)%Q -> (Qabs x < (inject_Z (2 * SIGNM) - (1 # 2)) * two E)%Q -> 0 < E + EXPC < 2 ^ 64 ->
  let c := xof (qltb x 0) (rnd_half (Qabs x * two (- E))) (E + EXPC) in xfrom_ratio (rof x) = Ok c /\ xnearest x c.
Proof.
  intros L U HE. rewrite scale_le in L. rewrite scale_lt in U. set (y := (Qabs x * two (- E))%Q) in *. intros c.
  destruct (rnd_half_near y) as [N [R1 R2]]; [pose proof QS; lra |].
  assert (Hs : sigr (rnd_half y)).
  { apply Qabs_le_iff in N. destruct N as [N1 N2]. split.
    - destruct (qtrunc_bounds F64 (or_intror eq_refl) y ltac:(pose proof QS; lra)) as [[B1 B2] B3].
      assert (H : (inject_Z SIGNM < inject_Z (qtrunc y + 1))%Q) by (rewrite inject_Z_plus; change (inject_Z 1) with 1%Q; lra). rewrite <- Zlt_Qlt in H. lia.
    - rewrite Zlt_Qlt. lra. }
  assert (Nn : xnull c = false). { unfold c. rewrite xnull_of by auto. destruct (Z.eqb_spec (E + EXPC) 0); [lia |]. apply andb_false_r. }
  split.
  - rewrite (xfrom_ratio_ok x E); fold y; auto; [| lra | lia]. rewrite lor_bit by auto. reflexivity.
  - assert (Z0 : ~ (x == 0)%Q).
    { intros Z0. assert (Hy : (y == 0)%Q) by (unfold y; rewrite Z0; change (Qabs 0) with 0%Q; ring). rewrite Hy in L. pose proof QS. lra. }
    assert (K : xnearest (sg (qltb x 0) (y * two (E + EXPC - EXPC))) c) by (apply near_best; auto; [unfold expr; lia | lra]).
    assert (V : (sg (qltb x 0) (y * two (E + EXPC - EXPC)) == x)%Q).
    { rewrite <- (sg_qltb x Z0) at 2. apply sg_eq. replace (E + EXPC - EXPC) with E by ring. unfold y. rewrite two_opp. field. apply two_nz. }
    destruct K as (K1 & K2 & K3). split; [auto |]. split; [intros v Wv; specialize (K2 v Wv); rewrite V in K2; auto | rewrite V in K3; auto].
Qed.
Lemma xfrom_ratio_carry x E : ((inject_Z (2 * SIGNM) - (1 # 2)) * two E <= Qabs x)%Q -> (Qabs x < inject_Z (2 * SIGNM) * two E)%Q -> 0 <= E + EXPC < 2 ^ 64 ->
  xfrom_ratio (rof x) = Ok (mkX SIGNM (E + EXPC)).
Proof.
  intros L U HE. rewrite scale_le' in L. rewrite scale_lt in U. 
  assert (PS : (1 < inject_Z SIGNM)%Q) by reflexivity. assert (Q2 := Q2S).
  rewrite (xfrom_ratio_ok x E); auto; [| lra]. set (y := (Qabs x * two (- E))%Q) in *. do 2 f_equal.
  assert (T : qtrunc y = 2 * SIGNM - 1). { apply qtrunc_unique; [lra |]. rewrite <- Z.add_opp_r, inject_Z_plus. change (inject_Z (- (1))) with (- (1))%Q. split; lra. }
  unfold rnd_half. rewrite T. destruct (qleb_qle (1 # 2) (y - inject_Z (2 * SIGNM - 1))) as [G | G].
  - replace (2 * SIGNM - 1 + 1 - SIGNM) with SIGNM by ring. unfold xbit. destruct (qltb x 0); [apply Z.lor_diag | apply Z.lor_0_r].
  - exfalso. apply G. rewrite <- Z.add_opp_r, inject_Z_plus. change (inject_Z (- (1))) with (- (1))%Q. lra.
Qed.
Lemma xfrom_ratio_zero x : (x == 0)%Q -> xfrom_ratio (rof x) = Ok xZERO.
Proof. intros H. unfold xfrom_ratio. rewrite Ris_zero. destruct (qeqb_qeq x 0); [reflexivity | contradiction]. Qed.
(** a representable number comes back unchanged *)
Lemma xfrom_ratio_exact a : xwf a -> xfrom_ratio (rof (xval a)) = Ok a.
Proof.
  intros W. destruct (xwf_cases a W) as [-> | (s & m & e & -> & Hm & He & N)]; [now apply xfrom_ratio_zero |].
  assert (PS := QS). assert (Pq := xq_pos m e Hm).
  assert (A : (Qabs (xval (xof s m e)) * two (- (e - EXPC)) == inject_Z m)%Q).
  { rewrite xval_of, sg_abs by (auto; lra). unfold xq. rewrite two_opp. field. apply two_nz. }
  rewrite (xfrom_ratio_ok _ (e - EXPC)); [| rewrite A; rewrite <- Zle_Qle; apply Hm | rewrite A; rewrite <- Zlt_Qlt; apply Hm | unfold expr in He; lia].
  assert (R : rnd_half (Qabs (xval (xof s m e)) * two (- (e - EXPC))) = m).
  { transitivity (rnd_half (inject_Z m)); [| apply rnd_half_int; destruct Hm; assert (0 < SIGNM) by reflexivity; lia].
    unfold rnd_half. assert (T : qtrunc (Qabs (xval (xof s m e)) * two (- (e - EXPC))) = qtrunc (inject_Z m)).
    { assert (qtrunc (inject_Z m) = m) as -> by (unfold qtrunc; cbn [inject_Z Qnum Qden]; apply Z.quot_1_r).
      apply qtrunc_unique; rewrite A; [| split; lra]. destruct Hm as [Hm _]. rewrite Zle_Qle in Hm. lra. }
    rewrite T. destruct (qleb_qle (1 # 2) (Qabs (xval (xof s m e)) * two (- (e - EXPC)) - inject_Z (qtrunc (inject_Z m)))) as [G | G];
      destruct (qleb_qle (1 # 2) (inject_Z m - inject_Z (qtrunc (inject_Z m)))) as [G' | G']; auto; rewrite A in G; contradiction. }
  rewrite R. assert (S : qltb (xval (xof s m e)) 0 = s).
  { rewrite xval_of by auto. unfold sg. destruct s; [destruct (qltb_qlt (- xq m e) 0) | destruct (qltb_qlt (xq m e) 0)]; auto; lra. }
  rewrite S, lor_bit by auto. replace (e - EXPC + EXPC) with e by ring. reflexivity.
Qed.

Lemma xrounds_down_wd p q c : (p == q)%Q -> xrounds_down p c -> xrounds_down q c.
Proof.
  intros V (K1 & K2 & K3 & K4 & K5). unfold xrounds_down. split; [auto |]. split; [now rewrite <- V |]. split; [now rewrite <- V |]. split; [| now rewrite <- V].
  intros y Wy Hy. apply K4; auto. now rewrite V.
Qed.
Lemma xnearest_wd p q c : (p == q)%Q -> xnearest p c -> xnearest q c.
Proof.
  intros V (K1 & K2 & K3). unfold xnearest. split; [auto |]. split; [| now rewrite <- V]. intros y Wy. rewrite <- V. auto.
Qed.
(** ** addition of operands of the same sign *)
Definition core (d1 d2 e f top : Z) (a : f192) : res f192 :=
  let* diff := subw e f in
  if 127 <? diff then Ok a else
  let* d2 := shrw 128 d2 diff in
  match checked_add 128 d1 d2 with
  | Some digits => Ok (mkX (Z.lor (xlow digits) top) e)
  | None =>
    let* d := addw 128 (d1 / 2) (d2 / 2) in
    let* digits := addw 128 d ((d1 mod 2 + d2 mod 2) / 2) in
    let* e := addw 64 e 1 in
    Ok (mkX (Z.lor (xlow digits) top) e)
  end.
Lemma xadd_same sub a b : xis_neg a = xis_neg b -> xis_zero a = false -> xis_zero b = false ->
  xadd_ sub a b = if xe b <? xe a then core (xhid (xd a)) (xhid (xd b)) (xe a) (xe b) (xtop (xd a)) a
                  else core (xhid (xd b)) (xhid (xd a)) (xe b) (xe a) (xtop (xd b)) b.
Proof. intros H1 H2 H3. unfold xadd_. rewrite H1, Bool.eqb_reflx, H2, H3. reflexivity. Qed.
Lemma half_add m n : m / 2 + n / 2 + (m mod 2 + n mod 2) / 2 = (m + n) / 2.
Proof.
  pose proof (Z.div_mod m 2 ltac:(lia)). pose proof (Z.div_mod n 2 ltac:(lia)). pose proof (Z.mod_pos_bound m 2 ltac:(lia)). pose proof (Z.mod_pos_bound n 2 ltac:(lia)).
  rewrite H at 3. rewrite H0 at 3. replace (2 * (m / 2) + m mod 2 + (2 * (n / 2) + n mod 2)) with (m mod 2 + n mod 2 + (m / 2 + n / 2) * 2) by ring. rewrite Z.div_add by lia. ring.
Qed.
Lemma core_ok s m n e f : sigr m -> sigr n -> expr e -> expr f -> f <= e -> e + 1 < 2 ^ 64 ->
  xnull (xof s m e) = false -> xnull (xof s n f) = false ->
  returns (core m n e f (xbit s) (xof s m e)) (xrounds_down (sg s (xq m e + xq n f))).
Proof.
  intros Hm Hn He Hf Le Lt N1 N2. unfold core. rewrite subw_ok by lia. cbn [bind]. assert (P2 : 2 ^ 128 = 2 * SIGNM) by reflexivity.
  assert (Pd : 0 < 2 ^ (e - f)) by (apply Z.pow_pos_nonneg; lia).
  pose proof (Z.div_mod n (2 ^ (e - f)) ltac:(lia)) as D1. pose proof (Z.mod_pos_bound n (2 ^ (e - f)) Pd) as D2. assert (P0 : 0 < SIGNM) by reflexivity.
  assert (D0 : 0 <= n / 2 ^ (e - f) <= n). { split; [apply Z.div_pos; destruct Hn; lia | apply Z.div_le_upper_bound; [lia |]; destruct Hn; nia]. }
  set (n' := n / 2 ^ (e - f)) in *.
  assert (Bn : (xq n' e <= xq n f /\ xq n f < xq (n' + 1) e)%Q).
  { assert (Eq : forall k, (xq k e == xq (k * 2 ^ (e - f)) f)%Q).
    { intros k. unfold xq. rewrite (tz_to k (e - EXPC) (f - EXPC)) by lia. replace (e - EXPC - (f - EXPC)) with (e - f) by ring. reflexivity. }
    rewrite !Eq. split; [apply xq_le; nia | apply xq_lt; nia]. }
  assert (Br : (xq (m + n') e <= xq m e + xq n f /\ xq m e + xq n f < xq (m + n' + 1) e)%Q).
  { rewrite <- Z.add_assoc, <- !xq_add. rewrite <- xq_add in Bn. lra. }
  clear Bn. destruct (Z.ltb_spec 127 (e - f)).
  { assert (n' = 0). { apply Z.div_small. destruct Hn. split; [lia |]. apply Z.lt_le_trans with (2 ^ 128); [lia |]. apply Z.pow_le_mono_r; lia. }
    apply returns_ok. rewrite H0, Z.add_0_r in Br. apply trunc_best; auto; apply Br. }
  rewrite shrw_ok by lia. cbn [bind]. fold n'. unfold checked_add.
  assert (Z1 : sigr (m + n') \/ 2 * SIGNM <= m + n' < 4 * SIGNM) by (unfold sigr in *; lia).
  destruct Z1 as [Z1 | Z1].
  - destruct (Z.ltb_spec (m + n') (2 ^ 128)); [| unfold sigr in Z1; lia]. apply returns_ok. rewrite pack by auto. apply trunc_best; auto; [| apply Br | apply Br].
    rewrite xnull_of by auto. destruct (Z.eqb_spec e 0) as [-> |]; [| apply andb_false_r]. exfalso. assert (f = 0) by (unfold expr in Hf; lia). subst f.
    change (2 ^ (0 - 0)) with 1 in *. assert (n' = n) by (unfold n'; apply Z.div_1_r). unfold sigr in *; lia.
  - destruct (Z.ltb_spec (m + n') (2 ^ 128)); [lia |].
    pose proof (half_add m n') as HA. pose proof (Z.div_mod (m + n') 2 ltac:(lia)) as DM. pose proof (Z.mod_pos_bound (m + n') 2 ltac:(lia)) as MB.
    assert (0 <= (m mod 2 + n' mod 2) / 2) by (apply Z.div_pos; pose proof (Z.mod_pos_bound m 2 ltac:(lia)); pose proof (Z.mod_pos_bound n' 2 ltac:(lia)); lia).
    assert (0 <= m / 2) by (apply Z.div_pos; unfold sigr in *; lia). assert (0 <= n' / 2) by (apply Z.div_pos; lia).
    rewrite addw_ok by lia. cbn [bind]. rewrite addw_ok by lia. cbn [bind]. rewrite addw_ok by (unfold expr in *; lia). cbn [bind].
    apply returns_ok. rewrite HA. set (h := (m + n') / 2) in *. assert (Hh : sigr h) by (unfold sigr; lia). rewrite pack by auto.
    apply trunc_best; auto; [unfold expr in *; lia | | |].
    + rewrite xnull_of by auto. destruct (Z.eqb_spec (e + 1) 0); [unfold expr in *; lia | apply andb_false_r].
    + rewrite <- xq_double. eapply Qle_trans; [| apply Br]. apply xq_le. lia.
    + rewrite <- xq_double. eapply Qlt_le_trans; [apply Br |]. apply xq_le. lia.
Qed.
Lemma xadd_same_ok sub s m e n f : sigr m -> sigr n -> expr e -> expr f -> e + 1 < 2 ^ 64 -> f + 1 < 2 ^ 64 ->
  xnull (xof s m e) = false -> xnull (xof s n f) = false ->
  returns (xadd_ sub (xof s m e) (xof s n f)) (xrounds_down (sg s (xq m e + xq n f))).
Proof.
  intros Hm Hn He Hf Le Lf N1 N2. rewrite xadd_same by (rewrite ?xneg_of, ?xis_zero_null by auto; auto). cbn [xe xof xd].
  rewrite !xhid_of, !xtop_of by auto. destruct (Z.ltb_spec f e).
  - apply core_ok; auto; lia.
  - eapply returns_weaken; [apply (core_ok s n m f e); auto |]. intros c K.
    revert K. apply xrounds_down_wd, sg_eq. ring.
Qed.

(** ** addition and subtraction of any operands *)
Lemma xlowest_of s m e : sigr m -> xlowest (xof s m e) = s && (m =? SIGNM) && (e =? 0).
Proof. intros [H1 H2]. unfold xlowest, xof. cbn [xd xe]. destruct s; cbn [andb]; [reflexivity |]. destruct (Z.eqb_spec (m - SIGNM) SIGNM); [lia | reflexivity]. Qed.
Lemma xneg_null s m e : sigr m -> xlowest (xof s m e) = false -> xnull (xof (negb s) m e) = false.
Proof. intros Hm. rewrite xlowest_of, xnull_of, negb_involutive by auto. auto. Qed.
Lemma xneg_neg a : xwf a -> xlowest a = false -> xneg (xneg a) = a.
Proof.
  intros W L. destruct (xwf_cases a W) as [-> | (s & m & e & -> & Hm & He & N)]; [reflexivity |].
  rewrite xneg_xof by auto. rewrite xneg_xof by (auto using xneg_null). now rewrite negb_involutive.
Qed.
Lemma xnull_false_neg a : xwf a -> xnull a = false -> xlowest a = false -> xnull (xneg a) = false /\ xsign (xneg a) = negb (xsign a) /\ xpow (xneg a) = xpow a /\ xwf (xneg a) /\ xe (xneg a) = xe a.
Proof.
  intros W N L. destruct (xof_of a W) as (E & S & X). rewrite E in N, L |- *. rewrite xneg_xof by auto.
  splits; [now apply xneg_null | rewrite !xsign_of by auto; reflexivity | reflexivity | now apply xof_wf | reflexivity].
Qed.
Lemma Qabs_diff0 x q : (x == q)%Q -> (Qabs (x - q) == 0)%Q.
Proof. intros H. rewrite H. setoid_replace (q - q)%Q with 0%Q by ring. reflexivity. Qed.
Lemma xrounds_exact q c : xwf c -> (xval c == q)%Q -> xrounds_down q c.
Proof.
  intros W H. unfold xrounds_down. split; [auto |]. split; [rewrite H; apply Qle_refl |]. split; [rewrite H; nra |].
  split; [intros y _ Hy; now rewrite H |]. rewrite (Qabs_diff0 _ _ H). apply two_pos.
Qed.
Lemma xnearest_exact q c : xwf c -> (xval c == q)%Q -> xnearest q c.
Proof.
  intros W H. assert (Z0 := Qabs_diff0 _ _ H).
  unfold xnearest. split; [auto |]. split; [intros; rewrite Z0; apply Qabs_nonneg |]. rewrite Z0. pose proof (two_pos (xpow c)). unfold xulp. lra.
Qed.
Lemma xrounds_neg q c : xlowest c = false -> xrounds_down q c -> xrounds_down (- q) (xneg c).
Proof.
  intros L (K1 & K2 & K3 & K4 & K5). assert (V := xneg_ok c K1 L). assert (D : (Qabs (xval (xneg c) - - q) == Qabs (xval c - q))%Q) by (rewrite V, <- (Qabs_opp (xval c - q)); apply Qabs_wd; ring).
  assert (A : (Qabs (xval (xneg c)) == Qabs (xval c))%Q) by (rewrite V; apply Qabs_opp). unfold xrounds_down. split; [now apply xneg_wf |].
  split; [rewrite A, Qabs_opp; auto |]. split; [rewrite V; nra |]. split; [intros y Wy Hy; rewrite A; rewrite Qabs_opp in Hy; auto |]. rewrite D.
  unfold xulp in *. destruct (xwf_cases c K1) as [-> | (s & m & e & -> & Hm & He & N)]; [exact K5 |]. rewrite xneg_xof by auto. exact K5.
Qed.
Lemma xlowest_val a : xlowest a = true -> (xval a < 0)%Q.
Proof. destruct a as [d e]. unfold xlowest. cbn [xd xe]. rewrite andb_true_iff, !Z.eqb_eq. intros [-> ->]. apply xval_neg; [split; cbn; lia | reflexivity]. Qed.

Lemma xadd_zero_l a : xwf a -> xlowest a = false -> xadd xZERO a = Ok a.
Proof.
  intros W L. destruct (xwf_cases a W) as [-> | (s & m & e & -> & Hm & He & N)]; [reflexivity |].
  unfold xadd, xadd_. change (xis_neg xZERO) with false. rewrite (xneg_of s m e Hm). change (xis_zero xZERO) with true. destruct s; cbn [negb Bool.eqb]; [| reflexivity].
  rewrite xneg_xof by auto. unfold xsub_. change (xis_neg xZERO) with false. rewrite xneg_of by auto. cbn [negb Bool.eqb]. change (xis_zero xZERO) with true. cbv iota.
  now rewrite xneg_xof by (auto; apply (xneg_null true); auto).
Qed.
Lemma xadd_comm a b : xwf a -> xwf b -> xadd a b = xadd b a.
Proof.
  intros Wa Wb. unfold xadd. destruct (Bool.bool_dec (xis_neg a) (xis_neg b)) as [S | S].
  2:{ unfold xadd_. destruct (xis_neg a), (xis_neg b); cbn [negb Bool.eqb]; congruence || reflexivity. }
  destruct (xis_zero a) eqn:Za.
  { unfold xadd_. rewrite S, Bool.eqb_reflx, Za. cbn [negb]. destruct (xis_zero b) eqn:Zb; auto.
    rewrite xis_zero_null in Za, Zb. now rewrite (xnull_zero a Za), (xnull_zero b Zb). }
  destruct (xis_zero b) eqn:Zb. { unfold xadd_. rewrite S, Bool.eqb_reflx, Za, Zb. reflexivity. }
  rewrite !xadd_same by auto. destruct (Z.ltb_spec (xe a) (xe b)), (Z.ltb_spec (xe b) (xe a)); try lia; auto.
  assert (E : xe a = xe b) by lia. rewrite E. unfold core. rewrite subw_ok by lia. rewrite Z.sub_diag. cbn [bind]. destruct (Z.ltb_spec 127 0); [lia |].
  destruct (xof_of a Wa) as (Ea & Sa & _), (xof_of b Wb) as (Eb & Sb & _).
  assert (Ta : xtop (xd a) = xtop (xd b)). { rewrite Ea, Eb. unfold xof. cbn [xd]. rewrite !xtop_of by auto. rewrite <- !xis_neg_sign by auto. now rewrite S. }
  rewrite Ta. rewrite !shrw_ok by lia. cbn [bind]. change (2 ^ 0) with 1. rewrite !Z.div_1_r. unfold checked_add. rewrite (Z.add_comm (xhid (xd b))).
  destruct (_ <? _); auto. unfold addw. rewrite (Z.add_comm (xhid (xd b) / 2)), (Z.add_comm (xhid (xd b) mod 2)). reflexivity.
Qed.
Lemma xadd_zero_r a : xwf a -> xlowest a = false -> xadd a xZERO = Ok a.
Proof. intros. rewrite xadd_comm by (auto; apply xwf_zero). now apply xadd_zero_l. Qed.

Lemma xsub_same add a b : xwf a -> xwf b -> xnull a = false -> xnull b = false -> xsign a = xsign b -> Z.abs (xpow a) < 2 ^ 32 -> Z.abs (xpow b) < 2 ^ 32 ->
  xsub_ add a b = xfrom_ratio (rof (xval a - xval b)).
Proof.
  intros Wa Wb Na Nb S Pa Pb. unfold xsub_. rewrite !xis_neg_sign, S, Bool.eqb_reflx by auto. cbn [negb]. rewrite !xis_zero_null, Na, Nb.
  rewrite !xto_ratio_ok by auto. cbn [bind]. rewrite Rsub. reflexivity.
Qed.
Lemma xadd_opp a b : xwf a -> xwf b -> xnull a = false -> xnull b = false -> xlowest a = false -> xlowest b = false ->
  xsign a <> xsign b -> Z.abs (xpow a) < 2 ^ 32 -> Z.abs (xpow b) < 2 ^ 32 -> xadd a b = xfrom_ratio (rof (xval a + xval b)).
Proof.
  intros Wa Wb Na Nb La Lb S Pa Pb. unfold xadd, xadd_. rewrite !xis_neg_sign by auto.
  destruct (xnull_false_neg a Wa Na La) as (A1 & A2 & A3 & A4 & _), (xnull_false_neg b Wb Nb Lb) as (B1 & B2 & B3 & B4 & _).
  destruct (xsign a) eqn:Sa, (xsign b) eqn:Sb; cbn [negb Bool.eqb] in *; try congruence.
  - rewrite xsub_same by (auto; congruence). f_equal. apply rof_qeq. rewrite xneg_ok by auto. ring.
  - rewrite xsub_same by (auto; congruence). f_equal. apply rof_qeq. rewrite xneg_ok by auto. ring.
Qed.
Lemma xval_sg a : xval a = sg (xsign a) (xmag a). Proof. reflexivity. Qed.
(** sums of the same sign are rounded toward zero *)
Lemma xadd_same_rounds sub a b : xwf a -> xwf b -> xnull a = false -> xnull b = false -> xsign a = xsign b -> xe a + 1 < 2 ^ 64 -> xe b + 1 < 2 ^ 64 ->
  returns (xadd_ sub a b) (xrounds_down (xval a + xval b)).
Proof.
  intros Wa Wb Na Nb S Pa Pb. destruct (xwf_cases a Wa) as [-> | (s & m & e & -> & Hm & He & N)]; [discriminate |].
  destruct (xwf_cases b Wb) as [-> | (s' & n & f & -> & Hn & Hf & N')]; [discriminate |]. rewrite !xsign_of in S by auto. subst s'.
  eapply returns_weaken; [apply (xadd_same_ok sub s m e n f); auto |]. intros c. apply xrounds_down_wd. rewrite !xval_of by auto. unfold sg. destruct s; ring.
Qed.
(** every non-zero rational lies in a binade *)
Lemma binade_ex x : (0 < x)%Q -> exists e, (two e <= x < two (e + 1))%Q.
Proof.
  intros Hx. destruct x as [p d]. assert (Hp : 0 < p) by (unfold Qlt in Hx; cbn in Hx; lia). clear Hx.
  pose proof (Z.log2_spec p Hp) as P. pose proof (Z.log2_spec (Z.pos d) eq_refl) as D. set (i := Z.log2 p) in *. set (j := Z.log2 (Z.pos d)) in *.
  assert (Hi : 0 <= i) by apply Z.log2_nonneg. assert (Hj : 0 <= j) by apply Z.log2_nonneg.
  assert (V : (p # d == inject_Z p / inject_Z (Z.pos d))%Q) by (rewrite Qmake_Qdiv; reflexivity).
  assert (T : forall k, 0 <= k -> (two k == inject_Z (2 ^ k))%Q) by (intros; now rewrite two_Z).
  assert (Pd : (0 < inject_Z (Z.pos d))%Q) by reflexivity.
  assert (P1 : (two i <= inject_Z p /\ inject_Z p < two (i + 1))%Q) by (rewrite !T by lia; rewrite <- Zle_Qle, <- Zlt_Qlt; auto).
  assert (D1 : (two j <= inject_Z (Z.pos d) /\ inject_Z (Z.pos d) < two (j + 1))%Q) by (rewrite !T by lia; rewrite <- Zle_Qle, <- Zlt_Qlt; auto).
  assert (X1 : ((p # d) * inject_Z (Z.pos d) == inject_Z p)%Q) by (rewrite V; field; lra).
  assert (S1 : (two (i - j - 1) * two (j + 1) == two i)%Q) by (rewrite <- two_plus; replace (i - j - 1 + (j + 1)) with i by ring; reflexivity).
  assert (S2 : (two (i - j + 1) * two j == two (i + 1))%Q) by (rewrite <- two_plus; replace (i - j + 1 + j) with (i + 1) by ring; reflexivity).
  pose proof (two_pos (i - j - 1)). pose proof (two_pos (i - j + 1)). pose proof (two_pos j). pose proof (two_pos (j + 1)).
  assert (L : (two (i - j - 1) <= p # d)%Q) by (apply (Qmult_le_r _ _ _ Pd); rewrite X1; nra).
  assert (U : (p # d < two (i - j + 1))%Q) by (apply (Qmult_lt_r _ _ _ Pd); rewrite X1; nra).
  destruct (Qlt_le_dec (p # d) (two (i - j))).
  - exists (i - j - 1). replace (i - j - 1 + 1) with (i - j) by ring. auto.
  - exists (i - j). auto.
Qed.
Section Moderate.
Variable K : Z.
Hypothesis HK : K = 2 ^ 32.
Lemma xgrid a : xwf a -> Z.abs (xpow a) < K \/ xnull a = true -> exists z, (xval a == inject_Z z * two (- K))%Q /\ (Qabs (xval a) < two (K + 128))%Q.
Proof.
  intros W [P | N].
  2:{ exists 0. rewrite (xnull_zero a N). split; [reflexivity |]. change (Qabs (xval xZERO)) with 0%Q. apply two_pos. }
  destruct (xwf_cases a W) as [-> | (s & m & e & -> & Hm & He & N)].
  { exists 0. split; [reflexivity |]. change (Qabs (xval xZERO)) with 0%Q. apply two_pos. }
  unfold xpow, xof in P. cbn [xe] in P. change (2 ^ 48) with EXPC in P. rewrite xval_of by auto.
  exists ((if s then -1 else 1) * (m * 2 ^ (e - EXPC + K))). split.
  - assert (T : (xq m e == inject_Z (m * 2 ^ (e - EXPC + K)) * two (- K))%Q).
    { unfold xq. rewrite (tz_to m (e - EXPC) (- K)) by lia. replace (e - EXPC - - K) with (e - EXPC + K) by ring. reflexivity. }
    revert T. generalize (two (- K)) (m * 2 ^ (e - EXPC + K)) (xq m e). intros t k x T. unfold sg. destruct s; rewrite T; [rewrite (inject_Z_mult (-1)); change (inject_Z (-1)) with (- (1))%Q; ring | rewrite Z.mul_1_l; reflexivity].
  - rewrite sg_abs by (apply Qlt_le_weak, xq_pos; auto). eapply Qlt_le_trans; [apply xq_up; auto |]. unfold xq.
    assert (SE : (inject_Z SIGNM == two 127)%Q) by (rewrite two_Z by lia; reflexivity). rewrite SE, <- two_plus. apply two_le. lia.
Qed.
(** differences and sums of moderate numbers *)
Lemma xround_moderate q z : (q == inject_Z z * two (- K))%Q -> (Qabs q < two (K + 129))%Q -> ~ xcarry q -> returns (xfrom_ratio (rof q)) (xnearest q).
Proof.
  intros G U C. destruct (Qeq_dec q 0) as [Z0 | Nz].
  { rewrite xfrom_ratio_zero by auto. apply returns_ok. apply xnearest_exact; [apply xwf_zero |]. rewrite Z0. reflexivity. }
  assert (Pq : (0 < Qabs q)%Q). { apply Qnot_le_lt. intros H. apply Nz. apply Qabs_le_iff in H. lra. }
  destruct (binade_ex _ Pq) as (e & B1 & B2).
  assert (L : (two (- K) <= Qabs q)%Q).
  { rewrite G, Qabs_Qmult, (Qabs_pos (two _)) by (apply Qlt_le_weak, two_pos). assert (1 <= Z.abs z).
    { destruct (Z.eq_dec z 0) as [-> |]; [exfalso; apply Nz; rewrite G; change (inject_Z 0) with 0%Q; ring | lia]. }
    rewrite Zle_Qle in H. change (Qabs (inject_Z z)) with (inject_Z (Z.abs z)). pose proof (two_pos (- K)). change (inject_Z 1) with 1%Q in H. nra. }
  assert (- K < e + 1) by (apply two_lt_inv; lra). assert (e < K + 129) by (apply two_lt_inv; lra).
  assert (S1 : (inject_Z SIGNM * two (e - 127) == two e)%Q).
  { assert (SE : (inject_Z SIGNM == two 127)%Q) by (rewrite two_Z by lia; reflexivity). rewrite SE, <- two_plus. replace (127 + (e - 127)) with e by ring. reflexivity. }
  assert (S2 : (inject_Z (2 * SIGNM) * two (e - 127) == two (e + 1))%Q) by (rewrite Q2S, two_S, <- S1; ring).
  destruct (Qlt_le_dec (Qabs q) ((inject_Z (2 * SIGNM) - (1 # 2)) * two (e - 127))) as [D | D].
  - destruct (xfrom_ratio_near q (e - 127)) as [-> Kn]; [rewrite S1; auto | auto | unfold EXPC; lia |]. now apply returns_ok.
  - exfalso. apply C. exists (e - 127). rewrite S2. auto.
Qed.
Lemma two_nonneg k : (0 <= two k)%Q. Proof. apply Qlt_le_weak, two_pos. Qed.
Lemma xdiff_ok a b : xwf a -> xwf b -> Z.abs (xpow a) < K \/ xnull a = true -> Z.abs (xpow b) < K \/ xnull b = true ->
  ~ xcarry (xval a - xval b) -> returns (xfrom_ratio (rof (xval a - xval b))) (xnearest (xval a - xval b)).
Proof.
  intros Wa Wb Pa Pb C. destruct (xgrid a Wa Pa) as (y & Y1 & Y2), (xgrid b Wb Pb) as (z & Z1 & Z2).
  apply (xround_moderate _ (y - z)); auto.
  - revert Y1 Z1. generalize (two (- K)) (xval a) (xval b). intros t u v Y1 Z1. rewrite Y1, Z1. rewrite <- Z.add_opp_r, inject_Z_plus, inject_Z_opp. ring.
  - replace (K + 129) with (K + 128 + 1) by ring. rewrite two_S. pose proof (Qabs_triangle (xval a) (- xval b)) as T. rewrite Qabs_opp in T. unfold Qminus. lra.
Qed.
Lemma xsum_ok a b : xwf a -> xwf b -> Z.abs (xpow a) < K \/ xnull a = true -> Z.abs (xpow b) < K \/ xnull b = true ->
  ~ xcarry (xval a + xval b) -> returns (xfrom_ratio (rof (xval a + xval b))) (xnearest (xval a + xval b)).
Proof.
  intros Wa Wb Pa Pb C. destruct (xgrid a Wa Pa) as (y & Y1 & Y2), (xgrid b Wb Pb) as (z & Z1 & Z2).
  apply (xround_moderate _ (y + z)); auto.
  - revert Y1 Z1. generalize (two (- K)) (xval a) (xval b). intros t u v Y1 Z1. rewrite Y1, Z1. rewrite inject_Z_plus. ring.
  - replace (K + 129) with (K + 128 + 1) by ring. rewrite two_S. pose proof (Qabs_triangle (xval a) (xval b)). lra.
Qed.
End Moderate.
(** subtraction of operands of opposite signs *)
Lemma xsub_opp a b : xwf a -> xwf b -> xnull a = false -> xnull b = false -> xlowest a = false -> xlowest b = false ->
  xsign a <> xsign b -> xe a + 1 < 2 ^ 64 -> xe b + 1 < 2 ^ 64 -> returns (xsub a b) (xrounds_down (xval a - xval b)).
Proof.
  intros Wa Wb Na Nb La Lb S Pa Pb. unfold xsub, xsub_. rewrite !xis_neg_sign by auto.
  destruct (xnull_false_neg a Wa Na La) as (A1 & A2 & A3 & A4 & A5), (xnull_false_neg b Wb Nb Lb) as (B1 & B2 & B3 & B4 & B5).
  destruct (xsign a) eqn:Sa, (xsign b) eqn:Sb; cbn [negb Bool.eqb] in *; try congruence.
  - eapply returns_bind; [apply (xadd_same_rounds (fun _ _ => NoFuel) b (xneg a)); auto; congruence |]. intros c K. apply returns_ok.
    assert (V := xneg_ok a Wa La). assert (P1 : (0 < xval b)%Q).
    { pose proof (xmag_pos b Wb Nb). unfold xval. rewrite Sb. auto. }
    assert (P2 : (xval a < 0)%Q) by (apply xval_neg; auto).
    apply (xrounds_down_wd (- (xval b + xval (xneg a)))); [rewrite V; ring |]. apply xrounds_neg; auto.
    destruct (xlowest c) eqn:Lc; auto. exfalso. destruct K as (_ & _ & K & _). apply xlowest_val in Lc. rewrite V in K. nra.
  - eapply returns_weaken; [apply (xadd_same_rounds (fun _ _ => NoFuel) a (xneg b)); auto; congruence |]. intros c. apply xrounds_down_wd.
    rewrite xneg_ok by auto. ring.
Qed.
Lemma xsub_zero_r a : xwf a -> xlowest a = false -> xsub a xZERO = Ok a.
Proof.
  intros W L. destruct (xwf_cases a W) as [-> | (s & m & e & -> & Hm & He & N)]; [reflexivity |].
  unfold xsub, xsub_. change (xis_neg xZERO) with false. rewrite xneg_of by auto. change (xis_zero xZERO) with true. change (xneg xZERO) with xZERO.
  destruct s; cbn [negb Bool.eqb].
  - rewrite xneg_xof by auto. unfold xadd_. change (xis_neg xZERO) with false. rewrite xneg_of by auto. cbn [negb Bool.eqb]. change (xis_zero xZERO) with true. cbn [bind].
    now rewrite xneg_xof by (auto; apply (xneg_null true); auto).
  - rewrite xis_zero_null, N. reflexivity.
Qed.
Lemma xsub_zero_l a : xwf a -> xlowest a = false -> xsub xZERO a = Ok (xneg a).
Proof.
  intros W L. destruct (xwf_cases a W) as [-> | (s & m & e & -> & Hm & He & N)]; [reflexivity |].
  unfold xsub, xsub_. change (xis_neg xZERO) with false. rewrite xneg_of by auto. change (xis_zero xZERO) with true.
  destruct s; cbn [negb Bool.eqb]; [| reflexivity].
  rewrite xneg_xof by auto. unfold xadd_. change (xis_neg xZERO) with false. rewrite xneg_of by auto. cbn [negb Bool.eqb]. change (xis_zero xZERO) with true. reflexivity.
Qed.
