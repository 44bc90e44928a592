(** Basic facts about F192 patterns: normal form, order of values, sign operations, shifts, neighbours. *)
From Coq Require Import ZArith QArith Qabs Lqa Lia Bool.
From Verif Require Import Base UBig BBig BSpec BEq RBig RSpec REq RIeee FSpec RIeeeP XNum XSpec.
Local Open Scope Z_scope.

(** ** scaled integers *)
Lemma tz_shift m e k : 0 <= k -> (inject_Z m * two (e + k) == inject_Z (m * 2 ^ k) * two e)%Q.
Proof. intros. rewrite two_plus, (two_Z k) by lia. rewrite inject_Z_mult. ring. Qed.
Lemma tz_to m e e0 : e0 <= e -> (inject_Z m * two e == inject_Z (m * 2 ^ (e - e0)) * two e0)%Q.
Proof. intros. replace e with (e0 + (e - e0)) at 1 by ring. apply tz_shift. lia. Qed.
Lemma tz_lt a b e : (inject_Z a * two e < inject_Z b * two e)%Q <-> a < b.
Proof.
  rewrite (Zlt_Qlt a b). split; intros.
  - apply (Qmult_lt_r _ _ (two e)); auto using two_pos.
  - apply Qmult_lt_r; auto using two_pos.
Qed.
Lemma tz_le a b e : (inject_Z a * two e <= inject_Z b * two e)%Q <-> a <= b.
Proof.
  rewrite (Zle_Qle a b). split; intros.
  - apply (Qmult_le_r _ _ (two e)); auto using two_pos.
  - apply Qmult_le_r; auto using two_pos.
Qed.
Lemma tz_eq a b e : (inject_Z a * two e == inject_Z b * two e)%Q <-> a = b.
Proof.
  split; [| intros ->; reflexivity]. intros H. apply Z.le_antisymm; apply tz_le with (e := e); rewrite H; apply Qle_refl.
Qed.
Lemma tz_pos a e : 0 < a -> (0 < inject_Z a * two e)%Q.
Proof. intros. apply Qmult_lt_0_compat; [| apply two_pos]. rewrite (Zlt_Qlt 0 a) in H. exact H. Qed.

(** comparison of normalised significands *)
Lemma norm_lt m1 e1 m2 e2 : 0 <= m1 < 2 ^ 128 -> 2 ^ 127 <= m2 -> e1 < e2 -> (inject_Z m1 * two e1 < inject_Z m2 * two e2)%Q.
Proof.
  intros H1 H2 He. rewrite (tz_to m2 e2 e1) by lia. apply tz_lt.
  assert (2 ^ 1 <= 2 ^ (e2 - e1)) by (apply Z.pow_le_mono_r; lia). change (2 ^ 1) with 2 in H.
  assert (2 ^ 127 * 2 <= m2 * 2 ^ (e2 - e1)) by (apply Z.mul_le_mono_nonneg; lia). lia.
Qed.

(** ** normal form *)
Definition xof (s : bool) (m e : Z) : f192 := mkX (if s then m else m - SIGNM) e.
Lemma SIGNM_val : SIGNM = 170141183460469231731687303715884105728. Proof. reflexivity. Qed.
Lemma P128 : 2 ^ 128 = 2 * SIGNM. Proof. reflexivity. Qed.
Definition sigr (m : Z) : Prop := SIGNM <= m < 2 * SIGNM.
Definition expr (e : Z) : Prop := 0 <= e < 2 ^ 64.

Lemma xnull_of s m e : sigr m -> xnull (xof s m e) = negb s && (m =? SIGNM) && (e =? 0).
Proof. unfold xnull, xof, sigr; cbn [xd xe]. pose proof SIGNM_val. destruct s; zb; cbn; auto; lia. Qed.
Lemma xlow_of (s : bool) m : sigr m -> xlow (if s then m else m - SIGNM) = m - SIGNM.
Proof.
  unfold xlow, sigr; intros. destruct s; [| apply Z.mod_small; lia].
  replace m with ((m - SIGNM) + 1 * SIGNM) at 1 by ring. rewrite Z.mod_add by (pose proof SIGNM_val; lia). apply Z.mod_small; lia.
Qed.
Lemma lor_sign_low d : 0 <= d < SIGNM -> Z.lor d SIGNM = d + SIGNM.
Proof.
  intros. rewrite Z.lor_comm. pose proof (lor_add F32 127 1 d ltac:(lia) H) as E. rewrite Z.mul_1_l in E. unfold SIGNM. rewrite E. ring.
Qed.
Lemma lor_sign_idem d : Z.lor (Z.lor d SIGNM) SIGNM = Z.lor d SIGNM.
Proof. now rewrite <- Z.lor_assoc, Z.lor_diag. Qed.
Lemma xhid_of (s : bool) m : sigr m -> xhid (if s then m else m - SIGNM) = m.
Proof.
  unfold sigr, xhid; intros. assert (E : Z.lor (m - SIGNM) SIGNM = m) by (rewrite lor_sign_low; lia).
  destruct s; auto. rewrite <- E at 1. rewrite lor_sign_idem. exact E.
Qed.
Lemma xhid_of' (s : bool) m : sigr m -> Z.lor SIGNM (if s then m else m - SIGNM) = m.
Proof. intros. rewrite Z.lor_comm. now apply xhid_of. Qed.
Lemma xdiv_of (s : bool) m : sigr m -> (if s then m else m - SIGNM) / SIGNM = if s then 1 else 0.
Proof.
  unfold sigr; intros. destruct s; [| apply Z.div_small; lia].
  symmetry. apply (Z.div_unique _ _ 1 (m - SIGNM)); [left; lia | ring].
Qed.
Lemma xneg_of s m e : sigr m -> xis_neg (xof s m e) = s.
Proof. intros. unfold xis_neg, xof. cbn [xd]. change (2 ^ 127) with SIGNM. rewrite xdiv_of by auto. destruct s; reflexivity. Qed.
Lemma xtop_of (s : bool) m : sigr m -> xtop (if s then m else m - SIGNM) = xbit s.
Proof. intros. unfold xtop. rewrite xdiv_of by auto. destruct s; reflexivity. Qed.
Lemma xis_zero_null a : xis_zero a = xnull a. Proof. unfold xis_zero, xnull. apply andb_comm. Qed.
Lemma lor_bit (s : bool) m : sigr m -> Z.lor (m - SIGNM) (xbit s) = if s then m else m - SIGNM.
Proof. intros [H1 H2]. destruct s; cbn [xbit]; [rewrite lor_sign_low; lia | apply Z.lor_0_r]. Qed.
Lemma xlow_sig m : sigr m -> xlow m = m - SIGNM. Proof. intros. apply (xlow_of true); auto. Qed.
(** packing a significand with a sign, as the arithmetic functions do *)
Lemma pack s m e : sigr m -> mkX (Z.lor (xlow m) (xbit s)) e = xof s m e.
Proof. intros. rewrite xlow_sig, lor_bit by auto. reflexivity. Qed.
Lemma lxor_sign (s : bool) m : sigr m -> Z.lxor (if s then m else m - SIGNM) SIGNM = if negb s then m else m - SIGNM.
Proof.
  intros [H1 H2].
  assert (A : Z.lxor (m - SIGNM) SIGNM = m).
  { rewrite <- Z.add_nocarry_lxor; [lia |]. apply Z.bits_inj'. intros i Hi. rewrite Z.bits_0, Z.land_spec.
    destruct (Z.eq_dec i 127) as [-> |].
    - replace (Z.testbit (m - SIGNM) 127) with false; [reflexivity |]. symmetry.
      rewrite Z.testbit_false by lia. change (2 ^ 127) with SIGNM. rewrite Z.div_small by lia. reflexivity.
    - unfold SIGNM at 2. rewrite Z.pow2_bits_false by lia. apply andb_false_r. }
  destruct s; cbn [negb]; auto. rewrite <- A at 1. rewrite Z.lxor_assoc, Z.lxor_nilpotent, Z.lxor_0_r. reflexivity.
Qed.
Lemma lxor_of (s t : bool) m n : sigr m -> sigr n ->
  Z.land (Z.lxor (if s then m else m - SIGNM) (if t then n else n - SIGNM)) SIGNM = xbit (xorb s t).
Proof.
  intros Hm Hn. apply Z.bits_inj'. intros i Hi. rewrite Z.land_spec, Z.lxor_spec.
  assert (T : forall (s : bool) (m : Z), sigr m -> Z.testbit (if s then m else m - SIGNM) 127 = s).
  { intros u k Hk. pose proof (xdiv_of u k Hk) as E. destruct u.
    - rewrite Z.testbit_true by lia. change (2 ^ 127) with SIGNM. rewrite E. reflexivity.
    - rewrite Z.testbit_false by lia. change (2 ^ 127) with SIGNM. rewrite E. reflexivity. }
  destruct (Z.eq_dec i 127) as [-> |].
  - rewrite !T by auto. unfold SIGNM at 1. rewrite Z.pow2_bits_true by lia. destruct s, t; reflexivity.
  - unfold SIGNM at 3. rewrite Z.pow2_bits_false by lia. rewrite andb_false_r. destruct (xorb s t); cbn [xbit]; [| now rewrite Z.bits_0].
    unfold SIGNM. now rewrite Z.pow2_bits_false by lia.
Qed.

Lemma xof_wf s m e : sigr m -> expr e -> xwf (xof s m e).
Proof. unfold xwf, xof, sigr, expr; cbn [xd xe]. rewrite P128. pose proof SIGNM_val. destruct s; intros; lia. Qed.
Lemma xof_of a : xwf a -> a = xof (xsign a) (xsig a) (xe a) /\ sigr (xsig a) /\ expr (xe a).
Proof.
  intros [H1 H2]. rewrite P128 in H1. unfold sigr, expr. assert (P : 0 < SIGNM) by reflexivity.
  assert (Hm := Z.mod_pos_bound (xd a) SIGNM P). unfold xsig; change (2 ^ 127) with SIGNM.
  splits; try lia. destruct a as [d e]; cbn [xd xe] in *. unfold xof, xsign. cbn [xd]. change (2 ^ 127) with SIGNM. f_equal.
  destruct (Z.leb_spec SIGNM d).
  - assert (E : d mod SIGNM = d - SIGNM).
    { symmetry. apply (Z.mod_unique _ _ 1); [left; lia | ring]. } lia.
  - rewrite Z.mod_small by lia. ring.
Qed.
Lemma xsign_of s m e : sigr m -> xsign (xof s m e) = s.
Proof. unfold xsign, xof, sigr; cbn [xd]. change (2 ^ 127) with SIGNM. destruct s; zb; auto; lia. Qed.
Lemma xsig_of s m e : sigr m -> xsig (xof s m e) = m.
Proof. intros. unfold xsig, xof. cbn [xd]. change (2 ^ 127) with SIGNM at 1. pose proof (xlow_of s m H) as E. unfold xlow in E. unfold SIGNM in *. lia. Qed.
Lemma xis_neg_sign a : xwf a -> xis_neg a = xsign a.
Proof. intros W. destruct (xof_of a W) as (E & S & _). rewrite E, xneg_of, xsign_of; auto. Qed.

(** magnitude of a non-null pattern *)
Definition xq (m e : Z) : Q := (inject_Z m * two (e - EXPC))%Q.
Lemma xmag_of s m e : sigr m -> xnull (xof s m e) = false -> xmag (xof s m e) = xq m e.
Proof. intros Hm N. unfold xmag. rewrite N, xsig_of by auto. reflexivity. Qed.
Definition sg (s : bool) (q : Q) : Q := if s then (- q)%Q else q.
Lemma xval_of s m e : sigr m -> xnull (xof s m e) = false -> xval (xof s m e) = sg s (xq m e).
Proof. intros Hm N. unfold xval. rewrite xsign_of, xmag_of by auto. reflexivity. Qed.
Lemma xnull_zero a : xnull a = true -> a = xZERO.
Proof. unfold xnull, xZERO. destruct a; cbn. intros. f_equal; lia. Qed.
Lemma xval_zero : xval xZERO = 0%Q. Proof. reflexivity. Qed.
Lemma xwf_zero : xwf xZERO. Proof. split; cbn; lia. Qed.
Lemma xq_pos m e : sigr m -> (0 < xq m e)%Q.
Proof. intros [H _]. apply tz_pos. pose proof SIGNM_val. lia. Qed.
Lemma xmag_nonneg a : xwf a -> (0 <= xmag a)%Q.
Proof.
  intros W. destruct (xof_of a W) as (E & S & _). unfold xmag. destruct (xnull a); [apply Qle_refl |].
  apply Qlt_le_weak. apply (xq_pos (xsig a) (xe a)); auto.
Qed.
Lemma xabs_val a : xwf a -> (Qabs (xval a) == xmag a)%Q.
Proof.
  intros W. unfold xval. pose proof (xmag_nonneg a W). destruct (xsign a); [rewrite Qabs_opp |]; apply Qabs_pos; auto.
Qed.
(** index of a pattern: magnitudes are ordered like it *)
Definition xidx (a : f192) : Z := xe a * SIGNM + xd a mod SIGNM.
Lemma xmag_cmp a b : xwf a -> xwf b -> xnull a = false -> xnull b = false -> ((xmag a < xmag b)%Q <-> xidx a < xidx b).
Proof.
  intros Wa Wb Na Nb.
  assert (K : forall a b, xwf a -> xwf b -> xnull a = false -> xnull b = false -> xidx a < xidx b -> (xmag a < xmag b)%Q).
  { clear. intros a b Wa Wb Na Nb H. destruct (xof_of a Wa) as (Ea & [Sa1 Sa2] & Xa). destruct (xof_of b Wb) as (Eb & [Sb1 Sb2] & Xb).
    unfold xmag. rewrite Na, Nb. unfold xidx in H. unfold xsig in *. change (2 ^ 127) with SIGNM in *.
    destruct (Z.lt_trichotomy (xe a) (xe b)) as [L | [L | L]].
    - apply norm_lt; unfold xpow; rewrite ?P128; change (2 ^ 127) with SIGNM; pose proof SIGNM_val; lia.
    - unfold xpow. rewrite L in *. apply tz_lt. lia.
    - exfalso. pose proof SIGNM_val. nia. }
  split; [| apply K; auto]. intros L. destruct (Z.lt_trichotomy (xidx a) (xidx b)) as [H | [H | H]]; auto; exfalso.
  - assert (xe a = xe b /\ xd a mod SIGNM = xd b mod SIGNM) as [E1 E2].
    { pose proof (Z.mod_pos_bound (xd a) SIGNM eq_refl). pose proof (Z.mod_pos_bound (xd b) SIGNM eq_refl). unfold xidx in H.
      pose proof SIGNM_val. assert (xe a = xe b) by nia. lia. }
    revert L. unfold xmag. rewrite Na, Nb. unfold xsig, xpow. change (2 ^ 127) with SIGNM. rewrite E1, E2. apply Qlt_irrefl.
  - apply (Qlt_irrefl (xmag a)). apply Qlt_trans with (xmag b); auto.
Qed.
Lemma xidx_null a : xwf a -> xnull a = false -> 0 <= xidx a.
Proof. intros [H1 H2] _. unfold xidx. pose proof (Z.mod_pos_bound (xd a) SIGNM eq_refl). pose proof SIGNM_val. nia. Qed.
Lemma xnull_sign a : xnull a = true -> xsign a = false. Proof. intros H. rewrite (xnull_zero a H). reflexivity. Qed.
Lemma xmag_pos a : xwf a -> xnull a = false -> (0 < xmag a)%Q.
Proof. intros W N. unfold xmag. rewrite N. destruct (xof_of a W) as (_ & S & _). apply (xq_pos (xsig a) (xe a)); auto. Qed.
Lemma xmag_null a : xnull a = true -> xmag a = 0%Q. Proof. unfold xmag. now intros ->. Qed.
Lemma lex_idx a b : xwf a -> xwf b -> xsign a = xsign b ->
  match (xe a ?= xe b) with Eq => (xd a ?= xd b) | c => c end = (xidx a ?= xidx b).
Proof.
  intros Wa Wb S. destruct (xof_of a Wa) as (Ea & [Sa1 Sa2] & Xa). destruct (xof_of b Wb) as (Eb & [Sb1 Sb2] & Xb).
  unfold xidx. unfold xsig in *. change (2 ^ 127) with SIGNM in *. pose proof SIGNM_val.
  assert (D : xd a - xd b = xd a mod SIGNM - xd b mod SIGNM).
  { apply (f_equal xd) in Ea, Eb. rewrite Ea at 1. rewrite Eb at 1. unfold xof. cbn [xd]. rewrite S. destruct (xsign b); ring. }
  destruct (Z.compare_spec (xe a) (xe b)) as [E | L | L].
  - rewrite E. destruct (Z.compare_spec (xd a) (xd b)); symmetry; [apply Z.compare_eq_iff | apply Z.compare_lt_iff | apply Z.compare_gt_iff]; lia.
  - symmetry. apply Z.compare_lt_iff. nia.
  - symmetry. apply Z.compare_gt_iff. nia.
Qed.
Lemma xidx_pos a : xwf a -> xsign a = false -> xnull a = false -> 0 < xidx a.
Proof.
  intros [H1 H2] S N. unfold xidx, xnull, xsign in *. change (2 ^ 127) with SIGNM in *. apply Z.leb_gt in S. rewrite Z.mod_small by lia.
  pose proof SIGNM_val. apply andb_false_iff in N. destruct N as [N | N]; apply Z.eqb_neq in N; nia.
Qed.
Lemma xidx_zero a : xnull a = true -> xidx a = 0. Proof. intros H. rewrite (xnull_zero a H). reflexivity. Qed.
Lemma xmag_idx a b : xwf a -> xwf b -> xsign a = xsign b -> (xmag a ?= xmag b)%Q = (xidx a ?= xidx b).
Proof.
  intros Wa Wb S.
  assert (K : forall a b, xwf a -> xwf b -> xsign a = xsign b -> xidx a < xidx b -> (xmag a < xmag b)%Q).
  { clear. intros a b Wa Wb S H. destruct (xnull a) eqn:Na, (xnull b) eqn:Nb.
    - rewrite (xidx_zero a Na), (xidx_zero b Nb) in H. lia.
    - rewrite (xmag_null a Na). apply xmag_pos; auto.
    - rewrite (xidx_zero b Nb) in H. pose proof (xidx_null a Wa Na). lia.
    - apply xmag_cmp; auto. }
  destruct (Z.compare_spec (xidx a) (xidx b)) as [E | L | L].
  - apply Qeq_alt. 
    assert (xe a = xe b /\ xd a mod SIGNM = xd b mod SIGNM) as [E1 E2].
    { pose proof (Z.mod_pos_bound (xd a) SIGNM eq_refl). pose proof (Z.mod_pos_bound (xd b) SIGNM eq_refl). unfold xidx in E.
      pose proof SIGNM_val. assert (xe a = xe b) by nia. lia. }
    destruct (xof_of a Wa) as (Ea & Ra & _), (xof_of b Wb) as (Eb & Rb & _).
    assert (a = b) as ->; [| reflexivity]. rewrite Ea, Eb. unfold xsig. change (2 ^ 127) with SIGNM. now rewrite E1, E2, S.
  - apply (proj1 (Qlt_alt _ _)). apply K; auto.
  - apply (proj1 (Qgt_alt _ _)). apply K; auto.
Qed.
Lemma Qcompare_opp x y : ((- x) ?= (- y))%Q = (y ?= x)%Q.
Proof.
  destruct (Qcompare_spec y x) as [E | L | L].
  - apply Qeq_alt. lra.
  - apply (proj1 (Qlt_alt _ _)). lra.
  - apply (proj1 (Qgt_alt _ _)). lra.
Qed.
Lemma xval_neg a : xwf a -> xsign a = true -> (xval a < 0)%Q.
Proof.
  intros W S. destruct (xnull a) eqn:N; [rewrite (xnull_sign a N) in S; discriminate |].
  unfold xval. rewrite S. pose proof (xmag_pos a W N). lra.
Qed.
Lemma xval_pos a : xwf a -> xsign a = false -> (0 <= xval a)%Q.
Proof. intros W S. unfold xval. rewrite S. now apply xmag_nonneg. Qed.
Lemma xcmp_ok a b : xwf a -> xwf b -> xcmp a b = (xval a ?= xval b)%Q.
Proof.
  intros Wa Wb. unfold xcmp. rewrite !xis_neg_sign by auto.
  destruct (xsign a) eqn:Sa, (xsign b) eqn:Sb; cbn [Bool.eqb negb].
  - unfold xval. rewrite Sa, Sb, Qcompare_opp, xmag_idx by congruence. rewrite <- lex_idx by congruence.
    rewrite (Z.compare_antisym (xe a)), (Z.compare_antisym (xd a)).
    destruct (xe a ?= xe b); cbn; auto; destruct (xd a ?= xd b); reflexivity.
  - symmetry. apply (proj1 (Qlt_alt _ _)). pose proof (xval_neg a Wa Sa). pose proof (xval_pos b Wb Sb). lra.
  - symmetry. apply (proj1 (Qgt_alt _ _)). pose proof (xval_neg b Wb Sb). pose proof (xval_pos a Wa Sa). lra.
  - unfold xval. rewrite Sa, Sb, xmag_idx by congruence. rewrite <- lex_idx by congruence.
    destruct (xe a ?= xe b); cbn; auto; destruct (xd a ?= xd b); reflexivity.
Qed.
Lemma xval_inj a b : xwf a -> xwf b -> (xval a == xval b)%Q -> a = b.
Proof.
  intros Wa Wb E. pose proof (xcmp_ok a b Wa Wb) as C. rewrite (proj1 (Qeq_alt _ _) E) in C.
  unfold xcmp in C. rewrite !xis_neg_sign in C by auto.
  destruct (xsign a) eqn:Sa, (xsign b) eqn:Sb; cbn [Bool.eqb negb] in C; try discriminate;
  (destruct (Z.compare_spec (xe a) (xe b)); try discriminate; destruct (Z.compare_spec (xd a) (xd b)); try discriminate;
   destruct a, b; cbn in *; congruence).
Qed.
Lemma xeq_ok a b : xwf a -> xwf b -> xeq a b = true <-> (xval a == xval b)%Q.
Proof.
  intros Wa Wb. split.
  - unfold xeq. intros H. assert (a = b) as ->; [| reflexivity]. destruct a, b; cbn in H. f_equal; lia.
  - intros H. rewrite (xval_inj a b Wa Wb H). unfold xeq. now rewrite !Z.eqb_refl.
Qed.
Lemma xlt_ok a b : xwf a -> xwf b -> xlt a b = true <-> (xval a < xval b)%Q.
Proof. intros. unfold xlt. rewrite xcmp_ok by auto. rewrite Qlt_alt. destruct (xval a ?= xval b)%Q; split; congruence. Qed.
Lemma xgt_ok a b : xwf a -> xwf b -> xgt a b = true <-> (xval b < xval a)%Q.
Proof. intros. unfold xgt. rewrite xcmp_ok by auto. rewrite Qgt_alt. destruct (xval a ?= xval b)%Q; split; congruence. Qed.
Lemma xle_ok a b : xwf a -> xwf b -> xle a b = true <-> (xval a <= xval b)%Q.
Proof. intros. unfold xle. rewrite negb_true_iff, <- not_true_iff_false, xgt_ok by auto. split; intros; lra. Qed.
Lemma xge_ok a b : xwf a -> xwf b -> xge a b = true <-> (xval b <= xval a)%Q.
Proof. intros. unfold xge. rewrite negb_true_iff, <- not_true_iff_false, xlt_ok by auto. split; intros; lra. Qed.

(** ** sign operations; the pattern (SIGNM, 0) has no counterpart of the other sign *)
Definition xlowest (a : f192) : bool := (xd a =? SIGNM) && (xe a =? 0).
Lemma xwf_cases a : xwf a -> a = xZERO \/ exists s m e, a = xof s m e /\ sigr m /\ expr e /\ xnull (xof s m e) = false.
Proof.
  intros W. destruct (xnull a) eqn:N; [left; now apply xnull_zero | right].
  destruct (xof_of a W) as (E & S & X). exists (xsign a), (xsig a), (xe a). splits; auto. now rewrite <- E.
Qed.
Lemma xneg_xof s m e : sigr m -> xnull (xof s m e) = false -> xneg (xof s m e) = xof (negb s) m e.
Proof. intros Hm N. unfold xneg. rewrite xis_zero_null, N. unfold xof. cbn [xd xe]. now rewrite lxor_sign. Qed.
Lemma xneg_zero : xneg xZERO = xZERO. Proof. reflexivity. Qed.
Lemma xabs_xof s m e : sigr m -> xabs (xof s m e) = xof false m e.
Proof. intros Hm. unfold xabs, xof. cbn [xd xe]. now rewrite xlow_of. Qed.
Lemma xneg_wf a : xwf a -> xwf (xneg a).
Proof. intros W. destruct (xwf_cases a W) as [-> | (s & m & e & -> & Hm & He & N)]; [exact W |]. rewrite xneg_xof by auto. apply xof_wf; auto. Qed.
Lemma xabs_wf a : xwf a -> xwf (xabs a).
Proof. intros W. destruct (xwf_cases a W) as [-> | (s & m & e & -> & Hm & He & N)]; [exact W |]. rewrite xabs_xof by auto. apply xof_wf; auto. Qed.
Lemma xneg_ok a : xwf a -> xlowest a = false -> (xval (xneg a) == - xval a)%Q.
Proof.
  intros W L. destruct (xwf_cases a W) as [-> | (s & m & e & -> & Hm & He & N)]; [reflexivity |].
  rewrite xneg_xof by auto. rewrite !xval_of; auto.
  - unfold sg. destruct s; cbn [negb]; ring.
  - rewrite xnull_of by auto. unfold xlowest, xof in L. cbn [xd xe] in L. destruct s; cbn [negb] in *; auto.
Qed.
Lemma xabs_ok a : xwf a -> xlowest a = false -> (xval (xabs a) == Qabs (xval a))%Q.
Proof.
  intros W L. destruct (xwf_cases a W) as [-> | (s & m & e & -> & Hm & He & N)]; [reflexivity |].
  rewrite xabs_xof by auto. rewrite xabs_val by (apply xof_wf; auto). rewrite !xval_of, xmag_of; auto.
  - reflexivity.
  - rewrite xnull_of by auto. unfold xlowest, xof in L. cbn [xd xe] in L. destruct s; cbn [negb] in *; auto. now rewrite xnull_of in N.
Qed.
Lemma xlowest_neg : xneg (mkX SIGNM 0) = xZERO /\ xabs (mkX SIGNM 0) = xZERO. Proof. split; reflexivity. Qed.

(** ** shifts *)
Lemma xq_shift m e k : (xq m (e + k) == xq m e * two k)%Q.
Proof. unfold xq. replace (e + k - EXPC) with ((e - EXPC) + k) by ring. rewrite two_plus. ring. Qed.
Lemma sg_mult s q x : (sg s (q * x) == sg s q * x)%Q. Proof. unfold sg. destruct s; ring. Qed.
Lemma sg_eq s p q : (p == q)%Q -> (sg s p == sg s q)%Q. Proof. unfold sg. destruct s; intros ->; reflexivity. Qed.
Lemma xshl_ok a n : xwf a -> 0 <= n -> xe a + n < 2 ^ 64 -> returns (xshl a n) (fun c => xwf c /\ (xval c == xval a * two n)%Q).
Proof.
  intros W Hn H. unfold xshl. destruct (xwf_cases a W) as [-> | (s & m & e & -> & Hm & He & N)].
  - apply returns_ok. split; [exact W |]. cbn. ring.
  - rewrite xis_zero_null, N. cbn [xof xe] in H. unfold xof at 1; cbn [xe]. rewrite addw_ok by lia. cbn [bind].
    apply returns_ok. change (mkX _ _) with (xof s m (e + n)).
    assert (N' : xnull (xof s m (e + n)) = false).
    { rewrite xnull_of in * by auto. unfold expr in *. destruct (negb s && (m =? SIGNM)); cbn in *; auto. lia. }
    split; [apply xof_wf; unfold expr in *; auto; lia |]. rewrite !xval_of by auto. rewrite (sg_eq s _ _ (xq_shift m e n)). apply sg_mult.
Qed.
Lemma xshr_ok a n : xwf a -> 0 <= n < xe a -> returns (xshr a n) (fun c => xwf c /\ (xval c == xval a * two (- n))%Q).
Proof.
  intros W Hn. unfold xshr. destruct (xwf_cases a W) as [-> | (s & m & e & -> & Hm & He & N)].
  - cbn in Hn. lia.
  - rewrite xis_zero_null, N. cbn [xof xe] in Hn. unfold xof at 1; cbn [xe].
    destruct (Z.ltb_spec e n); [lia |]. cbn [orb]. unfold xof at 1; cbn [xe]. rewrite subw_ok by lia. cbn [bind].
    apply returns_ok. change (mkX _ _) with (xof s m (e - n)).
    assert (N' : xnull (xof s m (e - n)) = false).
    { rewrite xnull_of by auto. destruct (negb s && (m =? SIGNM)); cbn; auto. lia. }
    split; [apply xof_wf; unfold expr in *; auto; lia |]. rewrite !xval_of by auto. replace (e - n) with (e + - n) by ring.
    rewrite (sg_eq s _ _ (xq_shift m e (- n))). apply sg_mult.
Qed.
Lemma xshr_zero n : 0 <= n -> xshr xZERO n = Ok xZERO.
Proof. intros. unfold xshr. cbn [xe xZERO]. rewrite orb_true_r. reflexivity. Qed.
Lemma xshr_under a n : xe a < n -> xshr a n = Ok xZERO.
Proof. intros. unfold xshr. destruct (Z.ltb_spec (xe a) n); [reflexivity | lia]. Qed.

(** ** neighbours *)
Lemma xidx_of s m e : sigr m -> xidx (xof s m e) = e * SIGNM + (m - SIGNM).
Proof. intros. unfold xidx, xof. cbn [xd xe]. fold (xlow (if s then m else m - SIGNM)). now rewrite xlow_of. Qed.
Lemma xstep_ok a : xwf a -> ~ (xd a mod SIGNM = SIGNM - 1 /\ xe a = 2 ^ 64 - 1) ->
  returns (xstep a) (fun c => xwf c /\ xsign c = xsign a /\ xidx c = xidx a + 1).
Proof.
  intros W H. destruct (xof_of a W) as (E & S & X). revert H. rewrite E. generalize (xsign a) (xsig a) (xe a) S X. clear.
  intros s m e S X H. rewrite !xsign_of, xidx_of by auto. unfold xstep. cbn [xof xd xe] in *. rewrite xlow_of by auto.
  fold (xlow (if s then m else m - SIGNM)) in H. rewrite xlow_of in H by auto. pose proof SIGNM_val. unfold sigr, expr in *.
  destruct (Z.eqb_spec (m - SIGNM) (SIGNM - 1)).
  - rewrite addw_ok by lia. cbn [bind]. apply returns_ok.
    assert (Z.land (if s then m else m - SIGNM) SIGNM = xbit s) as ->.
    { pose proof (lxor_of s false m SIGNM ltac:(unfold sigr; lia) ltac:(unfold sigr; lia)) as K. cbv iota in K.
      rewrite Z.sub_diag, Z.lxor_0_r, xorb_false_r in K. exact K. }
    assert (mkX (xbit s) (e + 1) = xof s SIGNM (e + 1)) as -> by (unfold xof, xbit; destruct s; f_equal; lia).
    assert (R : sigr SIGNM) by (unfold sigr; lia).
    splits; [apply xof_wf; unfold expr; auto; lia | now apply xsign_of | rewrite xidx_of by auto; lia].
  - rewrite addw_ok by (rewrite P128; destruct s; lia). cbn [bind]. apply returns_ok.
    assert (mkX ((if s then m else m - SIGNM) + 1) e = xof s (m + 1) e) as -> by (unfold xof; destruct s; f_equal; ring).
    assert (R : sigr (m + 1)) by (unfold sigr; lia).
    splits; [apply xof_wf; unfold expr; auto; lia | now apply xsign_of | rewrite xidx_of by auto; lia].
Qed.
Lemma xstep_top a : xd a mod SIGNM = SIGNM - 1 -> xe a = 2 ^ 64 - 1 -> xstep a = Panic.
Proof. intros H1 H2. unfold xstep, xlow. rewrite H1, H2, Z.eqb_refl. reflexivity. Qed.
