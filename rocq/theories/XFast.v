(** Evaluating sums and differences of F192 numbers of opposite signs without the detour over Ratio (proof infrastructure, not a model of code). *)
From Coq Require Import ZArith Lia Bool QArith Qabs Lqa.
From Verif Require Import Base FSpec RSpec REq RIeeeP XNum XSpec XP1 XP2.
Local Open Scope Z_scope.

Lemma rnd_half_unique y z : (0 <= y)%Q -> (inject_Z z - (1 # 2) <= y < inject_Z z + (1 # 2))%Q -> rnd_half y = z.
Proof.
  intros Y [H1 H2]. unfold rnd_half. destruct (Qlt_le_dec y (inject_Z z)) as [L | L].
  - destruct (Z_le_gt_dec z 0) as [Z0 | Z0]. { exfalso. assert (K : (inject_Z z <= inject_Z 0)%Q) by (rewrite <- Zle_Qle; lia). change (inject_Z 0) with 0%Q in K. lra. }
    assert (T : qtrunc y = z - 1). { apply qtrunc_unique; auto. rewrite <- Z.add_opp_r, inject_Z_plus. change (inject_Z (- (1))) with (- (1))%Q. split; lra. }
    rewrite T. destruct (qleb_qle (1 # 2) (y - inject_Z (z - 1))) as [G | G]; [ring |]. exfalso. apply G. rewrite <- Z.add_opp_r, inject_Z_plus. change (inject_Z (- (1))) with (- (1))%Q. lra.
  - assert (T : qtrunc y = z) by (apply qtrunc_unique; auto; split; lra). rewrite T. destruct (qleb_qle (1 # 2) (y - inject_Z z)) as [G | G]; [exfalso; lra | reflexivity].
Qed.

(** the number N * 2^g rounded to 128 bits the way [xfrom_ratio] does, carry bug included *)
Definition fround (N g : Z) : f192 :=
  if N =? 0 then xZERO else
  let k := Z.log2 (Z.abs N) in
  let M := if k <=? 127 then Z.abs N * 2 ^ (127 - k) else (Z.abs N + 2 ^ (k - 128)) / 2 ^ (k - 127) in
  mkX (Z.lor (M - SIGNM) (xbit (N <? 0))) (g + k - 127 + EXPC).

Lemma fround_ok N g : 0 <= g + Z.log2 (Z.abs N) - 127 + EXPC < 2 ^ 64 -> xfrom_ratio (rof (inject_Z N * two g)) = Ok (fround N g).
Proof.
  intros HE. unfold fround. destruct (Z.eqb_spec N 0) as [-> | N0]; [apply xfrom_ratio_zero; change (inject_Z 0) with 0%Q; ring |].
  set (A := Z.abs N) in *. assert (A0 : 0 < A) by lia. set (k := Z.log2 A) in *. pose proof (Z.log2_spec A A0) as [L1 L2]. fold k in L1, L2.
  assert (K0 : 0 <= k) by apply Z.log2_nonneg. set (E := g + k - 127).
  assert (Ab : (Qabs (inject_Z N * two g) == inject_Z A * two g)%Q). { rewrite Qabs_Qmult, (Qabs_pos (two g)) by apply two_nonneg. reflexivity. }
  assert (Y : (Qabs (inject_Z N * two g) * two (- E) == inject_Z A * two (127 - k))%Q). { rewrite Ab, <- Qmult_assoc, <- two_plus. replace (g + - E) with (127 - k) by (unfold E; ring). reflexivity. }
  assert (S1 : (inject_Z SIGNM == inject_Z (2 ^ k) * two (127 - k))%Q). { rewrite <- two_Z by lia. rewrite <- two_plus. replace (k + (127 - k)) with 127 by ring. reflexivity. }
  assert (S2 : (inject_Z (2 * SIGNM) == inject_Z (2 ^ Z.succ k) * two (127 - k))%Q). { rewrite <- two_Z by lia. rewrite <- two_plus. replace (Z.succ k + (127 - k)) with 128 by ring. reflexivity. }
  assert (Ly : (inject_Z SIGNM <= Qabs (inject_Z N * two g) * two (- E))%Q) by (rewrite Y, S1; apply tz_le; auto).
  rewrite (xfrom_ratio_ok _ E); [| exact Ly | rewrite Y, S2; apply tz_lt; auto | unfold E; lia].
  do 2 f_equal. f_equal.
  - f_equal. apply rnd_half_unique; [apply Qmult_le_0_compat; [apply Qabs_nonneg | apply two_nonneg] |]. rewrite Y. destruct (Z.leb_spec k 127).
    + assert (P : (inject_Z A * two (127 - k) == inject_Z (A * 2 ^ (127 - k)))%Q) by (rewrite two_Z by lia; rewrite <- inject_Z_mult; reflexivity). rewrite P. split; lra.
    + set (j := k - 127) in *. assert (Hj : 2 ^ j = 2 * 2 ^ (k - 128)). { replace j with (Z.succ (k - 128)) by (unfold j; lia). apply Z.pow_succ_r. lia. }
      set (h := 2 ^ (k - 128)) in *. assert (H0 : 0 < h) by (apply Z.pow_pos_nonneg; lia). set (M := (A + h) / 2 ^ j).
      pose proof (Z.div_mod (A + h) (2 ^ j) ltac:(lia)) as DM. pose proof (Z.mod_pos_bound (A + h) (2 ^ j) ltac:(lia)) as MB. fold M in DM.
      assert (Tj : (two (127 - k) == / inject_Z (2 ^ j))%Q). { replace (127 - k) with (- j) by (unfold j; ring). rewrite two_opp, two_Z by (unfold j; lia). reflexivity. }
      assert (Pj : (0 < inject_Z (2 ^ j))%Q) by (change 0%Q with (inject_Z 0); rewrite <- Zlt_Qlt; lia).
      assert (Q1 : (inject_Z A * two (127 - k) * inject_Z (2 ^ j) == inject_Z A)%Q) by (rewrite Tj; field; lra).
      assert (Hh : (inject_Z (2 ^ j) == 2 * inject_Z h)%Q) by (rewrite Hj, inject_Z_mult; reflexivity).
      split.
      * apply (Qmult_le_r _ _ _ Pj). rewrite Q1. assert (I : (inject_Z (M * 2 ^ j - h) <= inject_Z A)%Q) by (rewrite <- Zle_Qle; lia).
        rewrite <- Z.add_opp_r, inject_Z_plus, inject_Z_opp, inject_Z_mult in I. rewrite Hh in *. lra.
      * apply (Qmult_lt_r _ _ _ Pj). rewrite Q1. assert (I : (inject_Z A < inject_Z (M * 2 ^ j + h))%Q) by (rewrite <- Zlt_Qlt; lia).
        rewrite inject_Z_plus, inject_Z_mult in I. rewrite Hh in *. lra.
  - f_equal. pose proof (two_pos g). destruct (qltb_qlt (inject_Z N * two g) 0) as [G | G], (Z.ltb_spec N 0); auto.
    + exfalso. assert (K : (inject_Z 0 <= inject_Z N)%Q) by (rewrite <- Zle_Qle; lia). change (inject_Z 0) with 0%Q in K. nra.
    + exfalso. apply G. assert (K : (inject_Z N < inject_Z 0)%Q) by (rewrite <- Zlt_Qlt; lia). change (inject_Z 0) with 0%Q in K. nra.
Qed.

Definition fwf (a : f192) : bool := (0 <=? xd a) && (xd a <? 2 ^ 128) && (0 <=? xe a) && (xe a <? 2 ^ 64) && negb (xnull a) && (Z.abs (xpow a) <? 2 ^ 32).
Lemma fwf_ok a : fwf a = true -> xwf a /\ xnull a = false /\ Z.abs (xpow a) < 2 ^ 32.
Proof. unfold fwf, xwf. rewrite !andb_true_iff, negb_true_iff. intros (((((H1 & H2) & H3) & H4) & H5) & H6). repeat split; lia || auto. Qed.
Definition fint (a : f192) (g : Z) : Z := (if xsign a then -1 else 1) * (xsig a * 2 ^ (xpow a - g)).
Lemma fint_ok a g : xwf a -> xnull a = false -> g <= xpow a -> (xval a == inject_Z (fint a g) * two g)%Q.
Proof.
  intros W N G. unfold xval, fint, xmag. rewrite N. pose proof (tz_to (xsig a) (xpow a) g G) as T. revert T. generalize (two g) (two (xpow a)) (xsig a * 2 ^ (xpow a - g)). intros t u z T.
  destruct (xsign a); rewrite T; [rewrite (inject_Z_mult (-1)); change (inject_Z (-1)) with (- (1))%Q; ring | rewrite Z.mul_1_l; reflexivity].
Qed.
Definition fsum (a b : f192) (s : Z) : f192 := let g := Z.min (xpow a) (xpow b) in fround (fint a g + s * fint b g) g.
Lemma fsum_ok a b s : fwf a = true -> fwf b = true -> s = 1 \/ s = -1 -> xfrom_ratio (rof (xval a + inject_Z s * xval b)) = Ok (fsum a b s).
Proof.
  intros Fa Fb Hs. destruct (fwf_ok a Fa) as (Wa & Na & Pa), (fwf_ok b Fb) as (Wb & Nb & Pb). unfold fsum. set (g := Z.min (xpow a) (xpow b)).
  pose proof (fint_ok a g Wa Na ltac:(unfold g; lia)) as Ia. pose proof (fint_ok b g Wb Nb ltac:(unfold g; lia)) as Ib.
  assert (V : (xval a + inject_Z s * xval b == inject_Z (fint a g + s * fint b g) * two g)%Q). { rewrite Ia, Ib, inject_Z_plus, inject_Z_mult. ring. }
  rewrite (rof_qeq _ _ V). apply fround_ok. set (N := fint a g + s * fint b g).
  assert (Bd : forall x, xwf x -> g <= xpow x -> Z.abs (xpow x) < 2 ^ 32 -> Z.abs (fint x g) < 2 ^ (128 + (2 ^ 32 - g))).
  { intros x Wx Gx Px. unfold fint. destruct (xof_of x Wx) as (_ & [S1 S2] & _). pose proof SIGNM_val.
    assert (A : Z.abs ((if xsign x then -1 else 1) * (xsig x * 2 ^ (xpow x - g))) = xsig x * 2 ^ (xpow x - g)). { pose proof (Z.pow_nonneg 2 (xpow x - g) ltac:(lia)). destruct (xsign x); nia. }
    rewrite A. assert (C1 : 2 ^ (xpow x - g) <= 2 ^ (2 ^ 32 - g)) by (apply Z.pow_le_mono_r; lia). rewrite Z.pow_add_r by lia.
    assert (0 < 2 ^ (xpow x - g)) by (apply Z.pow_pos_nonneg; lia). assert (xsig x < 2 ^ 128) by (change (2 ^ 128) with (2 * SIGNM); lia). clear - H0 H1 C1 S1 H. nia. }
  assert (Ba := Bd a Wa ltac:(unfold g; lia) Pa). assert (Bb := Bd b Wb ltac:(unfold g; lia) Pb).
  assert (BN : Z.abs N < 2 ^ (129 + (2 ^ 32 - g))). { replace (129 + (2 ^ 32 - g)) with (Z.succ (128 + (2 ^ 32 - g))) by lia. rewrite Z.pow_succ_r by (unfold g; lia). unfold N. destruct Hs as [-> | ->]; lia. }
  assert (0 <= Z.log2 (Z.abs N)) by apply Z.log2_nonneg. assert (Z.log2 (Z.abs N) < 129 + (2 ^ 32 - g)).
  { destruct (Z.eq_dec N 0) as [E0 | E0]; [rewrite E0; cbn [Z.abs Z.log2]; unfold g; lia |]. apply Z.log2_lt_pow2; [lia | exact BN]. }
  unfold EXPC. unfold g in *. lia.
Qed.
(** equal to [xadd] and [xsub] on all arguments, and quick on closed ones *)
Definition fadd (a b : f192) : res f192 := if fwf a && fwf b && negb (Bool.eqb (xsign a) (xsign b)) then Ok (fsum a b 1) else xadd a b.
Definition fsub (a b : f192) : res f192 := if fwf a && fwf b && Bool.eqb (xsign a) (xsign b) then Ok (fsum a b (-1)) else xsub a b.
Lemma fwf_low a : fwf a = true -> xlowest a = false.
Proof. intros F. destruct (fwf_ok a F) as (W & N & P). destruct (xlowest a) eqn:L; auto. exfalso. revert L. unfold xlowest. rewrite andb_true_iff, !Z.eqb_eq. intros [_ E]. unfold xpow in P. rewrite E in P. lia. Qed.
Lemma fadd_eq a b : xadd a b = fadd a b.
Proof.
  unfold fadd. destruct (fwf a && fwf b && negb (Bool.eqb (xsign a) (xsign b))) eqn:C; auto. rewrite !andb_true_iff, negb_true_iff in C. destruct C as [[Fa Fb] S].
  destruct (fwf_ok a Fa) as (Wa & Na & Pa), (fwf_ok b Fb) as (Wb & Nb & Pb). rewrite xadd_opp; auto using fwf_low; [| now apply Bool.eqb_false_iff].
  rewrite <- (fsum_ok a b 1) by auto. f_equal. apply rof_qeq. change (inject_Z 1) with 1%Q. ring.
Qed.
Lemma fsub_eq a b : xsub a b = fsub a b.
Proof.
  unfold fsub. destruct (fwf a && fwf b && Bool.eqb (xsign a) (xsign b)) eqn:C; auto. rewrite !andb_true_iff in C. destruct C as [[Fa Fb] S].
  destruct (fwf_ok a Fa) as (Wa & Na & Pa), (fwf_ok b Fb) as (Wb & Nb & Pb). unfold xsub. rewrite xsub_same by (auto using Bool.eqb_prop).
  rewrite <- (fsum_ok a b (-1)) by auto. reflexivity.
Qed.
