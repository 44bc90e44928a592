(** F192: division, the whole theorem. *)
From Coq Require Import ZArith QArith Qabs Lqa Lia Bool List.
From Verif Require Import Base UBig UStr USpec UAddSub UEq BBig BSpec BEq RBig RSpec REq RIeee FSpec RIeeeP XNum XSpec XP1 XP2 XP3 XP4 XP5.
Local Open Scope Z_scope.

Lemma F_pos n f i : sigr n -> (0 < F n f i)%Q.
Proof. intros Hn. unfold F. apply tz_pos. destruct (pdig_bounds _ n (X_sig i) Hn) as [PB _]. lia. Qed.
Lemma F_ex n f i : sigr n -> (F n f i <= V i * xq n f)%Q /\ (V i * xq n f < F n f i * (1 + two (- 125)))%Q.
Proof. intros. apply F_exact; auto; exact 0. Qed.
Lemma V_le i k : inr_ i -> inr_ k -> (V i <= V k)%Q -> i <= k.
Proof. intros Hi Hk H. destruct (Z_le_gt_dec i k); auto. assert ((V k < V i)%Q) by (apply V_lt; auto; lia). lra. Qed.

Lemma xdiv_main a b : xwf a -> xwf b -> xnull a = false -> xnull b = false -> Z.abs (xpow a) < 2 ^ 36 -> Z.abs (xpow b) < 2 ^ 36 ->
  returns (xdiv a b) (fun c => xwf c /\ xnull c = false /\ xsign c = xorb (xsign a) (xsign b) /\
    (Qabs (xval a / xval b) <= Qabs (xval c))%Q /\ (Qabs (xval c) < Qabs (xval a / xval b) + 9 * xulp c)%Q /\ xleast (xabs a) (xabs b) (xabs c)).
Proof.
  intros Wa Wb Na Nb Pa Pb. destruct (xof_of a Wa) as (Ea & Hm & He). destruct (xof_of b Wb) as (Eb & Hn & Hf).
  set (s1 := xsign a) in *. set (m := xsig a) in *. set (s2 := xsign b) in *. set (n := xsig b) in *. unfold xpow in Pa, Pb. change (2 ^ 48) with EXPC in *.
  set (e := xe a) in *. set (f := xe b) in *. clearbody s1 s2 m n e f. rewrite Ea in Na. rewrite Eb in Nb. subst a b.
  destruct (xdiv_core s1 m e s2 n f Hm Hn He Hf Pa Pb) as (t & -> & It & It1 & F1 & F2 & E1 & E2 & E3). eexists; split; [reflexivity |].
  assert (E3' : 1 < (t + 1) / SIGNM) by (pose proof (Z.div_le_mono t (t + 1) SIGNM PSM ltac:(lia)); lia).
  assert (Nt : forall u, xnull (xof u (SIGNM + (t + 1) mod SIGNM) ((t + 1) / SIGNM)) = false) by (intros; apply xnull_pos; [apply X_sig | lia]).
  assert (R : (if xorb s1 s2 then xneg (X (t + 1)) else X (t + 1)) = xof (xorb s1 s2) (SIGNM + (t + 1) mod SIGNM) ((t + 1) / SIGNM)).
  { unfold X. rewrite xneg_xof; [| apply X_sig | apply Nt]. destruct (xorb s1 s2); reflexivity. }
  rewrite R. clear R. assert (Sg := X_sig (t + 1)). assert (Sx := X_exp _ It1).
  assert (Po := xq_pos n f Hn). assert (Ps := xq_pos m e Hm). assert (Pt := V_pos (t + 1)).
  assert (Aq : (Qabs (sg s1 (xq m e) / sg s2 (xq n f)) == xq m e / xq n f)%Q).
  { assert (Pd : (0 < xq m e / xq n f)%Q) by (apply Qlt_shift_div_l; auto; lra).
    assert (Hd : (sg s1 (xq m e) / sg s2 (xq n f) == xq m e / xq n f \/ sg s1 (xq m e) / sg s2 (xq n f) == - (xq m e / xq n f))%Q) by (unfold sg; destruct s1, s2; [left | right | right | left]; field; lra).
    destruct Hd as [-> | ->]; [| rewrite Qabs_opp]; apply Qabs_pos; lra. }
  assert (Ac : forall u, (Qabs (sg u (V (t + 1))) == V (t + 1))%Q) by (intros u; unfold sg; destruct u; [rewrite Qabs_opp |]; apply Qabs_pos; lra).
  split; [now apply xof_wf |]. split; [apply Nt |]. split; [rewrite !xsign_of by auto; reflexivity |].
  rewrite !xval_of by auto. fold (V (t + 1)). rewrite Aq, Ac.
  destruct (F_ex n f t Hn) as [_ Ft]. destruct (F_ex n f (t + 1) Hn) as [Ft1 _].
  split; [apply Qle_shift_div_r; auto; lra |]. split.
  - (* 9 ulp *)
    unfold xulp, xpow. cbn [xof xe]. change (2 ^ 48) with EXPC.
    assert (Lq : (xq m e / xq n f <= V (t + 1))%Q) by (apply Qle_shift_div_r; auto; lra).
    assert (Lt : (V t < xq m e / xq n f * (1 + two (- 125)))%Q).
    { apply Qmult_lt_r with (xq n f); auto. setoid_replace (xq m e / xq n f * (1 + two (- 125)) * xq n f)%Q with (xq m e * (1 + two (- 125)))%Q by (field; lra).
      eapply Qlt_le_trans; [exact Ft |]. apply Qlt_le_weak, Qmult_lt_r; auto. reflexivity. }
    set (q := (xq m e / xq n f)%Q) in *. rewrite V_step in *. assert (Tm : (two (t / SIGNM - EXPC) <= two ((t + 1) / SIGNM - EXPC))%Q) by (apply two_le; pose proof (Z.div_le_mono t (t + 1) SIGNM PSM ltac:(lia)); lia).
    assert (Vu : (V (t + 1) < inject_Z (2 ^ 128) * two ((t + 1) / SIGNM - EXPC))%Q) by (unfold V, xq; apply tz_lt; rewrite P128; apply Sg). rewrite V_step in Vu.
    set (u := two ((t + 1) / SIGNM - EXPC)) in *. set (v := two (t / SIGNM - EXPC)) in *. assert (Tc : (inject_Z (2 ^ 128) * two (- 125) == 8)%Q) by reflexivity. assert (0 < two (- 125))%Q by apply two_pos.
    set (d := two (- 125)) in *. set (w := inject_Z (2 ^ 128)) in *. clearbody q u v d w. clear - Lq Lt Tm Vu Tc H. assert ((q * d < w * u * d)%Q) by (apply Qmult_lt_r; auto; lra). assert (W8 : (w * u * d == 8 * u)%Q) by (rewrite <- Tc; ring). rewrite W8 in H0. lra.
  - rewrite !xabs_xof by auto. fold (X (t + 1)).
    assert (G : forall i, inr_ i -> EXPC <= f + i / SIGNM -> i <= t + 1 -> exists c, xmul (xof false n f) (X i) = Ok c /\ xwf c /\ (xval c == F n f i)%Q).
    { intros i Hi Hj Hl. apply (mul_F_gen n f (t + 1) (t + 1)); auto; try lia. - apply xnull_pos; auto. unfold EXPC in *; lia. - apply Z.div_le_mono; [apply PSM | lia]. }
    assert (Vs : xval (xof false m e) = xq m e) by (rewrite xval_of; auto; apply xnull_pos; auto; unfold EXPC in *; lia).
    unfold xleast. rewrite Vs. split.
    + destruct (G (t + 1) It1) as (c & -> & _ & Ec); [pose proof (Z.div_le_mono t (t + 1) SIGNM PSM ltac:(lia)); lia | lia |]. exists c. split; auto. rewrite Ec. auto.
    + intros y Wy [Y1 Y2]. rewrite X_val in Y2 by auto.
      assert (Ny : xnull y = false). { destruct (xnull y) eqn:N; auto. rewrite (xnull_zero y N) in Y1. discriminate. }
      assert (Sy : xsign y = false). { destruct (xsign y) eqn:S; auto. pose proof (xval_neg y Wy S). lra. }
      destruct (X_of y Wy Ny Sy) as [Ey Iy]. remember (xidx y) as i eqn:Hi. clear Hi. subst y. rewrite X_val in Y1, Y2 by auto. apply (proj1 (V_lt _ _ Iy It1)) in Y2.
      destruct (Z_lt_le_dec (f + i / SIGNM) EXPC) as [U | U].
      * exists xZERO. split; [| change (xval xZERO) with 0%Q; auto]. pose proof (X_exp i Iy) as [? _]. apply xmul_under; try rewrite xis_zero_null; auto; [apply xnull_pos; auto; unfold EXPC in *; lia | apply Hf].
      * destruct (G i Iy U ltac:(lia)) as (c & -> & _ & Ec). exists c. split; auto. rewrite Ec. eapply Qle_lt_trans; [| exact F1].
        destruct (Z.eq_dec i t) as [-> | ne]; [apply Qle_refl |]. unfold F.
        apply xmul_mono; auto; try apply X_sig. assert (i < t) by lia. pose proof (Z.div_le_mono i t SIGNM PSM ltac:(lia)). pose proof PSM.
        pose proof (Z.div_mod i SIGNM ltac:(lia)). pose proof (Z.div_mod t SIGNM ltac:(lia)). destruct (Z.eq_dec (i / SIGNM) (t / SIGNM)) as [D | D]; [right | left; lia]. split; auto. rewrite D in *. lia.
Qed.

(** ** when products are exact *)
Definition xshort (a : f192) : Prop := xd a mod 2 ^ 64 = 0.
Lemma xshort_sig a : xwf a -> xshort a -> xsig a mod 2 ^ 64 = 0.
Proof.
  intros [W _] S. unfold xshort, xsig in *. apply Z.mod_divide in S; [| lia]. apply Z.mod_divide; [lia |].
  apply Z.divide_add_r; [exists (2 ^ 63); reflexivity |]. rewrite Z.mod_eq by lia. apply Z.divide_sub_r; auto. apply Z.divide_mul_l. exists (2 ^ 63). reflexivity.
Qed.
Lemma pdig_short m n : m mod 2 ^ 64 = 0 -> n mod 2 ^ 64 = 0 -> pdig m n * 2 ^ 128 = m * n.
Proof.
  intros H1 H2. unfold pdig. rewrite H1, H2, !Z.mul_0_r. change ((0 / 2 + 0 / 2) / 2 ^ 63) with 0. rewrite Z.add_0_r.
  pose proof (Z.div_mod m (2 ^ 64) ltac:(lia)) as E1. pose proof (Z.div_mod n (2 ^ 64) ltac:(lia)) as E2. rewrite H1 in E1. rewrite H2 in E2.
  rewrite E1, E2 at 2. change (2 ^ 128) with (2 ^ 64 * 2 ^ 64). ring.
Qed.
Lemma xmul_exact a b : xwf a -> xwf b -> xnull a = false -> xnull b = false -> EXPC <= xe a + xe b < 2 ^ 64 -> xe a + xe b - EXPC + 128 < 2 ^ 64 ->
  xshort a -> xshort b -> returns (xmul a b) (fun c => xwf c /\ (xval c == xval a * xval b)%Q).
Proof.
  intros Wa Wb Na Nb L1 L2 Sa Sb. apply (xshort_sig a Wa) in Sa. apply (xshort_sig b Wb) in Sb. destruct (xof_of a Wa) as (Ea & Hm & He). destruct (xof_of b Wb) as (Eb & Hn & Hf).
  set (s := xsign a) in *. set (m := xsig a) in *. set (t := xsign b) in *. set (n := xsig b) in *. set (e := xe a) in *. set (f := xe b) in *. clearbody s m t n e f. subst a b.
  rewrite xmul_eq by auto. apply returns_ok. destruct (pdig_bounds m n Hm Hn) as [PB _]. pose proof (pdig_short m n Sa Sb) as Ex. set (p := pdig m n) in *. clearbody p.
  assert (Sg := pnorm_sig p PB). destruct (pexp_expr e f p L1 L2) as [Xe Xp]. split; [now apply xof_wf |].
  rewrite !xval_of by (auto; apply xnull_pos; auto). rewrite <- xorb_sg. apply sg_eq. unfold pexp. rewrite xq_result by (try apply pshift01; lia). rewrite Ex. rewrite xq_prod. reflexivity.
Qed.
(** the quotient is exact whenever multiplying it back is *)
Lemma xabs_mag a : xwf a -> xnull a = false -> 0 < xe a -> (xval (xabs a) == Qabs (xval a))%Q.
Proof.
  intros W N E. destruct (xof_of a W) as (Ea & Hm & He). rewrite Ea at 1. rewrite xabs_xof by auto. rewrite xval_of; [| auto | now apply xnull_pos].
  rewrite xabs_val by auto. rewrite Ea at 3. rewrite xmag_of; auto; [reflexivity | now rewrite <- Ea].
Qed.
Lemma xdiv_exact a b q : xwf a -> xwf b -> xwf q -> xnull a = false -> xnull b = false -> Z.abs (xpow a) < 2 ^ 36 -> Z.abs (xpow b) < 2 ^ 36 -> 0 < xe q ->
  (xval q * xval b == xval a)%Q -> xmul (xabs b) (xabs q) = Ok (xabs a) -> xdiv a b = Ok q.
Proof.
  intros Wa Wb Wq Na Nb Pa Pb Pq V M. destruct (xdiv_main a b Wa Wb Na Nb Pa Pb) as (c & Ec & Wc & Nc & Sc & L1 & L2 & [_ L3]). rewrite Ec. f_equal.
  assert (P48 : EXPC = 2 ^ 48) by reflexivity.
  assert (Nzb : ~ (xval b == 0)%Q). { intros Z. pose proof (xabs_val b Wb) as K. rewrite Z in K. pose proof (xmag_pos b Wb Nb). change (Qabs 0) with 0%Q in K. lra. }
  assert (Q1 : (xval a / xval b == xval q)%Q) by (rewrite <- V; field; auto). rewrite Q1 in L1.
  assert (Nq : xnull q = false). { destruct (xnull q) eqn:N; auto. rewrite (xnull_zero q N) in V. pose proof (xabs_val a Wa) as K. rewrite <- V in K. pose proof (xmag_pos a Wa Na). change (xval xZERO) with 0%Q in K. rewrite Qmult_0_l in K. change (Qabs 0) with 0%Q in K. lra. }
  assert (Ce : 0 < xe c \/ xe c = 0) by (destruct Wc; lia).
  assert (Mc : (xmag c == xmag q)%Q).
  { destruct (Qlt_le_dec (xmag q) (xmag c)) as [C | C].
    - exfalso. destruct (L3 (xabs q)) as (p & Ep & Lp).
      + now apply xabs_wf.
      + rewrite xabs_mag by auto. rewrite xabs_val by auto. split; [now apply xmag_pos |]. destruct Ce as [Ce | Ce].
        * rewrite xabs_mag, xabs_val by auto. exact C.
        * exfalso. destruct (xof_of c Wc) as (E' & Hm & He). destruct (xof_of q Wq) as (Eq' & Hm' & He'). rewrite E', Eq' in C. rewrite !xmag_of in C by (auto; rewrite <- ?E', <- ?Eq'; auto). unfold xq in C. rewrite Ce in C.
          assert (K : (inject_Z (xsig c) * two (0 - EXPC) < inject_Z (xsig q) * two (xe q - EXPC))%Q) by (apply norm_lt; [change (2 ^ 128) with (2 * SIGNM); unfold sigr in Hm; pose proof PSM; lia | change (2 ^ 127) with SIGNM; apply Hm' | lia]). lra.
      + rewrite M in Ep. injection Ep as <-. lra.
    - rewrite !xabs_val in L1 by auto. lra. }
  apply xval_inj; auto. assert (Sq : xsign c = xsign q).
  { rewrite Sc. assert (Sx : forall x, xwf x -> xnull x = false -> (xval x == (if xsign x then -1 else 1) * xmag x)%Q) by (intros x _ _; unfold xval; destruct (xsign x); ring).
    pose proof (xmag_pos a Wa Na). pose proof (xmag_pos b Wb Nb). pose proof (xmag_pos q Wq Nq). rewrite !Sx in V by auto.
    assert (0 < xmag q * xmag b)%Q by (now apply Qmult_lt_0_compat). destruct (xsign a), (xsign b), (xsign q); cbn [xorb]; auto; exfalso; nra. }
  unfold xval. rewrite Sq. destruct (xsign q); rewrite Mc; reflexivity.
Qed.
Lemma xdiv_short b q : xwf b -> xwf q -> xshort b -> xshort q -> xnull b = false -> xnull q = false -> Z.abs (xpow b) < 2 ^ 34 -> Z.abs (xpow q) < 2 ^ 34 ->
  exists a, xmul q b = Ok a /\ (xval a == xval q * xval b)%Q /\ xdiv a b = Ok q.
Proof.
  intros Wb Wq Sb Sq Nb Nq Pb Pq. unfold xpow in Pb, Pq. change (2 ^ 48) with EXPC in *. assert (P48 : EXPC = 2 ^ 48) by reflexivity.
  destruct (xmul_exact q b) as (a & Ea & Wa & Va); auto; try lia. exists a. split; [auto |]. split; [auto |].
  destruct (xof_of b Wb) as (Eb & Hn & Hf). destruct (xof_of q Wq) as (Eq & Hm & He). assert (Xa : a = xof (xorb (xsign q) (xsign b)) (pdig (xsig q) (xsig b) * 2 ^ pshift (pdig (xsig q) (xsig b))) (pexp (xe q) (xe b) (pdig (xsig q) (xsig b)))).
  { rewrite Eb, Eq, xmul_eq in Ea; try (rewrite <- ?Eb, <- ?Eq; auto; lia); auto; try lia. injection Ea as <-. reflexivity. }
  destruct (pdig_bounds (xsig q) (xsig b) Hm Hn) as [PB _]. set (p := pdig (xsig q) (xsig b)) in *. assert (Sp := pnorm_sig p PB). pose proof (pshift01 p) as Ps.
  assert (Xe : xe a = xe q + xe b - EXPC + 128 - pshift p) by (rewrite Xa; reflexivity).
  assert (Na : xnull a = false) by (rewrite Xa; apply xnull_pos; auto; unfold pexp; lia).
  apply (xdiv_exact a b q); auto; try (unfold xpow; change (2 ^ 48) with EXPC); try lia; [symmetry; exact Va |].
  rewrite xmul_comm, Xa, xabs_xof by auto. rewrite Eb, Eq, !xabs_xof by auto. rewrite xmul_eq; auto; try (apply xnull_pos; auto); try lia.
Qed.
