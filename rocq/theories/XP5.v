(** F192: division, the bisection. *)
From Coq Require Import ZArith QArith Qabs Lqa Lia Bool List.
From Verif Require Import Base UBig UStr USpec UAddSub UEq BBig BSpec BEq RBig RSpec REq RIeee FSpec RIeeeP XNum XSpec XP1 XP2 XP3 XP4.
Import ListNotations.
Local Open Scope Z_scope.

(** ** the positive numbers in order *)
Definition X (i : Z) : f192 := xof false (SIGNM + i mod SIGNM) (i / SIGNM).
Definition V (i : Z) : Q := xq (SIGNM + i mod SIGNM) (i / SIGNM).
Definition inr_ (i : Z) : Prop := 0 < i < 2 ^ 64 * SIGNM.
Lemma PSM : 0 < SIGNM. Proof. reflexivity. Qed.
Lemma X_sig i : sigr (SIGNM + i mod SIGNM). Proof. pose proof (Z.mod_pos_bound i SIGNM PSM). unfold sigr. lia. Qed.
Lemma X_exp i : inr_ i -> expr (i / SIGNM).
Proof. intros [H1 H2]. pose proof PSM. unfold expr. split; [apply Z.div_pos; lia | apply Z.div_lt_upper_bound; lia]. Qed.
Lemma X_null i : inr_ i -> xnull (X i) = false.
Proof.
  intros [H1 H2]. unfold X. rewrite xnull_of by apply X_sig. pose proof PSM. cbn [negb andb]. destruct (Z.eqb_spec (SIGNM + i mod SIGNM) SIGNM); auto. cbn [andb].
  destruct (Z.eqb_spec (i / SIGNM) 0); auto. pose proof (Z.div_mod i SIGNM ltac:(lia)). exfalso. nia.
Qed.
Lemma X_wf i : inr_ i -> xwf (X i). Proof. intros. apply xof_wf; [apply X_sig | now apply X_exp]. Qed.
Lemma X_val i : inr_ i -> xval (X i) = V i. Proof. intros. unfold X, V. rewrite xval_of; auto; [apply X_sig |]. now apply X_null. Qed.
Lemma X_idx i : xidx (X i) = i.
Proof. unfold X. rewrite xidx_of by apply X_sig. pose proof PSM. pose proof (Z.div_mod i SIGNM ltac:(lia)). lia. Qed.
Lemma X_of a : xwf a -> xnull a = false -> xsign a = false -> a = X (xidx a) /\ inr_ (xidx a).
Proof.
  intros W N S. destruct (xwf_cases a W) as [-> | (s & m & e & -> & Hm & He & _)]; [discriminate |]. rewrite xsign_of in S by auto. subst s.
  rewrite xidx_of by auto. pose proof PSM as P. destruct Hm as [M1 M2]. unfold X.
  assert (E1 : (e * SIGNM + (m - SIGNM)) / SIGNM = e) by (symmetry; apply (Z.div_unique _ _ e (m - SIGNM)); lia).
  assert (E2 : (e * SIGNM + (m - SIGNM)) mod SIGNM = m - SIGNM) by (symmetry; apply (Z.mod_unique _ _ e (m - SIGNM)); lia).
  rewrite E1, E2. replace (SIGNM + (m - SIGNM)) with m by ring. split; [reflexivity |]. unfold inr_, expr in *. split; [| nia].
  rewrite xnull_of in N by (unfold sigr; lia). cbn [negb andb] in N. destruct (Z.eqb_spec m SIGNM), (Z.eqb_spec e 0); try discriminate; nia.
Qed.
Lemma V_step i : (V (i + 1) == V i + two (i / SIGNM - EXPC))%Q.
Proof.
  unfold V. pose proof PSM as P. pose proof (Z.div_mod i SIGNM ltac:(lia)) as DM. pose proof (Z.mod_pos_bound i SIGNM P) as MB.
  assert (U : forall z, (xq z (i / SIGNM) + two (i / SIGNM - EXPC) == xq (z + 1) (i / SIGNM))%Q) by (intros z; rewrite <- xq_add; unfold xq; change (inject_Z 1) with 1%Q; ring). rewrite U.
  destruct (Z.eq_dec (i mod SIGNM) (SIGNM - 1)) as [C | C].
  - assert (E1 : (i + 1) / SIGNM = i / SIGNM + 1) by (symmetry; apply (Z.div_unique _ _ _ 0); lia).
    assert (E2 : (i + 1) mod SIGNM = 0) by (symmetry; apply (Z.mod_unique _ _ (i / SIGNM + 1) 0); lia).
    rewrite E1, E2, C, Z.add_0_r, <- xq_double. replace (SIGNM + (SIGNM - 1) + 1) with (2 * SIGNM) by ring. reflexivity.
  - assert (E1 : (i + 1) / SIGNM = i / SIGNM) by (symmetry; apply (Z.div_unique _ _ _ (i mod SIGNM + 1)); lia).
    assert (E2 : (i + 1) mod SIGNM = i mod SIGNM + 1) by (symmetry; apply (Z.mod_unique _ _ (i / SIGNM) _); lia).
    rewrite E1, E2, Z.add_assoc. reflexivity.
Qed.
Lemma V_lt i k : inr_ i -> inr_ k -> (V i < V k)%Q <-> i < k.
Proof.
  intros Hi Hk. rewrite <- !X_val by auto. pose proof (xmag_idx (X i) (X k) (X_wf i Hi) (X_wf k Hk)) as K.
  assert (S : forall j, xsign (X j) = false) by (intros j; apply xsign_of, X_sig). rewrite !S in K. specialize (K eq_refl). rewrite !X_idx in K.
  unfold xval. rewrite !S. rewrite Qlt_alt, K. symmetry. apply Z.compare_lt_iff.
Qed.
Lemma V_pos i : (0 < V i)%Q. Proof. apply xq_pos, X_sig. Qed.
Lemma X_step i : inr_ i -> inr_ (i + 1) -> xstep (X i) = Ok (X (i + 1)).
Proof.
  intros Hi Hk. destruct (xstep_ok (X i) (X_wf i Hi)) as (c & -> & C).
  - intros [C1 C2]. unfold X, xof in C1, C2. cbn [xd xe] in C1, C2. pose proof (Z.mod_pos_bound i SIGNM PSM). replace (SIGNM + i mod SIGNM - SIGNM) with (i mod SIGNM) in C1 by ring.
    rewrite Z.mod_mod in C1 by discriminate. pose proof PSM. pose proof (Z.div_mod i SIGNM ltac:(lia)). unfold inr_ in Hk. nia.
  - destruct C as (C1 & C2 & C3). rewrite X_idx in C3. assert (S : xsign (X i) = false) by apply xsign_of, X_sig. rewrite S in C2.
    assert (N : xnull c = false). { destruct (xnull c) eqn:N; auto. apply xidx_zero in N. unfold inr_ in Hi. lia. }
    destruct (X_of c C1 N C2) as [E _]. rewrite E, C3. reflexivity.
Qed.
Lemma X_ge a k : xwf a -> inr_ k -> (V k <= xval a)%Q -> a = X (xidx a) /\ inr_ (xidx a) /\ k <= xidx a.
Proof.
  intros W Hk L. pose proof (V_pos k) as P.
  assert (N : xnull a = false). { destruct (xnull a) eqn:N; auto. rewrite (xnull_zero a N) in L. change (xval xZERO) with 0%Q in L. lra. }
  assert (S : xsign a = false). { destruct (xsign a) eqn:S; auto. pose proof (xval_neg a W S). lra. }
  destruct (X_of a W N S) as [E I]. split; [auto |]. split; [auto |]. rewrite E, X_val in L by auto.
  destruct (Z_le_gt_dec k (xidx a)); auto. assert ((V (xidx a) < V k)%Q) by (apply V_lt; auto; lia). lra.
Qed.
Lemma V_double i : (V (i + SIGNM) == 2 * V i)%Q.
Proof.
  unfold V. pose proof PSM. replace (i + SIGNM) with (i + 1 * SIGNM) by ring. rewrite Z.mod_add, Z.div_add by lia. rewrite <- xq_double. unfold xq. rewrite (inject_Z_mult 2). change (inject_Z 2) with 2%Q. ring.
Qed.

(** ** one round: the middle lies strictly between *)
Section Bisect.
Variables (n f : Z) (S : f192) (lo hi : Z).
Hypothesis (Hn : sigr n) (Hf : expr f) (Nf : xnull (xof false n f) = false).
Hypothesis (WS : xwf S).
Hypothesis (Lo1 : 2 <= lo / SIGNM) (Lo2 : EXPC <= f + lo / SIGNM).
Hypothesis (Hi1 : hi / SIGNM + 2 < 2 ^ 64) (Hi2 : f + hi / SIGNM < 2 ^ 64).
Let o := xof false n f.
Lemma lo_le i : lo <= i <= hi -> lo / SIGNM <= i / SIGNM <= hi / SIGNM.
Proof. intros. pose proof PSM. split; apply Z.div_le_mono; lia. Qed.
Lemma lo_inr i : lo <= i <= hi -> inr_ i.
Proof.
  intros H. pose proof (lo_le i H) as E. pose proof PSM. pose proof (Z.div_mod i SIGNM ltac:(lia)). pose proof (Z.mod_pos_bound i SIGNM PSM). unfold inr_. nia.
Qed.
Lemma mid_ok i k : lo <= i -> i + 2 <= k -> k <= hi ->
  exists c t, xadd (X i) (X k) = Ok c /\ xshr c 1 = Ok (X t) /\ i < t < k.
Proof.
  intros H1 H2 H3. assert (Ii := lo_inr i ltac:(lia)). assert (Ik := lo_inr k ltac:(lia)). assert (Ii1 := lo_inr (i + 1) ltac:(lia)). assert (Ii2 := lo_inr (i + 2) ltac:(lia)).
  pose proof (lo_le i ltac:(lia)) as Ei. pose proof (lo_le k ltac:(lia)) as Ek. pose proof (lo_le (i + 1) ltac:(lia)) as Ei1. pose proof PSM as P.
  assert (Sx : forall j, xsign (X j) = false) by (intros j; apply xsign_of, X_sig).
  destruct (xadd_same_rounds (xsub_ (fun _ _ => NoFuel)) (X i) (X k)) as (c & Hc & Rc); auto using X_wf, X_null.
  { now rewrite !Sx. }
  { cbn [X xof xe]. lia. }
  { cbn [X xof xe]. lia. }
  rewrite !X_val in Rc by auto. destruct Rc as (Wc & R1 & R2 & R3 & _). assert (Pi := V_pos i). assert (Pk := V_pos k). rewrite (Qabs_pos (V i + V k)) in R1 by lra.
  assert (R3' : forall y, xwf y -> (Qabs (xval y) <= V i + V k)%Q -> (Qabs (xval y) <= Qabs (xval c))%Q) by (intros y Wy Hy; apply R3; auto; rewrite (Qabs_pos (V i + V k)) by lra; auto).
  assert (Ij : inr_ (i + 1 + SIGNM)).
  { unfold inr_ in *. split; [lia |]. pose proof (Z.div_mod (i + 1) SIGNM ltac:(lia)). pose proof (Z.mod_pos_bound (i + 1) SIGNM P). nia. }
  assert (St1 := V_step i). assert (St2 := V_step (i + 1)). replace (i + 1 + 1) with (i + 2) in St2 by ring.
  assert (Two : (two (i / SIGNM - EXPC) <= two ((i + 1) / SIGNM - EXPC))%Q) by (apply two_le; pose proof (Z.div_le_mono i (i + 1) SIGNM P ltac:(lia)); lia).
  assert (Vk : (V (i + 2) <= V k)%Q). { destruct (Z.eq_dec (i + 2) k) as [-> |]; [lra |]. apply Qlt_le_weak, V_lt; auto; lia. }
  assert (B : (V (i + 1 + SIGNM) <= Qabs (xval c))%Q).
  { rewrite <- (X_val _ Ij). rewrite <- (Qabs_pos (xval (X (i + 1 + SIGNM)))) by (rewrite X_val by auto; apply Qlt_le_weak, V_pos).
    apply R3'; [now apply X_wf |]. rewrite X_val by auto. rewrite Qabs_pos by (apply Qlt_le_weak, V_pos). rewrite V_double. lra. }
  assert (Cp : (0 <= xval c)%Q). { apply Qnot_lt_le. intros C. assert ((xval c * (V i + V k) < 0)%Q) by nra. lra. }
  rewrite Qabs_pos in B, R1 by auto. destruct (X_ge c _ Wc Ij B) as (Ec & Ic & Lc).
  assert (Xc : 2 < xe c).
  { rewrite Ec. cbn [X xof xe]. assert ((i + 1 + SIGNM) / SIGNM <= xidx c / SIGNM) by (apply Z.div_le_mono; lia). replace (i + 1 + SIGNM) with (i + 1 + 1 * SIGNM) in H by ring. rewrite Z.div_add in H by lia. lia. }
  destruct (xshr_ok c 1 Wc ltac:(lia)) as (d & Hd & Wd & Vd). change (two (- (1))) with (1 # 2)%Q in Vd.
  assert (Bd : (V (i + 1) <= xval d)%Q) by (rewrite Vd; rewrite V_double in B; lra).
  destruct (X_ge d _ Wd Ii1 Bd) as (Ed & Id & Ld).
  exists c, (xidx d). split; [exact Hc |]. split; [rewrite <- Ed; exact Hd |]. split; [lia |].
  apply V_lt; auto. rewrite <- X_val, <- Ed by auto. assert ((V i < V k)%Q) by (apply V_lt; auto; lia). lra.
Qed.
Definition F (i : Z) : Q := (inject_Z (pdig (SIGNM + i mod SIGNM) n * 2 ^ 128) * two (i / SIGNM + f - (EXPC + EXPC)))%Q.
Lemma F_mono i k : i <= k -> (F i <= F k)%Q.
Proof.
  intros H. unfold F. apply xmul_mono; auto using X_sig. pose proof PSM as P. pose proof (Z.div_le_mono i k SIGNM P H).
  destruct (Z.eq_dec (i / SIGNM) (k / SIGNM)) as [E | E]; [right | left; lia]. split; [auto |].
  pose proof (Z.div_mod i SIGNM ltac:(lia)). pose proof (Z.div_mod k SIGNM ltac:(lia)). rewrite E in *. lia.
Qed.
Lemma mul_F_gen i : inr_ i -> EXPC <= f + i / SIGNM -> i / SIGNM <= hi / SIGNM -> exists c, xmul o (X i) = Ok c /\ xwf c /\ (xval c == F i)%Q.
Proof.
  intros I E E2. unfold o, X. rewrite xmul_comm. pose proof (X_null i I) as Nn. unfold X in Nn.
  assert (Sg := X_sig i). assert (Xx := X_exp i I).
  rewrite xmul_eq by (auto; unfold EXPC in *; lia). destruct (pdig_bounds (SIGNM + i mod SIGNM) n Sg Hn) as [PB _]. set (p := pdig (SIGNM + i mod SIGNM) n) in *.
  destruct (pexp_expr (i / SIGNM) f p ltac:(lia) ltac:(unfold EXPC in *; lia)) as [Xe Xp]. assert (Sp := pnorm_sig p PB).
  eexists. split; [reflexivity |]. split; [now apply xof_wf |]. cbn [xorb]. rewrite xval_of by (auto; apply xnull_pos; auto). unfold sg, F. fold p.
  unfold pexp. rewrite xq_result by (try apply pshift01; lia). replace (i / SIGNM + f - (EXPC + EXPC)) with (i / SIGNM + f - EXPC - EXPC) by ring. reflexivity.
Qed.
Lemma mul_F i : lo <= i <= hi -> exists c, xmul o (X i) = Ok c /\ xwf c /\ (xval c == F i)%Q.
Proof. intros H. pose proof (lo_le i H). apply mul_F_gen; [now apply lo_inr | lia | lia]. Qed.
(** the computed product against the exact one *)
Lemma F_exact i : (F i <= V i * xq n f)%Q /\ (V i * xq n f < F i * (1 + two (- 125)))%Q.
Proof.
  unfold V. rewrite xq_prod. unfold F. assert (Sg := X_sig i). destruct (pdig_bounds _ n Sg Hn) as [PB [P1 P2]]. set (m := SIGNM + i mod SIGNM) in *. set (p := pdig m n) in *.
  replace (i / SIGNM + f - (EXPC + EXPC)) with (i / SIGNM + f - EXPC - EXPC) by ring. set (E := i / SIGNM + f - EXPC - EXPC). split; [apply tz_le; lia |].
  assert (T := two_pos E). setoid_replace (inject_Z (p * 2 ^ 128) * two E * (1 + two (- 125)))%Q with (inject_Z (p * 2 ^ 128) * (1 + two (- 125)) * two E)%Q by ring.
  apply Qmult_lt_r; auto. apply Qlt_le_trans with (inject_Z ((p + 2) * 2 ^ 128)); [now rewrite <- Zlt_Qlt |].
  rewrite !inject_Z_mult, inject_Z_plus. destruct PB as [PB _]. rewrite Zle_Qle in PB. change (inject_Z (2 ^ 126)) with (2 * inject_Z (2 ^ 125))%Q in PB. change (inject_Z 2) with 2%Q.
  assert (TT : (two (- 125) * inject_Z (2 ^ 125) == 1)%Q) by reflexivity. assert (Tp := two_pos (- 125)). assert (B : (0 < inject_Z (2 ^ 128))%Q) by reflexivity.
  set (x := inject_Z p) in *. set (y := two (- 125)) in *. set (z := inject_Z (2 ^ 125)) in *. set (w := inject_Z (2 ^ 128)) in *. clearbody x y z w.
  assert ((2 <= x * y)%Q) by nra. setoid_replace (x * w * (1 + y))%Q with ((x + x * y) * w)%Q by ring. apply Qmult_le_r; auto. lra.
Qed.
Lemma loop_ok i k : lo <= i -> i + 2 <= k -> k <= hi -> (F i < xval S)%Q -> (xval S <= F k)%Q ->
  returns (loopn 200 (xdiv_loop S o) (X i, X k)) (fun r => exists t, r = X (t + 1) /\ lo <= t < hi /\ (F t < xval S)%Q /\ (xval S <= F (t + 1))%Q).
Proof.
  intros H1 H2 H3 H4 H5.
  apply (loopn_spec (xdiv_loop S o) (fun st => exists i k, st = (X i, X k) /\ lo <= i /\ i + 2 <= k /\ k <= hi /\ (F i < xval S)%Q /\ (xval S <= F k)%Q)
     (fun _ r => exists t, r = X (t + 1) /\ lo <= t < hi /\ (F t < xval S)%Q /\ (xval S <= F (t + 1))%Q) (fun st => xidx (snd st) - xidx (fst st))).
  2:{ exists i, k. splits; auto. }
  2:{ cbn [fst snd]. rewrite !X_idx. pose proof (lo_inr i ltac:(lia)) as A. pose proof (lo_inr k ltac:(lia)) as B. unfold inr_ in *. split; [lia |].
      apply Z.lt_trans with (2 ^ 64 * SIGNM); [lia |]. vm_compute. reflexivity. }
  clear i k H1 H2 H3 H4 H5. intros g st (i & k & -> & H1 & H2 & H3 & H4 & H5) IH. unfold xdiv_loop.
  destruct (mid_ok i k H1 H2 H3) as (c & t & -> & Hs & Ht). cbn [bind]. rewrite Hs. cbn [bind].
  destruct (mul_F t ltac:(lia)) as (m & -> & Wm & Vm). cbn [bind].
  assert (Fin : forall i' k', (i' = t /\ k' = k /\ (F t < xval S)%Q \/ i' = i /\ k' = t /\ (xval S <= F t)%Q) ->
    returns (let* st := xstep (X i') in if xeq st (X k') then Ok (X k') else g (X i', X k')) (fun r => exists t, r = X (t + 1) /\ lo <= t < hi /\ (F t < xval S)%Q /\ (xval S <= F (t + 1))%Q)).
  { intros i' k' C. assert (G : lo <= i' /\ i' < k' /\ k' <= hi /\ (F i' < xval S)%Q /\ (xval S <= F k')%Q /\ k' - i' < k - i).
    { destruct C as [(-> & -> & C) | (-> & -> & C)]; splits; auto; lia. }
    destruct G as (G1 & G2 & G3 & G4 & G5 & G6). pose proof (lo_inr i' ltac:(lia)) as Ii. pose proof (lo_inr k' ltac:(lia)) as Ik. pose proof (lo_inr (i' + 1) ltac:(lia)) as Ii1.
    rewrite X_step by auto. cbn [bind]. destruct (xeq (X (i' + 1)) (X k')) eqn:E.
    - apply xeq_ok in E; auto using X_wf. apply xval_inj in E; auto using X_wf. assert (Ei : i' + 1 = k') by (rewrite <- (X_idx (i' + 1)), E; apply X_idx).
      apply returns_ok. exists i'. rewrite Ei. splits; auto. lia.
    - assert (i' + 1 <> k'). { intros <-. assert (xeq (X (i' + 1)) (X (i' + 1)) = true) by (apply xeq_ok; auto using X_wf; reflexivity). congruence. }
      apply IH; [exists i', k'; splits; auto; lia |]. cbn [fst snd]. rewrite !X_idx. lia. }
  destruct (xlt m S) eqn:E.
  - apply xlt_ok in E; auto. rewrite Vm in E. apply Fin. left. auto.
  - assert (E' : (xval S <= F t)%Q). { apply Qnot_lt_le. intros C. rewrite <- Vm in C. apply xlt_ok in C; auto. congruence. }
    apply Fin. right. auto.
Qed.
End Bisect.

(** ** the whole division *)
Lemma inr_mk k g : sigr k -> 1 <= g < 2 ^ 64 -> inr_ (g * SIGNM + (k - SIGNM)).
Proof. intros [K1 K2] G. unfold inr_. pose proof PSM as P. assert (2 ^ 128 = SIGNM + SIGNM) by reflexivity. assert (SIGNM * 2 ^ 64 = 2 ^ 64 * SIGNM) by ring. assert (1 * SIGNM <= g * SIGNM) by (apply Z.mul_le_mono_nonneg_r; lia). assert (g * SIGNM <= (2 ^ 64 - 1) * SIGNM) by (apply Z.mul_le_mono_nonneg_r; lia). assert ((2 ^ 64 - 1) * SIGNM = 2 ^ 64 * SIGNM - SIGNM) by ring. set (g1 := g * SIGNM) in *. set (g2 := 2 ^ 64 * SIGNM) in *. clearbody g1 g2. lia. Qed.
Lemma pw_pos q : (0 < q)%Q -> (0 < pw q)%Q.
Proof. intros H. unfold pw. assert (M : forall x, (0 < x -> 0 < sq x)%Q) by (intros; unfold sq; nra). do 8 apply M. auto. Qed.
Lemma pw_1025 : (pw (1025 # 1024) <= 2)%Q. Proof. unfold Qle. vm_compute. discriminate. Qed.
Definition absq (a : f192) : Q := xmag a.
Lemma xdiv_core s1 m e s2 n f : sigr m -> sigr n -> expr e -> expr f -> Z.abs (e - EXPC) < 2 ^ 36 -> Z.abs (f - EXPC) < 2 ^ 36 ->
  exists t, xdiv (xof s1 m e) (xof s2 n f) = Ok (if xorb s1 s2 then xneg (X (t + 1)) else X (t + 1)) /\ 
    inr_ t /\ inr_ (t + 1) /\ (F n f t < xq m e)%Q /\ (xq m e <= F n f (t + 1))%Q /\ EXPC <= f + t / SIGNM /\ f + (t + 1) / SIGNM < 2 ^ 62 /\ 1 < t / SIGNM.
Proof.
  intros Hm Hn He Hf Be Bf. assert (P48 : EXPC = 2 ^ 48) by reflexivity. assert (Ne : forall u, xnull (xof u m e) = false) by (intros; apply xnull_pos; auto; lia). assert (Nf : forall u, xnull (xof u n f) = false) by (intros; apply xnull_pos; auto; lia).
  destruct (log2_ok s1 m e Hm He Be) as (l1 & L1 & B1 & P1 & P2). destruct (log2_ok s2 n f Hn Hf Bf) as (l2 & L2 & B2 & Q1 & Q2).
  set (ap := l1 - l2). destruct (pow2_ok (ap - 1048576) ltac:(unfold ap; lia)) as (ml & Sl & Rl & U1 & U2). destruct (pow2_ok (ap + 1048576) ltac:(unfold ap; lia)) as (mh & Sh & Rh & W1 & W2).
  set (el := (ap - 1048576) / 2 ^ 24 + EXPC - 127) in *. set (eh := (ap + 1048576) / 2 ^ 24 + EXPC - 127) in *.
  assert (Bel : Z.abs (el - EXPC) < 2 ^ 38) by (unfold el, ap; pose proof (Z.div_mod (l1 - l2 - 1048576) (2 ^ 24) ltac:(lia)); pose proof (Z.mod_pos_bound (l1 - l2 - 1048576) (2 ^ 24) ltac:(lia)); lia).
  assert (Beh : Z.abs (eh - EXPC) < 2 ^ 38) by (unfold eh, ap; pose proof (Z.div_mod (l1 - l2 + 1048576) (2 ^ 24) ltac:(lia)); pose proof (Z.mod_pos_bound (l1 - l2 + 1048576) (2 ^ 24) ltac:(lia)); lia).
  set (lo := el * SIGNM + (ml - SIGNM)). set (hi := eh * SIGNM + (mh - SIGNM)). pose proof PSM as P.
  assert (XL : forall k g, sigr k -> (g * SIGNM + (k - SIGNM)) / SIGNM = g /\ X (g * SIGNM + (k - SIGNM)) = xof false k g /\ V (g * SIGNM + (k - SIGNM)) = xq k g).
  { intros k g [K1 K2]. assert (E1 : (g * SIGNM + (k - SIGNM)) / SIGNM = g) by (symmetry; apply (Z.div_unique _ _ g (k - SIGNM)); lia).
    assert (E2 : (g * SIGNM + (k - SIGNM)) mod SIGNM = k - SIGNM) by (symmetry; apply (Z.mod_unique _ _ g (k - SIGNM)); lia).
    unfold X, V. rewrite E1, E2. replace (SIGNM + (k - SIGNM)) with k by ring. auto. }
  destruct (XL ml el Sl) as (Dl & Xl & Vl). destruct (XL mh eh Sh) as (Dh & Xh & Vh). fold lo in Dl, Xl, Vl. fold hi in Dh, Xh, Vh.
  assert (D1 : (ap - 1048576) / 2 ^ 16 = ap / 2 ^ 16 - 16) by (replace (ap - 1048576) with (ap + (-16) * 2 ^ 16) by (change (2 ^ 16) with 65536; ring); rewrite Z.div_add by lia; lia).
  assert (D2 : (ap + 1048576) / 2 ^ 16 = ap / 2 ^ 16 + 16) by (replace (ap + 1048576) with (ap + 16 * 2 ^ 16) by (change (2 ^ 16) with 65536; ring); rewrite Z.div_add by lia; lia).
  assert (D3 : l1 / 2 ^ 16 - l2 / 2 ^ 16 - 1 <= ap / 2 ^ 16 <= l1 / 2 ^ 16 - l2 / 2 ^ 16).
  { unfold ap. pose proof (Z.div_mod l1 (2 ^ 16) ltac:(lia)). pose proof (Z.mod_pos_bound l1 (2 ^ 16) ltac:(lia)). pose proof (Z.div_mod l2 (2 ^ 16) ltac:(lia)). pose proof (Z.mod_pos_bound l2 (2 ^ 16) ltac:(lia)).
    pose proof (Z.div_mod (l1 - l2) (2 ^ 16) ltac:(lia)). pose proof (Z.mod_pos_bound (l1 - l2) (2 ^ 16) ltac:(lia)). lia. }
  rewrite D1 in U1, U2. rewrite D2 in W1, W2. set (g := ap / 2 ^ 16) in *. set (g1 := l1 / 2 ^ 16) in *. set (g2 := l2 / 2 ^ 16) in *. rewrite <- Vl in U1, U2. rewrite <- Vh in W1, W2.
  assert (Po := xq_pos n f Hn). assert (Ps := xq_pos m e Hm). assert (Pl := V_pos lo). assert (Ph := V_pos hi).
  assert (Plw := pw_pos _ Pl). assert (Phw := pw_pos _ Ph). assert (Pow := pw_pos _ Po). assert (Psw := pw_pos _ Ps).
  assert (Low : (F n f lo < xq m e)%Q).
  { apply Qle_lt_trans with (V lo * xq n f)%Q; [apply F_exact; auto |]. apply pw_lt_inv; [lra |]. rewrite pw_mul.
    apply Qle_lt_trans with (two (g - 16 + 2) * two (g2 + 3))%Q.
    - apply Qle_trans with (two (g - 16 + 2) * pw (xq n f))%Q; [apply Qmult_le_r; auto | rewrite !(Qmult_comm (two (g - 16 + 2))); apply Qmult_le_r; auto; apply two_pos].
    - rewrite <- two_plus. eapply Qlt_le_trans; [| exact P1]. apply two_lt. lia. }
  assert (High : (xq m e <= F n f hi)%Q).
  { assert (E : (V hi * xq n f < F n f hi * (1 + two (- 125)))%Q) by (apply F_exact; auto).
    assert (K : (xq m e * (1025 # 1024) < V hi * xq n f)%Q).
    { apply pw_lt_inv; [apply Qlt_le_weak, Qmult_lt_0_compat; auto |]. rewrite !pw_mul.
      apply Qle_lt_trans with (two (g1 + 3) * two 1)%Q.
      - apply Qle_trans with (two (g1 + 3) * pw (1025 # 1024))%Q; [apply Qmult_le_r; auto; apply pw_pos; reflexivity |]. rewrite !(Qmult_comm (two (g1 + 3))). apply Qmult_le_r; [apply two_pos | apply pw_1025].
      - apply Qlt_le_trans with (two (g + 16 - 1) * two (g2 - 2))%Q; [rewrite <- !two_plus; apply two_lt; lia |].
        apply Qle_trans with (pw (V hi) * two (g2 - 2))%Q; [apply Qmult_le_r; auto; apply two_pos | rewrite !(Qmult_comm (pw (V hi))); apply Qmult_le_r; auto]. }
    assert (Fp : (0 < F n f hi)%Q). { unfold F. apply tz_pos. destruct (pdig_bounds _ n (X_sig hi) Hn) as [PB _]. lia. }
    assert (T125 : (1 + two (- 125) <= 1025 # 1024)%Q) by (vm_compute; discriminate). nra. }
  assert (Il : inr_ lo) by (apply inr_mk; auto; lia). assert (Ih : inr_ hi) by (apply inr_mk; auto; lia).
  assert (Gap : lo + 2 <= hi).
  { destruct (Z_le_gt_dec (lo + 2) hi) as [| G]; auto. exfalso.
    assert (Vle : (V hi <= V lo * (1025 # 1024))%Q).
    { assert (V1 : (V (lo + 1) <= V lo * (1025 # 1024))%Q).
      { rewrite V_step, Dl, Vl. unfold xq. destruct Sl as [Sl1 _]. rewrite Zle_Qle in Sl1. assert (PS : (1024 <= inject_Z SIGNM)%Q) by (vm_compute; discriminate). pose proof (two_pos (el - EXPC)). nra. }
      assert (I1 : inr_ (lo + 1)).
      { unfold lo. destruct (Z.eq_dec ml (2 ^ 128 - 1)) as [M | M].
        - replace (el * SIGNM + (ml - SIGNM) + 1) with ((el + 1) * SIGNM + (SIGNM - SIGNM)) by (rewrite M; replace (2 ^ 128) with (SIGNM + SIGNM) by reflexivity; ring). apply inr_mk; [unfold sigr, SIGNM; lia | lia].
        - replace (el * SIGNM + (ml - SIGNM) + 1) with (el * SIGNM + (ml + 1 - SIGNM)) by ring. apply inr_mk; [unfold sigr in *; assert (SM2 : SIGNM = 2 ^ 127) by reflexivity; lia | lia]. }
      eapply Qle_trans; [| exact V1]. apply Qnot_lt_le. intros C. apply (proj1 (V_lt _ _ I1 Ih)) in C. lia. }
    pose proof (pw_le _ _ (Qlt_le_weak _ _ Ph) Vle) as K. rewrite pw_mul in K. pose proof pw_1025 as K2.
    assert (K3 : (pw (V lo) * pw (1025 # 1024) <= two (g - 16 + 2) * two 1)%Q).
    { apply Qle_trans with (pw (V lo) * two 1)%Q; [rewrite !(Qmult_comm (pw (V lo))); apply Qmult_le_r; auto | apply Qmult_le_r; auto; apply two_pos]. }
    rewrite <- two_plus in K3. assert ((two (g - 16 + 2 + 1) < two (g + 16 - 1))%Q) by (apply two_lt; lia). lra. }
  assert (Wm : xwf (xof false m e)) by now apply xof_wf.
  assert (Vs : xval (xof false m e) = xq m e) by (rewrite xval_of by auto; reflexivity).
  destruct (loop_ok n f (xof false m e) lo hi Hn Hf (Nf false) Wm) with (i := lo) (k := hi) as (r & Hr & t & -> & T1 & T2 & T3); try rewrite Dl; try rewrite Dh; try rewrite Vs; try lia; auto.
  rewrite Vs in T2, T3. exists t.
  assert (It : lo / SIGNM <= t / SIGNM <= hi / SIGNM) by (split; apply Z.div_le_mono; lia). assert (It1 : lo / SIGNM <= (t + 1) / SIGNM <= hi / SIGNM) by (split; apply Z.div_le_mono; lia). rewrite Dl, Dh in *.
  assert (J : forall j, lo <= j <= hi -> inr_ j) by (intros j Hj; unfold inr_ in *; lia).
  splits; auto; try lia; try (apply J; lia).
  unfold xdiv. rewrite !xis_zero_null, Ne, Nf. rewrite !xabs_xof by auto. rewrite L1. cbn [bind]. rewrite L2. cbn [bind].
  unfold ssub at 1. rewrite sres_ok by (change (64 - 1) with 63; lia). cbn [bind]. fold ap. unfold ssub. rewrite sres_ok by (change (64 - 1) with 63; unfold ap; lia). cbn [bind]. rewrite Rl. cbn [bind].
  unfold sadd. rewrite sres_ok by (change (64 - 1) with 63; unfold ap; lia). cbn [bind]. rewrite Rh. cbn [bind]. fold el eh. rewrite <- Xl, <- Xh, Hr. cbn [bind].
  rewrite !xneg_of by auto. destruct s1, s2; reflexivity.
Qed.
