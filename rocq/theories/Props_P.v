(** Properties C41-C43 (polynomials) and C60 (complex numbers).  [pval p] is the list of rational coefficients, highest degree first. *)
From Coq Require Import QArith List Lia.
From Verif Require Import Base UBig UStr BBig BSpec BEq RBig RSpec REq RIeee ISpec RIterP MMat MSpec MEq MInv PPoly PSpec PEq PPts.
Local Open Scope Q_scope.

Lemma pq l : pequal (pval (pof l)) l. Proof. apply pcoef_ext, pval_pof. Qed.
Lemma pe l x : peval (pval (pof l)) x == peval l x. Proof. apply peval_ext, pval_pof. Qed.
Lemma pc l : pcanon l -> pcanon (pval (pof l)).
Proof. intros [-> | (c & t & -> & H)]; [left; reflexivity |]. right. exists (rval (rof c)), (pval (pof t)). split; [reflexivity |]. now rewrite rof_val. Qed.
Lemma pl l : length (pval (pof l)) = length l. Proof. unfold pval, pof. now rewrite !map_length. Qed.
Lemma pn l : l <> [] -> pof l <> []. Proof. destruct l; [congruence | discriminate]. Qed.
Lemma pw l : pcanon l -> pwf (pof l).
Proof. intros H. split; [apply pof_wf |]. apply pn. destruct H as [-> | (c & t & -> & _)]; discriminate. Qed.
Lemma pequal_sym p q : pequal p q -> pequal q p. Proof. intros H k. exact (Qeq_sym _ _ (H k)). Qed.
Lemma pequal_evals p q : pequal p q -> forall x, peval p x == peval q x. Proof. intros H x. now apply peval_equal. Qed.
Lemma pderiv_l l l' d : pequal l l' -> pderiv l d -> pderiv l' d.
Proof. intros E H k. pose proof (E (S k)) as Ek. pose proof (H k) as Hk. now rewrite Hk, Ek. Qed.

(** ** C41 *)
Theorem C41_calc : forall p x, Forall rwf p -> rwf x -> exists y, pcalc p x = Ok y /\ rwf y /\ rval y == peval (pval p) (rval x).
Proof.
  intros p x P W. exists (rof (peval (pval p) (rval x))). split; [| split; [apply rof_wf | apply rof_val]].
  rewrite <- (pof_pval p P) at 1. rewrite <- (rof_rval x W) at 1. apply Pcalc.
Qed.
(** leading zeros are stripped, the polynomial is unchanged *)
Theorem C41_from_vec : forall l, Forall rwf l -> pwf (pfrom_vec l) /\ pcanon (pval (pfrom_vec l)) /\ pequal (pval (pfrom_vec l)) (pval l) /\
  forall x, peval (pval (pfrom_vec l)) x == peval (pval l) x.
Proof.
  intros l W. destruct (Pfrom_vec (pval l)) as (m & E & Q & C & _). rewrite (pof_pval l W) in E. rewrite E.
  split; [now apply pw |]. split; [now apply pc |]. assert (K : pequal (pval (pof m)) (pval l)) by (eapply pequal_trans; [apply pq | exact Q]).
  split; [exact K | now apply pequal_evals].
Qed.
(** two canonical polynomials with the same coefficients are the same vector *)
Theorem C41_canonical : forall p q, pwf p -> pwf q -> pcanon (pval p) -> pcanon (pval q) -> pequal (pval p) (pval q) -> p = q.
Proof. intros p q [Wp _] [Wq _] Cp Cq E. rewrite <- (pof_pval p Wp), <- (pof_pval q Wq). now apply pcanon_unique. Qed.
Theorem C41_mul_k : forall p k, pwf p -> rwf k -> exists q, pmul_k p k = Ok q /\ pwf q /\ pcanon (pval q) /\ pequal (pval q) (map (fun c => c * rval k) (pval p)) /\
  forall x, peval (pval q) x == rval k * peval (pval p) x.
Proof.
  intros p k [W N] Wk. unfold pmul_k. pose proof (Pmap_mul rmul (pval p) (rval k) Rmul) as KM. rewrite (pof_pval p W), (rof_rval k Wk) in KM. rewrite KM. cbn [bind].
  destruct (Pfrom_vec (map (fun c => c * rval k) (pval p))) as (m & E & Q & C & _). rewrite E. exists (pof m). split; [reflexivity |].
  split; [now apply pw |]. split; [now apply pc |]. assert (K : pequal (pval (pof m)) (map (fun c => c * rval k) (pval p))) by (eapply pequal_trans; [apply pq | exact Q]).
  split; [exact K |]. intros x. rewrite (pequal_evals _ _ K). generalize (pval p). clear. induction l as [| c t IH]; cbn [map peval]; [ring |]. rewrite IH, map_length. ring.
Qed.
(** mul_k_mut keeps the length unless the factor is zero, so it agrees with mul_k exactly on canonical polynomials *)
Theorem C41_mul_k_mut : forall p k, pwf p -> rwf k -> exists q, pmul_k_mut p k = Ok q /\ pwf q /\ pequal (pval q) (map (fun c => c * rval k) (pval p)) /\
  (pcanon (pval p) -> pmul_k p k = Ok q).
Proof.
  intros p k [W N] Wk. destruct (C41_mul_k p k (conj W N) Wk) as (q0 & E0 & W0 & C0 & Q0 & _).
  pose proof (Pmap_mul rmul_mut (pval p) (rval k) Rmul_mut) as KM. rewrite (pof_pval p W), (rof_rval k Wk) in KM.
  pose proof (Ris_zero (rval k)) as KZ. rewrite (rof_rval k Wk) in KZ. unfold pmul_k_mut. rewrite KZ. destruct (qeqb_qeq (rval k) 0) as [Z | Z].
  - exists (pfrom_vec []). split; [reflexivity |]. change (pfrom_vec []) with (pof [0]). assert (K : pequal (pval (pof [0])) (map (fun c => c * rval k) (pval p))).
    { intros i. rewrite (pcoef_map (fun c => c * rval k)) by ring. rewrite Z. transitivity (pcoef [] i); [exact (pequal_trans _ _ _ (pq [0]) pequal_zero i) |]. destruct i; cbn; ring. }
    split; [apply pw; now left |]. split; [exact K |]. intros _. rewrite E0. f_equal.
    apply C41_canonical; auto; [apply pw; now left | left; reflexivity |]. eapply pequal_trans; [exact Q0 | now apply pequal_sym].
  - exists (pof (map (fun c => c * rval k) (pval p))). split; [exact KM |].
    assert (NE : map (fun c => c * rval k) (pval p) <> []) by (destruct p; [congruence | discriminate]).
    split; [split; [apply pof_wf | now apply pn] |]. split; [apply pq |]. intros C. rewrite E0. f_equal.
    apply C41_canonical; auto; [split; [apply pof_wf | now apply pn] | | eapply pequal_trans; [exact Q0 | apply pequal_sym, pq]].
    destruct C as [C | (c & t & C & H)]; rewrite C; cbn [map].
    + left. rewrite (Forall2_pof [0 * rval k] [0]); [reflexivity |]. constructor; [ring | constructor].
    + apply pc. right. exists (c * rval k), (map (fun c => c * rval k) t). split; [reflexivity |]. intros H0. apply Qmult_integral in H0. tauto.
Qed.
Theorem C41_differentiate : forall p, pwf p -> (Z.of_nat (length p) <= 2 ^ 31)%Z -> exists q, pdifferentiate p = Ok q /\ pwf q /\ pcanon (pval q) /\ pderiv (pval p) (pval q).
Proof.
  intros p [W N] L. destruct (Pdifferentiate (pval p)) as (d & E & D & C). { destruct p; [congruence | discriminate]. } { unfold pval. now rewrite map_length. }
  rewrite (pof_pval p W) in E. exists (pof d). split; [exact E |]. split; [now apply pw |]. split; [now apply pc |]. eapply pderiv_equal; [exact D | apply pq].
Qed.
Theorem C41_differentiate_mut : forall p, pwf p -> (Z.of_nat (length p) <= 2 ^ 31)%Z -> exists q, pdifferentiate_mut p = Ok q /\ pwf q /\ pderiv (pval p) (pval q) /\
  (pcanon (pval p) -> pdifferentiate p = Ok q).
Proof.
  intros p [W N] L. destruct (C41_differentiate p (conj W N) L) as (q0 & E0 & W0 & C0 & D0).
  destruct (Pdifferentiate_mut (pval p)) as (d & E & D & LD). { destruct p; [congruence | discriminate]. } { unfold pval. now rewrite map_length. }
  rewrite (pof_pval p W) in E. assert (NE : d <> []) by (destruct d; [cbn [length] in LD; lia | discriminate]).
  exists (pof d). split; [exact E |]. split; [split; [apply pof_wf | now apply pn] |]. split; [eapply pderiv_equal; [exact D | apply pq] |].
  intros C. rewrite E0. f_equal. destruct W0 as [W0 N0]. rewrite <- (pof_pval q0 W0). apply Forall2_pof. apply coef_Forall2; [| eapply pderiv_fun; eauto].
  (* lengths *)
  assert (Q : pequal (pval q0) d) by (eapply pderiv_fun; eauto).
  destruct (Nat.le_gt_cases (length (pval p)) 1) as [L1 | L1].
  - (* constants *) rewrite LD. replace (Nat.max 1 (length (pval p) - 1)) with 1%nat by lia.
    assert (length (pval q0) <= length [0%Q])%nat; [| pose proof (pcanon_pos _ C0); cbn [length] in *; lia].
    apply pcanon_len; [exact C0 | now left |]. intros k. rewrite (D0 k). rewrite (pcoef_over (pval p)) by lia. pose proof (pequal_zero k) as Z. rewrite Z. destruct k; cbn; ring.
  - assert (TN : ~ pcoef d (length (pval p) - 2) == 0).
    { rewrite (D (length (pval p) - 2)%nat). replace (S (length (pval p) - 2)) with (length (pval p) - 1)%nat by lia. intros K. apply Qmult_integral in K as [K | K].
      - unfold qnat, Qeq in K. cbn in K. lia.
      - revert K. now apply pcanon_top. }
    assert (CD : pcanon d).
    { right. destruct d as [| c t]; [congruence |]. exists c, t. split; [reflexivity |]. cbn [length] in LD. replace (length (pval p) - 2)%nat with (length t) in TN by lia. now rewrite pcoef_top in TN. }
    apply Nat.le_antisymm; apply pcanon_len; auto. now apply pequal_sym.
Qed.
(** without the canonical form the two differ: from_vec_generic and the _mut forms keep leading zeros *)
Theorem C41_mut_refuted : exists p q r, pwf p /\ pfrom_vec_generic (fun x => Ok x) p = Ok p /\ pdifferentiate p = Ok q /\ pdifferentiate_mut p = Ok r /\ q <> r.
Proof.
  exists (pof [0; 0; 5]), (pof [0]), (pof [0; 0]). split; [split; [apply pof_wf | discriminate] |]. split; [reflexivity |].
  split; [vm_compute; reflexivity |]. split; [vm_compute; reflexivity |]. vm_compute. discriminate.
Qed.
Theorem C41_newton : forall p x, pwf p -> (Z.of_nat (length p) <= 2 ^ 31)%Z -> rwf x ->
  exists d, pdifferentiate p = Ok d /\ pderiv (pval p) (pval d) /\ pnewton p x None = pnewton p x (Some d) /\
    (~ peval (pval d) (rval x) == 0 -> exists y, pnewton p x None = Ok y /\ rwf y /\ rval y == rval x - peval (pval p) (rval x) / peval (pval d) (rval x)) /\
    (peval (pval d) (rval x) == 0 -> peval (pval p) (rval x) == 0 -> pnewton p x None = Panic).
Proof.
  intros p x W L Wx. destruct (C41_differentiate p W L) as (d & E & Wd & _ & D). exists d. split; [exact E |]. split; [exact D |].
  destruct W as [W _], Wd as [Wd _].
  assert (S : forall pr, (pr = None \/ pr = Some d) -> pnewton p x pr = let* q := rdiv (rof (peval (pval p) (rval x))) (rof (peval (pval d) (rval x))) in rsub x q).
  { intros pr Hpr. unfold pnewton. pose proof (Pcalc (pval d) (rval x)) as Kd. pose proof (Pcalc (pval p) (rval x)) as Kp.
    rewrite (rof_rval x Wx), (pof_pval d Wd) in Kd. rewrite (rof_rval x Wx), (pof_pval p W) in Kp.
    destruct Hpr as [-> | ->]; [rewrite E; cbn [bind] |]; rewrite Kd; cbn [bind]; rewrite Kp; reflexivity. }
  rewrite !S by auto. split; [reflexivity |]. split; [intros H | intros H H0].
  - rewrite Rdiv by auto. cbn [bind]. pose proof (Rsub (rval x) (peval (pval p) (rval x) / peval (pval d) (rval x))) as KS. rewrite (rof_rval x Wx) in KS. rewrite KS. eexists. split; [reflexivity |]. split; [apply rof_wf | apply rof_val].
  - destruct (Rdiv_zero (peval (pval p) (rval x)) (peval (pval d) (rval x)) H) as [Z _]. rewrite Z.
    replace (qn (peval (pval p) (rval x)) =? 0)%Z with true; [reflexivity |]. symmetry. apply Z.eqb_eq. unfold qn. now rewrite (Qred_complete _ _ H0).
Qed.
(** at a critical point that is not a root the result is a Ratio with denominator zero *)
Theorem C41_newton_refuted : exists p x y, pwf p /\ rwf x /\ pnewton p x None = Ok y /\ ~ rwf y.
Proof.
  exists (pof [1; 0; 1]), (rof 0), (mkR (bof 0) (bof (- 1))). split; [split; [apply pof_wf | discriminate] |]. split; [apply rof_wf |]. split; [vm_compute; reflexivity |].
  intros (_ & _ & H & _). vm_compute in H. discriminate.
Qed.
Example C41_case : let p := pof [3; 0; - (1); 7 # 2] in pwf p /\ pcanon (pval p) /\ (Z.of_nat (length p) <= 2 ^ 31)%Z /\ pdifferentiate p = Ok (pof [9; 0; - (1)]) /\
  pcalc p (rof 2) = Ok (rof (51 # 2)) /\ pnewton p (rof 2) None = Ok (rof (2 - (51 # 2) / 35)).
Proof. cbv zeta. split; [apply pw |]. 2: split; [apply pc |]. 1-2: right; exists 3, [0; - (1); 7 # 2]; split; [reflexivity | discriminate]. split; [cbn; lia |]. repeat split; vm_compute; reflexivity. Qed.

(** ** C42 *)
Definition xs (p : list (rat * rat)) (i : nat) : Q := rval (fst (nth i p (rzero, rzero))).
Definition ys (p : list (rat * rat)) (i : nat) : Q := rval (snd (nth i p (rzero, rzero))).
Lemma pts_of p : Forall (fun '(a, b) => rwf a /\ rwf b) p -> ptsof (length p) (xs p) (ys p) = p.
Proof.
  intros H. unfold ptsof. etransitivity; [| exact (map_nth_seq p (rzero, rzero))]. apply map_ext_in. intros i Hi. apply in_seq in Hi.
  rewrite Forall_forall in H. specialize (H (nth i p (rzero, rzero)) (nth_In _ _ (proj2 Hi))). unfold xs, ys. destruct (nth i p (rzero, rzero)) as [a b]. destruct H.
  cbn [fst snd]. now rewrite !rof_rval.
Qed.
Theorem C42_from_points : forall p, Forall (fun '(a, b) => rwf a /\ rwf b) p -> p <> [] ->
  (forall i j, (i < length p)%nat -> (j < length p)%nat -> xs p i == xs p j -> i = j) ->
  exists q, from_points p = Ok (ROk q) /\ pwf q /\ pcanon (pval q) /\ (length q <= length p)%nat /\
    (forall i, (i < length p)%nat -> peval (pval q) (xs p i) == ys p i) /\
    (forall r, (length r <= length p)%nat -> (forall i, (i < length p)%nat -> peval r (xs p i) == ys p i) -> pequal r (pval q)).
Proof.
  intros p W N D. pose proof (pts_of p W) as KP. set (x := xs p) in *. set (y := ys p) in *. destruct (length p) as [| n] eqn:En; [destruct p; [congruence | discriminate] |].
  destruct (From_points n x y D) as (m & E & C & L & I & U). exists (pof m). split; [now rewrite KP in E |]. split; [now apply pw |]. split; [now apply pc |].
  split; [unfold pof; now rewrite map_length |]. split; [intros i Hi; rewrite pe; now apply I |]. intros r Lr Ir. eapply pequal_trans; [apply U; auto | apply pequal_sym, pq].
Qed.
Theorem C42_error : forall p, Forall (fun '(a, b) => rwf a /\ rwf b) p ->
  (p = [] \/ exists i j, (i < length p)%nat /\ (j < length p)%nat /\ i <> j /\ xs p i == xs p j) -> from_points p = Ok (RErr ZeroDeterminant).
Proof.
  intros p W [-> | (i & j & Hi & Hj & N & E)]; [apply From_points_nil |]. rewrite <- (pts_of p W). now apply (From_points_dup (length p) (xs p) (ys p) i j).
Qed.
Definition exp4 : list (rat * rat) := [(rof 0, rof 1); (rof 1, rof 3); (rof 2, rof 11); (rof (- (1)), rof (- (1)))].
Example C42_case : Forall (fun '(a, b) => rwf a /\ rwf b) exp4 /\ (forall i j, (i < length exp4)%nat -> (j < length exp4)%nat -> xs exp4 i == xs exp4 j -> i = j) /\
  from_points exp4 = Ok (ROk (pof [1; 0; 1; 1])).
Proof.
  split; [do 4 (apply Forall_cons; [split; apply rof_wf |]); apply Forall_nil |]. split; [| vm_compute; reflexivity].
  intros i j Hi Hj. cbn [length exp4] in Hi, Hj. do 4 (destruct i as [| i]; [do 4 (destruct j as [| j]; [vm_compute; intros; try reflexivity; discriminate |]); lia |]). lia.
Qed.

(** ** C43 *)
Theorem C43_linear : forall a b v1 v2, rwf a -> rwf b -> rwf v1 -> rwf v2 -> exists q, linear_2_points a b v1 v2 = Ok q /\ pwf q /\ pcanon (pval q) /\ (length q <= 2)%nat /\
  peval (pval q) (rval a) == rval v1 /\ (~ rval a == rval b -> peval (pval q) (rval b) == rval v2).
Proof.
  intros a b v1 v2 A B V1 V2. destruct (Linear_2 (rval a) (rval b) (rval v1) (rval v2)) as (m & E & C & L & H1 & H2). rewrite !rof_rval in E by auto.
  exists (pof m). split; [exact E |]. split; [now apply pw |]. split; [now apply pc |]. split; [unfold pof; now rewrite map_length |]. split; [now rewrite pe |]. intros. rewrite pe. auto.
Qed.
Theorem C43_quadratic : forall a b c v1 v2 v3, rwf a -> rwf b -> rwf c -> rwf v1 -> rwf v2 -> rwf v3 ->
  ~ rval a == rval b -> ~ rval a == rval c -> ~ rval b == rval c ->
  exists q, quadratic_3_points a b c v1 v2 v3 = Ok q /\ pwf q /\ pcanon (pval q) /\ (length q <= 3)%nat /\
  peval (pval q) (rval a) == rval v1 /\ peval (pval q) (rval b) == rval v2 /\ peval (pval q) (rval c) == rval v3.
Proof.
  intros a b c v1 v2 v3 A B C V1 V2 V3 N1 N2 N3. destruct (Quadratic_3 _ _ _ (rval v1) (rval v2) (rval v3) N1 N2 N3) as (m & E & Cm & L & H1 & H2 & H3).
  rewrite !rof_rval in E by auto. exists (pof m). split; [exact E |]. split; [now apply pw |]. split; [now apply pc |]. split; [unfold pof; now rewrite map_length |].
  rewrite !pe. auto.
Qed.
(** with coinciding abscissae it falls back to a line *)
Theorem C43_quadratic_degenerate : forall a b c v1 v2 v3, rwf a -> rwf b -> rwf c -> rwf v1 -> rwf v2 -> rwf v3 ->
  rval a == rval b \/ rval a == rval c \/ rval b == rval c ->
  quadratic_3_points a b c v1 v2 v3 = if Qeq_bool (rval a) (rval b) then linear_2_points a c v1 v3 else linear_2_points a b v1 v2.
Proof.
  intros a b c v1 v2 v3 A B C V1 V2 V3 H. pose proof (Quadratic_3_deg (rval a) (rval b) (rval c) (rval v1) (rval v2) (rval v3) H) as K. rewrite !rof_rval in K by auto.
  rewrite K. destruct (qeqb_qeq (rval a) (rval b)) as [E | E].
  - apply Qeq_bool_iff in E. now rewrite E.
  - destruct (Qeq_bool (rval a) (rval b)) eqn:F; [apply Qeq_bool_iff in F; contradiction | reflexivity].
Qed.
(** v3 and v4 are the slopes at a and b; the slope is the value of the formal derivative *)
Lemma slope_deriv l d x : pderiv l d -> slope l x == peval d x.
Proof.
  intros D. rewrite peval_sum. unfold slope. set (N := Nat.max (length l) (length d)).
  rewrite <- (qsum_zero_tail (fun k => qnat (S k) * pcoef l (S k) * qpw x k) (length l) N), <- (qsum_zero_tail (fun k => pcoef d k * qpw x k) (length d) N).
  - apply qsum_ext. intros i _. pose proof (D i) as Di. now rewrite Di.
  - apply Nat.le_max_r. - intros k Hk. rewrite pcoef_over by lia. ring. - apply Nat.le_max_l. - intros k Hk. rewrite (pcoef_over l) by lia. ring.
Qed.
Theorem C43_cubic : forall a b v1 v2 v3 v4, rwf a -> rwf b -> rwf v1 -> rwf v2 -> rwf v3 -> rwf v4 -> ~ rval a == rval b ->
  exists q d, cubic_2_points a b v1 v2 v3 v4 = Ok q /\ pwf q /\ pcanon (pval q) /\ (length q <= 4)%nat /\
  peval (pval q) (rval a) == rval v1 /\ peval (pval q) (rval b) == rval v2 /\
  pdifferentiate q = Ok d /\ pderiv (pval q) (pval d) /\ peval (pval d) (rval a) == rval v3 /\ peval (pval d) (rval b) == rval v4.
Proof.
  intros a b v1 v2 v3 v4 A B V1 V2 V3 V4 N. destruct (Cubic_2 _ _ (rval v1) (rval v2) (rval v3) (rval v4) N) as (m & E & Cm & L & H1 & H2 & H3 & H4).
  rewrite !rof_rval in E by auto. assert (LL : (length (pof m) <= 4)%nat) by (unfold pof; now rewrite map_length).
  destruct (C41_differentiate (pof m)) as (d & Ed & _ & _ & D); [now apply pw | lia |].
  exists (pof m), d. split; [exact E |]. split; [now apply pw |]. split; [now apply pc |]. split; [exact LL |]. rewrite !pe. repeat (split; [assumption |]).
  assert (S : forall x, peval (pval d) x == slope m x). { intros x. rewrite <- (slope_deriv (pval (pof m)) (pval d) x D). apply slope_equal, pq. }
  rewrite !S. auto.
Qed.
Theorem C43_cubic_degenerate : forall a b v1 v2 v3 v4, rwf a -> rwf b -> rwf v1 -> rwf v2 -> rwf v3 -> rwf v4 -> rval a == rval b ->
  exists q d, cubic_2_points a b v1 v2 v3 v4 = Ok q /\ pwf q /\ pcanon (pval q) /\ (length q <= 2)%nat /\
  peval (pval q) (rval a) == rval v1 /\ pdifferentiate q = Ok d /\ pderiv (pval q) (pval d) /\ peval (pval d) (rval a) == rval v3.
Proof.
  intros a b v1 v2 v3 v4 A B V1 V2 V3 V4 N. destruct (Cubic_2_deg _ _ (rval v1) (rval v2) (rval v3) (rval v4) N) as (m & E & Cm & L & H1 & H3).
  rewrite !rof_rval in E by auto. assert (LL : (length (pof m) <= 2)%nat) by (unfold pof; now rewrite map_length).
  destruct (C41_differentiate (pof m)) as (d & Ed & _ & _ & D); [now apply pw | lia |].
  exists (pof m), d. split; [exact E |]. split; [now apply pw |]. split; [now apply pc |]. split; [exact LL |]. rewrite !pe. repeat (split; [assumption |]).
  rewrite <- (slope_deriv (pval (pof m)) (pval d) _ D). rewrite <- H3. apply slope_equal, pq.
Qed.
Example C43_case : linear_2_points (rof 1) (rof 3) (rof 2) (rof 8) = Ok (pof [3; - (1)]) /\
  quadratic_3_points (rof 0) (rof 1) (rof 2) (rof 1) (rof 2) (rof 5) = Ok (pof [1; 0; 1]) /\
  cubic_2_points (rof 0) (rof 1) (rof 0) (rof 1) (rof 0) (rof 3) = Ok (pof [1; 0; 0; 0]).
Proof. repeat split; vm_compute; reflexivity. Qed.

(** ** C60 *)
Definition cwf (a : cplx) : Prop := rwf (creal a) /\ rwf (cimag a).
Theorem C60_add : forall a b, cwf a -> cwf b -> exists c, cadd a b = Ok c /\ cadd_mut a b = Ok c /\ cwf c /\
  rval (creal c) == rval (creal a) + rval (creal b) /\ rval (cimag c) == rval (cimag a) + rval (cimag b).
Proof.
  intros a b [A1 A2] [B1 B2]. exists (mkC (rof (rval (creal a) + rval (creal b))) (rof (rval (cimag a) + rval (cimag b)))).
  pose proof (Radd (rval (creal a)) (rval (creal b))) as R1. pose proof (Radd (rval (cimag a)) (rval (cimag b))) as R2.
  pose proof (Radd_mut (rval (creal a)) (rval (creal b))) as R3. pose proof (Radd_mut (rval (cimag a)) (rval (cimag b))) as R4.
  rewrite !rof_rval in R1, R2, R3, R4 by auto. unfold cadd, cadd_mut, cwf. rewrite R1, R2, R3, R4. cbn [bind creal cimag]. rewrite !rof_val.
  split; [reflexivity |]. split; [reflexivity |]. split; [split; apply rof_wf |]. split; reflexivity.
Qed.
(** Missing: i32::MIN, where it panics. *)
Theorem C60_add_i32_partial : forall a o, cwf a -> (- 2 ^ 31 < o < 2 ^ 31)%Z -> exists c, cadd_i32 a o = Ok c /\ cadd_i32_mut a o = Ok c /\ cwf c /\
  rval (creal c) == rval (creal a) + inject_Z o /\ cimag c = cimag a.
Proof.
  intros a o [A1 A2] Ho. exists (mkC (rof (rval (creal a) + inject_Z o)) (cimag a)).
  pose proof (Radd_i32 (rval (creal a)) o) as R1. pose proof (Radd_i32_mut (rval (creal a)) o) as R2. rewrite !rof_rval in R1, R2 by auto.
  unfold cadd_i32, cadd_i32_mut, cwf. rewrite R1, R2 by (unfold i32r; lia). cbn [bind creal cimag]. rewrite rof_val.
  split; [reflexivity |]. split; [reflexivity |]. split; [split; [apply rof_wf | auto] |]. split; reflexivity.
Qed.
Theorem C60_add_i32_refuted : exists a, cwf a /\ cadd_i32 a (- 2 ^ 31) = Panic /\ cadd_i32_mut a (- 2 ^ 31) = Panic.
Proof. exists (mkC (rof 0) (rof 0)). split; [split; apply rof_wf |]. split; vm_compute; reflexivity. Qed.
Example C60_case : cadd (mkC (rof (1 # 2)) (rof 3)) (mkC (rof (1 # 3)) (rof (- (3)))) = Ok (mkC (rof (5 # 6)) (rof 0)).
Proof. vm_compute. reflexivity. Qed.

Print Assumptions C41_calc.
Print Assumptions C41_from_vec.
Print Assumptions C41_canonical.
Print Assumptions C41_mul_k.
Print Assumptions C41_mul_k_mut.
Print Assumptions C41_differentiate.
Print Assumptions C41_differentiate_mut.
Print Assumptions C41_mut_refuted.
Print Assumptions C41_newton.
Print Assumptions C41_newton_refuted.
Print Assumptions C42_from_points.
Print Assumptions C42_error.
Print Assumptions C43_linear.
Print Assumptions C43_quadratic.
Print Assumptions C43_quadratic_degenerate.
Print Assumptions C43_cubic.
Print Assumptions C43_cubic_degenerate.
Print Assumptions C60_add.
Print Assumptions C60_add_i32_partial.
Print Assumptions C60_add_i32_refuted.
