(** Interpolation. *)
From Verif Require Import Base UBig UStr BBig BSpec BEq RBig RStr RSpec REq RIeee ISpec RIterP MMat MSpec MEq MInv PPoly PSpec PEq.
From Verif Require MDet.
From Coq Require Import Lqa.
Open Scope Q_scope.

Definition ptsof (n : nat) (x y : nat -> Q) : list (rat * rat) := map (fun k => (rof (x k), rof (y k))) (seq 0 n).
Lemma range_1 n : range 1 (n + 1) = map S (range 0 n).
Proof. unfold range. replace (n + 1 - 1)%nat with n by lia. rewrite Nat.sub_0_r. symmetry. apply seq_shift. Qed.
Lemma pair_eq {A C} (a a' : A) (b b' : C) : a = a' -> b = b' -> Ok (a, b) = Ok (a', b').
Proof. now intros -> ->. Qed.
(** one row of the Vandermonde matrix *)
Lemma vrow n x y i g : (i < n)%nat ->
  fold_m (fun '(mat1, curr) j =>
          let* c := subn n j in
          let* mat1 := mset mat1 i c curr in
          let* pi := getv (ptsof n x y) i in
          let* curr := rmul_mut curr (fst pi) in
          Ok (mat1, curr)) (range 1 (n + 1)) (mof n n g, rone) =
  Ok (mof n n (fun a b => if (a =? i)%nat then vander n x a b else g a b), rof (qpw (x i) n)).
Proof.
  intros Hi. match goal with |- fold_m ?G _ _ = _ => set (F := G) end. rewrite range_1, fold_m_map.
  set (st := fun k => (mof n n (fun a b => if ((a =? i) && (n - k <=? b))%nat then vander n x a b else g a b), rof (qpw (x i) k))).
  transitivity (fold_m (fun s j => F s (S j)) (range 0 n) (st 0%nat)).
  { f_equal. unfold st. f_equal. apply mof_ext. intros a b Ha Hb. destruct (Nat.leb_spec (n - 0) b); [lia|]. now rewrite andb_false_r. }
  rewrite fold_range with (st := st).
  - unfold st. apply pair_eq; [| reflexivity]. apply mof_ext. intros a b Ha Hb. rewrite Nat.sub_diag. cbn [Nat.leb]. now rewrite andb_true_r.
  - intros k Hk. unfold st at 1. unfold F. cbn beta iota. unfold subn. destruct (Nat.leb_spec (S k) n); [| lia]. cbn [bind].
    rewrite mset_mof by lia. cbn [bind]. unfold ptsof. rewrite getv_seq by auto. cbn [bind fst]. rewrite Rmul_mut. cbn [bind].
    unfold st. apply pair_eq.
    + apply mof_ext. intros a b Ha Hb. unfold updm. destruct (Nat.eqb_spec a i); cbn [andb]; [| reflexivity]. subst a.
      destruct (Nat.eqb_spec b (n - S k)), (Nat.leb_spec (n - k) b), (Nat.leb_spec (n - S k) b); try lia; try reflexivity.
      unfold vander. replace (pred n - b)%nat with k by lia. reflexivity.
    + apply rof_qeq. rewrite qpw_S. ring.
Qed.
Lemma vfill n x y :
  fold_m (fun '(mat1, mat2) i =>
      let* '(mat1, curr) := fold_m (fun '(mat1, curr) j =>
          let* c := subn n j in
          let* mat1 := mset mat1 i c curr in
          let* pi := getv (ptsof n x y) i in
          let* curr := rmul_mut curr (fst pi) in
          Ok (mat1, curr)) (range 1 (n + 1)) (mat1, rone) in
      let* pi := getv (ptsof n x y) i in
      let* mat2 := mset mat2 i 0 (snd pi) in
      Ok (mat1, mat2)) (range 0 n) (mzeros n n, mzeros 1 n) =
  Ok (mof n n (vander n x), mof n 1 (fun i _ => y i)).
Proof.
  rewrite !mzeros_mof.
  set (st := fun k => (mof n n (fun a b => if (a <? k)%nat then vander n x a b else 0), mof n 1 (fun a _ => if (a <? k)%nat then y a else 0))).
  change (mof n n (fun _ _ => 0), mof n 1 (fun _ _ => 0)) with (st 0%nat).
  rewrite fold_range with (st := st).
  - unfold st. apply pair_eq; apply mof_ext; intros a b Ha Hb; destruct (Nat.ltb_spec a n); try lia; reflexivity.
  - intros k Hk. unfold st at 1. cbn beta iota. rewrite vrow by auto. cbn [bind]. unfold ptsof. rewrite getv_seq by auto. cbn [bind snd].
    rewrite mset_mof by lia. cbn [bind]. unfold st. apply pair_eq; apply mof_ext; intros a b Ha Hb.
    + destruct (Nat.eqb_spec a k), (Nat.ltb_spec a k), (Nat.ltb_spec a (S k)); try lia; reflexivity.
    + unfold updm. replace b with 0%nat by lia. destruct (Nat.eqb_spec a k), (Nat.ltb_spec a k), (Nat.ltb_spec a (S k)); try lia; try reflexivity.
      subst. reflexivity.
Qed.
Lemma ptsof_length n x y : length (ptsof n x y) = n. Proof. unfold ptsof. now rewrite map_length, seq_length. Qed.

(** values of the interpolating polynomial *)
Lemma vander_eval c : forall n x i, length c = n -> qsum (fun j => vander n x i j * nth j c 0) n == peval c (x i).
Proof.
  induction c as [| d t IH]; intros n x i L; subst n; [reflexivity|]. cbn [length]. rewrite qsum_shift. cbn [peval]. apply Qplus_comp.
  - unfold vander. cbn [nth pred]. rewrite Nat.sub_0_r. ring.
  - rewrite <- (IH (length t) x i eq_refl). apply qsum_ext. intros j Hj. cbn [nth]. unfold vander. cbn [pred].
    replace (length t - S j)%nat with (pred (length t) - j)%nat by lia. reflexivity.
Qed.
(** inverse for every size, when the entry of a 1 x 1 matrix is one *)
Lemma Minverse_any n f : ~ qdet (S n) f == 0 -> (n = 0%nat -> f 0%nat 0%nat == 1) -> minverse (mof (S n) (S n) f) = Ok (ROk (mof (S n) (S n) (qinv n f))).
Proof.
  intros Z O. destruct n as [| n]; [| apply Minverse; [lia | auto]]. rewrite Minverse_one by (rewrite O by auto; discriminate).
  do 2 f_equal. apply mof_ext. intros i j Hi Hj. replace i with 0%nat by lia. replace j with 0%nat by lia.
  unfold qinv, qadj, qcof, minus. cbn [qdet qsum]. unfold minus. cbn [Nat.even Nat.add]. rewrite O by auto. reflexivity.
Qed.
Definition sol (n : nat) (f : nat -> nat -> Q) (v : nat -> Q) (i : nat) : Q := mprod (S n) (qinv n f) (fun i _ => v i) i 0%nat.
Lemma sol_ok n f v : ~ qdet (S n) f == 0 -> forall i, (i < S n)%nat -> qsum (fun k => f i k * sol n f v k) (S n) == v i.
Proof. intros Z i Hi. pose proof (@MDet.solve n f (fun i _ => v i) Z i 0%nat Hi) as K. apply K. lia. Qed.
Lemma sol_mul n f v : mmul (mof (S n) (S n) (qinv n f)) (mof (S n) 1 (fun i _ => v i)) = Ok (ROk (mof (S n) 1 (fun i _ => sol n f v i))).
Proof. rewrite Mmul. reflexivity. Qed.

Definition distinct (n : nat) (x : nat -> Q) : Prop := forall i j, (i < n)%nat -> (j < n)%nat -> x i == x j -> i = j.
Definition coeffs (n : nat) (c : nat -> Q) : list Q := map c (seq 0 n).
Lemma coeffs_eval n (x : nat -> Q) c i : peval (coeffs n c) (x i) == qsum (fun j => vander n x i j * c j) n.
Proof.
  rewrite <- (vander_eval (coeffs n c) n x i) by (unfold coeffs; now rewrite map_length, seq_length).
  apply qsum_ext. intros j Hj. unfold coeffs. now rewrite nth_seq.
Qed.
Lemma From_points n x y : distinct (S n) x ->
  exists m, from_points (ptsof (S n) x y) = Ok (ROk (pof m)) /\ pcanon m /\ (length m <= S n)%nat /\
    (forall i, (i < S n)%nat -> peval m (x i) == y i) /\
    (forall q, (length q <= S n)%nat -> (forall i, (i < S n)%nat -> peval q (x i) == y i) -> pequal q m).
Proof.
  intros D. set (f := vander (S n) x). assert (Z : ~ qdet (S n) f == 0) by (apply MDet.vander_nz; exact D).
  set (c := coeffs (S n) (sol n f y)).
  destruct (Pfrom_vec c) as (m & Em & Eq & Cm & Lm). exists m.
  assert (Ec : forall i, (i < S n)%nat -> peval c (x i) == y i) by (intros i Hi; unfold c; rewrite coeffs_eval; now apply sol_ok).
  split; [| split; [exact Cm | split; [| split]]].
  - unfold from_points. rewrite ptsof_length, vfill. cbn [bind]. fold f.
    rewrite Minverse_any; [| exact Z | intros ->; reflexivity]. cbn [bind]. rewrite sol_mul. cbn [bind unwrap].
    rewrite map_m_ok with (g := fun i => rof (sol n f y i)).
    + cbn [bind]. rewrite <- Em. unfold c, coeffs, pof. rewrite map_map, range_0. reflexivity.
    + intros i Hi. apply range_In in Hi. now rewrite mget_mof by lia.
  - unfold c, coeffs in Lm. rewrite map_length, seq_length in Lm. lia.
  - intros i Hi. rewrite (peval_equal m c) by exact Eq. auto.
  - intros q Lq Hq.
    set (u := fun j => pcoef q (n - j)). assert (Eu : pequal q (coeffs (S n) u)).
    { intros k. unfold pcoef at 2. unfold coeffs. destruct (Nat.lt_ge_cases k (S n)).
      - rewrite rev_nth by (rewrite map_length, seq_length; auto). rewrite map_length, seq_length, nth_seq by lia. unfold u.
        replace (n - (S n - S k))%nat with k by lia. reflexivity.
      - rewrite nth_overflow by (rewrite rev_length, map_length, seq_length; auto). rewrite pcoef_over by lia. reflexivity. }
    assert (K : forall i, (i < S n)%nat -> u i == sol n f y i).
    { apply (@MDet.det_inj (S n) f u (sol n f y)); [exact Z|]. intros i Hi.
      transitivity (y i); [| symmetry; now apply sol_ok]. 
      eapply Qeq_trans; [apply Qeq_sym, (coeffs_eval (S n) x u i)|]. eapply Qeq_trans; [apply Qeq_sym, (peval_equal q _ (x i) Eu)|]. auto. }
    eapply pequal_trans; [exact Eu|]. eapply pequal_trans; [| intros k; symmetry; apply Eq].
    apply pcoef_ext. unfold c, coeffs.
    assert (G : forall l, (forall i, In i l -> (i < S n)%nat) -> Forall2 Qeq (map u l) (map (sol n f y) l)).
    { induction l as [| i l IH]; intros H; cbn [map]; constructor; [apply K, H; now left | apply IH; intros; apply H; now right]. }
    apply G. intros i Hi. apply in_seq in Hi. lia.
Qed.
Lemma From_points_dup n x y i j : (i < n)%nat -> (j < n)%nat -> i <> j -> x i == x j -> from_points (ptsof n x y) = Ok (RErr ZeroDeterminant).
Proof.
  intros Hi Hj N E. unfold from_points. rewrite ptsof_length, vfill. cbn [bind].
  rewrite Minverse_zero; [reflexivity | lia |]. exact (@MDet.vander_z n x i j Hi Hj N E).
Qed.
Lemma From_points_nil : from_points [] = Ok (RErr ZeroDeterminant). Proof. reflexivity. Qed.

(** ** closed forms *)
Lemma Pfrom_vec_eval l x : exists m, pfrom_vec (pof l) = pof m /\ pcanon m /\ pequal m l /\ peval m x == peval l x.
Proof. destruct (Pfrom_vec l) as (m & E & Q & C & _). exists m. repeat split; auto. now apply peval_equal. Qed.
Lemma Linear_2 a b v1 v2 : exists m, linear_2_points (rof a) (rof b) (rof v1) (rof v2) = Ok (pof m) /\ pcanon m /\ (length m <= 2)%nat /\
  peval m a == v1 /\ (~ a == b -> peval m b == v2).
Proof.
  unfold linear_2_points. rewrite Req. destruct (qeqb_qeq a b) as [E | E].
  - cbn [bind]. rewrite Rzero, Rmul. cbn [bind]. rewrite Rsub. cbn [bind]. destruct (Pfrom_vec [0; v1 - a * 0]) as (m & Em & Q & C & L).
    exists m. change ([rof 0; rof (v1 - a * 0)]) with (pof [0; v1 - a * 0]). rewrite Em. repeat split; auto; [| contradiction].
    rewrite (peval_equal _ _ a Q). cbn [peval length]. rewrite qpw_0. ring.
  - rewrite !Rsub. cbn [bind]. assert (N : ~ b - a == 0) by (intros H; apply E; lra). rewrite Rdiv by auto. cbn [bind]. rewrite Rmul. cbn [bind].
    rewrite Rsub. cbn [bind]. set (t := (v2 - v1) / (b - a)). destruct (Pfrom_vec [t; v1 - a * t]) as (m & Em & Q & C & L).
    exists m. change ([rof t; rof (v1 - a * t)]) with (pof [t; v1 - a * t]). rewrite Em. repeat split; auto.
    + rewrite (peval_equal _ _ a Q). cbn [peval length]. rewrite qpw_0, qpw_1. ring.
    + intros _. rewrite (peval_equal _ _ b Q). cbn [peval length]. rewrite qpw_0, qpw_1. unfold t. field. auto.
Qed.
Lemma mof_lit3 (a b c d e f g h i : Q) : mkM [[rof a; rof b; rof c]; [rof d; rof e; rof f]; [rof g; rof h; rof i]] 3 3 =
  mof 3 3 (fun r k => nth k (nth r [[a; b; c]; [d; e; f]; [g; h; i]] []) 0).
Proof. reflexivity. Qed.
Lemma mof_lit4 (a b c d e f g h i j k l m n o p : Q) :
  mkM [[rof a; rof b; rof c; rof d]; [rof e; rof f; rof g; rof h]; [rof i; rof j; rof k; rof l]; [rof m; rof n; rof o; rof p]] 4 4 =
  mof 4 4 (fun r s => nth s (nth r [[a; b; c; d]; [e; f; g; h]; [i; j; k; l]; [m; n; o; p]] []) 0).
Proof. reflexivity. Qed.
Lemma Quadratic_3 a b c v1 v2 v3 : ~ a == b -> ~ a == c -> ~ b == c ->
  exists m, quadratic_3_points (rof a) (rof b) (rof c) (rof v1) (rof v2) (rof v3) = Ok (pof m) /\ pcanon m /\ (length m <= 3)%nat /\
  peval m a == v1 /\ peval m b == v2 /\ peval m c == v3.
Proof.
  intros Hab Hac Hbc. set (f := fun r k => nth k (nth r [[a * a; a; 1]; [b * b; b; 1]; [c * c; c; 1]] []) 0).
  assert (Z : ~ qdet 3 f == 0).
  { intros H. assert (E : qdet 3 f == (a - b) * ((a - c) * (b - c))) by (rewrite qdet3; unfold det3, f; cbn [nth]; ring).
    rewrite E in H. apply Qmult_integral in H as [H | H]; [apply Hab; lra|]. apply Qmult_integral in H as [H | H]; [apply Hac; lra | apply Hbc; lra]. }
  set (v := fun i => nth i [v1; v2; v3] 0). set (s := sol 2 f v).
  destruct (Pfrom_vec [s 0%nat; s 1%nat; s 2%nat]) as (m & Em & Eq & Cm & Lm). exists m.
  split.
  - unfold quadratic_3_points. cbn [mfrom_vec forallb length Nat.eqb andb bind unwrap]. rewrite !Rmul. cbn [bind]. rewrite Rone.
    cbn [mfrom_vec forallb length Nat.eqb andb bind unwrap]. rewrite mof_lit3. fold f. rewrite Minverse by (auto; lia). cbn [bind].
    change (mkM [[rof v1]; [rof v2]; [rof v3]] 1 3) with (mof 3 1 (fun i _ => v i)). rewrite (sol_mul 2 f v). cbn [bind unwrap]. fold s.
    mgets. rewrite <- Em. reflexivity.
  - split; [exact Cm|]. split; [cbn [length] in Lm; lia|]. rewrite !(peval_equal m _ _ Eq). cbn [peval length]. unfold qpw. cbn [Z.of_nat Pos.of_succ_nat Pos.succ Qpower Qpower_positive pow_pos].
    pose proof (sol_ok 2 f v Z 0%nat ltac:(lia)) as K0. pose proof (sol_ok 2 f v Z 1%nat ltac:(lia)) as K1. pose proof (sol_ok 2 f v Z 2%nat ltac:(lia)) as K2.
    fold s in K0, K1, K2. cbn [qsum] in K0, K1, K2. unfold f, v in K0, K1, K2. cbn [nth] in K0, K1, K2.
    repeat split; [rewrite <- K0 | rewrite <- K1 | rewrite <- K2]; ring.
Qed.
(** equal abscissae: the third point is dropped, or the first two are merged *)
Lemma Quadratic_3_deg a b c v1 v2 v3 : a == b \/ a == c \/ b == c ->
  quadratic_3_points (rof a) (rof b) (rof c) (rof v1) (rof v2) (rof v3) =
  if qeqb a b then linear_2_points (rof a) (rof c) (rof v1) (rof v3) else linear_2_points (rof a) (rof b) (rof v1) (rof v2).
Proof.
  intros H. set (f := fun r k => nth k (nth r [[a * a; a; 1]; [b * b; b; 1]; [c * c; c; 1]] []) 0).
  assert (Z : qdet 3 f == 0).
  { assert (E : qdet 3 f == (a - b) * ((a - c) * (b - c))) by (rewrite qdet3; unfold det3, f; cbn [nth]; ring).
    rewrite E. destruct H as [-> | [-> | ->]]; ring. }
  unfold quadratic_3_points. cbn [mfrom_vec forallb length Nat.eqb andb bind unwrap]. rewrite !Rmul. cbn [bind]. rewrite Rone.
  cbn [mfrom_vec forallb length Nat.eqb andb bind unwrap]. rewrite mof_lit3. fold f. rewrite Minverse_zero by (auto; lia). cbn [bind].
  rewrite Req. reflexivity.
Qed.
(** slope of a cubic given by its coefficients *)
Definition slope (l : list Q) (x : Q) : Q := qsum (fun k => qnat (S k) * pcoef l (S k) * qpw x k) (length l).
Lemma slope_equal p q x : pequal p q -> slope p x == slope q x.
Proof.
  intros H. unfold slope. set (N := Nat.max (length p) (length q)).
  rewrite <- (qsum_zero_tail (fun k => qnat (S k) * pcoef p (S k) * qpw x k) (length p) N), <- (qsum_zero_tail (fun k => qnat (S k) * pcoef q (S k) * qpw x k) (length q) N).
  - apply qsum_ext. intros i _. pose proof (H (S i)) as Hi. now rewrite Hi.
  - lia.
  - intros k Hk. rewrite pcoef_over by lia. ring.
  - lia.
  - intros k Hk. rewrite pcoef_over by lia. ring.
Qed.
Lemma Cubic_2 a b v1 v2 v3 v4 : ~ a == b ->
  exists m, cubic_2_points (rof a) (rof b) (rof v1) (rof v2) (rof v3) (rof v4) = Ok (pof m) /\ pcanon m /\ (length m <= 4)%nat /\
  peval m a == v1 /\ peval m b == v2 /\ slope m a == v3 /\ slope m b == v4.
Proof.
  intros Hab.
  set (f := fun r k => nth k (nth r [[a * a * a; a * a; a; 1]; [b * b * b; b * b; b; 1]; [a * a * inject_Z 3; a * inject_Z 2; 1; 0]; [b * b * inject_Z 3; b * inject_Z 2; 1; 0]] []) 0).
  assert (Z : ~ qdet 4 f == 0).
  { intros H. assert (E : qdet 4 f == - ((a - b) * (a - b) * ((a - b) * (a - b)))) by (rewrite qdet4_sum; unfold det3, f; cbn [nth]; unfold inject_Z; ring).
    rewrite E in H. assert (H2 : (a - b) * (a - b) * ((a - b) * (a - b)) == 0) by lra.
    apply Qmult_integral in H2 as [H2 | H2]; apply Qmult_integral in H2 as [H2 | H2]; apply Hab; lra. }
  set (v := fun i => nth i [v1; v2; v3; v4] 0). set (s := sol 3 f v).
  destruct (Pfrom_vec [s 0%nat; s 1%nat; s 2%nat; s 3%nat]) as (m & Em & Eq & Cm & Lm). exists m.
  split.
  - unfold cubic_2_points. cbn [mfrom_vec forallb length Nat.eqb andb bind unwrap]. rewrite !Rmul. cbn [bind]. rewrite !Rmul. cbn [bind].
    rewrite !Rmul_i32 by (unfold i32r; lia). cbn [bind]. rewrite Rone, Rzero.
    cbn [mfrom_vec forallb length Nat.eqb andb bind unwrap]. rewrite mof_lit4. fold f. rewrite Minverse by (auto; lia). cbn [bind].
    change (mkM [[rof v1]; [rof v2]; [rof v3]; [rof v4]] 1 4) with (mof 4 1 (fun i _ => v i)). rewrite (sol_mul 3 f v). cbn [bind unwrap]. fold s.
    mgets. rewrite <- Em. reflexivity.
  - split; [exact Cm|]. split; [cbn [length] in Lm; lia|]. rewrite !(peval_equal m _ _ Eq), !(slope_equal m _ _ Eq).
    cbn [peval length]. unfold slope, pcoef. cbn [rev app nth length qsum]. unfold qpw, qnat.
    cbn [Z.of_nat Pos.of_succ_nat Pos.succ Qpower Qpower_positive pow_pos].
    pose proof (sol_ok 3 f v Z 0%nat ltac:(lia)) as K0. pose proof (sol_ok 3 f v Z 1%nat ltac:(lia)) as K1.
    pose proof (sol_ok 3 f v Z 2%nat ltac:(lia)) as K2. pose proof (sol_ok 3 f v Z 3%nat ltac:(lia)) as K3.
    fold s in K0, K1, K2, K3. cbn [qsum] in K0, K1, K2, K3. unfold f, v in K0, K1, K2, K3. cbn [nth] in K0, K1, K2, K3.
    unfold inject_Z in *.
    repeat split; [rewrite <- K0 | rewrite <- K1 | rewrite <- K2 | rewrite <- K3]; ring.
Qed.
(** equal abscissae: the tangent line *)
Lemma Cubic_2_deg a b v1 v2 v3 v4 : a == b ->
  exists m, cubic_2_points (rof a) (rof b) (rof v1) (rof v2) (rof v3) (rof v4) = Ok (pof m) /\ pcanon m /\ (length m <= 2)%nat /\
  peval m a == v1 /\ slope m a == v3.
Proof.
  intros Hab.
  set (f := fun r k => nth k (nth r [[a * a * a; a * a; a; 1]; [b * b * b; b * b; b; 1]; [a * a * inject_Z 3; a * inject_Z 2; 1; 0]; [b * b * inject_Z 3; b * inject_Z 2; 1; 0]] []) 0).
  assert (Z : qdet 4 f == 0).
  { assert (E : qdet 4 f == - ((a - b) * (a - b) * ((a - b) * (a - b)))) by (rewrite qdet4_sum; unfold det3, f; cbn [nth]; unfold inject_Z; ring).
    rewrite E, Hab. ring. }
  destruct (Pfrom_vec [v3; v1 - a * v3]) as (m & Em & Eq & Cm & Lm). exists m.
  split.
  - unfold cubic_2_points. cbn [mfrom_vec forallb length Nat.eqb andb bind unwrap]. rewrite !Rmul. cbn [bind]. rewrite !Rmul. cbn [bind].
    rewrite !Rmul_i32 by (unfold i32r; lia). cbn [bind]. rewrite Rone, Rzero.
    cbn [mfrom_vec forallb length Nat.eqb andb bind unwrap]. rewrite mof_lit4. fold f. rewrite Minverse_zero by (auto; lia). cbn [bind].
    rewrite Req. destruct (qeqb_qeq a b); [| contradiction]. rewrite Rsub. cbn [bind]. rewrite <- Em. reflexivity.
  - split; [exact Cm|]. split; [cbn [length] in Lm; lia|]. rewrite !(peval_equal m _ _ Eq), !(slope_equal m _ _ Eq).
    cbn [peval length]. unfold slope, pcoef. cbn [rev app nth length qsum]. unfold qpw, qnat.
    cbn [Z.of_nat Pos.of_succ_nat Pos.succ Qpower Qpower_positive pow_pos]. unfold inject_Z. split; ring.
Qed.
