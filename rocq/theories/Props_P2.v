(** Properties C77 (texts of polynomials), C78 (texts of matrices), C79 (constructors from other number types). *)
From Coq Require Import QArith Qabs Lqa Sorting.Sorted List.
From Verif Require Import Base USpec SSpec UStr BBig BSpec RBig RSpec REq RStr RFmt RFmtT RFmtU Props_R6 RIeee MMat PPoly PSpec PTxtS PTxtP PTxtQ.
Local Open Scope Z_scope.

(** ** C77 *)
Lemma coef_nth p k : pcoef (pval p) k = match nth_error (rev p) k with Some v => rval v | None => 0%Q end.
Proof. unfold pcoef, pval. rewrite <- map_rev. revert k. generalize (rev p). induction l as [| v l IH]; intros [| k]; cbn; auto. Qed.
Lemma zero_coef v : rwf v -> (ris_zero v = true <-> (rval v == 0)%Q).
Proof. intros W. rewrite <- (rof_rval v W) at 1. rewrite Ris_zero. apply qeqb_eq. Qed.
Lemma neg_coef v q : rwf v -> ((if ris_neg v then - q else q) == if qltb (rval v) 0 then - q else q)%Q.
Proof. intros W. rewrite <- (rof_rval v W) at 1. rewrite Ris_neg. reflexivity. Qed.
(** the exact text: the terms are those of the polynomial, in falling degree, without zero terms; the zero polynomial is 0 *)
Theorem C77_ratio_text : forall p, Forall printable p -> exists s ts, pto_ratio_string p = Ok s /\ poly_read fread s = Some ts /\
  (forall k, (coeff ts (Z.of_nat k) == pcoef (pval p) k)%Q) /\ StronglySorted (fun a b => b < a) (map snd ts) /\ (s = [48] \/ Forall (fun t => ~ (fst t == 0)%Q) ts).
Proof.
  intros p P. assert (PI : forall v, In v p -> printable v) by (apply Forall_forall; auto).
  destruct (pto_string_ok rto_ratio_string fread p) as (s & ts & A & B & C). { intros v Hv _. destruct (ratio_shown v (PI v Hv)) as (q & Hq & _). eauto. }
  assert (RV : forall v q, In v p -> reads rto_ratio_string fread v q -> (q == rval v)%Q).
  { intros v q Hv (q0 & (t & T1 & _ & T2 & _) & Eq). destruct (ratio_shown v (PI v Hv)) as (q1 & (t1 & U1 & _ & U2 & _) & Eq1). rewrite T1 in U1. injection U1 as <-. rewrite T2 in U2. injection U2 as <-.
    rewrite Eq. destruct (PI v Hv) as (W & _). rewrite neg_coef by auto. destruct (qltb_qlt (rval v) 0); rewrite Eq1; [rewrite Qabs_neg by lra; ring | apply Qabs_pos; lra]. }
  destruct (read_coeffs (reads rto_ratio_string fread) p ts B) as (R1 & R2 & R3 & R4).
  assert (CF : forall k, (coeff ts (Z.of_nat k) == pcoef (pval p) k)%Q).
  { intros k. rewrite coef_nth. destruct (nth_error (rev p) k) as [v |] eqn:Ev.
    - assert (Hv : In v p) by (apply nth_error_In in Ev; now apply in_rev). destruct (ris_zero v) eqn:Ez.
      + rewrite R2; [| intros w Hw; congruence]. symmetry. apply zero_coef; auto. apply (PI v Hv).
      + destruct (R1 k v Ev Ez) as (q & -> & Hq). apply RV; auto.
    - apply R2. intros w Hw. congruence. }
  exists s. destruct ts as [| t ts].
  - cbn in C. subst s. exists [(inject_Z 0, 0)]. split; auto. split; [reflexivity |]. split; [| split; [repeat constructor | auto]]. intros k. rewrite <- CF. cbn [coeff fold_right]. destruct (0 =? Z.of_nat k); reflexivity.
  - exists (t :: ts). split; auto. split; [exact C |]. split; [exact CF |]. split; [exact R4 |]. right. apply Forall_forall. intros [q k] Hq. cbn [fst]. destruct (R3 q k Hq) as (v & Hv & Ez & Hr). rewrite (RV v q Hv Hr). intros E0. apply zero_coef in E0; [congruence |]. apply (PI v Hv).
Qed.
(** the approximate text: every coefficient is that of the polynomial cut toward zero after a decimal place as in [C69_approx] *)
Theorem C77_approx_text : forall p n, Forall printable p -> Forall (fun r => (rval r == 0)%Q \/ in_range (rval r)) p -> Z.of_nat n < 2 ^ 63 ->
  exists s ts, pto_approx_string p n = Ok s /\ poly_read rread s = Some ts /\ StronglySorted (fun a b => b < a) (map snd ts) /\
  forall k, let c := pcoef (pval p) k in ((c == 0)%Q -> (coeff ts (Z.of_nat k) == 0)%Q) /\
    (~ (c == 0)%Q -> exists j, trunc_to (coeff ts (Z.of_nat k)) c j /\ styled (Qabs c) (Nat.max n 6) j).
Proof.
  intros p n P PR Hn. assert (PI : forall v, In v p -> printable v) by (apply Forall_forall; auto). set (sh := fun r => rto_approx_string r n).
  assert (SH : forall v, In v p -> ris_zero v = false -> exists q j, shown sh rread v q /\ trunc_to q (Qabs (rval v)) j /\ styled (Qabs (rval v)) (Nat.max n 6) j).
  { intros v Hv Ez. assert (N0 : ~ (rval v == 0)%Q) by (intros E; apply zero_coef in E; [congruence | apply (PI v Hv)]). apply approx_shown; auto. destruct (proj1 (Forall_forall _ _) PR v Hv); [contradiction | auto]. }
  destruct (pto_string_ok sh rread p) as (s & ts & A & B & C). { intros v Hv Ez. destruct (SH v Hv Ez) as (q & j & Hq & _). eauto. }
  destruct (read_coeffs (reads sh rread) p ts B) as (R1 & R2 & R3 & R4).
  assert (CF : forall k, let c := pcoef (pval p) k in ((c == 0)%Q -> (coeff ts (Z.of_nat k) == 0)%Q) /\ (~ (c == 0)%Q -> exists j, trunc_to (coeff ts (Z.of_nat k)) c j /\ styled (Qabs c) (Nat.max n 6) j)).
  { intros k. rewrite coef_nth. cbv zeta. destruct (nth_error (rev p) k) as [v |] eqn:Ev.
    - assert (Hv : In v p) by (apply nth_error_In in Ev; now apply in_rev). assert (Wv : rwf v) by apply (PI v Hv). destruct (ris_zero v) eqn:Ez.
      + split; [intros _; apply R2; intros w Hw; congruence |]. intros N. exfalso. apply N. now apply zero_coef.
      + split; [intros E; apply zero_coef in E; [congruence | auto] |]. intros N. destruct (R1 k v Ev Ez) as (q & Eq & (q0 & (t & T1 & _ & T2 & _) & E0)).
        destruct (SH v Hv Ez) as (q1 & j & (t1 & U1 & _ & U2 & _) & (S1 & S2 & S3 & z & S4) & St). rewrite T1 in U1. injection U1 as <-. rewrite T2 in U2. injection U2 as <-. exists j. split; auto. rewrite neg_coef in E0 by auto. rewrite E0 in Eq.
        assert (Aq : (Qabs (Qabs (rval v)) == Qabs (rval v))%Q) by (apply Qabs_pos, Qabs_nonneg). rewrite Aq in S2, S3. unfold trunc_to. rewrite Eq. destruct (qltb_qlt (rval v) 0) as [G | G].
        * rewrite Qabs_opp. rewrite (Qabs_neg (rval v)) in S1 by lra. split; [lra |]. split; auto. split; auto. exists (- z). rewrite Eq, inject_Z_opp, S4. ring.
        * rewrite (Qabs_pos (rval v)) in S1 by lra. split; auto. split; auto. split; auto. exists z. now rewrite Eq.
    - split; [intros _; apply R2; intros w Hw; congruence |]. intros N. exfalso. apply N. reflexivity. }
  exists s. destruct ts as [| t ts].
  - cbn in C. subst s. exists [(inject_Z 0, 0)]. split; auto. split; [reflexivity |]. split; [repeat constructor |]. intros k. specialize (CF k). cbv zeta in *. assert (E : (coeff [(inject_Z 0, 0%Z)] (Z.of_nat k) == coeff [] (Z.of_nat k))%Q) by (cbn [coeff fold_right]; destruct (0 =? Z.of_nat k); reflexivity).
    destruct CF as [F1 F2]. split; [intros; rewrite E; now apply F1 |]. intros N. destruct (F2 N) as (j & (S1 & S2 & S3 & z & S4) & St). exists j. split; auto. unfold trunc_to. rewrite E. split; auto. split; auto. split; auto. exists z. now rewrite E.
  - exists (t :: ts). split; auto.
Qed.
Lemma in_range_near x : (2 * inject_Z 10 ^ (- 10) < Qabs x)%Q -> (2 * Qabs x < inject_Z 10 ^ 10)%Q -> in_range x.
Proof.
  intros H1 H2. split; [eapply Qle_lt_trans; [| exact H1]; apply Qmult_le_l; [reflexivity |]; apply pow10_le; lia | eapply Qlt_le_trans; [exact H2 |]; apply pow10_le; lia].
Qed.
(** 7/2 x^3 - x + 1 *)
Example C77_case : let p := [rof (7 # 2); rof 0; rof (-1); rof 1] in Forall printable p /\ Forall (fun r => (rval r == 0)%Q \/ in_range (rval r)) p /\
  pto_ratio_string p = Ok [55; 47; 50; 32; 42; 32; 120; 94; 51; 32; 45; 32; 120; 32; 43; 32; 49] /\ pto_approx_string p 8 = Ok [51; 46; 53; 32; 42; 32; 120; 94; 51; 32; 45; 32; 120; 32; 43; 32; 49] /\
  poly_read fread [55; 47; 50; 32; 42; 32; 120; 94; 51; 32; 45; 32; 120; 32; 43; 32; 49] = Some [((7 / 2)%Q, 3); ((-1)%Q, 1); (1%Q, 0)].
Proof.
  cbv zeta. split; [repeat (apply Forall_cons; [split; [apply rof_wf | vm_compute; auto] |]); apply Forall_nil |]. split; [| split; [| split]; vm_compute; reflexivity].
  repeat (apply Forall_cons; [first [left; apply rof_val | right; apply in_range_near; rewrite rof_val; reflexivity] |]); apply Forall_nil.
Qed.

(** ** C78 *)
(** the text of a matrix lists its rows with the exact entries *)
Theorem C78_matrix_text : forall a, Forall (Forall printable) (mdata a) -> exists s l, mto_ratio_string a = Ok s /\ mat_read s = Some l /\ Forall2 (Forall2 (fun v q => (q == rval v)%Q)) (mdata a) l.
Proof. exact mat_text. Qed.
Theorem C78_injective : forall a b s, Forall (Forall printable) (mdata a) -> Forall (Forall printable) (mdata b) -> mto_ratio_string a = Ok s -> mto_ratio_string b = Ok s -> mdata a = mdata b.
Proof.
  intros a b s Pa Pb Ea Eb. destruct (mat_text a Pa) as (s1 & l1 & A1 & A2 & A3). destruct (mat_text b Pb) as (s2 & l2 & B1 & B2 & B3). rewrite Ea in A1. rewrite Eb in B1. injection A1 as <-. injection B1 as <-. rewrite A2 in B2. injection B2 as <-.
  assert (R : forall x y l, Forall printable x -> Forall printable y -> Forall2 (fun v q => (q == rval v)%Q) x l -> Forall2 (fun v q => (q == rval v)%Q) y l -> x = y).
  { induction x as [| u x IH]; intros y l P1 P2 F1 F2; inversion F1; subst; inversion F2; subst; auto. inversion P1; subst. inversion P2; subst. f_equal; [| eapply IH; eauto].
    assert (W1 : rwf u) by (match goal with H : printable u |- _ => apply H end). match goal with H : printable ?w |- u = ?w => assert (W2 : rwf w) by apply H end. rewrite <- (rof_rval u W1), <- (rof_rval _ W2). apply rof_qeq. match goal with H : (_ == rval u)%Q |- _ => rewrite <- H end. assumption. }
  clear Ea Eb A2. revert Pa Pb A3 B3. generalize (mdata a) (mdata b) l1. clear - R. induction l as [| u x IH]; intros y l P1 P2 F1 F2; inversion F1; subst; inversion F2; subst; auto. inversion P1; subst. inversion P2; subst. f_equal; [eapply R; eauto | eapply IH; eauto].
Qed.
(** [[1, -2/3], [0, 5]], and the empty matrix *)
Example C78_case : mto_ratio_string (mkM [[rof 1; rof (-2 # 3)]; [rof 0; rof 5]] 2 2) = Ok [91; 91; 49; 44; 32; 45; 50; 47; 51; 93; 44; 32; 91; 48; 44; 32; 53; 93; 93] /\
  mat_read [91; 91; 49; 44; 32; 45; 50; 47; 51; 93; 44; 32; 91; 48; 44; 32; 53; 93; 93] = Some [[1%Q; (- (2 / 3))%Q]; [0%Q; 5%Q]] /\ mat_read [91; 93] = Some [] /\ Forall (Forall printable) [[rof 1; rof (-2 # 3)]; [rof 0; rof 5]].
Proof. split; [vm_compute; reflexivity |]. split; [reflexivity |]. split; [reflexivity |]. repeat (apply Forall_cons; [repeat (apply Forall_cons; [split; [apply rof_wf | vm_compute; auto] |]); apply Forall_nil |]); apply Forall_nil. Qed.

(** ** C79 *)
Lemma map_m_total {A C} (f : A -> res C) (g : A -> C) l : (forall a, In a l -> f a = Ok (g a)) -> map_m f l = Ok (map g l).
Proof. induction l as [| a l IH]; intros H; cbn [map_m map]; auto. rewrite (H a) by now left. cbn [bind]. rewrite IH; auto. intros; apply H. now right. Qed.
(** the generic constructors convert every entry; those of polynomials keep leading zeros *)
Theorem C79_generic : forall T (into : T -> res rat) (val : T -> Q), (forall t, exists r, into t = Ok r /\ rwf r /\ (rval r == val t)%Q) ->
  (forall data, exists rs, Forall2 (Forall2 (fun t r => rwf r /\ (rval r == val t)%Q)) data rs /\ mfrom_vec_generic into data = mfrom_vec rs) /\
  (forall l, l <> [] -> exists p, pfrom_vec_generic into l = Ok p /\ Forall2 (fun t r => rwf r /\ (rval r == val t)%Q) l p) /\
  (forall pts, exists qs, Forall2 (fun a b => rwf (fst b) /\ rwf (snd b) /\ (rval (fst b) == val (fst a))%Q /\ (rval (snd b) == val (snd a))%Q) pts qs /\ from_points_generic into pts = from_points qs).
Proof.
  intros T into val H. set (g := fun t => match into t with Ok r => r | _ => rzero end). assert (G : forall t, into t = Ok (g t) /\ rwf (g t) /\ (rval (g t) == val t)%Q) by (intros t; destruct (H t) as (r & E & W & V); unfold g; rewrite E; auto).
  assert (F : forall l, map_m into l = Ok (map g l) /\ Forall2 (fun t r => rwf r /\ (rval r == val t)%Q) l (map g l)).
  { intros l. split; [apply map_m_total; intros a _; apply G |]. induction l; cbn; constructor; auto. apply G. }
  split; [| split].
  - intros data. exists (map (map g) data). split.
    + induction data; cbn; constructor; auto. apply F.
    + unfold mfrom_vec_generic. rewrite (map_m_total _ (map g)); [reflexivity |]. intros a _. apply F.
  - intros l Nl. exists (map g l). unfold pfrom_vec_generic. destruct l as [| t l]; [congruence |]. apply (F (t :: l)).
  - intros pts. exists (map (fun '(a, b) => (g a, g b)) pts). split.
    + induction pts as [| [a b] pts IH]; cbn; constructor; auto. cbn. destruct (G a) as (_ & ? & ?), (G b) as (_ & ? & ?). auto.
    + unfold from_points_generic. rewrite (map_m_total _ (fun '(a, b) => (g a, g b))); [reflexivity |]. intros [a b] _. rewrite (proj1 (G a)). cbn [bind]. rewrite (proj1 (G b)). reflexivity.
Qed.
(** to_vec_f32 and to_vec_f64: all conversions succeed, or the call panics *)
Theorem C79_to_vec : forall F p, (forall n, In n p -> exists r, to_ieee754 F n = Ok r) ->
  (exists l, pto_vec_ieee F p = Ok l /\ Forall2 (fun n f => to_ieee754 F n = Ok (ROk f)) p l) \/ (pto_vec_ieee F p = Panic /\ exists n e, In n p /\ to_ieee754 F n = Ok (RErr e)).
Proof.
  intros F p. unfold pto_vec_ieee. induction p as [| n p IH]; intros H; cbn [map_m]; [left; exists []; auto |]. destruct (H n (or_introl eq_refl)) as (r & E). rewrite E. destruct r as [f | e]; cbn [bind unwrap].
  - destruct IH as [(l & A & B) | (A & n' & e & B)]; [intros; apply H; now right | |]; rewrite A; cbn [bind]; [left; exists (f :: l); auto | right]. split; auto. exists n', e. destruct B. split; [now right | auto].
  - right. split; [reflexivity |]. exists n, e. split; [now left | auto].
Qed.
Theorem C79_complex : forall R I (fr : R -> res rat) (fi : I -> res rat) r i x y, fr r = Ok x -> fi i = Ok y -> cfrom fr fi r i = Ok (mkC x y).
Proof. intros R I fr fi r i x y H1 H2. unfold cfrom. rewrite H1. cbn [bind]. now rewrite H2. Qed.
Theorem C79_complex_try : forall R I (fr : R -> res (rslt rat cerr)) (fi : I -> res (rslt rat cerr)) r i x y, fr r = Ok x -> fi i = Ok y ->
  ctry_from fr fi r i = Ok (match x, y with ROk x, ROk y => ROk (mkC x y) | RErr e, _ => RErr e | _, RErr e => RErr e end).
Proof. intros R I fr fi r i x y H1 H2. unfold ctry_from. rewrite H1. destruct x; cbn [rbind bind]; auto. rewrite H2. destruct y; reflexivity. Qed.
Print Assumptions C77_ratio_text.
Print Assumptions C77_approx_text.
Print Assumptions C78_matrix_text.
Print Assumptions C78_injective.
Print Assumptions C79_generic.
Print Assumptions C79_to_vec.
Print Assumptions C79_complex.
Print Assumptions C79_complex_try.
