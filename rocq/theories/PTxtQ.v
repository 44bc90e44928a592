(** Coefficients read from the text of a polynomial; the texts of the coefficients; the text of a matrix. *)
From Coq Require Import QArith Qabs Lqa Sorting.Sorted.
From Verif Require Import Base USpec SSpec UBig UStr UStrP BBig BSpec BEq Props_B RBig RSpec REq RStr RStrP Props_R2 RFmt RFmtP RFmtT RFmtQ RFmtR RFmtS RFmtU Props_R6 MMat PPoly PSpec PTxtS PTxtP.
Local Open Scope Z_scope.

(** ** from terms to coefficients *)
Lemma coeff_none ts k : (forall q i, In (q, i) ts -> i <> k) -> coeff ts k = 0%Q.
Proof.
  induction ts as [| [q i] ts IH]; intros H; cbn [coeff fold_right]; auto. rewrite (proj2 (Z.eqb_neq i k)) by (apply (H q); now left). apply IH. intros q0 i0 H0. apply (H q0). now right.
Qed.
Lemma terms_coeff (R : rat -> Q -> Prop) (nz : nat * rat -> bool) : forall l ts, NoDup (map fst l) -> Forall2 (fun '(i, v) '(q, k) => k = Z.of_nat i /\ R v q) (filter nz l) ts ->
  (forall i v, In (i, v) l -> nz (i, v) = true -> exists q, (coeff ts (Z.of_nat i) == q)%Q /\ R v q) /\
  (forall i, (forall v, In (i, v) l -> nz (i, v) = false) -> (coeff ts (Z.of_nat i) == 0)%Q) /\ (forall q k, In (q, k) ts -> exists i v, In (i, v) l /\ nz (i, v) = true /\ k = Z.of_nat i /\ R v q).
Proof.
  induction l as [| [i v] l IH]; intros ts ND H; cbn [map fst filter] in *.
  - inversion H; subst. split; [intros i v [] |]. split; [reflexivity | intros ? ? []].
  - inversion ND as [| ? ? NI ND']; subst. destruct (nz (i, v)) eqn:Z0.
    + inversion H as [| ? [q k] ? ts' H0 H']; subst. destruct H0 as [-> Hr]. destruct (IH ts' ND' H') as (A & B & C). split; [| split].
      * intros i0 v0 [[= <- <-] | Hin] Hz.
        -- exists q. split; auto. cbn [coeff fold_right]. rewrite Z.eqb_refl. fold (coeff ts' (Z.of_nat i)). rewrite coeff_none; [ring |].
           intros q1 k1 H1. destruct (C _ _ H1) as (i1 & v1 & K1 & _ & -> & _). intros E. apply NI. assert (i1 = i) by lia. subst i1. apply in_map_iff. exists (i, v1). auto.
        -- destruct (A i0 v0 Hin Hz) as (q0 & Q1 & Q2). exists q0. split; auto. cbn [coeff fold_right]. rewrite (proj2 (Z.eqb_neq _ _)); [exact Q1 |]. intros E. apply NI. assert (i = i0) by lia. subst i0. apply in_map_iff. exists (i, v0). auto.
      * intros i0 Hn. cbn [coeff fold_right]. rewrite (proj2 (Z.eqb_neq _ _)); [apply B; intros; apply Hn; now right |]. intros E. assert (i = i0) by lia. subst i0. specialize (Hn v (or_introl eq_refl)). congruence.
      * intros q0 k0 [[= <- <-] | Hin]; [exists i, v; split; [now left |]; auto |]. destruct (C _ _ Hin) as (i1 & v1 & K). exists i1, v1. destruct K. split; [now right | auto].
    + destruct (IH ts ND' H) as (A & B & C). split; [| split].
      * intros i0 v0 [[= <- <-] | Hin] Hz; [congruence | eauto].
      * intros i0 Hn. apply B. intros. apply Hn. now right.
      * intros q0 k0 Hin. destruct (C _ _ Hin) as (i1 & v1 & K). exists i1, v1. destruct K. split; [now right | auto].
Qed.
Definition degs (ts : list (Q * Z)) : list Z := map snd ts.
Lemma sorted_filter (nz : nat * rat -> bool) l : StronglySorted (fun a b => (fst b < fst a)%nat) l -> StronglySorted (fun a b => (fst b < fst a)%nat) (filter nz l).
Proof.
  induction 1 as [| a l H IH F]; cbn [filter]; [constructor |]. destruct (nz a); auto. constructor; auto. apply Forall_forall. intros x Hx. apply filter_In in Hx. apply (proj1 (Forall_forall _ _) F). tauto.
Qed.
Lemma sorted_degs (R : rat -> Q -> Prop) l ts : StronglySorted (fun a b => (fst b < fst a)%nat) l -> Forall2 (fun '(i, v) '(q, k) => k = Z.of_nat i /\ R v q) l ts -> StronglySorted (fun a b => b < a) (degs ts).
Proof.
  intros S. revert ts. induction S as [| [i v] l H IH F]; intros ts F2; inversion F2 as [| ? [q k] ? ts' H0 F2']; subst; cbn [degs map snd]; [constructor |]. destruct H0 as [-> Hr]. constructor; [now apply IH |].
  apply Forall_forall. intros z Hz. apply in_map_iff in Hz. destruct Hz as ([q1 k1] & <- & H1). cbn [snd].
  assert (K : forall l ts', Forall2 (fun '(i, v) '(q, k) => k = Z.of_nat i /\ R v q) l ts' -> In (q1, k1) ts' -> exists i1 v1, In (i1, v1) l /\ k1 = Z.of_nat i1).
  { clear. induction 1 as [| [i v] [q k] l ts H0 _ IH]; intros []; destruct H0 as [-> _]; [injection H as <- <-; exists i, v; split; [now left | auto] |]. destruct (IH H) as (i1 & v1 & ? & ?). exists i1, v1. split; [now right | auto]. }
  destruct (K _ _ F2' H1) as (i1 & v1 & H2 & ->). pose proof (proj1 (Forall_forall _ _) F _ H2) as H3. cbn [fst] in H3. lia.
Qed.
Lemma combine_nth_in {A} (l : list A) : forall s i v, In (i, v) (combine (seq s (length l)) l) <-> (s <= i)%nat /\ nth_error l (i - s) = Some v.
Proof.
  induction l as [| a l IH]; intros s i v; cbn [length seq combine In]; [split; [tauto |]; intros [_ H]; destruct (i - s)%nat; discriminate |].
  rewrite IH. split.
  - intros [[= <- <-] | [H1 H2]]; [split; [lia |]; now rewrite Nat.sub_diag |]. split; [lia |]. replace (i - s)%nat with (S (i - S s)) by lia. exact H2.
  - intros [H1 H2]. destruct (Nat.eq_dec s i) as [<- | N]; [left; rewrite Nat.sub_diag in H2; cbn in H2; congruence | right]. split; [lia |]. replace (i - s)%nat with (S (i - S s)) in H2 by lia. exact H2.
Qed.
Lemma enum_in {A} (l : list A) i v : In (i, v) (enum l) <-> nth_error l i = Some v.
Proof. unfold enum. rewrite combine_nth_in, Nat.sub_0_r. split; [tauto |]. intros; split; [lia | auto]. Qed.
Lemma enum_fst {A} (l : list A) : map fst (enum l) = seq 0 (length l).
Proof. unfold enum. generalize 0%nat. induction l as [| a l IH]; intros s; cbn; auto. now rewrite IH. Qed.
Lemma rev_sorted {A} (l : list A) : StronglySorted (fun a b => (fst b < fst a)%nat) (rev (enum l)).
Proof.
  unfold enum. generalize 0%nat. induction l as [| a l IH]; intros s; cbn [length seq combine rev]; [constructor |]. specialize (IH (S s)).
  assert (K : forall x, In x (rev (combine (seq (S s) (length l)) l)) -> (s < fst x)%nat). { intros [i v] Hx. apply in_rev in Hx. apply combine_nth_in in Hx. cbn. lia. }
  revert IH K. generalize (rev (combine (seq (S s) (length l)) l)). induction l0 as [| x l0 IH0]; intros S K; cbn [app]; [repeat constructor |].
  inversion S as [| ? ? S' F]; subst. constructor; [apply IH0; auto; intros; apply K; now right |]. apply Forall_app. split; auto. constructor; auto. cbn [fst]. apply K. now left.
Qed.
(** the terms read from the text against the coefficients *)
Lemma read_coeffs (R : rat -> Q -> Prop) p ts : Forall2 (fun '(i, v) '(q, k) => k = Z.of_nat i /\ R v q) (terms_of p) ts ->
  (forall k v, nth_error (rev p) k = Some v -> ris_zero v = false -> exists q, (coeff ts (Z.of_nat k) == q)%Q /\ R v q) /\
  (forall k, (forall v, nth_error (rev p) k = Some v -> ris_zero v = true) -> (coeff ts (Z.of_nat k) == 0)%Q) /\
  (forall q k, In (q, k) ts -> exists v, In v p /\ ris_zero v = false /\ R v q) /\ StronglySorted (fun a b => b < a) (degs ts).
Proof.
  intros H. unfold terms_of in H. destruct (terms_coeff R _ _ ts ltac:(rewrite map_rev, enum_fst; apply NoDup_rev, seq_NoDup) H) as (A & B & C). split; [| split; [| split]].
  - intros k v Hk Hz. apply (A k v); [rewrite <- in_rev; now apply enum_in | now rewrite Hz].
  - intros k Hk. apply B. intros v Hv. rewrite <- in_rev in Hv. apply enum_in in Hv. now rewrite (Hk v Hv).
  - intros q k Hq. destruct (C q k Hq) as (i & v & H1 & H2 & _ & H3). exists v. split; [| split; auto; now destruct (ris_zero v)]. rewrite <- in_rev in H1. apply enum_in in H1. apply nth_error_In in H1. now apply in_rev.
  - eapply sorted_degs; [apply sorted_filter, rev_sorted | exact H].
Qed.

(** ** the texts of the coefficients *)
Lemma abs_printable v : printable v -> printable (rabs v) /\ (rval (rabs v) == Qabs (rval v))%Q.
Proof.
  intros (W & L1 & L2). pose proof (rof_rval v W) as E. rewrite <- E at 1 2. rewrite Rabs. split; [| apply rof_val]. split; [apply rof_wf |]. rewrite <- Rabs, E. unfold rabs. cbn [rden rnum]. split; auto.
Qed.
Lemma dig_chars s n : numeral 10 n s -> s <> [] /\ forall c, In c s -> 48 <= c <= 57.
Proof.
  intros (N & V & F & _). split; auto. clear N F. revert V. generalize 0. induction s as [| c s IH]; intros a; cbn [dvalue]; [intros _ ? [] |]. destruct (bdig 10 c) as [d |] eqn:E; [| discriminate]. intros H x [<- | Hx]; [| eapply IH; eauto].
  unfold bdig, cdig in E. destruct ((48 <=? c) && (c <=? 57)) eqn:E1; [lia |]. destruct ((97 <=? c) && (c <=? 102)) eqn:E2; [destruct (Z.ltb_spec (c - 87) 10); [lia | discriminate] |].
  destruct ((65 <=? c) && (c <=? 70)) eqn:E3; [destruct (Z.ltb_spec (c - 55) 10); [lia | discriminate] | discriminate].
Qed.
Lemma cut_no p s : (forall c, In c s -> p c = false) -> cut p s = None.
Proof. induction s as [| c s IH]; intros H; cbn [cut]; auto. rewrite (H c) by now left. rewrite IH; auto. intros; apply H. now right. Qed.
Lemma cut_at p a c b : (forall x, In x a -> p x = false) -> p c = true -> cut p (a ++ c :: b) = Some (a, b).
Proof. induction a as [| x a IH]; intros H Hc; cbn [cut app]; [now rewrite Hc |]. rewrite (H x) by now left. rewrite IH; auto. intros; apply H. now right. Qed.
(** the text of a ratio: an optional minus, then what [fread] reads as the magnitude *)
Lemma ratio_text r : printable r -> exists t q, rto_ratio_string r = Ok ((if qltb (rval r) 0 then [45] else []) ++ t) /\ fread t = Some q /\ (q == Qabs (rval r))%Q /\ (exists d u, t = d :: u /\ 48 <= d <= 57) /\ (forall c, In c t -> c = 47 \/ 48 <= c <= 57).
Proof.
  intros (W & L1 & L2). destruct r as [d n]. pose proof W as (Wd & Wn & Hd & HG). cbn [rden rnum] in *. unfold rto_ratio_string. cbn [rden rnum].
  destruct (C23_print n true Wn) as (P & _). destruct (P ltac:(lia)) as (a & -> & Ha). destruct (C23_print d true Wd) as (P' & _). destruct (P' ltac:(lia)) as (b & -> & Hb). cbn [bind].
  assert (SG : qltb (rval (mkR d n)) 0 = (bval n <? 0)) by (unfold qltb, rval; cbn [rden rnum Qnum Qden]; destruct (bval n); reflexivity).
  assert (AV : (Qabs (rval (mkR d n)) == inject_Z (Z.abs (bval n)) / inject_Z (bval d))%Q) by (unfold rval; cbn [rden rnum]; destruct (bval d) as [| pd | pd]; try lia; unfold Qeq, Qabs, Qdiv, Qmult, Qinv, inject_Z; cbn; lia).
  rewrite SG. destruct Ha as (da & -> & Na), Hb as (db & -> & Nb). rewrite (proj2 (Z.ltb_ge (bval d) 0)) in * by lia. rewrite (Z.abs_eq (bval d)) in Nb by lia. cbn [app]. destruct (dig_chars _ _ Na) as [NNa Ca], (dig_chars _ _ Nb) as [NNb Cb].
  assert (RA : nat_read da = Some (Z.abs (bval n))) by (destruct Na as (? & V & _); unfold nat_read; destruct da; [congruence | exact V]). assert (RB : nat_read db = Some (bval d)) by (destruct Nb as (? & V & _); unfold nat_read; destruct db; [congruence | exact V]).
  assert (HD : exists x u, da = x :: u /\ 48 <= x <= 57) by (destruct da as [| x u]; [congruence |]; exists x, u; split; auto; apply Ca; now left).
  destruct (bis_one d) eqn:E1.
  - assert (D1 : bval d = 1) by (rewrite <- (bof_bval d Wd), Bis_one in E1; lia). exists da, (inject_Z (Z.abs (bval n))). split; [destruct (bval n <? 0); reflexivity |]. split.
    { unfold fread. rewrite cut_no by (intros c Hc; apply Ca in Hc; apply Z.eqb_neq; lia). now rewrite RA. }
    split; [rewrite AV, D1; field |]. split; auto.
  - exists (da ++ 47 :: db), (inject_Z (Z.abs (bval n)) / inject_Z (bval d))%Q. split; [now rewrite <- app_assoc |]. split.
    { unfold fread. rewrite cut_at by (auto; intros c Hc; apply Ca in Hc; apply Z.eqb_neq; lia). rewrite RA, RB. now rewrite (proj2 (Z.ltb_lt 0 (bval d))) by lia. }
    split; [now rewrite AV |]. split.
    + destruct HD as (x & u & -> & Hx). exists x, (u ++ 47 :: db). auto.
    + intros c Hc. apply in_app_or in Hc. destruct Hc as [Hc | [<- | Hc]]; auto.
Qed.
Lemma ratio_shown v : printable v -> exists q, shown rto_ratio_string fread v q /\ (q == Qabs (rval v))%Q.
Proof.
  intros P. destruct (abs_printable v P) as [Pa Va]. destruct (ratio_text (rabs v) Pa) as (t & q & T1 & T2 & T3 & T4 & T5). assert (G : (0 <= rval (rabs v))%Q) by (rewrite Va; apply Qabs_nonneg).
  rewrite (proj2 (qltb_false _ _) G) in T1. rewrite (Qabs_pos _ G) in T3. exists q. split; [| now rewrite T3]. exists t. split; [exact T1 |]. split; [split; auto; intros c Hc; apply T5 in Hc; lia |]. split; auto.
  intros H1. rewrite T3. destruct Pa as (W & _). rewrite <- (rof_rval _ W), Ris_one in H1. now apply qeqb_eq in H1.
Qed.
(** the coefficients for which the layout of [to_approx_string] is known *)
Definition in_range (x : Q) : Prop := (2 * inject_Z 10 ^ (- 9991) < Qabs x)%Q /\ (2 * Qabs x < inject_Z 10 ^ 9991)%Q.
Definition styled (x : Q) (M : nat) (j : Z) : Prop := exists t, fixed_style x M t j \/ sci_style x M t j.
Lemma one_exact q x j : (x == 1)%Q -> trunc_to q x j -> j <= 0 -> (q == 1)%Q.
Proof.
  intros E1 (S & A & B & z & Hz) Hj. rewrite E1 in S, A, B. assert (Q0 : (0 <= q)%Q) by (rewrite Qmult_1_r in S; exact S). rewrite (Qabs_pos q) in A, B by auto. change (Qabs 1) with 1%Q in A, B. rewrite Hz in *. pose proof (pow10_pos j) as P.
  assert (E : (inject_Z 10 ^ (- j) * inject_Z 10 ^ j == 1)%Q) by (rewrite <- pow10_add; replace (- j + j) with 0 by lia; reflexivity). rewrite (qpow_Z (- j)) in E by lia. set (w := (inject_Z 10 ^ j)%Q) in *. set (k := 10 ^ (- j)) in *.
  assert (Z1 : z <= k). { rewrite Zle_Qle. apply (Qmult_le_r _ _ w P). rewrite E. exact A. }
  assert (Z2 : k < z + 1). { rewrite Zlt_Qlt. apply (Qmult_lt_r _ _ w P). rewrite E, inject_Z_plus. change (inject_Z 1) with 1%Q. rewrite Qmult_plus_distr_l, Qmult_1_l. exact B. }
  replace z with k by lia. exact E.
Qed.
Lemma approx_shown v n : printable v -> ~ (rval v == 0)%Q -> in_range (rval v) -> Z.of_nat n < 2 ^ 63 ->
  exists q j, shown (fun r => rto_approx_string r n) rread v q /\ trunc_to q (Qabs (rval v)) j /\ styled (Qabs (rval v)) (Nat.max n 6) j.
Proof.
  intros P Hx [R1 R2] Hn. destruct (abs_printable v P) as [Pa Va]. pose proof P as (W & _). assert (Ea : rabs v = rof (Qabs (rval v))) by (rewrite <- (rof_rval v W) at 1; apply Rabs).
  assert (Sm : small_rat (Qabs (rval v))). { destruct Pa as (Wa & L1 & L2). rewrite Ea in L1, L2. unfold small_rat. pose proof (rof_den_pos (Qabs (rval v))) as Dp. unfold rof in L1, L2. cbn [rnum rden bmag bof] in L1, L2.
    change (Z.of_nat (length (uof (Z.abs (QDen (Qred (Qabs (rval v))))))) < 2 ^ 27) in L2. rewrite Z.abs_eq in L2 by lia. split; assumption. }
  set (x := Qabs (rval v)) in *. assert (X0 : (0 <= x)%Q) by apply Qabs_nonneg. assert (Ax : (Qabs x == x)%Q) by (apply Qabs_pos; auto). assert (Nx : ~ (x == 0)%Q). { intros C. apply Hx. unfold x in C. revert C. apply Qabs_case; intros; lra. }
  destruct (approx_ok x n Nx Sm Hn) as (t & q & j & T1 & T2 & T3 & [T4 T5] & _ & T6 & T7 & _). { now rewrite Ax. } { now rewrite Ax. }
  rewrite (proj2 (qltb_false _ _) X0) in T5. exists q, j. split; [| split; [exact T3 | exists t; exact T6]]. exists t. rewrite Ea. split; [exact T1 |]. split.
  { split; [exact T5 |]. intros c Hc. pose proof (proj1 (Forall_forall _ _) T4 c Hc) as K. unfold tchar in K. lia. }
  split; [exact T2 |]. rewrite Ris_one. intros H1. assert (X1 : (x == 1)%Q) by (now apply qeqb_eq). apply (one_exact q x j); auto.
  assert (F : fixed_style x (Nat.max n 6) t j).
  { apply T7; rewrite Ax, X1.
    - apply Qle_lt_trans with (2 * inject_Z 10 ^ (- 4))%Q; [apply Qmult_le_l; [reflexivity |]; apply pow10_le; lia | reflexivity].
    - apply Qlt_le_trans with (inject_Z 10 ^ 4)%Q; [reflexivity | apply pow10_le; lia]. }
  destruct F as (_ & _ & F & _). exact F.
Qed.

(** ** matrices *)
Lemma join_cons sep t r : join sep (t :: r) = t ++ concat (map (fun w => sep ++ w) r).
Proof. revert t. induction r as [| u r IH]; intros t; [cbn [join map concat]; now rewrite app_nil_r |]. change (join sep (t :: u :: r)) with (t ++ sep ++ join sep (u :: r)). rewrite IH. cbn [map concat]. now rewrite <- app_assoc. Qed.
Lemma pieces_join c p r : forall t, (forall w, In w (t :: r) -> forall x, In x w -> x <> c) -> (forall x, In x p -> x <> c) -> pieces c (t ++ concat (map (fun w => (c :: p) ++ w) r)) = t :: map (app p) r.
Proof.
  induction r as [| u r IH]; intros t H Hp; cbn [map concat]; [rewrite app_nil_r; apply pieces_one, H; now left |].
  rewrite <- app_assoc. change ((c :: p) ++ u ++ ?k) with (c :: (p ++ u ++ k)). rewrite pieces_app, (pieces_one c t) by (apply H; now left). rewrite app_assoc, IH; [reflexivity | | auto].
  intros w [<- | Hw] x Hx; [apply in_app_or in Hx; destruct Hx as [Hx | Hx]; [now apply Hp | apply (H u); [right; now left | auto]] | apply (H w); [right; now right | auto]].
Qed.
Lemma strip_app p s : strip p (p ++ s) = Some s.
Proof. induction p as [| c p IH]; cbn [strip app]; auto. now rewrite Z.eqb_refl. Qed.
Definition rowtext (t : list Z) (l : list rat) : Prop := exists qs, row_read t = Some qs /\ Forall2 (fun v q => (q == rval v)%Q) l qs.
Definition cellchar (c : Z) : Prop := c = 45 \/ c = 47 \/ 48 <= c <= 57.
Lemma cell_text r : printable r -> exists t q, rto_ratio_string r = Ok t /\ sfread t = Some q /\ (q == rval r)%Q /\ t <> [] /\ forall c, In c t -> cellchar c.
Proof.
  intros P. destruct (ratio_text r P) as (t & q & T1 & T2 & T3 & (d & u & E & Hd) & T5). destruct (qltb_qlt (rval r) 0) as [C | C].
  - exists (45 :: t), (- q)%Q. split; [exact T1 |]. split; [unfold sfread; change (45 =? 45) with true; cbv iota; now rewrite T2 |]. split; [rewrite T3, Qabs_neg by lra; ring |]. split; [discriminate |]. unfold cellchar. intros c [<- | Hc]; [auto |]. apply T5 in Hc. lia.
  - exists t, q. split; [exact T1 |]. split; [unfold sfread; rewrite E in *; now rewrite (proj2 (Z.eqb_neq d 45)) by lia |]. split; [rewrite T3; apply Qabs_pos; lra |]. split; [rewrite E; discriminate |]. unfold cellchar. intros c Hc. apply T5 in Hc. lia.
Qed.
Lemma cells_text l : Forall printable l -> exists ts qs, map_m rto_ratio_string l = Ok ts /\ all_read sfread ts = Some qs /\ Forall2 (fun v q => (q == rval v)%Q) l qs /\ (forall w, In w ts -> w <> [] /\ forall c, In c w -> cellchar c).
Proof.
  induction 1 as [| r l P _ IH]; cbn [map_m]; [exists [], []; repeat split; auto; try intros ? []; easy |]. destruct IH as (ts & qs & A & B & C & D). destruct (cell_text r P) as (t & q & T1 & T2 & T3 & T4 & T5). rewrite T1. cbn [bind]. rewrite A. cbn [bind]. exists (t :: ts), (q :: qs). split; auto.
  split; [cbn [all_read]; now rewrite T2, B |]. split; [constructor; auto |]. intros w [<- | Hw]; auto.
Qed.
Lemma all_after {A} p (r : list Z -> option A) l : all_read (after p r) (map (app p) l) = all_read r l.
Proof. induction l as [| w l IH]; cbn [map all_read]; auto. unfold after at 1. now rewrite strip_app, IH. Qed.
Lemma row_text l : Forall printable l -> exists ts, map_m rto_ratio_string l = Ok ts /\ rowtext (join comma ts) l /\ forall c, In c (join comma ts) -> cellchar c \/ c = 44 \/ c = 32.
Proof.
  intros H. destruct (cells_text l H) as (ts & qs & A & B & C & D). exists ts. split; auto. destruct ts as [| t ts].
  - cbn [all_read] in B. injection B as <-. split; [exists []; auto | intros ? []].
  - rewrite join_cons. split.
    + exists qs. split; auto. destruct (D t (or_introl eq_refl)) as [Nt _]. unfold row_read. destruct (t ++ concat (map (fun w => comma ++ w) ts)) eqn:E; [destruct t; [congruence | discriminate] |]. rewrite <- E. change comma with (44 :: [32]).
      rewrite pieces_join; [| intros w Hw x Hx; destruct (D w Hw) as [_ K]; specialize (K x Hx); unfold cellchar in K; lia | intros x [<- | []]; discriminate]. rewrite all_after. cbn [all_read] in B. destruct (sfread t); [| discriminate]. destruct (all_read sfread ts); [| discriminate]. congruence.
    + intros c Hc. apply in_app_or in Hc. destruct Hc as [Hc | Hc]; [left; destruct (D t (or_introl eq_refl)) as [_ K]; auto |]. apply in_concat in Hc. destruct Hc as (w & Hw & Hc). apply in_map_iff in Hw. destruct Hw as (u & <- & Hu). apply in_app_or in Hc. destruct Hc as [[<- | [<- | []]] | Hc]; auto. left. destruct (D u (or_intror Hu)) as [_ K]; auto.
Qed.
Lemma mat_text a : Forall (Forall printable) (mdata a) -> exists s l, mto_ratio_string a = Ok s /\ mat_read s = Some l /\ Forall2 (Forall2 (fun v q => (q == rval v)%Q)) (mdata a) l.
Proof.
  intros H. unfold mto_ratio_string. match goal with |- context [map_m ?g (mdata a)] => set (f := g) end. assert (K : exists cs ls, map_m f (mdata a) = Ok (map bracket cs) /\ all_read row_read cs = Some ls /\ Forall2 (Forall2 (fun v q => (q == rval v)%Q)) (mdata a) ls /\ forall w, In w cs -> forall c, In c w -> c <> 93).
  { revert H. generalize (mdata a). induction 1 as [| r l P _ IH]; cbn [map_m]; [exists [], []; repeat split; auto; try intros ? []; easy |]. destruct IH as (cs & ls & A & B & C & D). destruct (row_text r P) as (ts & T1 & (qs & T2 & T3) & T4). unfold f at 1. rewrite T1. cbn [bind]. rewrite A. cbn [bind].
    exists (join comma ts :: cs), (qs :: ls). split; auto. split; [cbn [all_read]; now rewrite T2, B |]. split; [constructor; auto |]. intros w [<- | Hw]; [| apply (D w Hw)]. intros c Hc. apply T4 in Hc. unfold cellchar in Hc. lia. }
  destruct K as (cs & ls & A & B & C & D). rewrite A. cbn [bind]. eexists. exists ls. split; [reflexivity |]. split; auto. clear - B D. destruct cs as [| c cs]; cbn [map].
  - cbn [all_read] in B. injection B as <-. reflexivity.
  - rewrite join_cons. unfold mat_read.
    assert (E : bracket (bracket c ++ concat (map (fun w => comma ++ w) (map bracket cs))) = ([91; 91] ++ c) ++ concat (map (fun w => (93 :: [44; 32; 91]) ++ w) cs) ++ [93; 93]).
    { assert (K : forall cs, 93 :: concat (map (fun w => comma ++ w) (map bracket cs)) ++ [93] = concat (map (fun w => (93 :: [44; 32; 91]) ++ w) cs) ++ [93; 93]).
      { induction cs0 as [| w cs0 IH]; cbn [map concat]; auto. rewrite <- !app_assoc. rewrite <- IH. unfold bracket, comma. cbn [app]. now rewrite <- !app_assoc. }
      rewrite <- K. unfold bracket at 1 2. rewrite <- !app_assoc. reflexivity. }
    rewrite E, app_assoc. change [93; 93] with (93 :: [] ++ 93 :: []). rewrite !pieces_app, pieces_join.
    2: { intros w [<- | Hw] x Hx; [apply in_app_or in Hx; destruct Hx as [[<- | [<- | []]] | Hx]; [discriminate | discriminate | apply (D c); [now left | auto]] | apply (D w); [now right | auto]]. }
    2: { intros x [<- | [<- | [<- | []]]]; discriminate. }
    rewrite !rev_app_distr. cbn [pieces rev app]. rewrite rev_app_distr, rev_involutive. cbn [rev app]. change (after [91; 91] row_read (91 :: 91 :: c)) with (row_read c). rewrite all_after. cbn [all_read] in B. destruct (row_read c); [| discriminate]. destruct (all_read row_read cs); [| discriminate]. congruence.
Qed.
