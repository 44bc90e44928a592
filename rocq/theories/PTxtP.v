(** The text of a polynomial is read back by [poly_read]. *)
From Coq Require Import QArith Qabs Lqa.
From Verif Require Import Base USpec SSpec UStr UStrP BBig RBig RSpec REq RStr MMat PPoly PTxtS.
Local Open Scope Z_scope.

Lemma pieces_app c a b : pieces c (a ++ c :: b) = pieces c a ++ pieces c b.
Proof.
  induction a as [| x a IH]; cbn [pieces app]; [now rewrite Z.eqb_refl |]. destruct (x =? c); [now rewrite IH |]. rewrite IH.
  destruct (pieces c a) as [| w r] eqn:E; [| reflexivity]. exfalso. destruct a as [| y a]; cbn [pieces] in E; [discriminate |]. destruct (y =? c); [discriminate |]. destruct (pieces c a); discriminate.
Qed.
Lemma pieces_one c w : (forall x, In x w -> x <> c) -> pieces c w = [w].
Proof.
  induction w as [| x w IH]; intros H; cbn [pieces]; auto. rewrite (proj2 (Z.eqb_neq x c)) by (apply H; now left). rewrite IH by (intros; apply H; now right). reflexivity.
Qed.
Lemma terms_app op neg A B : op = 43 \/ op = 45 -> forall cur, signed_terms neg cur (A ++ [op] :: B) = signed_terms neg cur A ++ signed_terms (op =? 45) [] B.
Proof.
  intros Ho. revert neg. induction A as [| w A IH]; intros neg cur; cbn [signed_terms app is_word].
  - destruct Ho as [-> | ->]; reflexivity.
  - destruct (is_word 43 w); [now rewrite IH |]. destruct (is_word 45 w); now rewrite IH.
Qed.
Lemma terms_plain neg ws : Forall (fun w => is_word 43 w = false /\ is_word 45 w = false) ws -> forall cur, signed_terms neg cur ws = [(neg, cur ++ ws)].
Proof.
  induction 1 as [| w ws [H1 H2] _ IH]; intros cur; cbn [signed_terms]; [now rewrite app_nil_r |]. rewrite H1, H2, IH, <- app_assoc. reflexivity.
Qed.
Lemma all_read_app {A C} (f : A -> option C) l l' r r' : all_read f l = Some r -> all_read f l' = Some r' -> all_read f (l ++ l') = Some (r ++ r').
Proof.
  revert r. induction l as [| a l IH]; intros r; cbn [all_read app]; [intros [= <-]; auto |]. destruct (f a); [| discriminate]. destruct (all_read f l) eqn:E; [| discriminate]. intros [= <-] H. now rewrite (IH _ eq_refl H).
Qed.

(** ** one coefficient text *)
Definition word (t : list Z) : Prop := (exists d u, t = d :: u /\ 48 <= d <= 57) /\ forall c, In c t -> c <> 32.
Lemma word_plain t : word t -> is_word 43 t = false /\ is_word 45 t = false /\ mono_read t = None.
Proof.
  intros [(d & u & -> & Hd) _]. unfold is_word, mono_read. rewrite (proj2 (Z.eqb_neq d 120)) by lia. destruct u; auto. rewrite (proj2 (Z.eqb_neq d 43)), (proj2 (Z.eqb_neq d 45)) by lia. auto.
Qed.
Definition mono (k : Z) : list Z := 120 :: if 1 <? k then 94 :: fmt_uint 10 k else [].
Lemma fmt10_chars n c : 0 <= n -> In c (fmt_uint 10 n) -> 48 <= c <= 57.
Proof.
  intros Hn H. unfold fmt_uint in H. apply in_map_iff in H. destruct H as (d & <- & H). pose proof (proj1 (Forall_forall _ _) (zdigits_digits 10 n ltac:(lia) Hn) d H) as D. cbv beta in D.
  unfold dchar. destruct (Z.ltb_spec d 10); lia.
Qed.
Lemma mono_ok k : 1 <= k -> mono_read (mono k) = Some k /\ is_word 43 (mono k) = false /\ is_word 45 (mono k) = false /\ forall c, In c (mono k) -> c <> 32.
Proof.
  intros Hk. unfold mono, mono_read, is_word. destruct (Z.ltb_spec 1 k) as [C | C].
  - change (120 =? 120) with true. change (94 =? 94) with true. cbv iota. destruct (fmt_numeral 10 k ltac:(lia) ltac:(lia)) as (N & V & _). unfold nat_read. destruct (fmt_uint 10 k) eqn:E; [congruence |]. split; [exact V |]. split; auto. split; auto.
    intros c [<- | [<- | H]]; [discriminate | discriminate |]. rewrite <- E in H. apply fmt10_chars in H; lia.
  - replace k with 1 by lia. split; auto. split; auto. split; auto. intros c [<- | []]. discriminate.
Qed.

(** the term of coefficient text [t] (or none when the coefficient is one) and exponent [k], without sign *)
Definition term_text (one : bool) (t : list Z) (k : Z) : list Z :=
  if one && (0 <? k) then mono k else if 0 <? k then t ++ [32; 42; 32] ++ mono k else t.
Lemma term_text_ok cr one t k q neg : 0 <= k -> word t -> cr t = Some q -> (one = true -> (q == 1)%Q) ->
  exists ws q', pieces 32 (term_text one t k) = ws /\ ws <> [] /\ Forall (fun w => is_word 43 w = false /\ is_word 45 w = false) ws /\
    term_read cr (neg, ws) = Some (if neg then (- q')%Q else q', k) /\ (q' == q)%Q.
Proof.
  intros Hk Wt Ht H1. destruct (word_plain t Wt) as (P1 & P2 & P3). destruct Wt as [_ Wt]. unfold term_text. destruct (Z.ltb_spec 0 k) as [C | C]; [destruct (mono_ok k ltac:(lia)) as (M1 & M2 & M3 & M4) |].
  - destruct one; cbn [andb].
    + exists [mono k], 1%Q. rewrite (pieces_one 32 (mono k)) by auto. split; auto. split; [discriminate |]. split; [repeat constructor; auto |]. split; [| symmetry; auto]. cbn [term_read]. rewrite M1. destruct neg; reflexivity.
    + exists [t; [42]; mono k], q. change (t ++ [32; 42; 32] ++ mono k) with (t ++ 32 :: [42] ++ 32 :: mono k). rewrite !pieces_app, (pieces_one 32 t), (pieces_one 32 (mono k)), (pieces_one 32 [42]) by (auto; intros x [<- | []]; discriminate).
      split; auto. split; [discriminate |]. split; [repeat constructor; auto |]. split; [| reflexivity]. cbn [term_read is_word]. change (42 =? 42) with true. cbv iota. rewrite Ht, M1. destruct neg; reflexivity.
  - rewrite andb_false_r. exists [t], q. rewrite (pieces_one 32 t) by auto. split; auto. split; [discriminate |]. split; [repeat constructor; auto |]. split; [| reflexivity]. cbn [term_read]. rewrite P3, Ht. replace k with 0 by lia. destruct neg; reflexivity.
Qed.
Lemma term_text_hd one t k : word t -> exists c u, term_text one t k = c :: u /\ c <> 45.
Proof.
  intros [(d & u & -> & Hd) _]. unfold term_text, mono. destruct (one && (0 <? k)); [do 2 eexists; split; [reflexivity | discriminate] |]. destruct (0 <? k); (do 2 eexists; split; [reflexivity | lia]).
Qed.

(** ** the loop *)
Section Loop.
Context (show : rat -> res (list Z)) (cr : list Z -> option Q).
(** what the loop needs to know about the coefficient [v]: its text [t] is read as [q] *)
Definition shown (v : rat) (q : Q) : Prop := exists t, show (rabs v) = Ok t /\ word t /\ cr t = Some q /\ (ris_one (rabs v) = true -> (q == 1)%Q).
(** what is read for a coefficient *)
Definition reads (v : rat) (q : Q) : Prop := exists q0, shown v q0 /\ (q == if ris_neg v then - q0 else q0)%Q.
Definition pstep : list (list Z) -> nat * rat -> res (list (list Z)) := fun result '(ind, value) =>
      if ris_zero value then Ok result
      else
        let abs_val := rabs value in
        let result := match result with
                      | _ :: _ => if ris_neg value then result ++ [[32; 45; 32]%Z] else result ++ [[32; 43; 32]%Z]
                      | [] => if ris_neg value then result ++ [[45]%Z] else result
                      end in
        let* result :=
          if negb (ris_one abs_val) then
            let* s := show abs_val in
            Ok (if (0 <? ind)%nat then result ++ [s] ++ [[32; 42; 32]%Z] else result ++ [s])
          else if (ind =? 0)%nat then let* s := show abs_val in Ok (result ++ [s])
          else Ok result in
        let result := if negb (ind =? 0)%nat then result ++ [[120]%Z] else result in
        Ok (if (1 <? ind)%nat then result ++ [[94]%Z ++ fmt_uint 10 (Z.of_nat ind)] else result).
Lemma pstep_zero result ind v : ris_zero v = true -> pstep result (ind, v) = Ok result.
Proof. intros H. cbn [pstep]. now rewrite H. Qed.
Lemma pstep_eq result ind v q : ris_zero v = false -> shown v q ->
  exists t r', show (rabs v) = Ok t /\ word t /\ cr t = Some q /\ pstep result (ind, v) = Ok r' /\ r' <> [] /\
    concat r' = concat result ++ (match result with _ :: _ => if ris_neg v then [32; 45; 32] else [32; 43; 32] | [] => if ris_neg v then [45] else [] end) ++ term_text (ris_one (rabs v)) t (Z.of_nat ind).
Proof.
  intros Z0 (t & Ht & Wt & Hq & _). exists t. cbn [pstep]. rewrite Z0, Ht. set (r0 := match result with [] => _ | _ :: _ => _ end).
  assert (E0 : concat r0 = concat result ++ (match result with _ :: _ => if ris_neg v then [32; 45; 32] else [32; 43; 32] | [] => if ris_neg v then [45] else [] end)).
  { unfold r0. destruct result; destruct (ris_neg v); rewrite ?concat_app; cbn [concat app]; rewrite ?app_nil_r; reflexivity. }
  clearbody r0. unfold term_text, mono. 
  assert (K1 : (0 <? Z.of_nat ind) = (0 <? ind)%nat) by (destruct (Nat.ltb_spec 0 ind); lia). assert (K2 : (1 <? Z.of_nat ind) = (1 <? ind)%nat) by (destruct (Nat.ltb_spec 1 ind); lia).
  rewrite K1, K2. destruct ind as [| ind].
  - change (0 <? 0)%nat with false. rewrite andb_false_r. destruct (ris_one (rabs v)); cbn [negb bind Nat.eqb Nat.ltb Nat.leb]; eexists; (split; [auto |]; split; [auto |]; split; [auto |]; split; [reflexivity |]; split; [now destruct r0 |]; rewrite concat_app, E0, <- app_assoc; cbn [concat]; now rewrite app_nil_r).
  - change (0 <? S ind)%nat with true. destruct (ris_one (rabs v)); cbn [negb bind Nat.eqb andb]; destruct (1 <? S ind)%nat; eexists; (split; [auto |]; split; [auto |]; split; [auto |]; split; [reflexivity |]; split; [now destruct r0 |]; rewrite !concat_app, E0, <- !app_assoc; cbn [concat app]; rewrite ?app_nil_r; reflexivity).
Qed.

(** the pieces so far are read as the terms [ts] *)
Definition state (result : list (list Z)) (ts : list (Q * Z)) : Prop :=
  match result with
  | [] => ts = []
  | _ :: _ => exists neg body, concat result = (if neg : bool then [45] else []) ++ body /\ (neg = false -> exists c u, body = c :: u /\ c <> 45) /\ all_read (term_read cr) (signed_terms neg [] (pieces 32 body)) = Some ts
  end.
Lemma pstep_state result ts ind v q : state result ts -> ris_zero v = false -> shown v q ->
  exists r' q', pstep result (ind, v) = Ok r' /\ r' <> [] /\ state r' (ts ++ [(q', Z.of_nat ind)]) /\ (q' == if ris_neg v then - q else q)%Q.
Proof.
  intros S Z0 Hs. destruct (pstep_eq result ind v q Z0 Hs) as (t & r' & Ht & Wt & Hq & Er & Nr & Ec). destruct Hs as (t' & Ht' & _ & _ & H1). rewrite Ht in Ht'. injection Ht' as <-.
  destruct (term_text_ok cr (ris_one (rabs v)) t (Z.of_nat ind) q (ris_neg v) ltac:(lia) Wt Hq H1) as (ws & q' & E1 & E2 & E3 & E4 & E5).
  exists r', (if ris_neg v then (- q')%Q else q'). split; auto. split; auto. split.
  2: { destruct (ris_neg v); now rewrite E5. }
  unfold state. destruct r' as [| x r']; [congruence |]. rewrite Ec. destruct result as [| y result].
  - cbn [state] in S. subst ts. exists (ris_neg v), (term_text (ris_one (rabs v)) t (Z.of_nat ind)). split; [reflexivity |]. split; [intros _; now apply term_text_hd |]. rewrite E1, terms_plain by auto. cbn [app all_read]. now rewrite E4.
  - destruct S as (neg & body & B1 & B2 & B3). rewrite B1. set (op := if ris_neg v then 45 else 43). assert (Eo : (op =? 45) = ris_neg v) by (unfold op; now destruct (ris_neg v)).
    exists neg, (body ++ [32; op; 32] ++ term_text (ris_one (rabs v)) t (Z.of_nat ind)). split; [unfold op; destruct (ris_neg v); now rewrite <- app_assoc |]. split.
    { intros Hn. destruct (B2 Hn) as (c & u & -> & Hc). do 2 eexists. split; [reflexivity | auto]. }
    change (body ++ [32; op; 32] ++ ?u) with (body ++ 32 :: [op] ++ 32 :: u). rewrite !pieces_app, (pieces_one 32 [op]), E1 by (intros x0 [<- | []]; unfold op; destruct (ris_neg v); discriminate). cbn [app].
    rewrite terms_app by (unfold op; destruct (ris_neg v); auto). rewrite Eo. apply all_read_app; auto. rewrite terms_plain by auto. cbn [app all_read]. now rewrite E4.
Qed.
Lemma fold_state : forall l result ts, state result ts -> (forall i v, In (i, v) l -> ris_zero v = false -> exists q, shown v q) ->
  exists r' ts', fold_m pstep l result = Ok r' /\ state r' (ts ++ ts') /\
    Forall2 (fun '(i, v) '(q, k) => k = Z.of_nat i /\ reads v q) (filter (fun '(_, v) => negb (ris_zero v)) l) ts'.
Proof.
  induction l as [| [i v] l IH]; intros result ts S H; cbn [fold_m].
  - exists result, []. rewrite app_nil_r. split; auto. split; auto. constructor.
  - destruct (ris_zero v) eqn:Z0.
    + rewrite pstep_zero by auto. cbn [bind]. destruct (IH result ts S) as (r' & ts' & A & B & C). { intros i0 v0 Hi. apply (H i0 v0). now right. } exists r', ts'. split; auto. split; auto. cbn [filter]. now rewrite Z0.
    + destruct (H i v (or_introl eq_refl) Z0) as (q & Hq). destruct (pstep_state result ts i v q S Z0 Hq) as (r1 & q' & A1 & _ & A2 & A3). rewrite A1. cbn [bind].
      destruct (IH r1 _ A2) as (r' & ts' & A & B & C). { intros i0 v0 Hi. apply (H i0 v0). now right. } exists r', ((q', Z.of_nat i) :: ts'). split; auto. rewrite <- app_assoc in B. split; auto. cbn [filter]. rewrite Z0. constructor; auto. split; auto. exists q. auto.
Qed.
Lemma state_read result ts : state result ts -> result <> [] -> poly_read cr (concat result) = Some ts.
Proof.
  destruct result as [| x r]; [congruence |]. intros (neg & body & E & B & R) _. unfold poly_read. rewrite E. destruct neg.
  - exact R.
  - destruct (B eq_refl) as (c & u & -> & Hc). cbn [app] in *. rewrite (proj2 (Z.eqb_neq c 45)) by auto. exact R.
Qed.
Lemma state_nil result ts : state result ts -> (result = [] <-> ts = []).
Proof.
  destruct result as [| x r]; cbn [state]; [tauto |]. intros (neg & body & _ & _ & R). split; [discriminate |]. intros ->. exfalso. revert R. assert (N : forall ws cur, signed_terms neg cur ws <> []).
  { induction ws as [| w ws IH]; intros cur; cbn [signed_terms]; [discriminate |]. destruct (is_word 43 w); [discriminate |]. destruct (is_word 45 w); [discriminate | apply IH]. }
  specialize (N (pieces 32 body) []). destruct (signed_terms neg [] (pieces 32 body)); [congruence |]. cbn [all_read]. destruct (term_read cr p); [| discriminate]. destruct (all_read (term_read cr) l); discriminate.
Qed.
Definition terms_of (p : list rat) : list (nat * rat) := filter (fun '(_, v) => negb (ris_zero v)) (rev (enum (rev p))).
Lemma pto_string_ok p : (forall v, In v p -> ris_zero v = false -> exists q, shown v q) ->
  exists s ts, pto_string show p = Ok s /\ Forall2 (fun '(i, v) '(q, k) => k = Z.of_nat i /\ reads v q) (terms_of p) ts /\
    if match ts with [] => true | _ => false end then s = [48] else poly_read cr s = Some ts.
Proof.
  intros H. unfold pto_string. destruct (fold_state (rev (enum (rev p))) [] []) as (r & ts & A & B & C).
  - reflexivity.
  - intros i v Hi Z0. apply (H v); auto. apply in_rev in Hi. unfold enum in Hi. apply in_combine_r in Hi. now apply in_rev.
  - match goal with |- context [fold_m ?f _ _] => change f with pstep end. rewrite A. cbn [bind app] in *. eexists. exists ts. split; [reflexivity |]. split; [exact C |]. pose proof (state_nil r ts B) as N. destruct ts.
    + rewrite (proj2 N eq_refl). reflexivity.
    + destruct r as [| x r]; [destruct (proj1 N eq_refl); discriminate |]. apply state_read; auto. discriminate.
Qed.
End Loop.
