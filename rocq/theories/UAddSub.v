(** Addition, subtraction, comparison, shifts and word conversions of UBigInt are exact. *)
From Verif Require Import Base USpec UFacts UBig.
Ltac Zify.zify_post_hook ::= Z.div_mod_to_equations.

Lemma castw_small w x : 0 <= x < 2 ^ w -> castw w x = x.
Proof. intros; unfold castw; now apply Z.mod_small. Qed.
Lemma map_castw l : limbs l -> map (castw 32) l = l.
Proof.
  induction 1 as [| x l Hx Hl IH]; cbn [map]; auto. rewrite IH. f_equal.
  apply castw_small. exact Hx.
Qed.

(** ** v64_to_v32 *)
(** sweep of u64 accumulators with room for the incoming carry *)
Lemma v64_sweep_spec l : forall c, l <> [] -> 0 <= c < B ->
  Forall (fun x => 0 <= x <= 2 ^ 64 - B) l ->
  returns (v64_sweep c l) (fun r => limbs r /\ uval r = uval l + c /\
     (length l <= length r)%nat /\
     (length r = length l \/ (length r = S (length l) /\ last r 0 <> 0)) /\
     (0 < last l 0 < B -> 0 < last r 0) ).
Proof.
  induction l as [| x t IH]; intros c Hne Hc HF; [congruence |].
  inversion HF as [| ? ? Hx Ht]; subst. cbn [v64_sweep].
  rewrite addw_ok by (change (2 ^ 64) with 18446744073709551616 in *; lia).
  cbn [bind]. change (2 ^ 64) with 18446744073709551616 in *.
  destruct t as [| y t].
  - destruct (Z.leb_spec B (x + c)).
    + apply returns_ok. cbn [uval length last]. splits; try lia.
      repeat constructor; lia.
    + apply returns_ok. cbn [uval length last]. splits; try lia.
      repeat constructor; lia.
  - eapply returns_bind. { apply IH; auto; try discriminate. lia. }
    intros r (Hl & Hv & Hle & Hlen & Hlast). apply returns_ok.
    assert (r <> []) by (destruct r; [cbn in Hle; lia | discriminate]).
    rewrite (last_cons _ (y :: t)) by discriminate. rewrite (last_cons _ r) by auto.
    cbn [uval length] in *. splits; auto; try lia.
    constructor; auto; lia.
Qed.

Lemma v64_to_v32_spec l : l <> [] -> Forall (fun x => 0 <= x <= 2 ^ 64 - B) l ->
  returns (v64_to_v32 l) (fun r => limbs r /\ uval r = uval l /\
     (length l <= length r)%nat /\
     (length r = length l \/ (length r = S (length l) /\ last r 0 <> 0)) /\
     (0 < last l 0 < B -> 0 < last r 0) ).
Proof.
  intros Hne HF. unfold v64_to_v32. eapply returns_bind.
  { apply v64_sweep_spec; auto; lia. }
  intros r (Hl & Hv & H). apply returns_ok. rewrite map_castw by auto.
  splits; try tauto. lia.
Qed.

(** ** remove_suffix_0 *)
Lemma strip0_spec l : limbs l -> limbs (strip0 l) /\ uval (strip0 l) = uval l /\
  (strip0 l = [] \/ last (strip0 l) 0 <> 0) /\ (length (strip0 l) <= length l)%nat.
Proof.
  induction 1 as [| x t Hx Ht (IH1 & IH2 & IH3 & IH4)]; cbn [strip0].
  - splits; auto. constructor.
  - destruct (strip0 t) as [| y s] eqn:E.
    + destruct (Z.eqb_spec x 0).
      * subst. cbn [uval length] in *. splits; auto; lia.
      * cbn [uval length last] in *. splits; auto; try lia. constructor; auto.
    + destruct IH3 as [IH3 | IH3]; [discriminate |].
      cbn [uval length] in *. splits; auto; try lia. constructor; auto.
Qed.
Lemma remove_suffix_0_spec l : l <> [] -> limbs l ->
  uwf (remove_suffix_0 l) /\ uval (remove_suffix_0 l) = uval l /\
  (length (remove_suffix_0 l) <= length l)%nat.
Proof.
  destruct l as [| x t]; [congruence |]. intros _ H. apply limbs_cons in H as [Hx Ht].
  destruct (strip0_spec t Ht) as (H1 & H2 & H3 & H4). cbn [remove_suffix_0].
  unfold uwf. splits.
  - discriminate.
  - constructor; auto.
  - destruct H3 as [-> | H3]; [left; reflexivity |]. right. rewrite last_cons; auto.
    intros E; rewrite E in H3; cbn in H3; congruence.
  - cbn [uval]. lia.
  - cbn [length]. lia.
Qed.

(** ** add *)
Lemma add_zip_spec a : forall b, limbs a -> limbs b ->
  returns (add_zip a b) (fun r => Forall (fun x => 0 <= x <= 2 ^ 64 - B) r /\ uval r = uval a + uval b /\
    length r = Nat.max (length a) (length b)).
Proof.
  change (2 ^ 64) with 18446744073709551616.
  assert (W : forall l, limbs l -> Forall (fun x => 0 <= x <= 18446744073709551616 - B) l).
  { intros l Hl. eapply Forall_impl; [| exact Hl]. cbn; intros; lia. }
  induction a as [| x a IH]; intros b Ha Hb.
  - cbn [add_zip]. apply returns_ok. cbn [uval length]. splits; auto; lia.
  - destruct b as [| y b]; cbn [add_zip].
    + apply returns_ok. cbn [uval length]. splits; auto; try lia.
    + apply limbs_cons in Ha as [Hx Ha]. apply limbs_cons in Hb as [Hy Hb].
      rewrite addw_ok by (change (2 ^ 64) with 18446744073709551616; lia). cbn [bind].
      eapply returns_bind. { apply IH; auto. }
      intros r (H1 & H2 & H3). apply returns_ok. cbn [uval length]. splits; try lia.
      constructor; auto; lia.
Qed.
(** where the top entry of the limbwise sum comes from *)
Lemma add_zip_last a : forall b r, limbs a -> limbs b -> add_zip a b = Ok r ->
  a <> [] -> b <> [] -> (last a 0 <> 0 \/ (length a < length b)%nat) -> (last b 0 <> 0 \/ (length b < length a)%nat) ->
  0 < last r 0.
Proof.
  induction a as [| x a IH]; intros b r Ha Hb E Hane Hbne H1 H2; [congruence |].
  destruct b as [| y b]; [congruence |].
  apply limbs_cons in Ha as [Hx Ha]. apply limbs_cons in Hb as [Hy Hb].
  cbn [add_zip] in E. rewrite addw_ok in E by (change (2 ^ 64) with 18446744073709551616; lia). cbn [bind] in E.
  destruct (add_zip_spec a b Ha Hb) as (r' & E' & HF & Hv & Hlen). rewrite E' in E. cbn [bind] in E.
  injection E as <-.
  destruct a as [| x2 a]; destruct b as [| y2 b].
  - cbn in E'. injection E' as <-. cbn [last length] in *. lia.
  - cbn in E'. injection E' as <-. rewrite (last_cons (x + y)) by discriminate.
    rewrite (last_cons y) in H2 by discriminate. cbn [length] in *. pose proof (last_limb _ Hb).
    destruct H2; [lia | cbn in *; lia].
  - cbn in E'. injection E' as <-. rewrite (last_cons (x + y)) by discriminate.
    rewrite (last_cons x) in H1 by discriminate. cbn [length] in *. pose proof (last_limb _ Ha).
    destruct H1; [lia | cbn in *; lia].
  - assert (r' <> []) by (destruct r'; [cbn in Hlen; lia | discriminate]).
    rewrite (last_cons (x + y)) by auto.
    rewrite (last_cons x) in H1 by discriminate. rewrite (last_cons y) in H2 by discriminate.
    apply (IH (y2 :: b)); auto; try discriminate; cbn [length] in *; lia.
Qed.

Lemma uadd_spec a b : uwf a -> uwf b -> returns (uadd a b) (fun r => uwf r /\ uval r = uval a + uval b).
Proof.
  intros Ha Hb. unfold uadd. pose proof (uwf_limbs a Ha). pose proof (uwf_limbs b Hb).
  pose proof (uwf_len a Ha). pose proof (uwf_len b Hb).
  destruct (add_zip_spec a b) as (r & E & HF & Hv & Hlen); auto. rewrite E. cbn [bind].
  assert (Hr : r <> []) by (destruct r; [cbn in Hlen; lia | discriminate]).
  destruct (v64_to_v32_spec r Hr HF) as (s & E2 & Hs & Hsv & Hle & Hsl & Hlast). rewrite E2.
  apply returns_ok. split; [| lia]. split; [| split]; auto.
  - destruct s; [destruct r; [congruence | cbn in Hle; lia] | discriminate].
  - destruct (Nat.eq_dec (length s) 1) as [E1 | E1]; [now left | right].
    destruct Hsl as [Hsl | [_ Hsl]]; auto.
    (* no new limb: the top accumulator was non-zero; if it needed carrying the value reasoning applies *)
    pose proof (uval_last_upper s Hs ltac:(destruct s; [cbn in *; lia | discriminate])) as Hu.
    intros E0. rewrite E0 in Hu.
    assert (Hbig : BB (length s - 1) <= uval a + uval b).
    { assert (Hmax : length s = Nat.max (length a) (length b)) by lia.
      pose proof (uwf_nonneg a Ha). pose proof (uwf_nonneg b Hb).
      destruct (Nat.max_spec (length a) (length b)) as [[_ E3] | [_ E3]]; rewrite E3 in Hmax; rewrite Hmax.
      - pose proof (uwf_lower b Hb ltac:(lia)); lia.
      - pose proof (uwf_lower a Ha ltac:(lia)); lia. }
    lia.
Qed.

(** ** add_mut *)
Definition b2z (c : bool) : Z := if c then 1 else 0.
Lemma add_mut_push_spec b : forall c, limbs b ->
  limbs (fst (add_mut_push b c)) /\ length (fst (add_mut_push b c)) = length b /\
  uval (fst (add_mut_push b c)) + BB (length b) * b2z (snd (add_mut_push b c)) = uval b + b2z c.
Proof.
  induction b as [| y b IH]; intros c Hb; cbn [add_mut_push].
  - cbn [fst snd length uval]. rewrite BB_0. splits; auto; lia.
  - apply limbs_cons in Hb as [Hy Hb].
    assert (E : exists y' c', (if c then match checked_add 32 y 1 with Some n => (n, false) | None => (0, true) end
              else (y, c)) = (y', c') /\ 0 <= y' < B /\ y' + B * b2z c' = y + b2z c).
    { unfold checked_add. change (2 ^ 32) with B. destruct c; cbn [b2z].
      - destruct (Z.ltb_spec (y + 1) B); do 2 eexists; (split; [reflexivity |]); cbn [b2z]; lia.
      - do 2 eexists; (split; [reflexivity |]); cbn [b2z]; lia. }
    destruct E as (y' & c' & -> & Hy' & Ev).
    specialize (IH c' Hb). destruct (add_mut_push b c') as [r c2]. cbn [fst snd length uval] in *.
    rewrite BB_S. destruct IH as (I1 & I2 & I3). splits; auto; try lia. constructor; auto.
Qed.
Lemma add_mut_incr_spec a : limbs a ->
  limbs (fst (add_mut_incr a)) /\ length (fst (add_mut_incr a)) = length a /\
  uval (fst (add_mut_incr a)) + BB (length a) * b2z (snd (add_mut_incr a)) = uval a + 1.
Proof.
  induction 1 as [| x a Hx Ha IH]; cbn [add_mut_incr].
  - cbn [fst snd length uval b2z]. rewrite BB_0. splits; auto; try lia. constructor.
  - destruct (Z.eqb_spec x 4294967295).
    + destruct (add_mut_incr a) as [r c2]. cbn [fst snd length uval] in *.
      rewrite BB_S. destruct IH as (I1 & I2 & I3). splits; auto; try lia. constructor; auto; lia.
    + cbn [fst snd length uval b2z]. splits; auto; try lia. constructor; auto; lia.
Qed.
Lemma add_mut_go_spec a : forall b c, limbs a -> limbs b ->
  limbs (fst (add_mut_go a b c)) /\ length (fst (add_mut_go a b c)) = Nat.max (length a) (length b) /\
  uval (fst (add_mut_go a b c)) + BB (Nat.max (length a) (length b)) * b2z (snd (add_mut_go a b c))
    = uval a + uval b + b2z c.
Proof.
  induction a as [| x a IH]; intros b c Ha Hb; cbn [add_mut_go].
  - destruct (add_mut_push_spec b c Hb) as (I1 & I2 & I3). cbn [length Nat.max uval].
    splits; auto; lia.
  - destruct b as [| y b].
    + destruct c.
      * destruct (add_mut_incr_spec (x :: a) Ha) as (I1 & I2 & I3).
        rewrite Nat.max_0_r. splits; auto. cbn [uval b2z] in *; lia.
      * cbn [fst snd b2z]. rewrite Nat.max_0_r. splits; auto. cbn [uval]; lia.
    + apply limbs_cons in Ha as [Hx Ha]. apply limbs_cons in Hb as [Hy Hb].
      match goal with |- context [let '(_, _) := ?e in _] =>
        assert (E : exists z c', e = (z, c') /\ 0 <= z < B /\ z + B * b2z c' = x + y + b2z c) end.
      { unfold checked_add. change (2 ^ 32) with B. destruct c; cbn [b2z].
        - destruct (Z.ltb_spec (x + y) B); [destruct (Z.ltb_spec (x + y + 1) B) |];
            do 2 eexists; (split; [reflexivity |]); cbn [b2z]; lia.
        - destruct (Z.ltb_spec (x + y) B);
            do 2 eexists; (split; [reflexivity |]); cbn [b2z]; lia. }
      destruct E as (z & c' & -> & Hz & Ev).
      specialize (IH b c' Ha Hb). destruct (add_mut_go a b c') as [r c2].
      cbn [fst snd length uval Nat.max] in *. rewrite BB_S.
      destruct IH as (I1 & I2 & I3). splits; auto; try lia. constructor; auto.
Qed.
Lemma uadd_mut_spec a b : uwf a -> uwf b -> uwf (uadd_mut a b) /\ uval (uadd_mut a b) = uval a + uval b.
Proof.
  intros Ha Hb. unfold uadd_mut.
  destruct (add_mut_go_spec a b false (uwf_limbs a Ha) (uwf_limbs b Hb)) as (I1 & I2 & I3).
  destruct (add_mut_go a b false) as [r c]. cbn [fst snd] in *.
  pose proof (uwf_len a Ha). pose proof (uwf_len b Hb).
  pose proof (uwf_nonneg a Ha). pose proof (uwf_nonneg b Hb).
  destruct c; cbn [b2z] in *.
  - split.
    + apply uwf_app; auto. apply uwf_single; lia. cbn; lia.
    + rewrite uval_app, I2. cbn [uval]. lia.
  - split; [| lia]. split; [| split]; auto.
    + destruct r; [cbn in *; lia | discriminate].
    + destruct (Nat.eq_dec (length r) 1) as [E1 | E1]; [now left | right]. intros E0.
      pose proof (uval_last_upper r I1 ltac:(destruct r; [cbn in *; lia | discriminate])) as Hu.
      rewrite E0 in Hu.
      assert (Hbig : BB (length r - 1) <= uval a + uval b).
      { destruct (Nat.max_spec (length a) (length b)) as [[_ E3] | [_ E3]]; rewrite E3 in I2; rewrite I2.
        - pose proof (uwf_lower b Hb ltac:(lia)); lia.
        - pose proof (uwf_lower a Ha ltac:(lia)); lia. }
      lia.
Qed.

(** ** add_u32 *)
Lemma uadd_u32_mut_spec a o : uwf a -> 0 <= o < B ->
  returns (uadd_u32_mut a o) (fun r => uwf r /\ uval r = uval a + o).
Proof.
  intros Ha Ho. pose proof Ha as (Hne & Hl & Hc). destruct a as [| x t]; [congruence |].
  apply limbs_cons in Hl as [Hx Ht]. unfold uadd_u32_mut, checked_add. change (2 ^ 32) with B.
  destruct (Z.ltb_spec (x + o) B).
  - apply returns_ok. cbn [uval]. split; [| lia]. split; [discriminate | split].
    + constructor; auto; lia.
    + destruct Hc as [Hc | Hc]; [now left | right].
      destruct t; [cbn in *; lia | exact Hc].
  - rewrite addw_ok by (change (2 ^ 64) with 18446744073709551616; lia). cbn [bind].
    assert (HF : Forall (fun x => 0 <= x <= 2 ^ 64 - B) (x + o :: t)).
    { change (2 ^ 64) with 18446744073709551616. constructor; [lia |].
      eapply Forall_impl; [| exact Ht]. cbn; intros; lia. }
    destruct (v64_to_v32_spec (x + o :: t) ltac:(discriminate) HF) as (s & E2 & Hs & Hsv & Hle & Hsl & Hlast).
    rewrite E2. apply returns_ok. cbn [uval] in *. split; [| lia]. split; [| split]; auto.
    + destruct s; [cbn in Hle; lia | discriminate].
    + destruct Hsl as [Hsl | [_ Hsl]]; [| now right].
      destruct (Nat.eq_dec (length s) 1) as [E1 | E1]; [now left | right]. intros E0.
      pose proof (uval_last_upper s Hs ltac:(destruct s; [cbn in *; lia | discriminate])) as Hu.
      rewrite E0 in Hu. cbn [length] in *.
      pose proof (uwf_lower _ Ha ltac:(cbn [length]; lia)) as Hlow. rewrite Hsl in Hu. cbn [length uval] in *. lia.
Qed.

(** ** comparison *)
Lemma comp_rev_spec a : forall b, limbs a -> limbs b -> length a = length b ->
  comp_rev (rev a) (rev b) = (uval a ?= uval b).
Proof.
  induction a as [| x a IH] using rev_ind; intros b Ha Hb Hl.
  - destruct b; [reflexivity | discriminate].
  - destruct (list_eq_dec Z.eq_dec b []) as [-> | Hne].
    { rewrite app_length in Hl. cbn in Hl. lia. }
    destruct (exists_last Hne) as (b' & y & ->). rewrite !app_length in Hl. cbn [length] in Hl.
    apply limbs_app in Ha as [Ha Hx]. apply limbs_app in Hb as [Hb Hy].
    apply limbs_cons in Hx as [Hx _]. apply limbs_cons in Hy as [Hy _].
    rewrite !rev_app_distr. cbn [rev app comp_rev]. rewrite !uval_app. cbn [uval].
    assert (El : length a = length b') by lia. rewrite El.
    pose proof (uval_bound a Ha) as Ba. pose proof (uval_bound b' Hb) as Bb. rewrite El in Ba.
    destruct (Z.ltb_spec y x).
    + symmetry. apply Z.compare_gt_iff. nia.
    + destruct (Z.ltb_spec x y).
      * symmetry. apply Z.compare_lt_iff. nia.
      * assert (x = y) by lia. subst. rewrite IH by auto.
        destruct (Z.compare_spec (uval a) (uval b')); destruct (Z.compare_spec
          (uval a + BB (length b') * (y + 4294967296 * 0)) (uval b' + BB (length b') * (y + 4294967296 * 0))); auto; lia.
Qed.
Lemma lt_rev_comp a : forall b, lt_rev a b = match comp_rev a b with Lt => true | _ => false end.
Proof.
  induction a as [| x a IH]; intros [| y b]; cbn; auto.
  destruct (Z.ltb_spec x y), (Z.ltb_spec y x); auto; lia.
Qed.
Lemma gt_rev_comp a : forall b, gt_rev a b = match comp_rev a b with Gt => true | _ => false end.
Proof.
  induction a as [| x a IH]; intros [| y b]; cbn; auto.
  destruct (Z.ltb_spec x y), (Z.ltb_spec y x); auto; lia.
Qed.
Lemma len_lt_val a b : uwf a -> uwf b -> (length a < length b)%nat -> uval a < uval b.
Proof.
  intros Ha Hb Hl. pose proof (uwf_len a Ha). pose proof (uwf_upper a Ha).
  pose proof (uwf_lower b Hb ltac:(lia)). pose proof (BB_mono (length a) (length b - 1) ltac:(lia)). lia.
Qed.
Lemma ucomp_spec a b : uwf a -> uwf b -> ucomp a b = (uval a ?= uval b).
Proof.
  intros Ha Hb. unfold ucomp.
  destruct (Nat.ltb_spec (length b) (length a)).
  { symmetry. apply Z.compare_gt_iff. apply len_lt_val; auto. }
  destruct (Nat.ltb_spec (length a) (length b)).
  { symmetry. apply Z.compare_lt_iff. apply len_lt_val; auto. }
  apply comp_rev_spec; auto using uwf_limbs; lia.
Qed.
Lemma ult_comp a b : ult a b = match ucomp a b with Lt => true | _ => false end.
Proof.
  unfold ult, ucomp. destruct (_ <? _)%nat; auto. destruct (_ <? _)%nat; auto. apply lt_rev_comp.
Qed.
Lemma ugt_comp a b : ugt a b = match ucomp a b with Gt => true | _ => false end.
Proof.
  unfold ugt, ucomp. destruct (_ <? _)%nat; auto. destruct (_ <? _)%nat; auto. apply gt_rev_comp.
Qed.
Lemma ult_spec a b : uwf a -> uwf b -> ult a b = (uval a <? uval b).
Proof. intros. rewrite ult_comp, ucomp_spec by auto. reflexivity. Qed.
Lemma ugt_spec a b : uwf a -> uwf b -> ugt a b = (uval b <? uval a).
Proof.
  intros. rewrite ugt_comp, ucomp_spec by auto.
  destruct (Z.compare_spec (uval a) (uval b)); zb; auto; lia.
Qed.
Lemma uleq_spec a b : uwf a -> uwf b -> uleq a b = (uval a <=? uval b).
Proof. intros. unfold uleq. rewrite ugt_spec by auto. zb; auto; lia. Qed.
Lemma ugeq_spec a b : uwf a -> uwf b -> ugeq a b = (uval b <=? uval a).
Proof. intros. unfold ugeq. rewrite ult_spec by auto. zb; auto; lia. Qed.
Lemma list_eqb_spec a : forall b, list_eqb a b = true <-> a = b.
Proof.
  induction a as [| x a IH]; intros [| y b]; cbn; split; intros H; try discriminate; auto.
  - apply andb_true_iff in H as [H1 H2]. apply Z.eqb_eq in H1. apply IH in H2. congruence.
  - injection H as -> ->. rewrite Z.eqb_refl. apply IH. reflexivity.
Qed.
Lemma ueq_spec a b : uwf a -> uwf b -> ueq a b = (uval a =? uval b).
Proof.
  intros Ha Hb. unfold ueq. destruct (list_eqb a b) eqn:E.
  - apply list_eqb_spec in E as ->. now rewrite Z.eqb_refl.
  - destruct (Z.eqb_spec (uval a) (uval b)) as [Ev | _]; auto.
    apply uval_inj in Ev; auto. apply list_eqb_spec in Ev. congruence.
Qed.
Lemma uneq_spec a b : uwf a -> uwf b -> uneq a b = negb (uval a =? uval b).
Proof. intros. unfold uneq. f_equal. now apply ueq_spec. Qed.

Lemma uis_zero_spec a : uwf a -> uis_zero a = (uval a =? 0).
Proof.
  intros Ha. destruct a as [| x [| y t]].
  - destruct Ha; congruence.
  - cbn [uis_zero uval]. zb; auto; lia.
  - cbn [uis_zero]. pose proof (uwf_lower _ Ha ltac:(cbn; lia)). pose proof (BB_pos (length (x :: y :: t) - 1)).
    destruct (Z.eqb_spec (uval (x :: y :: t)) 0); auto; lia.
Qed.
Lemma uis_one_spec a : uwf a -> uis_one a = (uval a =? 1).
Proof.
  intros Ha. destruct a as [| x [| y t]].
  - destruct Ha; congruence.
  - cbn [uis_one uval]. zb; auto; lia.
  - cbn [uis_one]. pose proof (uwf_lower _ Ha ltac:(cbn; lia)) as H. cbn [length] in H.
    rewrite BB_pow2 in H. assert (2 ^ 1 <= 2 ^ (32 * Z.of_nat (S (S (length t)) - 1))) by (apply Z.pow_le_mono_r; lia).
    destruct (Z.eqb_spec (uval (x :: y :: t)) 1); auto; lia.
Qed.

(** u32 comparisons *)
Lemma uwf_one_limb a : uwf a -> (length a <= 1)%nat -> exists x, a = [x] /\ 0 <= x < B.
Proof.
  intros (H & Hl & _) Hlen. destruct a as [| x [| y t]]; cbn in Hlen; try congruence; try lia.
  exists x. split; auto. now apply limbs_cons in Hl.
Qed.
Lemma uwf_many a : uwf a -> (1 < length a)%nat -> B <= uval a.
Proof.
  intros Ha Hl. pose proof (uwf_lower a Ha Hl). pose proof (BB_mono 1 (length a - 1) ltac:(lia)).
  change (BB 1) with B in *. lia.
Qed.
Lemma ult_u32_spec a o : uwf a -> 0 <= o < B -> ult_u32 a o = Ok (uval a <? o).
Proof.
  intros Ha Ho. unfold ult_u32. destruct (Nat.ltb_spec 1 (length a)).
  - pose proof (uwf_many a Ha H). zb; auto; lia.
  - destruct (uwf_one_limb a Ha ltac:(lia)) as (x & -> & Hx). cbn [head0 getv nth_error bind uval].
    unfold head0, getv; cbn. f_equal. zb; auto; lia.
Qed.
Lemma ugt_u32_spec a o : uwf a -> 0 <= o < B -> ugt_u32 a o = Ok (o <? uval a).
Proof.
  intros Ha Ho. unfold ugt_u32. destruct (Nat.ltb_spec 1 (length a)).
  - pose proof (uwf_many a Ha H). zb; auto; lia.
  - destruct (uwf_one_limb a Ha ltac:(lia)) as (x & -> & Hx).
    unfold head0, getv; cbn. f_equal. zb; auto; lia.
Qed.
Lemma ueq_u32_spec a o : uwf a -> 0 <= o < B -> ueq_u32 a o = Ok (uval a =? o).
Proof.
  intros Ha Ho. unfold ueq_u32. destruct (Nat.ltb_spec 1 (length a)).
  - pose proof (uwf_many a Ha H). zb; auto; lia.
  - destruct (uwf_one_limb a Ha ltac:(lia)) as (x & -> & Hx).
    unfold head0, getv; cbn. f_equal. zb; auto; lia.
Qed.
Lemma uneq_u32_spec a o : uwf a -> 0 <= o < B -> uneq_u32 a o = Ok (negb (uval a =? o)).
Proof. intros. unfold uneq_u32. rewrite ueq_u32_spec; auto. Qed.
Lemma uleq_u32_spec a o : uwf a -> 0 <= o < B -> uleq_u32 a o = Ok (uval a <=? o).
Proof. intros. unfold uleq_u32. rewrite ugt_u32_spec; auto. cbn. f_equal. zb; auto; lia. Qed.
Lemma ugeq_u32_spec a o : uwf a -> 0 <= o < B -> ugeq_u32 a o = Ok (o <=? uval a).
Proof. intros. unfold ugeq_u32. rewrite ult_u32_spec; auto. cbn. f_equal. zb; auto; lia. Qed.
Lemma ucomp_u32_spec a o : uwf a -> 0 <= o < B -> ucomp_u32 a o = Ok (uval a ?= o).
Proof.
  intros Ha Ho. unfold ucomp_u32. destruct (Nat.ltb_spec 1 (length a)).
  - pose proof (uwf_many a Ha H). f_equal. symmetry. apply Z.compare_gt_iff. lia.
  - destruct (uwf_one_limb a Ha ltac:(lia)) as (x & -> & Hx).
    unfold head0, getv; cbn -[Z.compare Z.mul Z.add]. do 2 f_equal. lia.
Qed.

(** ** sub *)
Lemma sub_borrow_spec a : limbs a -> 0 < uval a ->
  limbs (sub_borrow a) /\ length (sub_borrow a) = length a /\ uval (sub_borrow a) = uval a - 1.
Proof.
  induction 1 as [| x a Hx Ha IH]; cbn [sub_borrow uval]; intros Hp; [lia |].
  destruct (Z.ltb_spec 0 x).
  - cbn [uval length]. splits; try lia. constructor; auto; lia.
  - destruct IH as (I1 & I2 & I3); [lia |]. cbn [uval length]. splits; try lia.
    constructor; auto; lia.
Qed.
Lemma sub_go_step (x y : Z) (c : bool) : 0 <= x < B -> 0 <= y < B ->
  exists z c',
    (if c then
       if negb (y =? 4294967295) && (y + 1 <=? x) then
         let* z := expect (checked_sub x (y + 1)) in Ok (z, false)
       else
         let* d := expect (checked_sub y x) in
         let* z := subw 4294967295 d in Ok (z, c)
     else
       if y <=? x then
         let* z := expect (checked_sub x y) in Ok (z, c)
       else
         let* d := expect (checked_sub y x) in
         let* z := subw 4294967295 d in
         let* z1 := addw 32 z 1 in Ok (z1, true)) = Ok (z, c') /\
    0 <= z < B /\ z - B * b2z c' = x - y - b2z c.
Proof.
  intros Hx Hy. unfold checked_sub, subw, addw. change (2 ^ 32) with B. destruct c; cbn [b2z].
  - destruct (Z.eqb_spec y 4294967295); cbn [negb andb].
    + destruct (Z.leb_spec x y); cbn [expect bind]; [| lia].
      destruct (Z.leb_spec (y - x) 4294967295); cbn [expect bind]; [| lia].
      do 2 eexists; (split; [reflexivity |]). cbn [b2z]. lia.
    + destruct (Z.leb_spec (y + 1) x); cbn [expect bind].
      * do 2 eexists; (split; [reflexivity |]). cbn [b2z]. lia.
      * destruct (Z.leb_spec x y); cbn [expect bind]; [| lia].
        destruct (Z.leb_spec (y - x) 4294967295); cbn [expect bind]; [| lia].
        do 2 eexists; (split; [reflexivity |]). cbn [b2z]. lia.
  - destruct (Z.leb_spec y x); cbn [expect bind].
    + do 2 eexists; (split; [reflexivity |]). cbn [b2z]. lia.
    + destruct (Z.leb_spec x y); cbn [expect bind]; [| lia].
      destruct (Z.leb_spec (y - x) 4294967295); cbn [expect bind]; [| lia].
      destruct (Z.ltb_spec (4294967295 - (y - x) + 1) B); cbn [expect bind]; [| lia].
      do 2 eexists; (split; [reflexivity |]). cbn [b2z]. lia.
Qed.
Lemma sub_go_ok b : forall a c, limbs a -> limbs b -> uval b + b2z c <= uval a -> (length b <= length a)%nat ->
  returns (sub_go a b c) (fun r => limbs r /\ length r = length a /\ uval r = uval a - uval b - b2z c).
Proof.
  induction b as [| y b IH]; intros a c Ha Hb Hv Hl.
  - cbn [sub_go uval] in *. destruct c; cbn [b2z] in *.
    + destruct a as [| x a]; [cbn in Hv; lia |].
      destruct (sub_borrow_spec (x :: a) Ha ltac:(lia)) as (I1 & I2 & I3).
      apply returns_ok. splits; auto; lia.
    + apply returns_ok. splits; auto; lia.
  - destruct a as [| x a]; [cbn in Hl; lia |].
    apply limbs_cons in Ha as [Hx Ha]. apply limbs_cons in Hb as [Hy Hb].
    cbn [sub_go uval length] in *.
    destruct (sub_go_step x y c Hx Hy) as (z & c' & -> & Hz & Ez). cbn [bind].
    eapply returns_bind. { apply (IH a c'); auto; try lia. }
    intros r (I1 & I2 & I3). apply returns_ok. cbn [uval length]. splits; try lia.
    constructor; auto.
Qed.
Lemma sub_go_panic b : forall a c, limbs a -> limbs b -> uval a < uval b + b2z c -> length a = length b ->
  sub_go a b c = Panic.
Proof.
  induction b as [| y b IH]; intros a c Ha Hb Hv Hl.
  - destruct a; [| discriminate]. cbn [uval sub_go] in *. destruct c; auto. cbn in Hv; lia.
  - destruct a as [| x a]; [discriminate |].
    apply limbs_cons in Ha as [Hx Ha]. apply limbs_cons in Hb as [Hy Hb].
    cbn [sub_go uval length] in *.
    destruct (sub_go_step x y c Hx Hy) as (z & c' & -> & Hz & Ez). cbn [bind].
    rewrite IH; auto; lia.
Qed.
Lemma sub_go_short b : forall a c, limbs a -> limbs b -> (length a < length b)%nat -> sub_go a b c = Panic.
Proof.
  induction b as [| y b IH]; intros a c Ha Hb Hl; [cbn in Hl; lia |].
  destruct a as [| x a]; [reflexivity |].
  apply limbs_cons in Ha as [Hx Ha]. apply limbs_cons in Hb as [Hy Hb].
  cbn [sub_go length] in *.
  destruct (sub_go_step x y c Hx Hy) as (z & c' & -> & Hz & Ez). cbn [bind].
  rewrite IH; auto; lia.
Qed.
Lemma usub_spec a b : uwf a -> uwf b -> uval b <= uval a ->
  returns (usub a b) (fun r => uwf r /\ uval r = uval a - uval b).
Proof.
  intros Ha Hb Hv. unfold usub, usub_mut. eapply returns_bind.
  { apply (sub_go_ok b a false); auto using uwf_limbs; [cbn [b2z]; lia | apply uwf_len_le; auto]. }
  cbn [b2z]. intros r (I1 & I2 & I3). apply returns_ok.
  destruct (remove_suffix_0_spec r) as (J1 & J2 & _); auto.
  - pose proof (uwf_len a Ha). destruct r; [cbn in *; lia | discriminate].
  - split; auto; lia.
Qed.
Lemma usub_panic a b : uwf a -> uwf b -> uval a < uval b -> usub a b = Panic.
Proof.
  intros Ha Hb Hv. unfold usub, usub_mut.
  pose proof (uwf_len_le a b Ha Hb ltac:(lia)).
  destruct (Nat.eq_dec (length a) (length b)).
  - rewrite sub_go_panic; auto using uwf_limbs. cbn [b2z]; lia.
  - rewrite sub_go_short; auto using uwf_limbs. lia.
Qed.

Lemma sub_u32_borrow_spec a : limbs a -> 0 < uval a ->
  returns (sub_u32_borrow a) (fun r => limbs r /\ length r = length a /\ uval r = uval a - 1).
Proof.
  induction 1 as [| x a Hx Ha IH]; cbn [sub_u32_borrow uval]; intros Hp; [lia |].
  destruct (Z.eqb_spec x 0).
  - eapply returns_bind. { apply IH; lia. }
    intros r (I1 & I2 & I3). apply returns_ok. cbn [uval length]. splits; try lia.
    constructor; auto; lia.
  - rewrite subw_ok by lia. apply returns_ok. cbn [uval length]. splits; try lia.
    constructor; auto; lia.
Qed.
Lemma usub_u32_mut_spec a o : uwf a -> 0 <= o < B -> o <= uval a ->
  returns (usub_u32_mut a o) (fun r => uwf r /\ uval r = uval a - o).
Proof.
  intros Ha Ho Hv. pose proof Ha as (Hne & Hl & Hc). destruct a as [| x t]; [congruence |].
  apply limbs_cons in Hl as [Hx Ht]. cbn [usub_u32_mut].
  destruct (Z.leb_spec o x).
  - rewrite subw_ok by lia. apply returns_ok. cbn [uval]. split; [| lia]. split; [discriminate | split].
    + constructor; auto; lia.
    + destruct Hc as [Hc | Hc]; [now left |].
      destruct t; [now left | right; exact Hc].
  - destruct t as [| y t]; [cbn [uval] in Hv; lia |].
    eapply returns_bind. { apply sub_u32_borrow_spec; auto. pose proof (uwf_many _ Ha ltac:(cbn; lia)). 
      remember (y :: t) as t'. cbn [uval] in *. lia. }
    intros r (I1 & I2 & I3). rewrite subw_ok by lia. cbn [bind].
    rewrite addw_ok by (change (2 ^ 32) with B; lia). cbn [bind].
    rewrite addw_ok by (change (2 ^ 32) with B; lia). cbn [bind]. apply returns_ok.
    destruct (remove_suffix_0_spec (4294967295 - o + x + 1 :: r)) as (J1 & J2 & _); try discriminate.
    + constructor; auto; lia.
    + split; auto. rewrite J2. remember (y :: t) as t'. cbn [uval]. lia.
Qed.
Lemma usub_u32_mut_panic a o : uwf a -> 0 <= o < B -> uval a < o -> usub_u32_mut a o = Panic.
Proof.
  intros Ha Ho Hv. destruct (Nat.le_gt_cases (length a) 1) as [Hl | Hl].
  - destruct (uwf_one_limb a Ha Hl) as (x & -> & Hx). cbn [usub_u32_mut uval] in *.
    destruct (Z.leb_spec o x); auto; lia.
  - pose proof (uwf_many a Ha Hl). lia.
Qed.

(** ** shifts *)
Lemma ushift_right_spec a n : uwf a -> uwf (ushift_right a n) /\ uval (ushift_right a n) = uval a / BB n.
Proof.
  intros Ha. unfold ushift_right. pose proof (BB_pos n). destruct (Nat.leb_spec (length a) n).
  - split; [apply uwf_single; lia |]. cbn [uzero uval]. symmetry. apply Z.div_small.
    pose proof (uwf_nonneg a Ha). pose proof (uwf_upper a Ha). pose proof (BB_mono (length a) n H0). lia.
  - split; [apply uwf_skipn; auto |].
    rewrite (uval_firstn_skipn n a). rewrite firstn_length, Nat.min_l by lia.
    pose proof (uval_bound (firstn n a) (limbs_firstn n a (uwf_limbs a Ha))) as Hb.
    rewrite firstn_length, Nat.min_l in Hb by lia.
    rewrite Z.mul_comm, Z.div_add by lia. rewrite Z.div_small; lia.
Qed.
Lemma ushift_left_spec a n : uwf a -> uwf (ushift_left a n) /\ uval (ushift_left a n) = uval a * BB n.
Proof.
  intros Ha. unfold ushift_left. rewrite uis_zero_spec by auto.
  destruct (Z.eqb_spec (uval a) 0) as [E | E].
  - split; [apply uwf_single; lia |]. rewrite E. reflexivity.
  - pose proof (uwf_nonneg a Ha). split.
    + apply uwf_app; auto using limbs_repeat; lia.
    + rewrite uval_app, uval_repeat, repeat_length. lia.
Qed.
Lemma ushift_left_mut_eq a n : uwf a -> ushift_left_mut a n = ushift_left a n.
Proof.
  intros Ha. unfold ushift_left_mut, ushift_left. destruct (uis_zero a) eqn:E; cbn [negb]; auto.
  destruct a as [| x [| y t]]; try discriminate. cbn in E. apply Z.eqb_eq in E as ->. reflexivity.
Qed.
Lemma uslice_right_spec a n : uwf a -> (n <= length a)%nat ->
  returns (uslice_right a n) (fun r => uwf r /\ uval r = uval a mod BB n /\ (length r <= Nat.max 1 n)%nat).
Proof.
  intros Ha Hn. unfold uslice_right. destruct (Nat.eqb_spec n 0).
  - subst. apply returns_ok. split; [apply uwf_single; lia |]. rewrite BB_0, Z.mod_1_r. split; auto.
  - destruct (Nat.leb_spec n (length a)); [| lia]. apply returns_ok.
    assert (El : length (firstn n a) = n) by (rewrite firstn_length; lia).
    assert (Hl : limbs (firstn n a)) by (apply limbs_firstn, uwf_limbs; auto).
    destruct (remove_suffix_0_spec (firstn n a)) as (J1 & J2 & J3); auto.
    { intros E; rewrite E in El; cbn in El; lia. }
    split; [| split]; auto; [| lia]. rewrite J2, (uval_firstn_skipn n a), El.
    pose proof (uval_bound _ Hl) as Hb. rewrite El in Hb. pose proof (BB_pos n).
    rewrite Z.mul_comm, Z.mod_add by lia. symmetry. apply Z.mod_small; lia.
Qed.
Lemma uslice_right_panic a n : (length a < n)%nat -> uslice_right a n = Panic.
Proof.
  intros. unfold uslice_right. destruct (Nat.eqb_spec n 0); [lia |]. destruct (Nat.leb_spec n (length a)); auto; lia.
Qed.

(** ** words *)
Lemma ufrom_u32_spec n : 0 <= n < B -> ufrom_u32 n = uof n.
Proof. intros. symmetry. now apply uof_small. Qed.
Lemma ufrom_u64_spec n : 0 <= n < 2 ^ 64 -> ufrom_u64 n = uof n.
Proof.
  change (2 ^ 64) with 18446744073709551616. intros Hn. unfold ufrom_u64. change (2 ^ 32) with B.
  destruct (Z.leb_spec B n).
  - rewrite castw_small by (change (2 ^ 32) with B; lia).
    rewrite <- (uof_of_wf [n mod B; n / B]).
    + cbn [uval]. f_equal. lia.
    + split; [discriminate | split]. { repeat constructor; lia. } right. cbn [last]. lia.
  - rewrite castw_small by (change (2 ^ 32) with B; lia). symmetry. apply uof_small. lia.
Qed.
Lemma ufrom_u128_spec n : 0 <= n < 2 ^ 128 -> ufrom_u128 n = uof n.
Proof.
  intros Hn. unfold ufrom_u128. 
  change (2 ^ 128) with 340282366920938463463374607431768211456 in *.
  change (2 ^ 32) with B. change (2 ^ 64) with 18446744073709551616. change (2 ^ 96) with 79228162514264337593543950336.
  destruct (Z.ltb_spec n B).
  { rewrite castw_small by (change (2 ^ 32) with B; lia). symmetry. apply uof_small. lia. }
  destruct (Z.ltb_spec n 18446744073709551616).
  { rewrite castw_small by (change (2 ^ 32) with B; lia).
    rewrite <- (uof_of_wf [n mod B; n / B]).
    + cbn [uval]. f_equal. lia.
    + split; [discriminate | split]. { repeat constructor; lia. } right. cbn [last]. lia. }
  destruct (Z.ltb_spec n 79228162514264337593543950336).
  { rewrite castw_small by (change (2 ^ 32) with B; lia).
    rewrite <- (uof_of_wf [n mod B; (n / B) mod B; n / 18446744073709551616]).
    + cbn [uval]. f_equal. lia.
    + split; [discriminate | split]. { repeat constructor; lia. } right. cbn [last]. lia. }
  rewrite castw_small by (change (2 ^ 32) with B; lia).
  rewrite <- (uof_of_wf [n mod B; (n / B) mod B; (n / 18446744073709551616) mod B; n / 79228162514264337593543950336]).
  + cbn [uval]. f_equal. lia.
  + split; [discriminate | split]. { repeat constructor; lia. } right. cbn [last]. lia.
Qed.
Lemma uto_u32_opt_spec a : uwf a -> uto_u32_opt a = if uval a <? B then Some (uval a) else None.
Proof.
  intros Ha. destruct (Nat.le_gt_cases (length a) 1) as [Hl | Hl].
  - destruct (uwf_one_limb a Ha Hl) as (x & -> & Hx). cbn [uto_u32_opt uval].
    destruct (Z.ltb_spec (x + B * 0) B); [f_equal |]; lia.
  - pose proof (uwf_many a Ha Hl). destruct a as [| x [| y t]]; cbn in Hl; try lia. cbn [uto_u32_opt].
    destruct (Z.ltb_spec (uval (x :: y :: t)) B); auto; lia.
Qed.
Lemma uwf_cases4 a : uwf a ->
  (exists x, a = [x]) \/ (exists x y, a = [x; y]) \/ (exists x y z, a = [x; y; z]) \/
  (exists x y z t, a = [x; y; z; t]) \/ (4 < length a)%nat.
Proof.
  intros (H & _). destruct a as [| x [| y [| z [| t [| u a]]]]]; try congruence; cbn [length]; eauto 10.
  right; right; right; right. lia.
Qed.
Lemma uto_u64_opt_spec a : uwf a -> uto_u64_opt a = if uval a <? 2 ^ 64 then Some (uval a) else None.
Proof.
  change (2 ^ 64) with (BB 2). intros Ha. pose proof (uwf_upper a Ha).
  destruct (Nat.le_gt_cases (length a) 2) as [Hl | Hl].
  - pose proof (BB_mono _ _ Hl). destruct (Z.ltb_spec (uval a) (BB 2)); [| lia].
    destruct a as [| x [| y [| z t]]]; cbn [length] in Hl; try lia; cbn [uto_u64_opt uval]; try (f_equal; lia).
    destruct Ha; congruence.
  - pose proof (uwf_lower a Ha ltac:(lia)). pose proof (BB_mono 2 (length a - 1) ltac:(lia)).
    destruct (Z.ltb_spec (uval a) (BB 2)); [lia |].
    destruct a as [| x [| y [| z t]]]; cbn [length] in Hl; try lia; reflexivity.
Qed.
Lemma uto_u128_opt_spec a : uwf a -> uto_u128_opt a = if uval a <? 2 ^ 128 then Some (uval a) else None.
Proof.
  change (2 ^ 128) with (BB 4). intros Ha. pose proof (uwf_upper a Ha).
  destruct (Nat.le_gt_cases (length a) 4) as [Hl | Hl].
  - pose proof (BB_mono _ _ Hl). destruct (Z.ltb_spec (uval a) (BB 4)); [| lia].
    destruct a as [| x [| y [| z [| t [| u w]]]]]; cbn [length] in Hl; try lia; cbn [uto_u128_opt uval];
      try (f_equal; change (2 ^ 32) with B; change (2 ^ 64) with 18446744073709551616;
           change (2 ^ 96) with 79228162514264337593543950336; lia).
    destruct Ha; congruence.
  - pose proof (uwf_lower a Ha ltac:(lia)). pose proof (BB_mono 4 (length a - 1) ltac:(lia)).
    destruct (Z.ltb_spec (uval a) (BB 4)); [lia |].
    destruct a as [| x [| y [| z [| t [| u w]]]]]; cbn [length] in Hl; try lia; reflexivity.
Qed.
