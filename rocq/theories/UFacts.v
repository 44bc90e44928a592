(** Facts about limb vectors: value, canonicity, uniqueness of the canonical vector. *)
From Verif Require Import Base USpec.
Ltac Zify.zify_post_hook ::= Z.div_mod_to_equations.

Notation B := 4294967296 (only parsing).
(** B^n *)
Definition BB (n : nat) : Z := B ^ Z.of_nat n.

Lemma BB_0 : BB 0 = 1. Proof. reflexivity. Qed.
Lemma BB_S n : BB (S n) = B * BB n.
Proof. unfold BB. rewrite Nat2Z.inj_succ, Z.pow_succ_r; lia. Qed.
Lemma BB_pos n : 0 < BB n.
Proof. unfold BB. apply Z.pow_pos_nonneg; lia. Qed.
Lemma BB_add n m : BB (n + m) = BB n * BB m.
Proof. unfold BB. rewrite Nat2Z.inj_add, Z.pow_add_r; lia. Qed.
Lemma BB_pow2 n : BB n = 2 ^ (32 * Z.of_nat n).
Proof. unfold BB. change B with (2 ^ 32). rewrite <- Z.pow_mul_r; lia. Qed.
Lemma BB_mono n m : (n <= m)%nat -> BB n <= BB m.
Proof. intros. unfold BB. apply Z.pow_le_mono_r; lia. Qed.
Lemma BB_lt n m : (n < m)%nat -> BB n < BB m.
Proof. intros. unfold BB. apply Z.pow_lt_mono_r; lia. Qed.
Lemma BB_ge1 n : 1 <= BB n. Proof. pose proof (BB_pos n); lia. Qed.

Lemma limbs_nil : limbs []. Proof. constructor. Qed.
Lemma limbs_cons x l : limbs (x :: l) <-> 0 <= x < B /\ limbs l.
Proof. split; intros H; [inversion H; auto | constructor; tauto]. Qed.
Lemma limbs_app a b : limbs (a ++ b) <-> limbs a /\ limbs b.
Proof. unfold limbs. apply Forall_app. Qed.
Lemma limbs_repeat n : limbs (repeat 0 n).
Proof. induction n; simpl; constructor; auto; lia. Qed.
Lemma limbs_skipn n l : limbs l -> limbs (skipn n l).
Proof. revert l; induction n; intros [| x l] H; auto. apply IHn. inversion H; auto. Qed.
Lemma limbs_firstn n l : limbs l -> limbs (firstn n l).
Proof. intros H. rewrite <- (firstn_skipn n l) in H. apply Forall_app in H. apply H. Qed.
Lemma limbs_rev l : limbs l -> limbs (rev l).
Proof. apply Forall_rev. Qed.
Lemma limbs_nth l i x : limbs l -> nth_error l i = Some x -> 0 <= x < B.
Proof. intros H E. apply nth_error_In in E. unfold limbs in H. rewrite Forall_forall in H. auto. Qed.

Lemma uval_app a b : uval (a ++ b) = uval a + BB (length a) * uval b.
Proof.
  induction a as [| x a IH]; cbn [app uval length].
  - rewrite BB_0; lia.
  - rewrite IH, BB_S. ring.
Qed.
Lemma uval_repeat n : uval (repeat 0 n) = 0.
Proof. induction n; cbn [repeat uval]; lia. Qed.
Lemma uval_nonneg l : limbs l -> 0 <= uval l.
Proof. induction 1; cbn [uval]; lia. Qed.
Lemma uval_bound l : limbs l -> 0 <= uval l < BB (length l).
Proof.
  induction 1 as [| x l Hx Hl IH]; cbn [uval length]; [rewrite BB_0; lia | rewrite BB_S; lia].
Qed.
Lemma uval_firstn_skipn n l : uval l = uval (firstn n l) + BB (length (firstn n l)) * uval (skipn n l).
Proof. rewrite <- uval_app, firstn_skipn; reflexivity. Qed.

Lemma last_cons {A} (x : A) l d : l <> [] -> last (x :: l) d = last l d.
Proof. destruct l; [congruence | reflexivity]. Qed.
Lemma last_app {A} (a b : list A) d : b <> [] -> last (a ++ b) d = last b d.
Proof.
  induction a; intros; auto. cbn [app]. rewrite last_cons; auto. destruct a0; simpl; auto; congruence.
Qed.
Lemma last_limb l : limbs l -> 0 <= last l 0 < B.
Proof. induction 1 as [| x l Hx Hl IH]; cbn; try lia. destruct l; [lia | exact IH]. Qed.

Lemma uval_last_lower l : limbs l -> l <> [] -> last l 0 * BB (length l - 1) <= uval l.
Proof.
  intros H Hne. destruct (exists_last Hne) as [a [x ->]].
  rewrite last_last, app_length, uval_app. cbn [length uval].
  apply limbs_app in H as [Ha _]. replace (length a + 1 - 1)%nat with (length a) by lia.
  pose proof (uval_nonneg a Ha). nia.
Qed.
Lemma uval_last_upper l : limbs l -> l <> [] -> uval l < (last l 0 + 1) * BB (length l - 1).
Proof.
  intros H Hne. destruct (exists_last Hne) as [a [x ->]].
  rewrite last_last, app_length, uval_app. cbn [length uval].
  apply limbs_app in H as [Ha _]. replace (length a + 1 - 1)%nat with (length a) by lia.
  pose proof (uval_bound a Ha). nia.
Qed.

Lemma uwf_limbs l : uwf l -> limbs l. Proof. intros (_ & H & _); exact H. Qed.
Lemma uwf_ne l : uwf l -> l <> []. Proof. intros (H & _); exact H. Qed.
Lemma uwf_len l : uwf l -> (1 <= length l)%nat.
Proof. intros (H & _). destruct l; [congruence | cbn; lia]. Qed.
Lemma uwf_nonneg l : uwf l -> 0 <= uval l.
Proof. intros; apply uval_nonneg, uwf_limbs; auto. Qed.
Lemma uwf_lower l : uwf l -> (1 < length l)%nat -> BB (length l - 1) <= uval l.
Proof.
  intros (H & Hl & Hc) Hlen. destruct Hc as [Hc | Hc]; [lia |].
  pose proof (uval_last_lower l Hl H). pose proof (last_limb l Hl). pose proof (BB_pos (length l - 1)). nia.
Qed.
Lemma uwf_upper l : uwf l -> uval l < BB (length l).
Proof. intros; apply uval_bound, uwf_limbs; auto. Qed.
Lemma uwf_single x : 0 <= x < B -> uwf [x].
Proof. intros. repeat split; auto; try discriminate. constructor; auto. Qed.
Lemma uwf_app a b : limbs a -> uwf b -> 0 < uval b -> uwf (a ++ b).
Proof.
  intros Ha (Hb & Hl & Hc) Hpos. split; [| split].
  - destruct a; simpl; auto; congruence.
  - apply limbs_app; auto.
  - right. rewrite last_app by auto. destruct Hc as [Hc | Hc]; auto.
    destruct b as [| x [| y b]]; try discriminate. cbn in *. lia.
Qed.
Lemma uwf_skipn n l : uwf l -> (n < length l)%nat -> uwf (skipn n l).
Proof.
  intros (H & Hl & Hc) Hn. assert (E : skipn n l <> []).
  { intros E. apply (f_equal (@length Z)) in E. rewrite skipn_length in E. cbn in E. lia. }
  split; [| split]; auto using limbs_skipn.
  destruct Hc as [Hc | Hc].
  - left. rewrite skipn_length. lia.
  - right. rewrite <- (firstn_skipn n l), last_app in Hc; auto.
Qed.
Lemma uwf_last_pos l : uwf l -> 0 < uval l -> 0 < last l 0.
Proof.
  intros (H & Hl & Hc) Hp. pose proof (last_limb l Hl). destruct Hc; [| lia].
  destruct l as [| x [| y t]]; try discriminate. cbn in *; lia.
Qed.

(** Canonical vectors are determined by their value. *)
Lemma limbs_eq_len a b : limbs a -> limbs b -> length a = length b -> uval a = uval b -> a = b.
Proof.
  intros Ha. revert b. induction Ha as [| x a Hx Ha IH]; intros [| y b] Hb Hl Hv; try discriminate; auto.
  cbn [length uval] in *. apply limbs_cons in Hb as [Hy Hb].
  assert (x = y) by lia. subst. f_equal. apply IH; auto; lia.
Qed.
Lemma uwf_len_le a b : uwf a -> uwf b -> uval a <= uval b -> (length a <= length b)%nat.
Proof.
  intros Ha Hb Hv. destruct (Nat.le_gt_cases (length a) (length b)); auto. exfalso.
  pose proof (uwf_len b Hb). pose proof (uwf_upper b Hb).
  assert (BB (length a - 1) <= uval a) by (apply uwf_lower; auto; lia).
  assert (BB (length b) <= BB (length a - 1)) by (apply BB_mono; lia). lia.
Qed.
Lemma uval_inj a b : uwf a -> uwf b -> uval a = uval b -> a = b.
Proof.
  intros Ha Hb Hv. apply limbs_eq_len; auto using uwf_limbs.
  apply Nat.le_antisymm; apply uwf_len_le; auto; lia.
Qed.

Lemma limbsn_length n z : length (limbsn n z) = n.
Proof. revert z; induction n; cbn; auto. Qed.
Lemma limbsn_limbs n z : limbs (limbsn n z).
Proof. revert z; induction n; cbn; constructor; auto. apply Z.mod_pos_bound; lia. apply IHn. Qed.
Lemma limbsn_uval n z : 0 <= z < BB n -> uval (limbsn n z) = z.
Proof.
  revert z; induction n; intros z Hz; cbn [limbsn uval].
  - rewrite BB_0 in Hz; lia.
  - rewrite BB_S in Hz. rewrite IHn by lia. lia.
Qed.
Lemma nlimbs_bound z : 0 <= z -> z < BB (nlimbs z).
Proof.
  intros Hz. unfold nlimbs. rewrite BB_pow2. destruct (Z.eq_dec z 0) as [-> | Hnz].
  - apply Z.pow_pos_nonneg; lia.
  - assert (H := proj2 (Z.log2_spec z ltac:(lia))).
    assert (0 <= Z.log2 z) by apply Z.log2_nonneg.
    eapply Z.lt_le_trans; [exact H |]. apply Z.pow_le_mono_r; lia.
Qed.
Lemma nlimbs_lower z : 0 < z -> BB (nlimbs z - 1) <= z.
Proof.
  intros Hz. unfold nlimbs. rewrite BB_pow2.
  assert (H := proj1 (Z.log2_spec z ltac:(lia))).
  assert (0 <= Z.log2 z) by apply Z.log2_nonneg.
  eapply Z.le_trans; [| exact H]. apply Z.pow_le_mono_r; lia.
Qed.
Lemma uof_uval z : 0 <= z -> uval (uof z) = z.
Proof. intros. apply limbsn_uval. split; auto. apply nlimbs_bound; auto. Qed.
Lemma uof_wf z : 0 <= z -> uwf (uof z).
Proof.
  intros Hz. unfold uof. split; [| split].
  - intros E. apply (f_equal (@length Z)) in E. rewrite limbsn_length in E. discriminate.
  - apply limbsn_limbs.
  - destruct (Nat.eq_dec (nlimbs z) 1) as [E | E]; [left; now rewrite limbsn_length |].
    right. intros E0.
    assert (Hne : limbsn (nlimbs z) z <> []).
    { intros E1. apply (f_equal (@length Z)) in E1. rewrite limbsn_length in E1. discriminate. }
    pose proof (uval_last_upper _ (limbsn_limbs (nlimbs z) z) Hne) as Hu.
    rewrite E0, limbsn_length, limbsn_uval in Hu by (split; auto using nlimbs_bound).
    assert (0 < z).
    { destruct (Z.eq_dec z 0) as [-> | ]; [| lia]. exfalso. apply E. reflexivity. }
    pose proof (nlimbs_lower z ltac:(lia)). lia.
Qed.
Lemma uof_of_wf l : uwf l -> uof (uval l) = l.
Proof.
  intros H. pose proof (uwf_nonneg l H).
  apply uval_inj; auto using uof_wf. now apply uof_uval.
Qed.
Lemma uof_inj a b : 0 <= a -> 0 <= b -> uof a = uof b -> a = b.
Proof. intros Ha Hb E. rewrite <- (uof_uval a), <- (uof_uval b), E; auto. Qed.
Lemma uwf_iff l : uwf l <-> exists z, 0 <= z /\ l = uof z.
Proof.
  split.
  - intros H. exists (uval l). split; [now apply uwf_nonneg | symmetry; now apply uof_of_wf].
  - intros (z & Hz & ->). now apply uof_wf.
Qed.
Lemma uof_small z : 0 <= z < B -> uof z = [z].
Proof. intros. rewrite <- (uof_of_wf [z]); [| now apply uwf_single]. cbn [uval]. f_equal; lia. Qed.
Lemma length_uof_le1 z : 0 <= z -> length (uof z) = 1%nat -> z < B.
Proof. intros Hz Hl. pose proof (uwf_upper _ (uof_wf z Hz)) as H. rewrite Hl, uof_uval in H; auto. Qed.

Lemma res_uof m z : 0 <= z -> returns m (fun l => uwf l /\ uval l = z) -> m = Ok (uof z).
Proof. intros Hz (l & -> & Hw & <-). now rewrite uof_of_wf. Qed.
