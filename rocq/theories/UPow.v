(** Powers, gcd, factorial, fibonacci, integer logarithm of UBigInt. *)
From Verif Require Import Base USpec UFacts UBig UAddSub UMul UDiv UEq UFun.
From Coq Require Import Znumtheory.

(** ** pow_u32 *)
(** the stack of squares a^(2^(j-1)), ..., a^2, a^1 *)
Fixpoint sqs (a : Z) (j : nat) : list ubig :=
  match j with O => [] | S k => uof (a ^ (2 ^ Z.of_nat k)) :: sqs a k end.
Definition p2 (j : nat) : Z := match j with O => 0 | S k => 2 ^ Z.of_nat k end.
Lemma sqs_length a j : length (sqs a j) = j. Proof. induction j; cbn; auto. Qed.

Lemma pow2_S k : 2 ^ Z.of_nat (S k) = 2 * 2 ^ Z.of_nat k.
Proof. rewrite Nat2Z.inj_succ, Z.pow_succ_r; lia. Qed.
Lemma p2_half k : 2 ^ Z.of_nat k / 2 = p2 k.
Proof.
  destruct k; [reflexivity |]. rewrite pow2_S, (Z.mul_comm 2), Z.div_mul by lia. reflexivity.
Qed.
Lemma pow2_pos k : 0 < 2 ^ Z.of_nat k. Proof. apply Z.pow_pos_nonneg; lia. Qed.

Lemma pow_up_spec a e : 0 <= a -> 1 <= e < 2 ^ 31 ->
  returns (loopn 6 pow_up_body (e, [uof a], 1)) (fun r => exists k,
    r = (sqs a (S k), 2 ^ Z.of_nat k) /\ 2 ^ Z.of_nat k <= e < 2 * 2 ^ Z.of_nat k).
Proof.
  intros Ha He.
  pose (P := fun s : Z * list ubig * Z => exists k, s = (e, sqs a (S k), 2 ^ Z.of_nat k) /\ 2 ^ Z.of_nat k <= e).
  pose (m := fun s : Z * list ubig * Z => 40 - Z.log2 (snd s)).
  assert (Hk : forall k, 2 ^ Z.of_nat k <= e -> Z.of_nat k < 31).
  { intros k H. apply (Z.pow_lt_mono_r_iff 2); lia. }
  apply (loopn_spec pow_up_body P (fun _ r => exists k, r = (sqs a (S k), 2 ^ Z.of_nat k) /\
    2 ^ Z.of_nat k <= e < 2 * 2 ^ Z.of_nat k) m).
  - intros g s (k & -> & Hke) IH. unfold pow_up_body. pose proof (pow2_pos k) as Hp.
    rewrite mulw_ok by (change (2 ^ 32) with (2 * 2 ^ 31); lia). cbn [bind].
    destruct (Z.leb_spec (2 ^ Z.of_nat k * 2) e).
    + cbn [sqs]. rewrite Emul by (apply Z.pow_nonneg; lia). cbn [bind].
      replace (a ^ 2 ^ Z.of_nat k * a ^ 2 ^ Z.of_nat k) with (a ^ 2 ^ Z.of_nat (S k)).
      2:{ rewrite pow2_S, <- Z.pow_add_r by lia. f_equal. lia. }
      replace (2 ^ Z.of_nat k * 2) with (2 ^ Z.of_nat (S k)) in * by (rewrite pow2_S; lia).
      specialize (Hk (S k) H).
      apply IH.
      * exists (S k). split; auto.
      * unfold m. cbn [snd]. rewrite !Z.log2_pow2 by lia. lia.
    + apply returns_ok. exists k. split; auto. lia.
  - exists 0%nat. cbn [sqs Z.of_nat]. rewrite Z.pow_0_r, Z.pow_1_r. split; auto. lia.
  - unfold m. cbn [snd]. change (Z.log2 1) with 0. change (Z.of_nat 6) with 6. lia.
Qed.

Lemma pow_down_spec a E : 0 <= a -> forall k e, Z.of_nat k <= 32 -> 0 <= e <= E -> e < 2 ^ Z.of_nat k ->
  returns (loopn 6 pow_down_body (uof (a ^ (E - e)), e, sqs a k, p2 k)) (fun r => r = uof (a ^ E)).
Proof.
  intros Ha k e Hk He Hek.
  pose (P := fun s : ubig * Z * list ubig * Z => exists k e, s = (uof (a ^ (E - e)), e, sqs a k, p2 k) /\
    0 <= e <= E /\ e < 2 ^ Z.of_nat k).
  pose (m := fun s : ubig * Z * list ubig * Z => Z.of_nat (length (snd (fst s)))).
  apply (loopn_spec pow_down_body P (fun _ r => r = uof (a ^ E)) m).
  - clear k e Hk He Hek. intros g s (k & e & -> & He & Hek) IH. unfold pow_down_body.
    destruct k as [| k]; cbn [p2 sqs].
    + cbn [Z.ltb Z.compare]. apply returns_ok. change (2 ^ Z.of_nat 0) with 1 in Hek.
      f_equal. f_equal. lia.
    + pose proof (pow2_pos k) as Hp. destruct (Z.ltb_spec 0 (2 ^ Z.of_nat k)); [| lia].
      rewrite pow2_S in Hek. rewrite p2_half.
      destruct (Z.leb_spec (2 ^ Z.of_nat k) e).
      * rewrite Emul by (apply Z.pow_nonneg; lia). cbn [bind]. rewrite subw_ok by lia. cbn [bind].
        replace (a ^ (E - e) * a ^ 2 ^ Z.of_nat k) with (a ^ (E - (e - 2 ^ Z.of_nat k))).
        2:{ rewrite <- Z.pow_add_r by lia. f_equal. lia. }
        apply IH.
        -- exists k, (e - 2 ^ Z.of_nat k). split; auto. lia.
        -- unfold m. cbn [fst snd length]. rewrite !sqs_length. lia.
      * apply IH.
        -- exists k, e. split; auto.
        -- unfold m. cbn [fst snd length]. rewrite !sqs_length. lia.
  - exists k, e. auto.
  - unfold m. cbn [fst snd]. rewrite sqs_length. change (2 ^ Z.of_nat 6) with 64. lia.
Qed.

Lemma Epow a e : 0 <= a -> 0 <= e < 2 ^ 31 -> upow_u32 (uof a) e = Ok (uof (a ^ e)).
Proof.
  intros Ha He. unfold upow_u32. destruct (Z.ltb_spec e 3).
  - destruct (Z.eqb_spec e 0); [subst; now rewrite Z.pow_0_r |].
    destruct (Z.eqb_spec e 1); [subst; now rewrite Z.pow_1_r |].
    assert (e = 2) by lia. subst. rewrite Emul by auto. now rewrite Z.pow_2_r.
  - destruct (pow_up_spec a e Ha ltac:(lia)) as (r & -> & k & -> & Hk1 & Hk2). cbn [bind sqs].
    rewrite subw_ok by lia. cbn [bind]. rewrite p2_half.
    destruct (pow_down_spec a e Ha k (e - 2 ^ Z.of_nat k)) as (r & Hr & ->); try lia.
    + assert (Z.of_nat k < 31); [| lia]. apply (Z.pow_lt_mono_r_iff 2); lia.
    + replace (e - (e - 2 ^ Z.of_nat k)) with (2 ^ Z.of_nat k) in Hr by lia. exact Hr.
Qed.

(** exponents of 2^31 and more: [curr_exp * 2] overflows u32 *)
Lemma Epow_panic a e : 0 <= a -> 2 ^ 31 <= e < 2 ^ 32 -> upow_u32 (uof a) e = Panic.
Proof.
  intros Ha He. unfold upow_u32. destruct (Z.ltb_spec e 3); [lia |].
  pose (P := fun s : Z * list ubig * Z => exists k, s = (e, sqs a (S k), 2 ^ Z.of_nat k) /\ Z.of_nat k <= 31).
  pose (m := fun s : Z * list ubig * Z => 40 - Z.log2 (snd s)).
  assert (HH : loopn 6 pow_up_body (e, [uof a], 1) = Panic); [| now rewrite HH].
  apply (loopn_rule pow_up_body P (fun _ r => r = Panic) m).
  - intros g s (k & -> & Hk) IH. unfold pow_up_body. pose proof (pow2_pos k) as Hp.
    destruct (Z.eq_dec (Z.of_nat k) 31) as [E | E].
    + rewrite E. reflexivity.
    + assert (2 ^ Z.of_nat k <= 2 ^ 30) by (apply Z.pow_le_mono_r; lia).
      rewrite mulw_ok by (change (2 ^ 32) with (4 * 2 ^ 30); lia). cbn [bind].
      change (2 ^ 31) with (2 * 2 ^ 30) in He.
      destruct (Z.leb_spec (2 ^ Z.of_nat k * 2) e); [| lia].
      cbn [sqs]. rewrite Emul by (apply Z.pow_nonneg; lia). cbn [bind].
      replace (a ^ 2 ^ Z.of_nat k * a ^ 2 ^ Z.of_nat k) with (a ^ 2 ^ Z.of_nat (S k)).
      2:{ rewrite pow2_S, <- Z.pow_add_r by lia. f_equal. lia. }
      replace (2 ^ Z.of_nat k * 2) with (2 ^ Z.of_nat (S k)) in * by (rewrite pow2_S; lia).
      apply IH.
      * exists (S k). split; auto. lia.
      * unfold m. cbn [snd]. rewrite !Z.log2_pow2 by lia. lia.
  - exists 0%nat. cbn [sqs Z.of_nat]. rewrite Z.pow_0_r, Z.pow_1_r. split; auto. lia.
  - unfold m. cbn [snd]. change (Z.log2 1) with 0. change (Z.of_nat 6) with 6. lia.
Qed.

Lemma Epow2 e : 0 <= e -> upow2 e = uof (2 ^ e).
Proof.
  intros He. unfold upow2. pose proof (Z.mod_pos_bound e 32 ltac:(lia)) as Hm.
  assert (0 < 2 ^ (e mod 32)) by (apply Z.pow_pos_nonneg; lia).
  assert (2 ^ (e mod 32) <= 2 ^ 31) by (apply Z.pow_le_mono_r; lia).
  assert (W : uwf (repeat 0 (Z.to_nat (e / 32)) ++ [2 ^ (e mod 32)])).
  { apply uwf_app; [apply limbs_repeat | apply uwf_single; lia | cbn [uval]; lia]. }
  rewrite <- (uof_of_wf _ W). f_equal. rewrite uval_app, uval_repeat, repeat_length, BB_pow2. cbn [uval].
  rewrite Z2Nat.id by (apply Z.div_pos; lia).
  rewrite Z.mul_0_r, Z.add_0_r, Z.add_0_l, <- Z.pow_add_r by (try apply Z.mul_nonneg_nonneg; try apply Z.div_pos; lia).
  f_equal. symmetry. apply Z.div_mod. lia.
Qed.
Lemma Eexp2 e : 0 <= e -> uexp2 e = uof (2 ^ e).
Proof.
  intros He. unfold uexp2. pose proof (Z.mod_pos_bound e 32 ltac:(lia)) as Hm.
  rewrite castw_small by (change (2 ^ 32) with 4294967296; lia).
  assert (0 < 2 ^ (e mod 32)) by (apply Z.pow_pos_nonneg; lia).
  assert (2 ^ (e mod 32) <= 2 ^ 31) by (apply Z.pow_le_mono_r; lia).
  rewrite ufrom_u32_spec by lia. rewrite Eshl by lia. f_equal. rewrite BB_pow2.
  rewrite Z2Nat.id by (apply Z.div_pos; lia). rewrite Z.mul_comm.
  rewrite <- Z.pow_add_r by (try apply Z.mul_nonneg_nonneg; try apply Z.div_pos; lia).
  f_equal. symmetry. apply Z.div_mod. lia.
Qed.

(** ** gcd *)
Lemma ufuel_bound a : 0 <= a -> a < 2 ^ Z.of_nat (ufuel (uof a)).
Proof.
  intros Ha. destruct (len_uof_bounds a Ha) as (_ & H & _). rewrite BB_pow2 in H.
  eapply Z.lt_le_trans; [exact H |]. apply Z.pow_le_mono_r; unfold ufuel; lia.
Qed.
Lemma Egcd a b : 0 <= a -> 0 <= b -> ugcd (uof a) (uof b) = Ok (uof (Z.gcd a b)).
Proof.
  intros Ha Hb. unfold ugcd. rewrite Eis_zero by auto. destruct (Z.eqb_spec a 0) as [-> | Hnz].
  { rewrite Z.gcd_0_l, Z.abs_eq by auto. reflexivity. }
  rewrite Erem by lia. cbn [bind].
  pose (P := fun s : ubig * ubig => exists x y, s = (uof x, uof y) /\ 0 <= x /\ 0 < y /\ Z.gcd x y = Z.gcd a b).
  pose (m := fun s : ubig * ubig => uval (fst s)).
  enough (returns (loopn (ufuel (uof a)) gcd_body (uof (b mod a), uof a)) (fun r => r = uof (Z.gcd a b)))
    as (r & -> & ->) by reflexivity.
  apply (loopn_spec gcd_body P (fun _ r => r = uof (Z.gcd a b)) m).
  - intros g s (x & y & -> & Hx & Hy & G) IH. unfold gcd_body. rewrite Eis_zero by auto.
    destruct (Z.eqb_spec x 0) as [-> | Hx0]; cbn [negb].
    + apply returns_ok. rewrite Z.gcd_0_l, Z.abs_eq in G by lia. now rewrite G.
    + rewrite Erem by lia. cbn [bind]. pose proof (Z.mod_pos_bound y x ltac:(lia)). apply IH.
      * exists (y mod x), x. splits; auto; try lia. rewrite Z.gcd_mod by lia. exact G.
      * unfold m. cbn [fst]. rewrite !uof_uval by lia. lia.
  - pose proof (Z.mod_pos_bound b a ltac:(lia)). exists (b mod a), a. splits; auto; try lia.
    apply Z.gcd_mod. lia.
  - unfold m. cbn [fst]. pose proof (Z.mod_pos_bound b a ltac:(lia)). rewrite uof_uval by lia.
    pose proof (ufuel_bound a Ha). lia.
Qed.

Lemma Egcd_i32 a b : - 2 ^ 31 < a < 2 ^ 31 -> - 2 ^ 31 < b < 2 ^ 31 -> gcd_i32 a b = Ok (Z.gcd a b).
Proof.
  change (2 ^ 31) with 2147483648. intros Ha Hb. unfold gcd_i32, sabs.
  rewrite !sres_ok by (change (2 ^ (32 - 1)) with 2147483648; lia). cbn [bind].
  pose (P := fun s : Z * Z => 0 <= fst s < 2147483648 /\ 0 <= snd s /\ Z.gcd (fst s) (snd s) = Z.gcd a b).
  enough (returns (loopn 32 gcd_i32_body (Z.abs a, Z.abs b)) (fun r => r = Z.gcd a b))
    as (r & -> & ->) by reflexivity.
  apply (loopn_spec gcd_i32_body P (fun _ r => r = Z.gcd a b) fst).
  - intros g [x y] (Hx & Hy & G) IH. cbn [fst snd] in *. unfold gcd_i32_body.
    destruct (Z.eqb_spec x 0) as [-> | Hx0]; cbn [negb].
    + apply returns_ok. rewrite Z.gcd_0_l, Z.abs_eq in G by lia. auto.
    + rewrite Z.rem_mod_nonneg by lia. pose proof (Z.mod_pos_bound y x ltac:(lia)). apply IH; cbn [fst snd]; try lia.
      unfold P. cbn [fst snd]. splits; try lia. rewrite Z.gcd_mod by lia. exact G.
  - unfold P. cbn [fst snd]. splits; try lia. now rewrite Z.gcd_abs_l, Z.gcd_abs_r.
  - cbn [fst]. change (2 ^ Z.of_nat 32) with 4294967296. lia.
Qed.
Lemma gcd_i32_min b : gcd_i32 (- 2 ^ 31) b = Panic.
Proof. reflexivity. Qed.

(** ** factorial *)
(** independent specification *)
Fixpoint zfact (n : nat) : Z := match n with O => 1 | S m => Z.of_nat n * zfact m end.
Lemma zfact_pos n : 0 < zfact n.
Proof. induction n; [reflexivity |]. cbn [zfact]. apply Z.mul_pos_pos; [lia | auto]. Qed.
Definition zf (n : Z) : Z := zfact (Z.to_nat n).
Lemma zf_succ n : 0 <= n -> zf (n + 1) = (n + 1) * zf n.
Proof.
  intros. unfold zf. replace (Z.to_nat (n + 1)) with (S (Z.to_nat n)) by lia. cbn [zfact]. f_equal. lia.
Qed.
Lemma zf_pos n : 0 < zf n. Proof. apply zfact_pos. Qed.
Lemma zf_mono a b : 0 <= a <= b -> zf a <= zf b.
Proof.
  intros H. pattern b. apply (Zlt_lower_bound_ind _ a); [| lia]. intros x IH Hx.
  destruct (Z.eq_dec x a) as [-> | ]; [lia |].
  specialize (IH (x - 1) ltac:(lia)). replace x with (x - 1 + 1) by lia. rewrite zf_succ by lia.
  pose proof (zf_pos (x - 1)). nia.
Qed.

Lemma Efactorial n : 0 <= n < 2 ^ 32 -> ufactorial n = Ok (uof (zf n)).
Proof.
  intros Hn. unfold ufactorial. destruct (Z.ltb_spec n 21).
  - destruct (Z.le_gt_cases n 1) as [H1 | H1].
    { assert (n = 0 \/ n = 1) as [-> | ->] by lia; reflexivity. }
    assert (for_ (Z.to_nat (n + 1 - 2)) 2 fact_small_body 1 = Ok (zf n)) as ->.
    { destruct (for_spec fact_small_body (fun i s => 2 <= i <= 21 -> s = zf (i - 1)) (Z.to_nat (n + 1 - 2)) 2 1)
        as (r & -> & Hr).
      - reflexivity.
      - intros j s Hj Hs. assert (s = zf (j - 1)) by (apply Hs; lia). subst s. unfold fact_small_body.
        rewrite mulw_ok. { apply returns_ok. intros _. replace (j + 1 - 1) with (j - 1 + 1) by lia.
          rewrite zf_succ by lia. replace (j - 1 + 1) with j by lia. ring. }
        replace (zf (j - 1) * j) with (zf j).
        2:{ replace j with (j - 1 + 1) at 1 by lia. rewrite zf_succ by lia.
            replace (j - 1 + 1) with j by lia. ring. }
        eapply Z.le_lt_trans; [apply (zf_mono j 20); lia |]. vm_compute; reflexivity.
      - rewrite Hr by lia. f_equal. f_equal. lia. }
    cbn [bind]. rewrite ufrom_u64_spec; auto. pose proof (zf_pos n). split; [lia |].
    eapply Z.le_lt_trans; [apply (zf_mono n 20); lia |]. vm_compute; reflexivity.
  - destruct (Z.ltb_spec n 129).
    + assert (returns (for_ (Z.to_nat (n + 1 - 21)) 21 fact_mid_body (FACT20, 1))
        (fun s => exists x y, s = (uof x, y) /\ 0 <= x /\ 1 <= y <= 16777216 /\ x * y = zf n)) as (s & -> & x & y & -> & Hx & Hy & Exy).
      { eapply returns_weaken.
        - apply (for_spec fact_mid_body (fun i s => exists x y, s = (uof x, y) /\ 0 <= x /\ 1 <= y <= 16777216 /\ x * y = zf (i - 1))).
          + exists (zf 20), 1. pose proof (zf_pos 20). splits; try lia; vm_compute; reflexivity.
          + intros j s Hj (x & y & -> & Hx & Hy & E). unfold fact_mid_body.
            rewrite castw_small by (change (2 ^ 32) with 4294967296; lia).
            assert (1 <= y * j <= 16777216 * 128) by nia.
            assert (Enew : x * (y * j) = zf (j + 1 - 1)).
            { replace (j + 1 - 1) with (j - 1 + 1) by lia. rewrite zf_succ by lia. rewrite <- E. ring. }
            rewrite mulw_ok by (change (2 ^ 32) with 4294967296; lia). cbn [bind].
            destruct (Z.ltb_spec 16777216 (y * j)).
            * rewrite Emul_u32 by lia. cbn [bind]. apply returns_ok. exists (x * (y * j)), 1. splits; auto; try lia.
            * apply returns_ok. exists x, (y * j). splits; auto; lia.
        - cbn beta. intros s (x & y & Hs & H1 & H2 & H3). exists x, y. splits; auto; try lia. rewrite H3. f_equal. lia. }
      cbn [bind]. destruct (Z.ltb_spec 1 y).
      * rewrite Emul_u32 by lia. now rewrite Exy.
      * replace x with (zf n) by nia. reflexivity.
    + assert (returns (for_ (Z.to_nat (n + 1 - 129)) 129 fact_big_body (FACT128, uone))
        (fun s => exists x y, s = (uof x, uof y) /\ 0 <= x /\ 0 <= y /\ x * y = zf n)) as (s & -> & x & y & -> & Hx & Hy & Exy).
      { eapply returns_weaken.
        - apply (for_spec fact_big_body (fun i s => exists x y, s = (uof x, uof y) /\ 0 <= x /\ 0 <= y /\ x * y = zf (i - 1))).
          + exists (zf 128), 1. pose proof (zf_pos 128). splits; try lia; vm_compute; reflexivity.
          + intros j s Hj (x & y & -> & Hx & Hy & E). unfold fact_big_body.
            change (2 ^ 32) with 4294967296 in Hn.
            rewrite castw_small by (change (2 ^ 32) with 4294967296; lia).
            assert (0 <= y * j) by (apply Z.mul_nonneg_nonneg; lia).
            assert (Enew : x * (y * j) = zf (j + 1 - 1)).
            { replace (j + 1 - 1) with (j - 1 + 1) by lia. rewrite zf_succ by lia. rewrite <- E. ring. }
            rewrite Emul_u32 by lia. cbn [bind].
            destruct (_ <? _)%nat.
            * unfold umul_mut. rewrite Emul by lia. cbn [bind]. apply returns_ok. exists (x * (y * j)), 1. splits; auto; try lia.
            * apply returns_ok. exists x, (y * j). splits; auto; lia.
        - cbn beta. intros s (x & y & Hs & H1 & H2 & H3). exists x, y. splits; auto; try lia. rewrite H3. f_equal. lia. }
      cbn [bind]. unfold umul_mut. rewrite Emul by lia. now rewrite Exy.
Qed.

(** ** fibonacci *)
Fixpoint fib2 (n : nat) : Z * Z := match n with O => (0, 1) | S m => let '(a, b) := fib2 m in (b, a + b) end.
(** independent specification: F 0 = 0, F 1 = 1, F (n+2) = F (n+1) + F n *)
Fixpoint zfibn (n : nat) : Z :=
  match n with O => 0 | S m => match m with O => 1 | S k => zfibn m + zfibn k end end.
Lemma zfibn_SS n : zfibn (S (S n)) = zfibn (S n) + zfibn n. Proof. reflexivity. Qed.
Lemma zfibn_fib2 n : fib2 n = (zfibn n, zfibn (S n)).
Proof. induction n; [reflexivity |]. cbn [fib2]. rewrite IHn. f_equal. rewrite zfibn_SS. ring. Qed.
Definition zfib (n : Z) : Z := zfibn (Z.to_nat n).
Lemma zfib_fast n : zfib n = fst (fib2 (Z.to_nat n)). Proof. unfold zfib. now rewrite zfibn_fib2. Qed.
Lemma zfib_step n : 0 <= n -> zfib (n + 2) = zfib (n + 1) + zfib n.
Proof.
  intros. unfold zfib. replace (Z.to_nat (n + 2)) with (S (S (Z.to_nat n))) by lia.
  replace (Z.to_nat (n + 1)) with (S (Z.to_nat n)) by lia. apply zfibn_SS.
Qed.
Lemma zfibn_nonneg n : 0 <= zfibn n /\ 0 <= zfibn (S n).
Proof. induction n; [cbn; lia |]. rewrite zfibn_SS. lia. Qed.
Lemma zfib_nonneg n : 0 <= zfib n. Proof. apply zfibn_nonneg. Qed.
Lemma zfib_mono_S n : 0 <= n -> zfib n <= zfib (n + 1).
Proof.
  intros. unfold zfib. replace (Z.to_nat (n + 1)) with (S (Z.to_nat n)) by lia. destruct (Z.to_nat n) as [| k]; [cbn; lia |].
  rewrite zfibn_SS. pose proof (zfibn_nonneg k). lia.
Qed.
Lemma zfib_mono a b : 0 <= a <= b -> zfib a <= zfib b.
Proof.
  intros H. pattern b. apply (Zlt_lower_bound_ind _ a); [| lia]. intros x IH Hx.
  destruct (Z.eq_dec x a) as [-> | ]; [lia |].
  specialize (IH (x - 1) ltac:(lia)). pose proof (zfib_mono_S (x - 1) ltac:(lia)).
  replace (x - 1 + 1) with x in * by lia. lia.
Qed.

Lemma Efibonacci n : 0 <= n < 2 ^ 32 -> ufibonacci n = Ok (uof (zfib n)).
Proof.
  intros Hn. unfold ufibonacci. destruct (Z.ltb_spec n 14).
  { assert (n = 0 \/ n = 1 \/ n = 2 \/ n = 3 \/ n = 4 \/ n = 5 \/ n = 6 \/ n = 7 \/ n = 8 \/ n = 9 \/ n = 10 \/ n = 11 \/ n = 12 \/ n = 13) as H' by lia.
    repeat (destruct H' as [-> | H']; [reflexivity |]). subst; reflexivity. }
  destruct (Z.ltb_spec n 187).
  - destruct (for_spec fib_mid_body (fun i s => i + 13 <= 186 -> exists r, s = (zfib (i + 13), zfib (i + 12), r) /\ (0 < i -> r = zfib (i + 13)))
      (Z.to_nat (n - 13)) 0 (233, 144, 0)) as (s & -> & Hs).
    + intros _. exists 0. split; [reflexivity | lia].
    + intros j s Hj Hs. destruct (Hs ltac:(lia)) as (r & -> & _). unfold fib_mid_body.
      assert (E : zfib (j + 13) + zfib (j + 12) = zfib (j + 1 + 13)).
      { replace (j + 1 + 13) with (j + 12 + 2) by lia. rewrite zfib_step by lia. f_equal. f_equal. lia. }
      rewrite addw_ok.
      * cbn [bind]. apply returns_ok. intros _. exists (zfib (j + 1 + 13)). rewrite E. split; auto.
        f_equal. f_equal. f_equal. lia.
      * rewrite E. eapply Z.le_lt_trans; [apply (zfib_mono _ 186); lia |].
        rewrite zfib_fast. vm_compute; reflexivity.
    + destruct Hs as (r & -> & Hr); [lia |]. cbn [bind]. rewrite Hr by lia. rewrite ufrom_u128_spec.
      * f_equal. f_equal. f_equal. lia.
      * split; [apply zfib_nonneg |]. eapply Z.le_lt_trans; [apply (zfib_mono _ 186); lia |].
        rewrite zfib_fast. vm_compute; reflexivity.
  - destruct (for_spec fib_big_body (fun i s => exists r, s = (uof (zfib (i + 186)), uof (zfib (i + 185)), r) /\ (0 < i -> r = uof (zfib (i + 186))))
      (Z.to_nat (n - 186)) 0 (FIB186, FIB185, uzero)) as (s & -> & r & -> & Hr).
    + exists uzero. rewrite !zfib_fast. split; [vm_compute; reflexivity | lia].
    + intros j s Hj (r & -> & _). unfold fib_big_body. rewrite Eadd by apply zfib_nonneg. cbn [bind].
      assert (E : zfib (j + 186) + zfib (j + 185) = zfib (j + 1 + 186)).
      { replace (j + 1 + 186) with (j + 185 + 2) by lia. rewrite zfib_step by lia. f_equal. f_equal. lia. }
      apply returns_ok. exists (uof (zfib (j + 1 + 186))). rewrite E. split; auto. f_equal. f_equal. f_equal. f_equal. lia.
    + cbn [bind]. rewrite Hr by lia. f_equal. f_equal. f_equal. lia.
Qed.

(** ** log2 *)
Lemma nth_error_last' (l : list Z) : l <> [] -> nth_error l (length l - 1) = Some (last l 0).
Proof.
  intros H. destruct (exists_last H) as (l' & x & ->). rewrite last_last, app_length. cbn [length].
  replace (length l' + 1 - 1)%nat with (length l') by lia. apply nth_error_last.
Qed.
Lemma log2_limbs l : uwf l -> 0 < uval l ->
  Z.log2 (uval l) = 32 * (Z.of_nat (length l) - 1) + Z.log2 (last l 0).
Proof.
  intros W Hp. pose proof (uwf_len l W). pose proof (uwf_last_pos l W Hp) as Hl.
  pose proof (uval_last_lower l (uwf_limbs l W) (uwf_ne l W)) as L.
  pose proof (uval_last_upper l (uwf_limbs l W) (uwf_ne l W)) as U.
  rewrite BB_pow2 in L, U. set (x := last l 0) in *. set (k := 32 * Z.of_nat (length l - 1)) in *.
  replace (32 * (Z.of_nat (length l) - 1)) with k by (unfold k; lia).
  assert (Hk : 0 <= k) by (unfold k; lia).
  pose proof (Z.log2_spec x Hl) as [X1 X2]. pose proof (Z.log2_nonneg x).
  apply Z.log2_unique; [lia |]. assert (P : 0 < 2 ^ k) by (apply Z.pow_pos_nonneg; lia). split.
  - rewrite Z.pow_add_r by lia. nia.
  - rewrite <- Z.add_succ_r, Z.pow_add_r by lia.
    assert ((x + 1) * 2 ^ k <= 2 ^ Z.succ (Z.log2 x) * 2 ^ k) by (apply Z.mul_le_mono_nonneg_r; lia). lia.
Qed.
Lemma Elog2 a : 0 <= a -> Z.of_nat (length (uof a)) < 2 ^ 58 -> ulog2 (uof a) = Ok (uof (Z.log2 a)).
Proof.
  change (2 ^ 58) with 288230376151711744. intros Ha Hl. unfold ulog2.
  destruct (len_uof_bounds a Ha) as (L1 & _ & _). pose proof (uof_wf a Ha) as W.
  rewrite castw_small by (change (2 ^ 64) with 18446744073709551616; lia).
  rewrite subw_ok by lia. cbn [bind]. rewrite mulw_ok by (change (2 ^ 64) with 18446744073709551616; lia). cbn [bind].
  rewrite subn_ok by lia. cbn [bind]. unfold getv. rewrite nth_error_last' by (apply uwf_ne; auto). cbn [bind].
  pose proof (last_limb _ (uwf_limbs _ W)) as Hx.
  assert (Hlog : log2_u32 (last (uof a) 0) = Z.log2 (last (uof a) 0)).
  { unfold log2_u32. destruct (Z.eqb_spec (last (uof a) 0) 0) as [-> |]; reflexivity. }
  rewrite Hlog. pose proof (Z.log2_nonneg (last (uof a) 0)).
  assert (Z.log2 (last (uof a) 0) < 32).
  { destruct (Z.eq_dec (last (uof a) 0) 0) as [-> |]; [reflexivity |]. apply Z.log2_lt_pow2; lia. }
  rewrite addw_ok by (change (2 ^ 64) with 18446744073709551616; lia). cbn [bind].
  rewrite ufrom_u64_spec by (change (2 ^ 64) with 18446744073709551616; lia). f_equal. f_equal.
  destruct (Z.eq_dec a 0) as [-> | Hnz].
  - reflexivity.
  - rewrite <- (uof_uval a Ha) at 3. rewrite log2_limbs; auto. lia. rewrite uof_uval; lia.
Qed.
