(** Ratio texts: the parser is decided by [rread]. *)
From Coq Require Import Zquot Qpower.
From Verif Require Import Base USpec SSpec UFacts UBig UFun UStr UStrP UEq UPow Props_U2 BBig BSpec BEq Props_B RBig RSpec REq RShrink RStr.
Local Open Scope Z_scope.

(** ** scaling by a power of ten *)
Lemma len_uof_log z n : 0 <= z < 2 ^ n -> 0 <= n -> Z.of_nat (length (uof z)) <= n / 32 + 1.
Proof.
  intros Hz Hn. assert (0 <= n / 32) by (apply Z.div_pos; lia).
  assert (L : (length (uof z) <= Z.to_nat (n / 32 + 1))%nat).
  { apply nlimbs_iff; [lia | lia |]. rewrite BB_pow2, Z2Nat.id by lia. apply Z.lt_le_trans with (2 ^ n); [lia |]. apply Z.pow_le_mono_r; [lia |].
    pose proof (Z.div_mod n 32 ltac:(lia)). pose proof (Z.mod_pos_bound n 32 ltac:(lia)). lia. }
  lia.
Qed.
Lemma pow10_lt k : 0 <= k -> 10 ^ k <= 2 ^ (4 * k).
Proof. intros H. rewrite Z.pow_mul_r by lia. apply Z.pow_le_mono_l. lia. Qed.
Lemma len10 z k : 0 <= z <= 10 ^ k -> 0 <= k < 2 ^ 34 -> Z.of_nat (length (uof z)) < 4294967296.
Proof.
  intros Hz Hk. pose proof (pow10_lt k ltac:(lia)).
  assert (z < 2 ^ (4 * k + 1)). { rewrite Z.pow_add_r by lia. assert (0 < 2 ^ (4 * k)) by (apply Z.pow_pos_nonneg; lia). lia. }
  pose proof (len_uof_log z (4 * k + 1) ltac:(lia) ltac:(lia)). 
  assert ((4 * k + 1) / 32 <= 2147483648). { apply Z.div_le_upper_bound; lia. } lia.
Qed.

Lemma prime_5 : Znumtheory.prime 5.
Proof.
  apply Znumtheory.prime_intro; [lia |]. intros n Hn. assert (C : n = 1 \/ n = 2 \/ n = 3 \/ n = 4) by lia.
  destruct C as [-> | [-> | [-> | ->]]]; apply Znumtheory.Zgcd_1_rel_prime; reflexivity.
Qed.
(** loop rule with the measure given as an index of the invariant *)
Lemma recn_spec_i {A C} (F : (A -> res C) -> A -> res C) (P : Z -> A -> Prop) (Q : Z -> A -> C -> Prop) :
  (forall g k a, P k a -> 0 <= k -> (forall k' a', P k' a' -> 0 <= k' < k -> returns (g a') (Q k' a')) -> returns (F g a) (Q k a)) ->
  forall n bot m, 0 <= m -> (forall k a, P k a -> 0 <= k < m -> returns (bot a) (Q k a)) ->
  forall k a, P k a -> 0 <= k < m + 2 ^ Z.of_nat n -> returns (recn n F bot a) (Q k a).
Proof.
  intros HF n. induction n as [| n IH]; intros bot m Hm Hbot k a HP Hk.
  - cbn [recn]. apply HF; auto; [lia |]. intros k' a' HP' Hk'. apply Hbot; auto. change (2 ^ Z.of_nat 0) with 1 in Hk. lia.
  - cbn [recn]. assert (E : 2 ^ Z.of_nat (S n) = 2 * 2 ^ Z.of_nat n). { rewrite Nat2Z.inj_succ, Z.pow_succ_r; lia. }
    apply (IH _ (m + 2 ^ Z.of_nat n)); auto; try lia.
    intros k' a' HP' Hk'. apply (IH _ m); auto; lia.
Qed.
Lemma loopn_spec_i {A C} (F : (A -> res C) -> A -> res C) (P : Z -> A -> Prop) (Q : Z -> A -> C -> Prop) :
  (forall g k a, P k a -> 0 <= k -> (forall k' a', P k' a' -> 0 <= k' < k -> returns (g a') (Q k' a')) -> returns (F g a) (Q k a)) ->
  forall n k a, P k a -> 0 <= k < 2 ^ Z.of_nat n -> returns (loopn n F a) (Q k a).
Proof. intros HF n k a HP Hk. unfold loopn. apply (recn_spec_i F P Q HF n _ 0); auto; try lia. Qed.
Section Cancel.
Variables (p c : Z) (F : (bint * bint -> res (bint * bint)) -> bint * bint -> res (bint * bint)) (X E : Z).
Hypothesis Hp : 2 <= p.
Hypothesis Hc : 0 < c.
Hypothesis Hpc : ~ (p | c).
Hypothesis HF : forall g x e, Z.abs x <= X -> 0 <= e <= E ->
  F g (bof x, bof e) = if Z.rem x p =? 0 then if Z.rem e p =? 0 then g (bof (x ÷ p), bof (e ÷ p)) else Ok (bof x, bof e) else Ok (bof x, bof e).
Lemma cancel_spec n : forall x i, 0 <= i < 2 ^ Z.of_nat n -> Z.abs x <= X -> p ^ i * c <= E ->
  returns (loopn n F (bof x, bof (p ^ i * c))) (fun r => exists i' x', 0 <= i' <= i /\ r = (bof x', bof (p ^ i' * c)) /\ x = p ^ (i - i') * x' /\ (i' = 0 \/ ~ (p | x'))).
Proof.
  assert (PP : forall k, 0 <= k -> 0 < p ^ k) by (intros; apply Z.pow_pos_nonneg; lia).
  intros x i Hi Hx HE.
  pose (P := fun i s => exists x, s = (bof x, bof (p ^ i * c)) /\ Z.abs x <= X /\ p ^ i * c <= E).
  pose (Q := fun i s r => forall x, s = (bof x, bof (p ^ i * c)) -> exists i' x', 0 <= i' <= i /\ r = (bof x', bof (p ^ i' * c)) /\ x = p ^ (i - i') * x' /\ (i' = 0 \/ ~ (p | x'))).
  enough (K : returns (loopn n F (bof x, bof (p ^ i * c))) (Q i (bof x, bof (p ^ i * c)))).
  { eapply returns_weaken; [exact K |]. intros r H. now apply (H x). }
  apply (loopn_spec_i F P Q); auto; [| now exists x]. clear x i Hi Hx HE.
  intros g i s (x & -> & Hx & HE) Hi IH. specialize (PP i Hi) as PPi. rewrite HF; [| exact Hx | split; [nia | exact HE]].
  assert (INJ : forall y, (bof x, bof (p ^ i * c)) = (bof y, bof (p ^ i * c)) -> x = y).
  { intros y Ey. apply pair_equal_spec in Ey as [E1 _]. rewrite <- (bof_val x), <- (bof_val y); now f_equal. }
  destruct (Z.eqb_spec (Z.rem x p) 0) as [E1 | E1].
  - assert (Dx : x = p * (x ÷ p)) by (pose proof (Z.quot_rem' x p); lia).
    destruct (Z.eqb_spec (Z.rem (p ^ i * c) p) 0) as [E2 | E2].
    + assert (i <> 0). { intros ->. apply Hpc. rewrite Z.pow_0_r, Z.mul_1_l in E2. apply Z.rem_divide in E2; auto. lia. }
      assert (D : p ^ i * c = p ^ (i - 1) * c * p). { replace i with (1 + (i - 1)) at 1 by lia. rewrite Z.pow_add_r, Z.pow_1_r by lia. ring. }
      rewrite D, Z.quot_mul by lia. eapply returns_weaken.
      { apply (IH (i - 1)); [| lia]. exists (x ÷ p). split; [reflexivity |]. specialize (PP (i - 1) ltac:(lia)). split.
        - clear - Dx Hx Hp. generalize dependent (x ÷ p). intros y Dx. subst x. rewrite Z.abs_mul in Hx. pose proof (Z.abs_nonneg y). nia.
        - rewrite D in HE. clear - HE PP Hp Hc. assert (0 <= p ^ (i - 1) * c) by nia. nia. }
      intros r Hr y Ey. rewrite <- D in Ey. apply INJ in Ey. subst y. destruct (Hr _ eq_refl) as (i' & x' & G1 & G2 & G3 & G4).
      exists i', x'. split; [lia |]. split; [exact G2 |]. split; [| exact G4]. rewrite Dx, G3. replace (i - i') with (1 + (i - 1 - i')) by lia.
      rewrite (Z.pow_add_r p 1), Z.pow_1_r by lia. ring.
    + apply returns_ok. intros y Ey. apply INJ in Ey. subst y. exists i, x. split; [lia |]. split; [reflexivity |]. split.
      * rewrite Z.sub_diag. ring.
      * left. destruct (Z.eq_dec i 0); auto. exfalso. apply E2. apply Z.rem_divide; [lia |].
        replace i with (1 + (i - 1)) by lia. rewrite Z.pow_add_r, Z.pow_1_r by lia. rewrite <- Z.mul_assoc. apply Z.divide_factor_l.
  - apply returns_ok. intros y Ey. apply INJ in Ey. subst y. exists i, x. split; [lia |]. split; [reflexivity |]. split.
    + rewrite Z.sub_diag. ring.
    + right. intros C. apply E1. apply Z.rem_divide; auto. lia.
Qed.
End Cancel.

Lemma cancel2_spec x i j : 0 <= i < 2 ^ 32 -> 0 <= j ->
  returns (cancel2 (bof x, bof (2 ^ i * 5 ^ j))) (fun r => exists i' x', 0 <= i' <= i /\ r = (bof x', bof (2 ^ i' * 5 ^ j)) /\ x = 2 ^ (i - i') * x' /\ (i' = 0 \/ ~ (2 | x'))).
Proof.
  intros Hi Hj. assert (0 < 5 ^ j) by (apply Z.pow_pos_nonneg; lia).
  apply (cancel_spec 2 (5 ^ j) cancel2_body (Z.abs x) (2 ^ i * 5 ^ j)); try lia.
  - intros C. apply Zpow_facts.prime_power_prime in C; [lia | lia | apply Znumtheory.prime_2 | apply prime_5].
  - intros g y e _ _. unfold cancel2_body. pose proof (Brem_pow2 y 1 ltac:(lia)) as R1. pose proof (Brem_pow2 e 1 ltac:(lia)) as R2.
    change (2 ^ 1) with 2 in R1, R2. rewrite R1. cbn [bind]. rewrite Bis_zero. destruct (Z.rem y 2 =? 0); [| reflexivity].
    rewrite R2. cbn [bind]. rewrite Bis_zero. destruct (Z.rem e 2 =? 0); [| reflexivity].
    rewrite !Bdiv_i32_mut by (unfold i32r; lia). reflexivity.
Qed.
Lemma cancel5_spec x i j : 0 <= i < 2 ^ 32 -> 0 <= j -> Z.of_nat (length (uof (Z.abs x))) < 4294967296 -> Z.of_nat (length (uof (5 ^ i * 2 ^ j))) < 4294967296 ->
  returns (cancel5 (bof x, bof (5 ^ i * 2 ^ j))) (fun r => exists i' x', 0 <= i' <= i /\ r = (bof x', bof (5 ^ i' * 2 ^ j)) /\ x = 5 ^ (i - i') * x' /\ (i' = 0 \/ ~ (5 | x'))).
Proof.
  intros Hi Hj L1 L2. assert (0 < 2 ^ j) by (apply Z.pow_pos_nonneg; lia). 
  apply (cancel_spec 5 (2 ^ j) cancel5_body (Z.abs x) (5 ^ i * 2 ^ j)); try lia.
  - intros C. apply Zpow_facts.prime_power_prime in C; [lia | lia | apply prime_5 | apply Znumtheory.prime_2].
  - intros g y e Hy He. unfold cancel5_body. pose proof (len_uof_mono (Z.abs y) (Z.abs x) ltac:(lia)). pose proof (len_uof_mono e (5 ^ i * 2 ^ j) ltac:(lia)).
    rewrite Brem_i32 by (unfold i32r; lia). cbn [bind]. rewrite Bis_zero. destruct (Z.rem y 5 =? 0); [| reflexivity].
    rewrite Brem_i32 by (unfold i32r; rewrite ?(Z.abs_eq e) by lia; lia). cbn [bind]. rewrite Bis_zero. destruct (Z.rem e 5 =? 0); [| reflexivity].
    rewrite !Bdiv_i32_mut by (unfold i32r; lia). reflexivity.
Qed.

Lemma not_div_rel p a : Znumtheory.prime p -> ~ (p | a) -> Znumtheory.rel_prime a p.
Proof. intros P H. apply Znumtheory.rel_prime_sym. now apply Znumtheory.prime_rel_prime. Qed.
Opaque cancel2 cancel5.
Lemma cancel_both x k : 0 <= k < 2 ^ 31 -> Z.of_nat (length (uof (Z.abs x))) < 4294967296 ->
  returns (let* '(x, e) := cancel2 (bof x, bof (10 ^ k)) in cancel5 (x, e))
    (fun r => exists x' f c, r = (bof x', bof f) /\ 0 < c /\ 0 < f /\ x = c * x' /\ 10 ^ k = c * f /\ Z.gcd x' f = 1).
Proof.
  intros Hk Lx. assert (T : 10 ^ k = 2 ^ k * 5 ^ k) by (rewrite <- Z.pow_mul_l; reflexivity).
  assert (P2 : forall n, 0 <= n -> 0 < 2 ^ n) by (intros; apply Z.pow_pos_nonneg; lia).
  assert (P5 : forall n, 0 <= n -> 0 < 5 ^ n) by (intros; apply Z.pow_pos_nonneg; lia).
  rewrite T. eapply returns_bind; [apply (cancel2_spec x k k); lia |].
  intros r (i & y & Hi & -> & Hx & N2). rewrite (Z.mul_comm (2 ^ i)). eapply returns_weaken; [apply (cancel5_spec y k i); try lia |].
  - eapply Z.le_lt_trans; [| exact Lx]. apply Nat2Z.inj_le. apply len_uof_mono. rewrite Hx, Z.abs_mul. specialize (P2 (k - i) ltac:(lia)).
    pose proof (Z.abs_nonneg y). nia.
  - apply len10 with k; [| lia]. rewrite T. specialize (P2 i ltac:(lia)) as Q1. specialize (P5 k ltac:(lia)) as Q2. split; [nia |].
    replace k with ((k - i) + i) at 2 by lia. rewrite Z.pow_add_r by lia. specialize (P2 (k - i) ltac:(lia)). nia.
  - intros r (j & z & Hj & -> & Hy & N5). exists z, (5 ^ j * 2 ^ i), (2 ^ (k - i) * 5 ^ (k - j)).
    specialize (P2 i ltac:(lia)) as Q1. specialize (P5 j ltac:(lia)) as Q2. specialize (P2 (k - i) ltac:(lia)) as Q3. specialize (P5 (k - j) ltac:(lia)) as Q4.
    split; [reflexivity |]. split; [nia |]. split; [nia |]. split; [rewrite Hx, Hy; ring |]. split.
    + replace (2 ^ k) with (2 ^ (k - i) * 2 ^ i) by (rewrite <- Z.pow_add_r by lia; f_equal; lia).
      replace (5 ^ k) with (5 ^ (k - j) * 5 ^ j) by (rewrite <- Z.pow_add_r by lia; f_equal; lia). ring.
    + apply Znumtheory.Zgcd_1_rel_prime. apply Znumtheory.rel_prime_mult.
      * destruct N5 as [-> | N5]; [rewrite Z.pow_0_r; apply Znumtheory.rel_prime_sym, Znumtheory.rel_prime_1 |].
        apply Zpow_facts.rel_prime_Zpower_r; [lia |]. apply not_div_rel; auto. apply prime_5.
      * destruct N2 as [-> | N2]; [rewrite Z.pow_0_r; apply Znumtheory.rel_prime_sym, Znumtheory.rel_prime_1 |].
        apply Zpow_facts.rel_prime_Zpower_r; [lia |]. apply not_div_rel; [apply Znumtheory.prime_2 |]. intros C. apply N2. rewrite Hy. now apply Z.divide_mul_r.
Qed.
Lemma INJ0 z : z <> 0 -> ~ (inject_Z z == 0)%Q.
Proof. intros H C. apply H. unfold Qeq in C. cbn in C. lia. Qed.
Lemma Rscale q e : - 2 ^ 31 < e < 2 ^ 31 -> Z.of_nat (length (uof (Z.abs (qn q)))) < 4294967296 -> Z.of_nat (length (uof (qd q))) < 4294967296 ->
  scale10 (rof q) e = Ok (rof (q * inject_Z 10 ^ e)).
Proof.
  intros He Ln Ld. unfold scale10. destruct (Z.eqb_spec e 0) as [-> | Ne].
  { f_equal. apply rof_qeq. change (inject_Z 10 ^ 0)%Q with 1%Q. ring. }
  destruct (sabs32 e He) as [-> C]. cbn [bind]. rewrite Bfrom_i32 by lia. cbn [bind]. rewrite C, Bpow by lia. cbn [bind].
  rewrite rden_rof, rnum_rof. pose proof (rof_gcd q) as G. pose proof (rof_den_pos q) as Dp.
  assert (V := qval q). assert (Dq : ~ (inject_Z (qd q) == 0)%Q) by (apply INJ0; lia).
  pose proof (Z.pow_pos_nonneg 10 (Z.abs e) ltac:(lia) ltac:(lia)) as P10.
  assert (INJ : forall z, 0 < z -> ~ (inject_Z z == 0)%Q) by (intros; apply INJ0; lia).
  destruct (Z.ltb_spec 0 e) as [He0 | He0].
  - pose proof (cancel_both (qd q) (Z.abs e) ltac:(lia) ltac:(rewrite Z.abs_eq by lia; exact Ld)) as K. unfold returns in K.
    destruct K as (r & K & d' & f & c & -> & Hc & Hf & E1 & E2 & Gc).
    destruct (cancel2 (bof (qd q), bof (10 ^ Z.abs e))) as [[d1 e1] | |]; cbn [bind] in K |- *; try discriminate.
    rewrite K. cbn [bind]. rewrite Bmul_mut. cbn [bind]. f_equal.
    assert (Hd : 0 < d') by nia. apply rof_eq; auto.
    + apply Znumtheory.Zgcd_1_rel_prime. apply Znumtheory.rel_prime_sym, Znumtheory.rel_prime_mult.
      * apply Znumtheory.rel_prime_div with (qd q); [apply Znumtheory.rel_prime_sym; now apply Znumtheory.Zgcd_1_rel_prime |]. exists c; lia.
      * now apply Znumtheory.Zgcd_1_rel_prime.
    + apply qcross; auto. rewrite Qmake_Qdiv, Z2Pos.id by lia. rewrite <- Zpower_Qpower by lia. eapply Qeq_trans; [apply Qmult_comp; [exact V | apply Qeq_refl] |]. rewrite Z.abs_eq in E2 by lia. rewrite E2, E1, !inject_Z_mult. field. split; apply INJ; lia.
  - pose proof (cancel_both (qn q) (Z.abs e) ltac:(lia) Ln) as K. unfold returns in K.
    destruct K as (r & K & n' & f & c & -> & Hc & Hf & E1 & E2 & Gc).
    destruct (cancel2 (bof (qn q), bof (10 ^ Z.abs e))) as [[d1 e1] | |]; cbn [bind] in K |- *; try discriminate.
    rewrite K. cbn [bind]. rewrite Bmul_mut. cbn [bind]. f_equal.
    assert (Hd : 0 < qd q * f) by nia. apply rof_eq; auto.
    + apply Znumtheory.Zgcd_1_rel_prime. apply Znumtheory.rel_prime_mult.
      * apply Znumtheory.rel_prime_div with (qn q); [now apply Znumtheory.Zgcd_1_rel_prime |]. exists c; lia.
      * now apply Znumtheory.Zgcd_1_rel_prime.
    + apply qcross; auto. rewrite Qmake_Qdiv, Z2Pos.id by lia. replace e with (- Z.abs e) at 1 by lia. rewrite Qpower_opp, <- Zpower_Qpower by lia. eapply Qeq_trans; [apply Qmult_comp; [exact V | apply Qeq_refl] |]. rewrite E2, E1, !inject_Z_mult.
      field. repeat split; try (apply INJ; lia).
Qed.

(** ** the characters of a text *)
Lemma lower_e c : (ascii_lower c =? 101) = is_e c.
Proof. unfold ascii_lower, is_e. zb; cbn [orb andb] in *; auto; lia. Qed.
Lemma is_e_iff c : is_e c = true <-> c = 101 \/ c = 69.
Proof. unfold is_e. lia. Qed.
Lemma sfind_ext p q s : (forall c, p c = q c) -> sfind p s = sfind q s.
Proof. intros E. induction s as [| c t IH]; cbn [sfind]; [auto |]. now rewrite E, IH. Qed.
Lemma sfind_cut p s : match sfind p s with
  | None => cut p s = None /\ (forall c, In c s -> p c = false)
  | Some i => exists a c b, s = a ++ c :: b /\ i = length a /\ p c = true /\ (forall x, In x a -> p x = false) /\ cut p s = Some (a, b) end.
Proof.
  induction s as [| c t IH]; cbn [sfind cut]; [split; auto; intros c [] |].
  destruct (p c) eqn:E; [exists [], c, t; repeat split; auto; intros x [] |].
  destruct (sfind p t) as [i |].
  - destruct IH as (a & c' & b & -> & -> & Hp & Ha & ->). exists (c :: a), c', b. repeat split; auto. intros x [<- | H]; auto.
  - destruct IH as [-> H]. split; auto. intros x [<- | Hx]; auto.
Qed.
Lemma cut_app p a c b : p c = true -> (forall x, In x a -> p x = false) -> cut p (a ++ c :: b) = Some (a, b).
Proof.
  intros Hc Ha. induction a as [| x a IH]; cbn [app cut]; [now rewrite Hc |]. rewrite (Ha x) by (left; auto).
  rewrite IH; auto. intros y Hy. apply Ha. now right.
Qed.
Definition nd_skip (c : Z) : bool := (c =? 45) || (c =? 48) || (c =? 46).
Lemma bdig10 c : bdig 10 c = if (48 <=? c) && (c <=? 57) then Some (c - 48) else None.
Proof.
  unfold bdig, cdig. destruct (Z.leb_spec 48 c), (Z.leb_spec c 57); cbn [andb]; [destruct (Z.ltb_spec (c - 48) 10); auto; lia | | |];
  (destruct (Z.leb_spec 97 c), (Z.leb_spec c 102); cbn [andb]; [destruct (Z.ltb_spec (c - 87) 10); auto; lia | | |];
  (destruct (Z.leb_spec 65 c), (Z.leb_spec c 70); cbn [andb]; auto; destruct (Z.ltb_spec (c - 55) 10); auto; lia)).
Qed.
Lemma nd_step c t : non_decimal (c :: t) = if nd_skip c then non_decimal t else match bdig 10 c with Some _ => None | None => Some c end.
Proof.
  cbn [non_decimal]. assert (E : (ascii_lower c =? 45) || (ascii_lower c =? 48) || (ascii_lower c =? 46) = nd_skip c).
  { unfold ascii_lower, nd_skip. zb; cbn [orb andb] in *; auto; lia. }
  rewrite E. destruct (nd_skip c); auto. rewrite to_digit_10.
  assert (F : bdig 10 (ascii_lower c) = bdig 10 c).
  { unfold ascii_lower. rewrite !bdig10. destruct (Z.leb_spec 65 c), (Z.leb_spec c 90); cbn [andb]; auto.
    replace (c + 32 <=? 57) with false by lia. replace (c <=? 57) with false by lia. now rewrite ?andb_false_r. }
  now rewrite F.
Qed.
Lemma nd_some s c : non_decimal s = Some c -> exists a b, s = a ++ c :: b /\ (forall x, In x a -> nd_skip x = true) /\ nd_skip c = false /\ bdig 10 c = None.
Proof.
  induction s as [| x t IH]; [discriminate |]. rewrite nd_step. destruct (nd_skip x) eqn:E.
  - intros H. destruct (IH H) as (a & b & -> & Ha & Hc). exists (x :: a), b. repeat split; try apply Hc. intros y [<- | Hy]; auto.
  - destruct (bdig 10 x) eqn:Eb; [discriminate |]. intros H. inversion H; subst. exists [], t. repeat split; auto; intros y [].
Qed.
Lemma nd_app s w c : non_decimal s = Some c -> non_decimal (s ++ w) = Some c.
Proof.
  induction s as [| x t IH]; [discriminate |]. cbn [app]. rewrite !nd_step. destruct (nd_skip x); auto.
Qed.
Lemma early_us_app s w : early_us (s ++ w) = false -> early_us s = false.
Proof. induction s as [| x t IH]; cbn [app early_us]; auto. destruct (x =? 95); auto. destruct ((x =? 45) || (x =? 48) || (x =? 46)); auto. Qed.
Lemma early_nd s : early_us s = true <-> non_decimal s = Some 95.
Proof.
  induction s as [| x t IH]; [cbn; split; discriminate |]. rewrite nd_step. cbn [early_us]. destruct (Z.eqb_spec x 95) as [-> | N].
  - cbn. tauto.
  - fold (nd_skip x). destruct (nd_skip x); auto. destruct (bdig 10 x); split; try discriminate. intros H; inversion H; congruence.
Qed.
Lemma bdig10_char c d : bdig 10 c = Some d -> 48 <= c <= 57 /\ d = c - 48.
Proof. rewrite bdig10. destruct ((48 <=? c) && (c <=? 57)) eqn:E; [| discriminate]. intros H; inversion H. lia. Qed.
Lemma dec_bdig c : dec_char c = true -> c <> 45 -> c <> 95 -> exists d, bdig 10 c = Some d.
Proof.
  intros H N1 N2. assert (48 <= c <= 57) by (unfold dec_char in H; lia). exists (c - 48). rewrite bdig10. now replace ((48 <=? c) && (c <=? 57)) with true by lia.
Qed.
Lemma dvalue_chars b s : forall acc v, dvalue b acc s = Some v -> forall c, In c s -> exists d, bdig b c = Some d.
Proof.
  intros acc v H c Hc. destruct (bdig b c) eqn:E; eauto. rewrite (dvalue_foreign b c s E Hc) in H. discriminate.
Qed.
Lemma in_no_us c s : In c s -> c <> 95 -> In c (no_us s).
Proof. intros H N. unfold no_us. apply filter_In. split; auto. destruct (Z.eqb_spec c 95); auto. Qed.
Lemma uread_shape s z : uread s = Some z -> early_us s = false ->
  (forallb dec_char s = true /\ ~ In 45 s) \/
  (exists p b, non_decimal s = Some p /\ prefix_base p = Some b /\ (b = 16 \/ forall c, In c s -> is_e c = false)).
Proof.
  intros H He. destruct s as [| c t]; [discriminate |]. cbn [early_us] in He. destruct (Z.eqb_spec c 95) as [| N]; [discriminate |].
  rewrite uread_cons in H by auto. destruct (Z.eqb_spec c 48) as [-> | N48].
  - cbn in He. destruct (no_us t) as [| p rest] eqn:Et.
    + left. assert (T : forall x, In x t -> x = 95). { intros x Hx. destruct (Z.eq_dec x 95); auto. pose proof (in_no_us x t Hx n) as C. rewrite Et in C. destruct C. }
      split; [apply forallb_forall; intros x [<- | Hx]; [reflexivity | now rewrite (T x Hx)] |]. intros [C | C]; [discriminate | apply T in C; discriminate].
    + right. destruct (prefix_base p) as [b |] eqn:Ep; [| discriminate]. destruct rest as [| r rest]; [discriminate |].
      destruct t as [| p' t']; [discriminate |]. cbn [early_us] in He. destruct (Z.eqb_spec p' 95) as [| Np]; [discriminate |].
      assert (p' = p /\ no_us t' = r :: rest) as [-> Et'].
      { cbn [no_us filter] in Et. destruct (Z.eqb_spec p' 95); [contradiction |]. cbn [negb] in Et. inversion Et. auto. }
      exists p, b. assert (Sp : nd_skip p = false /\ bdig 10 p = None).
      { assert (p = 120 \/ p = 88 \/ p = 98 \/ p = 66 \/ p = 111 \/ p = 79).
        { unfold prefix_base in Ep. destruct ((p =? 120) || (p =? 88)) eqn:E1; [lia |]. destruct ((p =? 98) || (p =? 66)) eqn:E2; [lia |]. destruct ((p =? 111) || (p =? 79)) eqn:E3; [lia | discriminate]. }
        rewrite bdig10. unfold nd_skip. split; [lia |]. now replace ((48 <=? p) && (p <=? 57)) with false by lia. }
      split; [rewrite nd_step; change (nd_skip 48) with true; cbv iota; rewrite nd_step; destruct Sp as [-> ->]; reflexivity |]. split; auto.
      assert (b = 16 \/ b < 10). { unfold prefix_base in Ep. destruct (_ || _); [inversion Ep; lia |]. destruct (_ || _); [inversion Ep; lia |]. destruct (_ || _); inversion Ep; lia. }
      destruct H0 as [| Hb]; [left; auto | right]. intros x Hx. destruct (is_e x) eqn:Ex; auto. exfalso.
      apply is_e_iff in Ex. destruct Hx as [<- | [<- | Hx]]; [lia | |].
      { unfold prefix_base in Ep. destruct Ex as [-> | ->]; discriminate. }
      assert (In x (r :: rest)). { rewrite <- Et'. apply in_no_us; auto. lia. }
      destruct (dvalue_chars _ _ _ _ H x H0) as [d Ed]. unfold bdig in Ed. destruct Ex as [-> | ->]; cbn in Ed; destruct (Z.ltb_spec 14 b); try discriminate; lia.
  - left. assert (D : forall x, In x (c :: t) -> x = 95 \/ 48 <= x <= 57).
    { intros x Hx. destruct (Z.eq_dec x 95); [auto | right]. destruct (dvalue_chars _ _ _ _ H x) as [d Ed]; [destruct Hx as [-> | Hx]; [left; auto | right; apply in_no_us; auto] |].
      now apply bdig10_char in Ed. }
    split; [apply forallb_forall; intros x Hx; specialize (D x Hx); unfold dec_char; lia |]. intros C. specialize (D 45 C). lia.
Qed.
Lemma bread_shape s z : bread s = Some z -> early_us s = false ->
  forallb dec_char s = true \/
  (exists p b, non_decimal s = Some p /\ prefix_base p = Some b /\ (b = 16 \/ forall c, In c s -> is_e c = false)).
Proof.
  intros H He. destruct s as [| c t]; [discriminate |]. cbn [bread] in H. destruct (Z.eqb_spec c 45) as [-> | N].
  - destruct (uread t) as [n |] eqn:E; [| discriminate]. cbn in He. destruct (uread_shape _ _ E He) as [[K _] | (p & b & K1 & K2 & K3)].
    + left. cbn [forallb]. now rewrite K.
    + right. exists p, b. rewrite nd_step. split; auto. split; auto. destruct K3 as [K3 | K3]; auto. right. intros x [<- | Hx]; auto.
  - destruct (uread_shape _ _ H He) as [[K _] | K]; auto.
Qed.
(** two ways of cutting a list *)
Lemma app_cross {A} (x d : A) : forall i t a b, i ++ d :: t = a ++ x :: b -> x <> d -> In x i \/ (exists t1, t = t1 ++ x :: b /\ a = i ++ d :: t1).
Proof.
  induction i as [| y i IH]; intros t a b E N; destruct a as [| z a]; cbn [app] in E; inversion E; subst.
  - congruence.
  - right. exists a. auto.
  - left. now left.
  - destruct (IH _ _ _ H1 N) as [H | (t1 & -> & ->)]; [left; now right | right; exists t1; auto].
Qed.

(** ** the numbers *)
Lemma Bfrom_string s : match bread s with Some v => bfrom_string s = Ok (ROk (bof v)) | None => exists e, bfrom_string s = Ok (RErr e) end.
Proof.
  pose proof (C23_parse_decides s) as H. destruct (bread s) as [v |]; auto. destruct H as (r & E & a & -> & W & V).
  rewrite E. do 2 f_equal. now rewrite <- V, bof_bval.
Qed.
Lemma Rfrac_loop s : forall d n, match dvalue 10 n (no_us s) with
  | Some m => frac_loop s (bof d) (bof n) = Ok (ROk (bof (d * 10 ^ Z.of_nat (length (no_us s))), bof m))
  | None => exists e, frac_loop s (bof d) (bof n) = Ok (RErr e) end.
Proof.
  induction s as [| c t IH]; intros d n; cbn [no_us filter dvalue frac_loop].
  { cbn [length]. change (10 ^ Z.of_nat 0) with 1. now rewrite Z.mul_1_r. }
  destruct (Z.eqb_spec c 95) as [-> | N]; cbn [negb]; [apply IH |]. fold (no_us t). cbn [dvalue]. rewrite to_digit_10.
  destruct (bdig 10 c) as [x |] eqn:E; [| eauto]. pose proof (bdig_range _ _ _ E).
  rewrite !Bmul_i32_mut by (unfold i32r; lia). cbn [bind]. rewrite Badd_i32_mut by (unfold i32r; lia). cbn [bind].
  specialize (IH (d * 10) (n * 10 + x)). destruct (dvalue 10 (n * 10 + x) (no_us t)); auto. rewrite IH. cbn [length].
  rewrite Nat2Z.inj_succ, Z.pow_succ_r by lia. do 4 f_equal. ring.
Qed.
Lemma dvalue_bound s : forall acc v, 0 <= acc -> dvalue 10 acc s = Some v -> 0 <= v < (acc + 1) * 10 ^ Z.of_nat (length s).
Proof.
  induction s as [| c t IH]; cbn [dvalue]; intros acc v Ha H.
  - inversion H; subst. cbn [length]. change (10 ^ Z.of_nat 0) with 1. lia.
  - destruct (bdig 10 c) as [x |] eqn:E; [| discriminate]. pose proof (bdig_range _ _ _ E). apply IH in H; [| lia].
    cbn [length]. rewrite Nat2Z.inj_succ, Z.pow_succ_r by lia. pose proof (Z.pow_pos_nonneg 10 (Z.of_nat (length t)) ltac:(lia) ltac:(lia)). nia.
Qed.
Lemma no_us_len s : (length (no_us s) <= length s)%nat.
Proof. unfold no_us. induction s as [| c t IH]; cbn [filter length]; auto. destruct (negb (c =? 95)); cbn [length]; lia. Qed.
Lemma pow10_mono i j : (i <= j)%nat -> 10 ^ Z.of_nat i <= 10 ^ Z.of_nat j.
Proof. intros. apply Z.pow_le_mono_r; lia. Qed.
Lemma uread_bound s z : forallb dec_char s = true -> uread s = Some z -> 0 <= z < 10 ^ Z.of_nat (length s).
Proof.
  intros HD H. destruct s as [| c t]; [discriminate |]. destruct (Z.eq_dec c 95) as [-> | N]; [discriminate |].
  rewrite uread_cons in H by auto. destruct (Z.eqb_spec c 48) as [-> | N48].
  - destruct (no_us t) as [| p rest] eqn:Et; [inversion H; subst; split; [lia | apply Z.pow_pos_nonneg; lia] |].
    assert (Hp : dec_char p = true). { cbn [forallb] in HD. apply andb_true_iff in HD as [_ HD]. rewrite forallb_forall in HD. apply HD.
      assert (I : In p (no_us t)) by (rewrite Et; left; auto). unfold no_us in I. now apply filter_In in I. }
    destruct (prefix_base p) eqn:Ep; [| discriminate]. exfalso. unfold prefix_base in Ep. unfold dec_char in Hp.
    destruct ((p =? 120) || (p =? 88)) eqn:E1; [lia |]. destruct ((p =? 98) || (p =? 66)) eqn:E2; [lia |]. destruct ((p =? 111) || (p =? 79)) eqn:E3; [lia | discriminate].
  - apply dvalue_bound in H; [| lia]. cbn [length] in *. pose proof (no_us_len t). pose proof (pow10_mono (S (length (no_us t))) (S (length t)) ltac:(lia)). lia.
Qed.
Lemma dread_bound s z : dread s = Some z -> Z.abs z < 10 ^ Z.of_nat (length s).
Proof.
  unfold dread. destruct (forallb dec_char s) eqn:HD; [| discriminate]. destruct s as [| c t]; [discriminate |]. cbn [bread].
  destruct (c =? 45).
  - destruct (uread t) as [n |] eqn:E; [| discriminate]. intros H; inversion H; subst. cbn [forallb] in HD. apply andb_true_iff in HD as [_ HD].
    pose proof (uread_bound _ _ HD E). pose proof (pow10_mono (length t) (S (length t)) ltac:(lia)). cbn [length]. lia.
  - intros E. pose proof (uread_bound _ _ HD E). lia.
Qed.

Definition decided (m : res (rslt rat cerr)) (o : option Q) : Prop :=
  match o with Some q => m = Ok (ROk (rof q)) | None => exists e, m = Ok (RErr e) end.
Lemma tail_ok I f X F G neg :
  (forall z, bread I = Some z -> match dvalue 10 0 (no_us f) with Some m => F = Ok (ROk (rof (inject_Z m / inject_Z (10 ^ Z.of_nat (length (no_us f)))))) | None => exists e, F = Ok (RErr e) end) ->
  match bread X with Some e => G = Ok (bto_i32 (bof e)) | None => exists e, G = Ok (RErr e) end ->
  (forall z, bread I = Some z -> forallb dec_char I = true) ->
  (I <> [] -> neg = (match I with c :: _ => c =? 45 | [] => false end)) ->
  bread X <> Some (- 2 ^ 31) -> Z.of_nat (length I) + Z.of_nat (length f) < 2 ^ 33 ->
  decided (rbind (bfrom_string I) (fun ip => rbind F (fun fp => rbind G (fun ex =>
     let fp := if neg then ropp_mut fp else fp in
     let* result := radd_mut (rfrom_bi ip) fp in
     let* r := scale10 result ex in Ok (ROk r))))) (dec_value I f X).
Proof.
  intros HF HG HD HN HX HL. pose proof (Bfrom_string I) as HI. unfold dec_value, dread.
  destruct (bread I) as [z |] eqn:EI.
  2:{ destruct HI as (e & ->). destruct (forallb dec_char I); cbn [rbind bind decided]; eauto. }
  rewrite HI. rewrite (HD z eq_refl). cbn [rbind bind]. specialize (HF z eq_refl).
  destruct (dvalue 10 0 (no_us f)) as [m |] eqn:Em; [| destruct HF as (e & ->); cbn [rbind bind decided]; eauto].
  rewrite HF. cbn [rbind bind]. destruct (bread X) as [e |]; [| destruct HG as (x & ->); cbn [rbind bind decided]; eauto].
  rewrite HG. cbn [rbind bind]. rewrite Bto_i32. unfold in_s. change (2 ^ (32 - 1)) with (2 ^ 31).
  destruct ((- 2 ^ 31 <=? e) && (e <? 2 ^ 31)) eqn:Er; [| cbn [rbind bind decided]; eauto]. cbn [rbind bind decided].
  set (k := Z.of_nat (length (no_us f))). set (fr := (inject_Z m / inject_Z (10 ^ k))%Q).
  assert (E1 : (if neg then ropp_mut (rof fr) else rof fr) = rof (if neg then - fr else fr)) by (destruct neg; auto; apply Ropp_mut).
  rewrite E1, Rfrom_bi, Radd_mut. cbn [bind].
  assert (E2 : match I with c :: _ => if c =? 45 then (inject_Z z - fr)%Q else (inject_Z z + fr)%Q | [] => (inject_Z z + fr)%Q end = (inject_Z z + (if neg then - fr else fr))%Q).
  { destruct I as [| c t]; [discriminate |]. rewrite (HN ltac:(discriminate)). now destruct (c =? 45). }
  rewrite E2. set (q := (inject_Z z + (if neg then - fr else fr))%Q).
  pose proof (dvalue_bound _ 0 _ ltac:(lia) Em) as Bm. change (0 + 1) with 1 in Bm. rewrite Z.mul_1_l in Bm. fold k in Bm.
  assert (Bz : Z.abs z < 10 ^ Z.of_nat (length I)). { apply dread_bound. unfold dread. now rewrite (HD z eq_refl). }
  assert (Pk : 0 < 10 ^ k) by (apply Z.pow_pos_nonneg; lia).
  set (m' := if neg then - m else m).
  assert (Cr : Qnum q * 10 ^ k = (z * 10 ^ k + m') * QDen q).
  { apply qcross; auto. rewrite Qmake_Qdiv, Z2Pos.id by lia. unfold q, fr, m'. rewrite inject_Z_plus, inject_Z_mult.
    destruct neg; rewrite ?inject_Z_opp; field; apply INJ0; lia. }
  destruct (red_small q _ _ Pk Cr) as [Rd Rn].
  assert (Ne : e <> - 2 ^ 31) by congruence. pose proof (no_us_len f). rewrite Rscale; [reflexivity | lia | |].
  - apply len10 with (Z.of_nat (length I) + k + 1); [| unfold k; lia]. split; [lia |]. eapply Z.le_trans; [exact Rn |].
    rewrite !Z.pow_add_r by lia. set (A := 10 ^ Z.of_nat (length I)) in *. set (K := 10 ^ k) in *. change (10 ^ 1) with 10.
    assert (Z.abs (z * K + m') <= Z.abs z * K + m). { unfold m'. destruct neg; nia. } nia.
  - apply len10 with k; unfold k in *; lia.
Qed.

Lemma cut_dot_sfind s : match sfind (fun c => c =? 46) s with
  | None => cut is_dot s = None /\ (forall c, In c s -> c <> 46)
  | Some i => exists a b, s = a ++ 46 :: b /\ i = length a /\ (forall x, In x a -> x <> 46) /\ cut is_dot s = Some (a, b) end.
Proof.
  pose proof (sfind_cut is_dot s) as H. unfold is_dot at 1 in H. destruct (sfind (fun c => c =? 46) s) as [i |].
  - destruct H as (a & c & b & -> & -> & Hc & Ha & E). apply Z.eqb_eq in Hc. subst c. exists a, b. repeat split; auto.
    intros x Hx. apply Ha in Hx. unfold is_dot in Hx. lia.
  - destruct H as [E H]. split; auto. intros c Hc. apply H in Hc. unfold is_dot in Hc. lia.
Qed.
Lemma cut_e_sfind s : match sfind (fun c => ascii_lower c =? 101) s with
  | None => cut is_e s = None /\ (forall c, In c s -> is_e c = false)
  | Some i => exists a c b, s = a ++ c :: b /\ i = length a /\ is_e c = true /\ (forall x, In x a -> is_e x = false) /\ cut is_e s = Some (a, b) end.
Proof. rewrite (sfind_ext _ is_e) by apply lower_e. apply sfind_cut. Qed.
Lemma cut_none p s : (forall c, In c s -> p c = false) -> cut p s = None.
Proof. intros H. pose proof (sfind_cut p s) as K. destruct (sfind p s); [| apply K]. destruct K as (a & c & b & -> & _ & Hc & _). rewrite H in Hc; [discriminate |]. apply in_elt. Qed.
Lemma dread_foreign i c : In c i -> dec_char c = false -> dread i = None.
Proof.
  intros H E. unfold dread. destruct (forallb dec_char i) eqn:F; auto. rewrite forallb_forall in F. rewrite (F c H) in E. discriminate.
Qed.
Lemma dec_value_int i f x c : In c i -> dec_char c = false -> dec_value i f x = None.
Proof. intros H E. unfold dec_value. now rewrite (dread_foreign i c). Qed.
Lemma dec_value_frac i f x c : In c f -> c <> 95 -> bdig 10 c = None -> dec_value i f x = None.
Proof. intros H N E. unfold dec_value. rewrite (dvalue_foreign 10 c) by (auto using in_no_us). now destruct (dread i). Qed.
Lemma skip_no_e x : nd_skip x = true -> is_e x = false.
Proof. unfold nd_skip, is_e. lia. Qed.
Lemma foreign_char c : nd_skip c = false -> bdig 10 c = None -> c <> 95 -> dec_char c = false.
Proof.
  intros H1 H2 H3. destruct (dec_char c) eqn:E; auto. destruct (dec_bdig c) as [d Ed]; auto; [unfold nd_skip in H1; lia |]. congruence.
Qed.
Lemma head_app (I : list Z) w : I <> [] -> match I ++ w with c :: _ => c =? 45 | [] => false end = match I with c :: _ => c =? 45 | [] => false end.
Proof. now destruct I. Qed.
Lemma firstn_len {A} (a b : list A) : firstn (length a) (a ++ b) = a.
Proof. rewrite firstn_app, firstn_all, Nat.sub_diag, firstn_O. apply app_nil_r. Qed.
Lemma skipn_len {A} (a : list A) c b : skipn (length a + 1) (a ++ c :: b) = b.
Proof. rewrite skipn_app, skipn_all2 by lia. replace (length a + 1 - length a)%nat with 1%nat by lia. reflexivity. Qed.

Theorem Rfrom_string s : Z.of_nat (length s) < 2 ^ 32 -> early_us s = false ->
  (forall a b, cut is_e s = Some (a, b) -> bread b <> Some (- 2 ^ 31)) -> decided (rfrom_string s) (rread s).
Proof.
  intros HL HU HM. destruct s as [| c0 s0] eqn:Es; [cbn; eauto |]. rewrite <- Es in *.
  assert (R : rfrom_string s = 
      let dot_index := sfind (fun c => c =? 46) s in
      let find_e := sfind (fun c => ascii_lower c =? 101) s in
      let e_index := match non_decimal s with Some c => if negb (ascii_lower c =? 120) then find_e else None | None => find_e end in
      match dot_index, e_index with
      | None, None => rbind (bfrom_string s) (fun n => Ok (ROk (rfrom_bi n)))
      | _, _ =>
          match match non_decimal s with Some c => if negb (ascii_lower c =? 101) then Some c else None | None => None end with
          | Some c => Ok (RErr (InvalidChar c))
          | None =>
              rbind (bfrom_string (firstn (match dot_index, e_index with Some i, _ => i | None, Some i => i | None, None => 0%nat end) s)) (fun ip =>
              rbind (match dot_index with
                     | None => Ok (ROk rzero)
                     | Some i =>
                         let fend := match e_index with Some ii => ii | None => length s end in
                         if (i + 1 <=? fend)%nat then
                           rbind (frac_loop (skipn (i + 1) (firstn fend s)) bone bzero) (fun '(denom, numer) =>
                           let* r := from_dn denom numer in Ok (ROk r))
                         else Ok (RErr UnexpectedEnd)
                     end) (fun fp =>
              rbind (match e_index with
                     | None => Ok (ROk 0)
                     | Some i => rbind (bfrom_string (skipn (i + 1) s)) (fun n => Ok (bto_i32 n))
                     end) (fun ex =>
              let fp := if match s with c :: _ => c =? 45 | [] => false end then ropp_mut fp else fp in
              let* result := radd_mut (rfrom_bi ip) fp in
              let* r := scale10 result ex in
              Ok (ROk r))))
          end
      end) by (rewrite Es; reflexivity).
  rewrite R. clear R. cbv zeta. unfold rread. clear Es c0 s0.
  pose proof (cut_dot_sfind s) as KD. pose proof (cut_e_sfind s) as KE.
  assert (PX : forall p b, prefix_base p = Some b -> (ascii_lower p =? 101) = false /\ (b = 16 -> (ascii_lower p =? 120) = true)).
  { intros p b Hp. rewrite prefix_lower in Hp. destruct (Z.eqb_spec (ascii_lower p) 120) as [-> | N1]; [split; auto |].
    destruct (Z.eqb_spec (ascii_lower p) 98) as [-> | N2]; [inversion Hp; split; [auto | lia] |].
    destruct (Z.eqb_spec (ascii_lower p) 111) as [-> | N3]; [inversion Hp; split; [auto | lia] |]. discriminate. }
  assert (N95 : forall c, non_decimal s = Some c -> c <> 95).
  { intros c Hc ->. assert (early_us s = true) by (now apply early_nd). congruence. }
  assert (NEXP : forall X, match bread X with Some e => rbind (bfrom_string X) (fun n => Ok (bto_i32 n)) = Ok (bto_i32 (bof e)) | None => exists e, rbind (bfrom_string X) (fun n => Ok (bto_i32 n)) = Ok (RErr e) end).
  { intros X. pose proof (Bfrom_string X) as H. destruct (bread X); [rewrite H; reflexivity |]. destruct H as (e & ->). cbn. eauto. }
  assert (NFR : forall f, match dvalue 10 0 (no_us f) with Some m => rbind (frac_loop f bone bzero) (fun '(denom, numer) => let* r := from_dn denom numer in Ok (ROk r)) = Ok (ROk (rof (inject_Z m / inject_Z (10 ^ Z.of_nat (length (no_us f))))))
     | None => exists e, rbind (frac_loop f bone bzero) (fun '(denom, numer) => let* r := from_dn denom numer in Ok (ROk r)) = Ok (RErr e) end).
  { intros f. rewrite Bone, Bzero. pose proof (Rfrac_loop f 1 0) as H. destruct (dvalue 10 0 (no_us f)) as [m |].
    - rewrite H. cbn [rbind bind]. rewrite Z.mul_1_l. rewrite from_dn_ok; [reflexivity |]. pose proof (Z.pow_pos_nonneg 10 (Z.of_nat (length (no_us f))) ltac:(lia) ltac:(lia)). lia.
    - destruct H as (e & ->). cbn. eauto. }
  (* the integer part is decimal once no foreign character was seen *)
  assert (NI : forall I w, s = I ++ w -> match non_decimal s with Some c => if negb (ascii_lower c =? 101) then Some c else None | None => None end = None ->
    forall z, bread I = Some z -> forallb dec_char I = true).
  { intros I w E1 E2 z Hz. destruct (bread_shape I z Hz) as [| (p & b & K1 & K2 & _)]; auto; [apply early_us_app with w; now rewrite <- E1 |].
    exfalso. pose proof (nd_app I w p K1) as K3. rewrite <- E1 in K3. rewrite K3 in E2. destruct (PX _ _ K2) as [Y _]. rewrite Y in E2. discriminate. }
  destruct (sfind (fun c => c =? 46) s) as [di |] eqn:ED.
  - destruct KD as (I & t & E1 & -> & HI & ->). cbv iota.
    set (ei := match non_decimal s with Some c => if negb (ascii_lower c =? 120) then sfind (fun c => ascii_lower c =? 101) s else None | None => sfind (fun c => ascii_lower c =? 101) s end).
    destruct (match non_decimal s with Some c => if negb (ascii_lower c =? 101) then Some c else None | None => None end) as [c |] eqn:EB.
    + (* a foreign character *)
      destruct (non_decimal s) as [c' |] eqn:En; [| discriminate]. destruct (ascii_lower c' =? 101) eqn:Ec; [discriminate |]. inversion EB; subst c'. clear EB.
      rewrite lower_e in Ec. specialize (N95 c eq_refl). destruct (nd_some s c En) as (a & b & Ea & Ha & Hc1 & Hc2).
      assert (Nc : c <> 46) by (intros ->; discriminate).
      enough (Z : match cut is_e t with Some (f, x) => dec_value I f x | None => dec_value I t [48] end = None).
      { rewrite Z. cbn [decided]. destruct ei; eauto. }
      rewrite E1 in Ea. destruct (app_cross c 46 I t a b Ea Nc) as [Hin | (t1 & -> & ->)].
      * assert (D := foreign_char c Hc1 Hc2 N95). destruct (cut is_e t) as [[f x] |]; now apply (dec_value_int _ _ _ c).
      * assert (Ht1 : forall y, In y t1 -> is_e y = false). { intros y Hy. apply skip_no_e, Ha. apply in_or_app. right. now right. }
        pose proof (sfind_cut is_e (t1 ++ c :: b)) as K. destruct (sfind is_e (t1 ++ c :: b)).
        -- destruct K as (f & e & x & Ef & _ & He & _ & ->). assert (Nce : c <> e) by (intros ->; congruence).
           symmetry in Ef. destruct (app_cross c e f x t1 b Ef Nce) as [Hin | (t2 & _ & ->)]; [now apply (dec_value_frac _ _ _ c) |].
           exfalso. rewrite (Ht1 e) in He; [discriminate |]. apply in_elt.
        -- destruct K as [-> _]. apply (dec_value_frac _ _ _ c); auto. apply in_elt.
    + assert (Eei : ei = sfind (fun c => ascii_lower c =? 101) s).
      { unfold ei. destruct (non_decimal s) as [c |]; auto. destruct (Z.eqb_spec (ascii_lower c) 101) as [-> |]; [reflexivity | discriminate]. }
      rewrite Eei. clear ei Eei. specialize (NI I (46 :: t) E1 eq_refl).
      assert (HNe : I <> [] -> (match s with c :: _ => c =? 45 | [] => false end) = match I with c :: _ => c =? 45 | [] => false end) by (intros; rewrite E1; now apply head_app).
      assert (LEN : Z.of_nat (length I) + Z.of_nat (length t) < 2 ^ 33). { rewrite E1, app_length in HL. cbn [length] in HL. lia. }
      assert (FI : firstn (length I) s = I) by (rewrite E1; apply firstn_len). rewrite FI.
      assert (IE : forall z, bread I = Some z -> forall x, In x I -> is_e x = false).
      { intros z Hz x Hx. pose proof (NI z Hz) as Q. rewrite forallb_forall in Q. apply Q in Hx. unfold dec_char in Hx. unfold is_e. lia. }
      destruct (sfind (fun c => ascii_lower c =? 101) s) as [i |].
      * destruct KE as (a & e & b & E2 & -> & He & Ha & Hcut). assert (NE : e <> 46) by (intros ->; discriminate).
        rewrite E1 in E2. destruct (app_cross e 46 I t a b E2 NE) as [Hin | (t1 & -> & ->)].
        { (* the e stands before the dot *)
          assert (HN : bread I = None). { destruct (bread I) as [z |] eqn:Ez; auto. rewrite (IE z eq_refl e Hin) in He. discriminate. }
          assert (HD : dec_value I = fun _ _ => None). { unfold dec_value, dread. rewrite HN. now destruct (forallb dec_char I). }
          rewrite HD. pose proof (Bfrom_string I) as K. rewrite HN in K. destruct K as (x & ->). cbn [rbind bind]. destruct (cut is_e t) as [[? ?] |]; cbn [decided]; eauto. }
        assert (Ct : cut is_e (t1 ++ e :: b) = Some (t1, b)). { apply cut_app; auto. intros x Hx. apply Ha. apply in_or_app. right. now right. }
        rewrite Ct. apply tail_ok; auto.
        -- intros z Hz. replace (length I + 1 <=? length (I ++ 46%Z :: t1))%nat with true by (symmetry; apply Nat.leb_le; rewrite app_length; cbn [length]; lia).
           assert (FF : firstn (length (I ++ 46 :: t1)) s = I ++ 46 :: t1). { rewrite E1. change (46 :: t1 ++ e :: b) with ((46 :: t1) ++ e :: b). rewrite app_assoc. apply firstn_len. }
           rewrite FF, skipn_len. apply NFR.
        -- assert (FS : skipn (length (I ++ 46 :: t1) + 1) s = b). { rewrite E1. change (46 :: t1 ++ e :: b) with ((46 :: t1) ++ e :: b). rewrite app_assoc. apply skipn_len. }
           rewrite FS. apply NEXP.
        -- apply (HM (I ++ 46 :: t1) b). exact Hcut.
        -- rewrite app_length in LEN. lia.
      * destruct KE as [KE1 KE2]. assert (Ct : cut is_e t = None). { apply cut_none. intros x Hx. apply KE2. rewrite E1. apply in_or_app. right. now right. }
        rewrite Ct. apply tail_ok; auto.
        -- intros z Hz. replace (length I + 1 <=? length s)%nat with true by (symmetry; apply Nat.leb_le; rewrite E1, app_length; cbn [length]; lia).
           rewrite firstn_all. rewrite E1, skipn_len. apply NFR.
        -- reflexivity.
        -- discriminate.
  - destruct KD as [KD1 KD2]. rewrite KD1.
    assert (BE : forall z, bread s = Some z -> (exists e, In e s /\ is_e e = true) -> exists p, non_decimal s = Some p /\ ascii_lower p = 120).
    { intros z Hz (e & Hin & He). destruct (bread_shape s z Hz HU) as [Q | (p & b & K1 & K2 & K3)].
      - rewrite forallb_forall in Q. apply Q in Hin. unfold dec_char in Hin. unfold is_e in He. lia.
      - exists p. split; auto. destruct K3 as [-> | K3]; [apply Z.eqb_eq; now apply (PX p 16) |]. rewrite (K3 e Hin) in He. discriminate. }
    assert (DIR : (bread s = None -> match cut is_e s with Some (i, x) => dec_value i [] x | None => None end = None) ->
       decided (rbind (bfrom_string s) (fun n => Ok (ROk (rfrom_bi n)))) (match bread s with Some z => Some (inject_Z z) | None => match cut is_e s with Some (i, x) => dec_value i [] x | None => None end end)).
    { intros HN. pose proof (Bfrom_string s) as K. destruct (bread s) as [z |].
      - rewrite K. cbn [rbind bind decided]. now rewrite Rfrom_bi.
      - destruct K as (e & ->). rewrite HN by auto. cbn. eauto. }
    destruct (sfind (fun c => ascii_lower c =? 101) s) as [i |].
    2:{ destruct KE as [KE1 _]. rewrite KE1 in *. assert (Z0 : match non_decimal s with Some c => if negb (ascii_lower c =? 120) then @None nat else None | None => None end = None) by (destruct (non_decimal s) as [c |]; auto; now destruct (negb (ascii_lower c =? 120))). rewrite Z0.
        cbv iota. now apply DIR. }
    destruct KE as (I & e & X & E1 & -> & He & Ha & Hcut). rewrite Hcut in *.
    destruct (non_decimal s) as [c |] eqn:En.
    + destruct (Z.eqb_spec (ascii_lower c) 120) as [Ex | Nx]; cbn [negb].
      { apply DIR. intros _. destruct (nd_some s c En) as (a & b & Ea & Ha' & Hc1 & Hc2).
        assert (Nce : c <> e). { intros <-. rewrite <- lower_e, Ex in He. discriminate. }
        rewrite E1 in Ea. destruct (app_cross c e I X a b Ea Nce) as [Hin | (t1 & -> & ->)].
        - apply (dec_value_int _ _ _ c); auto. apply foreign_char; auto.
        - exfalso. rewrite (skip_no_e e) in He; [discriminate |]. apply Ha', in_elt. }
      assert (BN : bread s = None). { destruct (bread s) as [z |] eqn:Ez; auto. destruct (BE z eq_refl) as (p & Hp1 & Hp2); [exists e; split; auto; rewrite E1; apply in_elt |]. inversion Hp1; subst. contradiction. }
      rewrite BN. destruct (ascii_lower c =? 101) eqn:Ec; cbn [negb] in *.
      * rewrite E1 at 1. rewrite firstn_len. apply tail_ok.
        -- intros. cbn [no_us filter dvalue]. rewrite Rzero. do 2 f_equal. 
        -- rewrite E1, skipn_len. apply NEXP.
        -- intros z Hz. apply (NI I (e :: X) E1 eq_refl z Hz).
        -- intros. rewrite E1. now apply head_app.
        -- now apply (HM I X).
        -- rewrite E1, app_length in HL. cbn [length] in *. lia.
      * destruct (nd_some s c En) as (a & b & Ea & Ha' & Hc1 & Hc2). 
        assert (Nce : c <> e). { intros <-. rewrite <- lower_e, Ec in He. discriminate. }
        enough (Z : dec_value I [] X = None) by (rewrite Z; cbn [decided]; eauto).
        rewrite E1 in Ea. destruct (app_cross c e I X a b Ea Nce) as [Hin | (t1 & -> & ->)].
        -- apply (dec_value_int _ _ _ c); auto. apply foreign_char; auto.
        -- exfalso. rewrite (skip_no_e e) in He; [discriminate |]. apply Ha', in_elt.
    + assert (BN : bread s = None). { destruct (bread s) as [z |] eqn:Ez; auto. destruct (BE z eq_refl) as (p & Hp1 & Hp2); [exists e; split; auto; rewrite E1; apply in_elt |]. discriminate. }
      rewrite BN. rewrite E1 at 1. rewrite firstn_len. apply tail_ok.
      * intros. cbn [no_us filter dvalue]. rewrite Rzero. do 2 f_equal.
      * rewrite E1, skipn_len. apply NEXP.
      * intros z Hz. apply (NI I (e :: X) E1 eq_refl z Hz).
      * intros. rewrite E1. now apply head_app.
      * now apply (HM I X).
      * rewrite E1, app_length in HL. cbn [length] in *. lia.
Qed.
