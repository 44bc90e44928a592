(** Property theorems for the text of a Ratio of any size: [to_approx_string], [to_string] and [Display] always return, also beyond 10^9990. *)
From Coq Require Import Qpower.
From Coq Require Lqa.
From Verif Require Import Base USpec SSpec UFacts UBig UFun UStr UStrP UEq BBig BSpec BEq RBig RSpec REq RStr RStrP XFun RFmt RFmtP RFmtT RFmtQ RFmtR RFmtS RFmtU RFmtV Props_R6.
Local Open Scope Z_scope.

(** ** C85 very large and very small numbers: sign, a mantissa from 1 to 10 with at most three decimal places, the letter e, an exponent;
    the text stays within a factor of 20 of the number. *)
Theorem C85_far : forall r max_len, printable r -> ~ (rval r == 0)%Q ->
  (Qabs (rval r) <= 2 * inject_Z 10 ^ (- 9993))%Q \/ (inject_Z 10 ^ 9993 <= 2 * Qabs (rval r))%Q ->
  exists m ex e q, rto_approx_string r max_len = Ok ((if qltb (rval r) 0 then [45] else []) ++ m ++ 101 :: ex) /\
    rread m = Some q /\ (1 <= q <= 10)%Q /\ (exists D, (q == inject_Z D / inject_Z 1000)%Q) /\ snumeral 10 [] e ex /\
    (q * inject_Z 10 ^ e <= 20 * Qabs (rval r))%Q /\ (Qabs (rval r) <= 20 * (q * inject_Z 10 ^ e))%Q.
Proof.
  intros r max_len P Hx R. destruct (printable_small r P) as [E S].
  destruct (approx_far (rval r) max_len Hx S) as [(_ & N1 & N2) | F].
  - exfalso. destruct R as [R | R]; [apply (Qlt_not_le _ _ N1 R) | apply (Qlt_not_le _ _ N2 R)].
  - rewrite <- E in F. destruct F as (m & ex & e & q & F1 & F2 & _ & F3 & (D & _ & _ & _ & F4 & _) & F5). exists m, ex, e, q. split; [exact F1 |]. split; [exact F2 |]. split; [exact F3 |]. split; [exists D; exact F4 | exact F5].
Qed.

(** every number has a text: it begins with a minus exactly for negative numbers, then a digit *)
Theorem C85_total : forall r max_len, printable r -> Z.of_nat max_len < 2 ^ 63 ->
  exists d u, rto_approx_string r max_len = Ok ((if qltb (rval r) 0 then [45] else []) ++ d :: u) /\ 48 <= d <= 57.
Proof.
  intros r max_len P HL. destruct (printable_small r P) as [E S]. destruct (qeqb_qeq (rval r) 0) as [Z0 | Hx].
  - assert (T : rto_approx_string r max_len = Ok [48]) by (rewrite E, (rof_qeq _ _ Z0); now apply approx_zero). exists 48, []. rewrite T. split; [| lia]. destruct (qltb (rval r) 0) eqn:L; [| reflexivity]. apply qltb_lt in L. rewrite Z0 in L. discriminate.
  - destruct (approx_far (rval r) max_len Hx S) as [(N & _) | (m & ex & e & q & T & _ & (c & u & -> & Hc) & _)].
    + destruct (approx_mid (rval r) max_len Hx S HL N) as (t & q & j & T1 & _ & _ & [_ (d & u & -> & D)] & _). rewrite <- E in T1. exists d, u. auto.
    + rewrite <- E in T. exists c, (u ++ 101 :: ex). split; [exact T | exact Hc].
Qed.
Theorem C85_to_string : forall r, printable r -> exists d u, rto_string r = Ok ((if qltb (rval r) 0 then [45] else []) ++ d :: u) /\ 48 <= d <= 57.
Proof. intros r P. apply (C85_total r 12 P). reflexivity. Qed.

(** 10^10000 and its inverse are printable and far *)
Lemma ten_len k : (1 <= k)%nat -> Z.of_nat (length (uof (10 ^ (8 * Z.of_nat k)))) <= Z.of_nat k.
Proof.
  intros Hk. apply Nat2Z.inj_le. apply nlimbs_iff; auto; [apply Z.pow_nonneg; lia |]. rewrite BB_pow2. replace (32 * Z.of_nat k) with (4 * (8 * Z.of_nat k)) by lia.
  rewrite (Z.pow_mul_r 2 4) by lia. apply Z.pow_lt_mono_l; [lia |]. split; [lia | reflexivity].
Qed.
Lemma ten_facts n m k : n = 8 * Z.of_nat k -> (1 <= k)%nat -> 0 <= m <= n -> 0 < 10 ^ n /\ (inject_Z 10 ^ m <= inject_Z (10 ^ n))%Q /\ Z.of_nat (length (uof (10 ^ n))) <= Z.of_nat k.
Proof.
  intros En Hk Hm. split; [apply Z.pow_pos_nonneg; lia |]. split; [rewrite qpow_Z by lia; rewrite <- Zle_Qle; apply Z.pow_le_mono_r; lia |]. rewrite En. now apply ten_len.
Qed.
Lemma far_met z k p : 0 < z -> (p <= inject_Z z)%Q -> Z.of_nat (length (uof z)) <= Z.of_nat k -> Z.of_nat k < 2 ^ 27 ->
  let r := rof (inject_Z z) in printable r /\ ~ (rval r == 0)%Q /\ (p <= 2 * Qabs (rval r))%Q.
Proof.
  intros Z0 H L Hk.
  assert (EQ : mkR (bof 1) (bof z) = rof (inject_Z z)). { apply rof_eq; [lia | apply Z.gcd_1_r | cbn [inject_Z Qnum Qden]; lia]. }
  cbv zeta. split; [| rewrite rof_val; split].
  - split; [apply rof_wf |]. rewrite <- EQ. cbn [rnum rden]. rewrite !Bmag. rewrite (Z.abs_eq z) by lia. split; [lia | reflexivity].
  - intros C. unfold Qeq, inject_Z in C. cbn [Qnum Qden] in C. lia.
  - assert (A : (Qabs (inject_Z z) == inject_Z z)%Q). { apply Qabs_pos. unfold Qle, inject_Z. cbn [Qnum Qden]. lia. }
    rewrite A. assert (P : (0 < inject_Z z)%Q) by (unfold Qlt, inject_Z; cbn [Qnum Qden]; lia). revert H P. generalize (inject_Z z). intros; Lqa.lra.
Qed.
Example C85_hypotheses_met : let r := rof (inject_Z (10 ^ 10000)) in printable r /\ ~ (rval r == 0)%Q /\ (inject_Z 10 ^ 9993 <= 2 * Qabs (rval r))%Q.
Proof.
  assert (C : 10000 = 8 * Z.of_nat (Z.to_nat 1250) /\ (1 <= Z.to_nat 1250)%nat /\ 0 <= 9993 <= 10000 /\ Z.of_nat (Z.to_nat 1250) < 2 ^ 27) by lia.
  destruct C as (C1 & C2 & C3 & C4). destruct (ten_facts 10000 9993 (Z.to_nat 1250) C1 C2 C3) as (F1 & F2 & F3).
  exact (far_met (10 ^ 10000) (Z.to_nat 1250) _ F1 F2 F3 C4).
Qed.

Print Assumptions C85_far.
Print Assumptions C85_total.
Print Assumptions C85_to_string.
Print Assumptions C85_hypotheses_met.
