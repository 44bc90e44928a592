(** Approximate texts of rationals: the estimate of the decimal exponent. *)
From Coq Require Import Zquot Qpower.
From Verif Require Import Base USpec SSpec UFacts UBig UFun UStr UStrP UEq UPow USci ULog Props_U2 BBig BSpec BEq Props_B RBig RSpec REq RShrink RStr RStrP RIeee RIter RIterL XFun RFmt.
Local Open Scope Z_scope.

(** ** the decimal exponent *)
Lemma bern m k : 0 <= k <= m -> 0 < m -> (m + 1) ^ k * (m + 1 - k) <= m ^ k * (m + 1).
Proof.
  intros Hk Hm. destruct Hk as [Hk Hkm]. revert Hkm. pattern k. apply natlike_ind; [| | exact Hk].
  - rewrite !Z.pow_0_r. lia.
  - intros i Hi IH H. rewrite !Z.pow_succ_r by lia. specialize (IH ltac:(lia)).
    assert (0 < (m + 1) ^ i) by (apply Z.pow_pos_nonneg; lia). assert (0 < m ^ i) by (apply Z.pow_pos_nonneg; lia).
    replace (m + 1 - Z.succ i) with (m - i) by lia.
    assert ((m + 1) * (m - i) <= m * (m + 1 - i)) by nia.
    apply Z.le_trans with ((m + 1) ^ i * (m * (m + 1 - i))); nia.
Qed.
(** enclosures of powers of five by repeated squaring with 80 bit bounds *)
Definition enc (x : Z) (l h e : Z) : Prop := 0 <= e /\ 0 <= l /\ l * 2 ^ e <= x <= h * 2 ^ e.
Definition enc_step (c l h e : Z) : Z * Z * Z :=
  let l := c * (l * l) in let h := c * (h * h) in
  let s := Z.max 0 (Z.log2 l - 80) in (l / 2 ^ s, - (- h / 2 ^ s), 2 * e + s).
Lemma enc_step_ok c x l h e : 0 <= c -> 0 <= x -> enc x l h e ->
  let '(l', h', e') := enc_step c l h e in enc (c * (x * x)) l' h' e'.
Proof.
  intros Hc Hx (He & Hl & H1 & H2). unfold enc_step, enc.
  set (L := c * (l * l)). set (H := c * (h * h)). assert (Hs : 0 <= Z.max 0 (Z.log2 L - 80)) by apply Z.le_max_l. set (s := Z.max 0 (Z.log2 L - 80)) in *.
  assert (P : 0 < 2 ^ s) by (apply Z.pow_pos_nonneg; lia). assert (Pe : 0 < 2 ^ e) by (apply Z.pow_pos_nonneg; lia).
  assert (HL : 0 <= L) by (unfold L; nia).
  rewrite Z.pow_add_r, (Z.mul_comm 2 e), Z.pow_mul_r, Z.pow_2_r by lia.
  pose proof (Z.div_mod L (2 ^ s) ltac:(lia)) as D1. pose proof (Z.mod_pos_bound L (2 ^ s) P) as B1.
  pose proof (Z.div_mod (- H) (2 ^ s) ltac:(lia)) as D2. pose proof (Z.mod_pos_bound (- H) (2 ^ s) P) as B2.
  assert (X1 : c * ((l * 2 ^ e) * (l * 2 ^ e)) <= c * (x * x)).
  { apply Z.mul_le_mono_nonneg_l; auto. apply Z.mul_le_mono_nonneg; nia. }
  assert (X2 : c * (x * x) <= c * ((h * 2 ^ e) * (h * 2 ^ e))).
  { apply Z.mul_le_mono_nonneg_l; auto. apply Z.mul_le_mono_nonneg; nia. }
  replace (c * ((l * 2 ^ e) * (l * 2 ^ e))) with (L * (2 ^ e * 2 ^ e)) in X1 by (unfold L; ring).
  replace (c * ((h * 2 ^ e) * (h * 2 ^ e))) with (H * (2 ^ e * 2 ^ e)) in X2 by (unfold H; ring).
  assert (0 < 2 ^ e * 2 ^ e) by nia. set (E := 2 ^ e * 2 ^ e) in *. set (S := 2 ^ s) in *.
  splits; [lia | apply Z.div_pos; lia | |].
  - eapply Z.le_trans; [| exact X1]. replace (L / S * (E * S)) with (S * (L / S) * E) by ring. apply Z.mul_le_mono_nonneg_r; lia.
  - eapply Z.le_trans; [exact X2 |]. replace (- (- H / S) * (E * S)) with (- (S * (- H / S)) * E) by ring. apply Z.mul_le_mono_nonneg_r; lia.
Qed.
Fixpoint enc_pos (n : positive) : Z * Z * Z :=
  match n with
  | xH => (5, 5, 0)
  | xO p => let '(l, h, e) := enc_pos p in enc_step 1 l h e
  | xI p => let '(l, h, e) := enc_pos p in enc_step 5 l h e
  end.
Lemma enc_pos_ok n : let '(l, h, e) := enc_pos n in enc (5 ^ Zpos n) l h e.
Proof.
  induction n as [p IH | p IH |]; cbn [enc_pos].
  - destruct (enc_pos p) as [[l h] e]. apply (enc_step_ok 5) in IH; [| lia | apply Z.pow_nonneg; lia].
    destruct (enc_step 5 l h e) as [[l' h'] e']. replace (5 ^ Zpos p~1) with (5 * (5 ^ Zpos p * 5 ^ Zpos p)); auto.
    replace (Zpos p~1) with (1 + (Zpos p + Zpos p)) by lia. rewrite !Z.pow_add_r, Z.pow_1_r by lia. reflexivity.
  - destruct (enc_pos p) as [[l h] e]. apply (enc_step_ok 1) in IH; [| lia | apply Z.pow_nonneg; lia].
    destruct (enc_step 1 l h e) as [[l' h'] e']. replace (5 ^ Zpos p~0) with (1 * (5 ^ Zpos p * 5 ^ Zpos p)); auto.
    replace (Zpos p~0) with (Zpos p + Zpos p) by lia. rewrite Z.pow_add_r, Z.mul_1_l by lia. reflexivity.
  - unfold enc. rewrite Z.pow_0_r, Z.pow_1_r. lia.
Qed.
Lemma gap_base : 10 ^ 21306 <= 2 ^ 70777 /\ 2 ^ 70777 * 131072 <= 10 ^ 21306 * 131073.
Proof.
  pose proof (enc_pos_ok 21306) as E.
  assert (Q : enc_pos 21306 = (2417834327203133129656710, 2417834327203133129658193, 49390)) by (vm_compute; reflexivity).
  rewrite Q in E. revert E.
  intros (_ & _ & E1 & E2).
  assert (T : 10 ^ 21306 = 2 ^ 21306 * 5 ^ 21306) by (rewrite <- Z.pow_mul_l; reflexivity).
  assert (T2 : 2 ^ 70777 = 2 ^ 21306 * (2 ^ 49390 * 2 ^ 81)) by (rewrite <- !Z.pow_add_r by discriminate; reflexivity).
  rewrite T, T2. assert (P : 0 < 2 ^ 21306) by (apply Z.pow_pos_nonneg; [reflexivity | discriminate]).
  assert (P' : 0 < 2 ^ 49390) by (apply Z.pow_pos_nonneg; [reflexivity | discriminate]).
  revert E1 E2 P P'. clear. change (2 ^ 81) with 2417851639229258349412352.
  generalize (2 ^ 21306) (2 ^ 49390) (5 ^ 21306). intros u v w E1 E2 P P'.
  split; [apply Z.mul_le_mono_nonneg_l; lia |].
  rewrite <- !Z.mul_assoc. apply Z.mul_le_mono_nonneg_l; lia.
Qed.
(** everything about the two big powers that the estimate needs *)
Lemma gap : exists A T, 2 ^ 70777 = T /\ 10 ^ 21306 = A /\ 0 < A /\ A <= T /\ T * 131072 <= A * 131073.
Proof.
  destruct gap_base as [G1 G2]. exists (10 ^ 21306), (2 ^ 70777). splits; auto.
  apply Z.pow_pos_nonneg; [reflexivity | discriminate].
Qed.
Lemma gap_pow A T c k : 0 < A -> A <= T -> T * 131072 <= A * 131073 -> 0 <= c -> 0 <= k <= 65536 * c -> T ^ k <= 2 ^ c * A ^ k.
Proof.
  intros HA H1 H2 Hc Hk. remember 65536 as j eqn:Ej.
  assert (P : forall n, 0 <= n -> 0 < A ^ n) by (intros; apply Z.pow_pos_nonneg; lia).
  assert (PT : forall n, 0 <= n -> 0 < T ^ n) by (intros; apply Z.pow_pos_nonneg; lia).
  assert (S1 : T ^ j <= 2 * A ^ j).
  { remember 131072 as m eqn:Em. assert (B0 := bern m j ltac:(lia) ltac:(lia)).
    assert (E : (T * m) ^ j <= (A * (m + 1)) ^ j) by (apply Z.pow_le_mono_l; lia).
    rewrite !Z.pow_mul_l in E. specialize (P j ltac:(lia)). specialize (PT j ltac:(lia)).
    assert (Q : 0 < m ^ j) by (apply Z.pow_pos_nonneg; lia).
    revert E B0 Q P PT. generalize (m ^ j) ((m + 1) ^ j) (T ^ j) (A ^ j). intros q r t a E B0 Q P PT.
    subst m j. assert (r <= 2 * q) by lia. assert (t * q <= a * (2 * q)) by nia. nia. }
  set (J := j * c) in *.
  assert (S2 : T ^ J <= 2 ^ c * A ^ J).
  { unfold J. rewrite !Z.pow_mul_r by lia. rewrite <- Z.pow_mul_l. apply Z.pow_le_mono_l.
    split; [apply Z.pow_nonneg; lia | exact S1]. }
  clear S1.
  assert (E1 : T ^ J = T ^ k * T ^ (J - k)) by (rewrite <- Z.pow_add_r by lia; f_equal; lia).
  assert (E2 : A ^ J = A ^ k * A ^ (J - k)) by (rewrite <- Z.pow_add_r by lia; f_equal; lia).
  assert (E3 : A ^ (J - k) <= T ^ (J - k)) by (apply Z.pow_le_mono_l; lia).
  rewrite E1, E2 in S2. pose proof (P (J - k) ltac:(lia)) as P1. pose proof (PT k ltac:(lia)) as P2.
  revert S2 E3 P1 P2. generalize (A ^ (J - k)) (T ^ (J - k)) (2 ^ c) (T ^ k) (A ^ k). clear. intros. nia.
Qed.

Section Est.
Variables (n d W N M c a rn rd : Z).
Hypothesis Hn : 1 <= n.
Hypothesis Hd : 1 <= d.
Hypothesis HW : 2 <= W.
Hypothesis Hc : 0 <= c.
Hypothesis HN : (c + 1) * W + 2 * N <= W * N.
Hypothesis HN0 : 1 <= N.
Hypothesis HM0 : 1 <= M.
Hypothesis HNM : N <= M.
Hypothesis Hrn : 0 <= rn.
Hypothesis Hrd : 0 <= rd <= rn.
Hypothesis N1 : 2 ^ rn <= n ^ W.
Hypothesis N2 : n ^ W < 2 ^ (rn + 2).
Hypothesis D1 : 2 ^ rd <= d ^ W.
Hypothesis D2 : d ^ W < 2 ^ (rd + 2).
Hypothesis G1 : 10 ^ N <= 2 ^ M.
Hypothesis G2 : forall k, 0 <= k <= 65536 * c -> (2 ^ M) ^ k <= 2 ^ c * (10 ^ N) ^ k.
Hypothesis Ha : 0 <= a < 65536 * c.
Hypothesis A1 : a * M * W <= (rn - rd) * N.
Hypothesis A2 : (rn - rd) * N < (a + 1) * M * W.
Ltac nn := repeat apply Z.mul_nonneg_nonneg; lia.
Let P2 k : 0 <= k -> 0 < 2 ^ k. Proof. intros; apply Z.pow_pos_nonneg; lia. Qed.
Let P10 k : 0 <= k -> 0 < 10 ^ k. Proof. intros; apply Z.pow_pos_nonneg; lia. Qed.
Let pmul x y k : (x * y) ^ k = x ^ k * y ^ k. Proof. apply Z.pow_mul_l. Qed.

Lemma est_lo : d * 10 ^ a <= 2 * n.
Proof.
  destruct (Z_le_gt_dec (d * 10 ^ a) (2 * n)) as [L | L]; auto. exfalso.
  assert (Q : (2 * n) ^ (W * N) <= (d * 10 ^ a) ^ (W * N)) by (apply Z.pow_le_mono_l; lia).
  rewrite !pmul in Q.
  assert (Q1 : 2 ^ (rn * N) <= n ^ (W * N)).
  { rewrite !Z.pow_mul_r by lia. apply Z.pow_le_mono_l. split; [apply Z.lt_le_incl, P2; lia | exact N1]. }
  assert (Q2 : d ^ (W * N) < 2 ^ ((rd + 2) * N)).
  { rewrite !Z.pow_mul_r by lia. apply Z.pow_lt_mono_l; [lia |]. split; [apply Z.pow_nonneg; lia | exact D2]. }
  assert (Q3 : (10 ^ a) ^ (W * N) <= 2 ^ ((rn - rd) * N)).
  { rewrite <- Z.pow_mul_r by nn. replace (a * (W * N)) with (N * (a * W)) by ring. rewrite Z.pow_mul_r by nn.
    apply Z.le_trans with ((2 ^ M) ^ (a * W)). { apply Z.pow_le_mono_l. split; [apply Z.lt_le_incl, P10; lia | exact G1]. }
    rewrite <- Z.pow_mul_r by nn. apply Z.pow_le_mono_r; [lia |]. replace (M * (a * W)) with (a * M * W) by ring. exact A1. }
  assert (Q4 : 2 ^ (W * N) * 2 ^ (rn * N) < 2 ^ ((rd + 2) * N) * 2 ^ ((rn - rd) * N)).
  { pose proof (P2 (W * N) ltac:(nn)) as U1. assert (U2 : 0 <= d ^ (W * N)) by (apply Z.pow_nonneg; lia).
    pose proof (P2 ((rn - rd) * N) ltac:(nn)) as U3. assert (U4 : 0 <= (10 ^ a) ^ (W * N)) by (apply Z.pow_nonneg; lia).
    revert Q Q1 Q2 Q3 U1 U2 U3 U4. generalize (2 ^ (W * N)) (2 ^ (rn * N)) (n ^ (W * N)) (d ^ (W * N)) ((10 ^ a) ^ (W * N)) (2 ^ ((rd + 2) * N)) (2 ^ ((rn - rd) * N)).
    clear. intros. nia. }
  rewrite <- !Z.pow_add_r in Q4 by nn. assert (Q5 : W * N + rn * N < (rd + 2) * N + (rn - rd) * N). { apply (Z.pow_lt_mono_r_iff 2); [lia | | exact Q4]. clear - Hrd HN0. nia. } assert (H0 : 0 <= c * W) by nn. clear - Q5 HN H0 HW. lia.
Qed.
Lemma est_hi : n < 2 * d * 10 ^ (a + 1).
Proof.
  destruct (Z_lt_le_dec n (2 * d * 10 ^ (a + 1))) as [L | L]; auto. exfalso.
  pose proof (P10 (a + 1) ltac:(lia)) as PA.
  assert (Q : (2 * d * 10 ^ (a + 1)) ^ (W * N) <= n ^ (W * N)) by (apply Z.pow_le_mono_l; split; [nn | exact L]).
  rewrite !pmul in Q.
  assert (Q1 : n ^ (W * N) < 2 ^ ((rn + 2) * N)).
  { rewrite !Z.pow_mul_r by lia. apply Z.pow_lt_mono_l; [lia |]. split; [apply Z.pow_nonneg; lia | exact N2]. }
  assert (Q2 : 2 ^ (rd * N) <= d ^ (W * N)).
  { rewrite !Z.pow_mul_r by lia. apply Z.pow_le_mono_l. split; [apply Z.lt_le_incl, P2; lia | exact D1]. }
  assert (Q3 : 2 ^ ((rn - rd) * N) <= 2 ^ (c * W) * (10 ^ (a + 1)) ^ (W * N)).
  { rewrite <- (Z.pow_mul_r 10) by nn. replace ((a + 1) * (W * N)) with (N * (a + 1) * W) by ring.
    rewrite (Z.pow_mul_r 10), (Z.pow_mul_r 10 N), (Z.pow_mul_r 2 c W), <- pmul by nn.
    apply Z.le_trans with (((2 ^ M) ^ (a + 1)) ^ W).
    - rewrite <- !Z.pow_mul_r by nn. apply Z.pow_le_mono_r; [lia |]. replace (M * (a + 1) * W) with ((a + 1) * M * W) by ring. lia.
    - apply Z.pow_le_mono_l. split; [apply Z.pow_nonneg; apply Z.pow_nonneg; lia |]. apply G2. lia. }
  assert (Q4 : 2 ^ (W * N) * 2 ^ (rd * N) * 2 ^ ((rn - rd) * N) < 2 ^ (c * W) * 2 ^ ((rn + 2) * N)).
  { pose proof (P2 (W * N) ltac:(nn)) as U1. pose proof (P2 (rd * N) ltac:(nn)) as U2. pose proof (P2 (c * W) ltac:(nn)) as U3.
    assert (0 <= (10 ^ (a + 1)) ^ (W * N)) by (apply Z.pow_nonneg; lia).
    revert Q Q1 Q2 Q3 U1 U2 U3 H. generalize (2 ^ (W * N)) (2 ^ (rd * N)) (2 ^ (c * W)) (d ^ (W * N)) (n ^ (W * N)) (2 ^ ((rn + 2) * N)) (2 ^ ((rn - rd) * N)) ((10 ^ (a + 1)) ^ (W * N)).
    clear. intros a b c e f g h i Q Q1 Q2 Q3 U1 U2 U3 U4.
    apply Z.le_lt_trans with (a * b * (c * i)); [apply Z.mul_le_mono_nonneg_l; nia |].
    apply Z.le_lt_trans with (c * (a * e * i)); [| nia].
    replace (a * b * (c * i)) with (b * (c * a * i)) by ring. replace (c * (a * e * i)) with (e * (c * a * i)) by ring.
    apply Z.mul_le_mono_nonneg_r; auto. repeat apply Z.mul_nonneg_nonneg; lia. }
  rewrite <- !Z.pow_add_r in Q4 by (repeat (apply Z.add_nonneg_nonneg); nn). assert (Q5 : W * N + rd * N + (rn - rd) * N < c * W + (rn + 2) * N). { apply (Z.pow_lt_mono_r_iff 2); [lia | | exact Q4]. clear - Hrd HN0 Hc HW. nia. } assert (H0 : 0 <= c * W) by nn. clear - Q5 HN H0 HW. lia.
Qed.
End Est.

(** the two numbers the printing functions start from *)
Lemma quot_quot l M W N : 0 < M -> 0 < W -> 0 <= N -> exists a, Z.quot (Z.quot (l * N) M) W = a /\
  (0 <= l -> 0 <= a /\ a * M * W <= l * N < (a + 1) * M * W) /\ (l < 0 -> a <= 0 /\ (- a) * M * W <= (- l) * N < (- a + 1) * M * W).
Proof.
  intros HM HW HN.
  assert (K : forall l, 0 <= l -> Z.quot (Z.quot (l * N) M) W = l * N / (M * W) /\ 0 <= l * N / (M * W) /\
     l * N / (M * W) * M * W <= l * N < (l * N / (M * W) + 1) * M * W).
  { intros x Hx. assert (0 <= x * N) by nia. assert (0 < M * W) by nia.
    rewrite (Z.quot_div_nonneg (x * N) M) by lia. assert (0 <= x * N / M) by (apply Z.div_pos; lia).
    rewrite Z.quot_div_nonneg, Z.div_div by lia. pose proof (Z.div_mod (x * N) (M * W) ltac:(lia)). pose proof (Z.mod_pos_bound (x * N) (M * W) ltac:(lia)).
    splits; auto; try (apply Z.div_pos; lia); nia. }
  eexists. split; [reflexivity |]. split; intros Hl.
  - destruct (K l Hl) as (-> & K1 & K2). split; assumption.
  - destruct (K (- l) ltac:(lia)) as (K0 & K1 & K2).
    replace (l * N) with (- (- l * N)) by ring. rewrite !Z.quot_opp_l by lia. rewrite K0, !Z.opp_involutive. split; [lia | exact K2].
Qed.

Lemma unwrap_i64 z : - 9223372036854775808 <= z < 9223372036854775808 -> unwrap (bto_i64 (bof z)) = Ok z.
Proof. intros H. rewrite Bto_i64. unfold in_s. change (2 ^ (64 - 1)) with 9223372036854775808. now destruct (Z.leb_spec (- (9223372036854775808)) z), (Z.ltb_spec z 9223372036854775808); try lia. Qed.
Lemma unwrap_i32 z : - 2147483648 <= z < 2147483648 -> unwrap (bto_i32 (bof z)) = Ok z.
Proof. intros H. rewrite Bto_i32. unfold in_s. change (2 ^ (32 - 1)) with 2147483648. now destruct (Z.leb_spec (- (2147483648)) z), (Z.ltb_spec z 2147483648); try lia. Qed.
Definition small_rat (x : Q) : Prop := Z.of_nat (length (uof (Z.abs (qn x)))) < 2 ^ 27 /\ Z.of_nat (length (uof (qd x))) < 2 ^ 27.

Lemma Blog2_acc_abs n W : W = 2 ^ 32 -> n <> 0 -> Z.of_nat (length (uof (Z.abs n))) < 2 ^ 27 ->
  exists r, blog2_accurate (bof n) = Ok (bof r) /\ 0 <= r < W * 2 ^ 32 /\ 2 ^ r <= Z.abs n ^ W /\ Z.abs n ^ W < 2 ^ (r + 2).
Proof.
  intros HW Hn HL. destruct (Blog2_acc (Z.abs n) W HW ltac:(lia) HL) as (r & E & R). exists r. split; auto.
  rewrite <- E. unfold blog2_accurate. rewrite !Bmag, Z.abs_involutive. reflexivity.
Qed.
Lemma est x : ~ (x == 0)%Q -> small_rat x -> exists l a, log2_diff (rof x) = Ok (bof l) /\ log10_i64 (bof l) = Ok a /\
  - 1310720000 < a < 1310720000 /\ Z.abs l < 2 ^ 64 /\
  let n := Z.abs (qn x) in let d := qd x in
  (0 <= l -> 0 <= a /\ d * 10 ^ a <= 2 * n /\ n < 2 * d * 10 ^ (a + 1)) /\
  (l < 0 -> a <= 0 /\ n * 10 ^ (- a) <= 2 * d /\ d < 2 * n * 10 ^ (- a + 1)).
Proof.
  intros Hx [Ln Ld]. assert (Nz : qn x <> 0).
  { intros C. apply Hx. pose proof (qn_zero x) as E. rewrite C, Z.eqb_refl in E. symmetry in E. apply Z.eqb_eq in E.
    unfold Qeq. rewrite E. cbn. lia. }
  pose proof (rof_den_pos x) as Dp. change (QDen (Qred x)) with (qd x) in Dp.
  remember (2 ^ 32) as W eqn:EW.
  destruct (Blog2_acc_abs (qn x) W EW Nz Ln) as (rn & E1 & R1 & R2 & R3).
  destruct (Blog2_acc_abs (qd x) W EW ltac:(lia)) as (rd & E2 & S1 & S2 & S3). { rewrite Z.abs_eq by lia. exact Ld. }
  rewrite (Z.abs_eq (qd x)) in S2, S3 by lia. rewrite <- EW in R1, S1.
  destruct (quot_quot (rn - rd) 70777 W 21306 ltac:(lia) ltac:(lia) ltac:(lia)) as (a & Ea & A1 & A2).
  assert (Ba : - 1310720000 < a < 1310720000).
  { assert (W = 4294967296) by (rewrite EW; reflexivity). destruct (Z_le_gt_dec 0 (rn - rd)) as [L | L].
    - destruct (A1 L). rewrite H in *. clear - H0 H1 R1 S1. lia.
    - destruct (A2 ltac:(lia)). rewrite H in *. clear - H0 H1 R1 S1. lia. }
  exists (rn - rd), a. unfold log2_diff, log10_i64. rewrite rnum_rof, rden_rof, E1. cbn [bind]. rewrite E2. cbn [bind]. rewrite Bsub.
  split; [reflexivity |]. rewrite Bmul_i32 by (unfold i32r; lia). cbn [bind]. rewrite Bdiv_i32 by (unfold i32r; lia). cbn [bind].
  rewrite Bshr. change (BB 1) with (2 ^ 32). rewrite <- EW, Ea, unwrap_i64 by lia.
  split; [reflexivity |]. split; [exact Ba |]. split. { change (2 ^ 64) with (4294967296 * 4294967296). assert (HH : W = 4294967296) by (rewrite EW; reflexivity). rewrite HH in *. clear - R1 S1. lia. }
  assert (NW : (20000 + 1) * W + 2 * 21306 <= W * 21306) by (rewrite EW; discriminate).
  assert (W2 : 2 <= W) by (rewrite EW; discriminate).
  destruct gap as (A & T & ET & EA & HA & G1 & G2).
  assert (HG2 : forall k, 0 <= k <= 65536 * 20000 -> (2 ^ 70777) ^ k <= 2 ^ 20000 * (10 ^ 21306) ^ k).
  { intros k Hk. rewrite ET, EA. apply gap_pow; auto. discriminate. }
  assert (HG1 : 10 ^ 21306 <= 2 ^ 70777) by (rewrite ET, EA; exact G1).
  clear E1 E2 ET EA G1 G2 HA A T Ln Ld EW.
  remember 21306 as N eqn:EN. remember 70777 as M eqn:EM. remember 20000 as c eqn:Ec.
  assert (N0 : 1 <= N /\ N <= M /\ 1 <= M /\ 0 <= c) by (rewrite EN, EM, Ec; repeat split; discriminate). assert (c5 : 65536 * c = 1310720000) by (rewrite Ec; reflexivity).
  clear EN EM Ec. destruct N0 as (N0 & NM & M0 & C0). cbn zeta. split; intros Hl.
  - destruct (A1 Hl) as (B0 & B1 & B2). split; [exact B0 |]. split.
    + apply (est_lo (Z.abs (qn x)) (qd x) W N M c a rn rd); first [assumption | clear - Nz Dp R1 S1 Hl Ba B0 c5 W2; lia].
    + apply (est_hi (Z.abs (qn x)) (qd x) W N M c a rn rd); first [assumption | clear - Nz Dp R1 S1 Hl Ba B0 c5 W2; lia].
  - destruct (A2 Hl) as (B0 & B1 & B2). replace (- (rn - rd)) with (rd - rn) in B1, B2 by ring. split; [exact B0 |]. split.
    + apply (est_lo (qd x) (Z.abs (qn x)) W N M c (- a) rd rn); first [assumption | clear - Nz Dp R1 S1 Hl Ba B0 c5 W2; lia].
    + apply (est_hi (qd x) (Z.abs (qn x)) W N M c (- a) rd rn); first [assumption | clear - Nz Dp R1 S1 Hl Ba B0 c5 W2; lia].
Qed.
