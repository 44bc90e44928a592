(** log2_accurate *)
From Verif Require Import Base USpec UFacts UBig UAddSub UMul UDiv UEq UFun UPow USqrt UPrime.

Notation K160 := 1461501637330902918203684832716283019655932542976 (only parsing).
(** bound on the relative error (in units of 2^-160) after i rounds *)
Fixpoint lerr (i : nat) : Z := match i with O => 1 | S k => 5 * lerr k + 2 end.
Lemma lerr_pos i : 1 <= lerr i.
Proof. induction i; cbn [lerr]; lia. Qed.
Lemma lerr_mono i : (i <= 16)%nat -> lerr i <= 228881835937.
Proof.
  intros H. assert (forall j, (i <= j)%nat -> lerr i <= lerr j) as M.
  { induction 1 as [| j Hj IH]; [lia |]. cbn [lerr]. pose proof (lerr_pos j). lia. }
  specialize (M 16%nat H). change (lerr 16) with 228881835937 in M. exact M.
Qed.

(** truncation to the top limbs keeps a relative precision of 2^-160 *)
Lemma trunc_err y k : 0 <= y -> (6 <= length (uof y) - k)%nat -> 
  let z := y / BB k in z * BB k <= y /\ K160 <= z /\ y * K160 < z * BB k * (K160 + 1).
Proof.
  intros Hy Hk z. pose proof (BB_pos k) as Hp. pose proof (div_bounds y (BB k) Hp) as Hz. fold z in Hz.
  destruct (len_uof_bounds y Hy) as (L1 & L2 & L3). specialize (L3 ltac:(lia)).
  assert (HK : K160 <= z).
  { apply Z.div_le_lower_bound; auto. eapply Z.le_trans; [| exact L3].
    change K160 with (BB 5). rewrite <- BB_add. apply BB_mono. lia. }
  clearbody z. splits; auto; nia.
Qed.

(** (1 + c/K)^4 <= 1 + 5c/K for small c *)
Lemma pow4_err N M c : 0 <= M -> 0 <= N -> 1 <= c <= 228881835937 -> N * K160 <= M * (K160 + c) ->
  N ^ 4 * K160 <= M ^ 4 * (K160 + 5 * c).
Proof.
  intros HM HN Hc H. set (K := K160) in *.
  assert (HK : 0 < K) by (unfold K; lia).
  assert (E : (N * K) ^ 4 <= (M * (K + c)) ^ 4) by (apply Z.pow_le_mono_l; nia).
  rewrite !Z.pow_mul_l in E.
  assert (F : (K + c) ^ 4 <= K ^ 3 * (K + 5 * c)).
  { assert (Q : 6 * (c * c) * (K * K) + 4 * (c * c * c) * K + c * c * c * c <= K * K * K * c).
    { assert (c * c <= 228881835937 * c) by nia.
      assert (A1 : 6 * (c * c) * (K * K) <= (6 * 228881835937 * c) * (K * K)) by (apply Z.mul_le_mono_nonneg_r; nia).
      assert (A2 : c * c * c <= 228881835937 * 228881835937 * c) by nia.
      assert (A3 : 4 * (c * c * c) * K <= (4 * (228881835937 * 228881835937) * c) * K) by (apply Z.mul_le_mono_nonneg_r; nia).
      assert (A4 : c * c * c * c <= 228881835937 * 228881835937 * 228881835937 * c) by nia.
      assert (A5 : (6 * 228881835937) * (K * K) + (4 * (228881835937 * 228881835937)) * K + 228881835937 * 228881835937 * 228881835937 <= K * K * K).
      { unfold K. vm_compute. discriminate. }
      assert (A6 : ((6 * 228881835937) * (K * K) + (4 * (228881835937 * 228881835937)) * K + 228881835937 * 228881835937 * 228881835937) * c <= K * K * K * c) by (apply Z.mul_le_mono_nonneg_r; lia).
      clearbody K. lia. }
    replace ((K + c) ^ 4) with (K * K * K * (K + 4 * c) + (6 * (c * c) * (K * K) + 4 * (c * c * c) * K + c * c * c * c)) by ring.
    replace (K ^ 3 * (K + 5 * c)) with (K * K * K * (K + 4 * c) + K * K * K * c) by ring. lia. }
  clearbody K.
  assert (G : M ^ 4 * (K + c) ^ 4 <= M ^ 4 * (K ^ 3 * (K + 5 * c))).
  { apply Z.mul_le_mono_nonneg_l; auto. apply Z.pow_nonneg. lia. }
  assert (HK3 : 0 < K ^ 3) by (apply Z.pow_pos_nonneg; lia).
  apply (Z.mul_le_mono_pos_r _ _ (K ^ 3)); auto.
  replace (N ^ 4 * K * K ^ 3) with (N ^ 4 * K ^ 4) by ring.
  replace (M ^ 4 * (K + 5 * c) * K ^ 3) with (M ^ 4 * (K ^ 3 * (K + 5 * c))) by ring. lia.
Qed.

(** state of the loop after [i] rounds: x * 2^e approximates n^(4^i) from below *)
Definition linv (n : Z) (i : nat) (x e : Z) : Prop :=
  1 <= x /\ 0 <= e /\ (length (uof x) <= 8)%nat /\
  x * 2 ^ e <= n ^ (4 ^ Z.of_nat i) /\ n ^ (4 ^ Z.of_nat i) * K160 <= x * 2 ^ e * (K160 + lerr i).

Lemma pow4_S n i : n ^ (4 ^ Z.of_nat (S i)) = (n ^ (4 ^ Z.of_nat i)) ^ 4.
Proof. rewrite Nat2Z.inj_succ, Z.pow_succ_r by lia. rewrite Z.mul_comm, Z.pow_mul_r; auto; try lia. Qed.

Lemma pow2_le_log e M : 0 <= e -> 2 ^ e <= M -> forall L, M <= 2 ^ L -> 0 <= L -> e <= L.
Proof. intros He H L HL H0. apply (Z.pow_le_mono_r_iff 2); lia. Qed.

Lemma linv_small n L i x e : 1 <= n -> n <= 2 ^ L -> 0 <= L -> linv n i x e -> e + Z.log2 x <= L * 4 ^ Z.of_nat i.
Proof.
  intros Hn HL HL0 (H1 & H2 & _ & H3 & _). pose proof (Z.log2_spec x ltac:(lia)) as [X1 _].
  assert (H4 : 0 <= 4 ^ Z.of_nat i) by (apply Z.pow_nonneg; lia).
  apply (Z.pow_le_mono_r_iff 2); [lia | nia |].
  rewrite Z.pow_mul_r by lia. rewrite Z.pow_add_r by (try apply Z.log2_nonneg; lia).
  assert (n ^ 4 ^ Z.of_nat i <= (2 ^ L) ^ 4 ^ Z.of_nat i) by (apply Z.pow_le_mono_l; lia).
  assert (2 ^ e * 2 ^ Z.log2 x <= 2 ^ e * x) by (apply Z.mul_le_mono_nonneg_l; [apply Z.pow_nonneg; lia | lia]). lia.
Qed.

Lemma log2_round n L i x e k : 1 <= n -> n <= 2 ^ L -> 0 <= L -> L * 4 ^ Z.of_nat (S i) < 18446744073709551616 -> (i < 16)%nat ->
  linv n i x e ->
  exists x' e', log2_acc_body k (uof x, e) = Ok (uof x', e') /\ linv n (S i) x' e'.
Proof.
  intros Hn HL HL0 HLB Hi HI. pose proof HI as (H1 & H2 & H3 & H4 & H5). unfold log2_acc_body.
  rewrite !Emul by nia. cbn [bind]. rewrite Emul by nia. cbn [bind].
  set (y := x * x * (x * x)). assert (Ey : y = x ^ 4) by (unfold y; ring).
  assert (Hy : 1 <= y) by (unfold y; nia).
  set (N := n ^ 4 ^ Z.of_nat i) in *. set (N' := n ^ 4 ^ Z.of_nat (S i)).
  assert (EN : N' = N ^ 4) by apply pow4_S.
  assert (HN : 0 <= N) by (apply Z.pow_nonneg; lia).
  assert (Hpe : 0 < 2 ^ e) by (apply Z.pow_pos_nonneg; lia).
  assert (E4 : 2 ^ (e * 4) = (2 ^ e) ^ 4) by (rewrite Z.pow_mul_r; lia).
  assert (Hpe4 : 0 < 2 ^ (e * 4)) by (apply Z.pow_pos_nonneg; lia).
  assert (Lo : y * 2 ^ (e * 4) <= N').
  { rewrite EN, Ey, E4, <- Z.pow_mul_l. apply Z.pow_le_mono_l. nia. }
  assert (Up : N' * K160 <= y * 2 ^ (e * 4) * (K160 + 5 * lerr i)).
  { rewrite EN, Ey, E4, <- Z.pow_mul_l. apply pow4_err; auto; [nia |]. pose proof (lerr_pos i). pose proof (lerr_mono i ltac:(lia)). lia. }
  assert (Hbnd : forall x' e', 1 <= x' -> 0 <= e' -> x' * 2 ^ e' <= N' -> e' < 18446744073709551616).
  { intros x' e' A1 A2 A3. apply Z.le_lt_trans with (L * 4 ^ Z.of_nat (S i)); auto.
    assert (0 <= 4 ^ Z.of_nat (S i)) by (apply Z.pow_nonneg; lia).
    apply (Z.pow_le_mono_r_iff 2); [lia | nia |]. rewrite Z.pow_mul_r by lia.
    assert (N' <= (2 ^ L) ^ 4 ^ Z.of_nat (S i)) by (apply Z.pow_le_mono_l; lia).
    assert (0 < 2 ^ e') by (apply Z.pow_pos_nonneg; lia). nia. }
  assert (He4 : e * 4 < 18446744073709551616) by (apply (Hbnd y); lia).
  rewrite mulw_ok by exact He4. cbn [bind]. clearbody y.
  destruct (Nat.ltb_spec 6 (length (uof y))) as [C | C].
  - rewrite subn_ok by lia. cbn [bind]. set (d := (length (uof y) - 6)%nat).
    destruct (trunc_err y d ltac:(lia) ltac:(unfold d; lia)) as (T1 & T2 & T3). set (z := y / BB d) in *.
    rewrite BB_pow2 in T1, T3.
    assert (Hpd : 0 < 2 ^ (32 * Z.of_nat d)) by (apply Z.pow_pos_nonneg; lia).
    assert (Ee : 2 ^ (e * 4 + Z.of_nat d * 32) = 2 ^ (e * 4) * 2 ^ (32 * Z.of_nat d)).
    { rewrite <- Z.pow_add_r by lia. f_equal. lia. }
    assert (Lo' : z * 2 ^ (e * 4 + Z.of_nat d * 32) <= N').
    { rewrite Ee. assert (z * 2 ^ (32 * Z.of_nat d) * 2 ^ (e * 4) <= y * 2 ^ (e * 4)) by (apply Z.mul_le_mono_nonneg_r; lia). lia. }
    assert (Hb : e * 4 + Z.of_nat d * 32 < 18446744073709551616) by (apply (Hbnd z); lia).
    unfold castw. rewrite Z.mod_small by (change (2 ^ 64) with 18446744073709551616; lia).
    rewrite mulw_ok by (change (2 ^ 64) with 18446744073709551616; lia). cbn [bind].
    rewrite addw_ok by exact Hb. cbn [bind]. rewrite Eshr by lia. fold z.
    eexists z, _. split; [reflexivity |]. unfold linv. split; [clear - T2; lia |]. split; [clear - H2; lia |]. split; [| split; [exact Lo' |]].
    + assert (z < BB 6).
      { apply Z.div_lt_upper_bound. apply BB_pos. rewrite <- BB_add. destruct (len_uof_bounds y ltac:(lia)) as (_ & L2 & _).
        replace (d + 6)%nat with (length (uof y)) by (clear - C; unfold d; lia). auto. }
      assert (length (uof z) <= 6)%nat by (apply nlimbs_iff; lia). lia.
    + fold N'. rewrite Ee. cbn [lerr]. set (P := 2 ^ (e * 4)) in *. set (D := 2 ^ (32 * Z.of_nat d)) in *.
      pose proof (lerr_pos i) as Lp. pose proof (lerr_mono i ltac:(lia)) as Lm. set (c := lerr i) in *.
      clearbody z P D c N'. clear - Up T3 T2 Hpe4 Hpd Lp Lm Hy.
      assert (A : y * K160 * (P * (K160 + 5 * c)) <= z * D * (K160 + 1) * (P * (K160 + 5 * c))) by (apply Z.mul_le_mono_nonneg_r; nia).
      assert (A2 : (K160 + 1) * (K160 + 5 * c) <= K160 * (K160 + (5 * c + 2))) by lia.
      assert (A3 : z * D * P * ((K160 + 1) * (K160 + 5 * c)) <= z * D * P * (K160 * (K160 + (5 * c + 2)))).
      { apply Z.mul_le_mono_nonneg_l; auto. apply Z.mul_nonneg_nonneg; [apply Z.mul_nonneg_nonneg|]; lia. }
      apply (Z.mul_le_mono_pos_r _ _ K160); [lia |].
      assert (A4 : N' * K160 * K160 <= y * P * (K160 + 5 * c) * K160) by (apply Z.mul_le_mono_nonneg_r; lia).
      clear - A A3 A4. set (K := K160) in *. clearbody K. lia.
  - eexists y, _. split; [reflexivity |]. unfold linv. split; [exact Hy |]. split; [clear - H2; lia |]. split; [clear - C; lia |]. split; [exact Lo |].
    fold N'. cbn [lerr]. eapply Z.le_trans; [exact Up |]. clear - Hy Hpe4 Hi. pose proof (lerr_pos i).
    apply Z.mul_le_mono_nonneg_l; [apply Z.mul_nonneg_nonneg; lia | lia].
Qed.

Lemma pow2_BB n : n < BB (length (uof n)) -> n <= 2 ^ (32 * Z.of_nat (length (uof n))).
Proof. rewrite BB_pow2. lia. Qed.

Lemma Elog2_accurate n : 1 <= n -> Z.of_nat (length (uof n)) < 2 ^ 27 ->
  exists r, ulog2_accurate (uof n) = Ok (uof r) /\ 0 <= r /\ 2 ^ r <= n ^ (2 ^ 32) /\
    n ^ (2 ^ 32) * 2 ^ 160 < 2 ^ (r + 1) * (2 ^ 160 + 2 ^ 38).
Proof.
  change (2 ^ 27) with 134217728. intros Hn HL. unfold ulog2_accurate.
  destruct (len_uof_bounds n ltac:(lia)) as (L1 & L2 & _). pose proof (pow2_BB n L2) as HnL.
  set (L := 32 * Z.of_nat (length (uof n))) in *.
  assert (HL0 : 0 <= L) by (unfold L; lia).
  assert (HL64 : L * 4294967296 < 18446744073709551616) by (unfold L; lia).
  match goal with |- context [bind (if _ then ?X else ?Y) _] =>
    assert (Init : exists x e, (if (8 <? length (uof n))%nat then X else Y) = Ok (uof x, e) /\ linv n 0 x e) end.
  { destruct (Nat.ltb_spec 8 (length (uof n))) as [C | C].
    - rewrite subn_ok by lia. cbn [bind]. set (d := (length (uof n) - 8)%nat).
      assert (Hd : (d <= length (uof n))%nat) by (unfold d; lia).
      rewrite castw_small by (change (2 ^ 64) with 18446744073709551616; lia).
      rewrite mulw_ok by (change (2 ^ 64) with 18446744073709551616; lia). cbn [bind].
      rewrite Eshr by lia. eexists _, _. split; [reflexivity |].
      destruct (trunc_err n d ltac:(lia) ltac:(unfold d; lia)) as (T1 & T2 & T3). set (z := n / BB d) in *.
      assert (Hz8 : (length (uof z) <= 8)%nat).
      { assert (z < BB 8).
        { apply Z.div_lt_upper_bound. apply BB_pos. rewrite <- BB_add.
          replace (d + 8)%nat with (length (uof n)) by (clear - C; unfold d; lia). auto. }
        apply nlimbs_iff; lia. }
      rewrite BB_pow2 in T1, T3. unfold linv. change (4 ^ Z.of_nat 0) with 1. rewrite Z.pow_1_r. cbn [lerr].
      replace (Z.of_nat d * 32) with (32 * Z.of_nat d) by lia. clearbody z. clear - T1 T2 T3 Hz8.
      splits; auto; lia.
    - eexists _, _. split; [reflexivity |]. unfold linv. change (4 ^ Z.of_nat 0) with 1. rewrite Z.pow_1_r. cbn [lerr].
      splits; auto; lia. }
  destruct Init as (x0 & e0 & -> & HI0). cbn [bind].
  destruct (for_spec log2_acc_body (fun j s => 0 <= j /\ exists x e, s = (uof x, e) /\ linv n (Z.to_nat j) x e) 16 0 (uof x0, e0))
    as (s & -> & _ & x & e & -> & HI).
  { split; [lia |]. exists x0, e0. auto. }
  { intros j s Hj (_ & x & e & -> & HI).
    destruct (log2_round n L (Z.to_nat j) x e j) as (x' & e' & E & HI'); auto; try lia.
    - assert (4 ^ Z.of_nat (S (Z.to_nat j)) <= 4 ^ 16) by (apply Z.pow_le_mono_r; lia).
      change (4 ^ 16) with 4294967296 in *. nia.
    - apply (returns_eq _ _ _ E). split; [lia |]. exists x', e'. split; auto. now replace (Z.to_nat (j + 1)) with (S (Z.to_nat j)) by lia. }
  change (Z.to_nat (0 + Z.of_nat 16)) with 16%nat in HI. cbn [bind].
  pose proof (linv_small n L 16 x e Hn HnL HL0 HI) as Hsm. change (4 ^ Z.of_nat 16) with 4294967296 in Hsm.
  destruct HI as (X1 & X2 & X3 & X4 & X5). change (4 ^ Z.of_nat 16) with (2 ^ 32) in X4, X5.
  change (lerr 16) with 228881835937 in X5.
  set (N := n ^ (2 ^ 32)) in *. clearbody N. revert X4 X5.
  pose proof (uof_wf x ltac:(lia)) as W. destruct (len_uof_bounds x ltac:(lia)) as (L1x & _ & _).
  rewrite castw_small by (change (2 ^ 64) with 18446744073709551616; lia).
  rewrite subw_ok by lia. cbn [bind]. rewrite mulw_ok by (change (2 ^ 64) with 18446744073709551616; lia). cbn [bind].
  rewrite subn_ok by lia. cbn [bind]. unfold getv. rewrite nth_error_last' by (apply uwf_ne; auto). cbn [bind].
  pose proof (last_limb _ (uwf_limbs _ W)) as Hx.
  assert (Hlog : log2_u32 (last (uof x) 0) = Z.log2 (last (uof x) 0)).
  { unfold log2_u32. destruct (Z.eqb_spec (last (uof x) 0) 0) as [-> |]; reflexivity. }
  rewrite Hlog.
  assert (El : Z.log2 x = 32 * (Z.of_nat (length (uof x)) - 1) + Z.log2 (last (uof x) 0)).
  { rewrite <- (uof_uval x ltac:(lia)) at 1. apply log2_limbs; auto. rewrite uof_uval; lia. }
  pose proof (Z.log2_nonneg x). pose proof (Z.log2_nonneg (last (uof x) 0)).
  rewrite addw_ok by (change (2 ^ 64) with 18446744073709551616; lia). cbn [bind].
  rewrite addw_ok by (change (2 ^ 64) with 18446744073709551616; lia). cbn [bind].
  rewrite ufrom_u64_spec by (change (2 ^ 64) with 18446744073709551616; lia).
  replace (e + ((Z.of_nat (length (uof x)) - 1) * 32 + Z.log2 (last (uof x) 0))) with (e + Z.log2 x) by lia.
  pose proof (Z.log2_spec x ltac:(lia)) as [B1 B2].
  assert (Hpe : 0 < 2 ^ e) by (apply Z.pow_pos_nonneg; lia).
  assert (Hr0 : 0 <= e + Z.log2 x) by lia. intros X4 X5.
  exists (e + Z.log2 x). split; [reflexivity |]. split; [exact Hr0 |]. clear Hsm HL64. split.
  - clear X5. rewrite Z.pow_add_r by lia. eapply Z.le_trans; [| exact X4]. rewrite Z.mul_comm. apply Z.mul_le_mono_nonneg_r; lia.
  - replace (e + Z.log2 x + 1) with (e + Z.succ (Z.log2 x)) by (clear X5; lia). rewrite Z.pow_add_r by (clear X5; lia).
    change (2 ^ 160) with K160. change (2 ^ 38) with 274877906944.
    set (Q := 2 ^ Z.succ (Z.log2 x)) in *. clearbody Q. set (P := 2 ^ e) in *. clearbody P.
    clear - X5 X1 B2 Hpe. eapply Z.le_lt_trans; [exact X5 |].
    assert (x * P < P * Q) by (rewrite Z.mul_comm; apply Z.mul_lt_mono_pos_l; lia).
    assert (0 <= P * Q) by lia.
    eapply Z.lt_le_trans with (P * Q * (K160 + 228881835937)).
    + apply Z.mul_lt_mono_pos_r; lia.
    + apply Z.mul_le_mono_nonneg_l; lia.
Qed.
Lemma Elog2_accurate_0 : ulog2_accurate (uof 0) = Ok (uof 0).
Proof. vm_compute. reflexivity. Qed.
