(** The iteration functions compute the partial sums of ISpec. *)
From Coq Require Import Zquot Qpower Lqa.
From Verif Require Import Base USpec SSpec UFacts UBig UFun UStr UEq UPow USqrt ULog BBig BSpec BEq RBig RSpec REq RIeee RTab RIter ISpec.
Local Open Scope Z_scope.

Lemma fact_z n : Z.of_nat (fact n) = zfact n.
Proof. induction n; [reflexivity |]. cbn [zfact]. rewrite <- IHn. change (fact (S n)) with (S n * fact n)%nat. lia. Qed.
Lemma qnat_pos n : (0 < n)%nat -> (0 < qnat n)%Q.
Proof. intros. unfold qnat. change 0%Q with (inject_Z 0). rewrite <- Zlt_Qlt. lia. Qed.
Lemma qnat_nz n : (0 < n)%nat -> ~ (qnat n == 0)%Q.
Proof. intros H E. apply qnat_pos in H. lra. Qed.
Lemma qfact_pos n : (0 < qnat (fact n))%Q. Proof. apply qnat_pos, lt_O_fact. Qed.
Lemma qfact_nz n : ~ (qnat (fact n) == 0)%Q. Proof. apply qnat_nz, lt_O_fact. Qed.
Lemma qfact_S n : (qnat (fact (S n)) == qnat (S n) * qnat (fact n))%Q.
Proof. unfold qnat. rewrite <- inject_Z_mult. change (fact (S n)) with (S n * fact n)%nat. now rewrite Nat2Z.inj_mul. Qed.
Lemma qpw_S x n : (qpw x (S n) == x * qpw x n)%Q.
Proof.
  unfold qpw. rewrite Nat2Z.inj_succ. unfold Z.succ. destruct (Nat.eq_dec n 0) as [-> | H].
  - cbn. ring.
  - rewrite Qpower_plus'; [ring |]. lia.
Qed.
Lemma qpw_0 x : (qpw x 0 == 1)%Q. Proof. reflexivity. Qed.
Lemma qpw_1 x : (qpw x 1 == x)%Q. Proof. rewrite qpw_S, qpw_0. ring. Qed.
Lemma qpw_pos x n : (0 < x)%Q -> (0 < qpw x n)%Q.
Proof. intros. unfold qpw. apply Qpower_0_lt. auto. Qed.
Lemma qpw_nz x n : ~ (x == 0)%Q -> ~ (qpw x n == 0)%Q.
Proof. intros. unfold qpw. now apply Qpower_not_0. Qed.
Lemma sgn_S n : (sgn (S n) == - sgn n)%Q.
Proof. unfold sgn. rewrite Nat.even_succ, <- Nat.negb_even. destruct (Nat.even n); reflexivity. Qed.
Lemma qsum_ext f g n : (forall i, (i < n)%nat -> (f i == g i)%Q) -> (qsum f n == qsum g n)%Q.
Proof. induction n; intros H; cbn [qsum]; [reflexivity |]. rewrite IHn, (H n) by auto. reflexivity. Qed.
Add Morphism qpw with signature Qeq ==> eq ==> Qeq as qpw_m.
Proof. intros a b H n. unfold qpw. now rewrite H. Qed.
Lemma returns_eq' {A} (m : res A) a : returns m (fun x => x = a) -> m = Ok a.
Proof. intros (x & -> & ->). reflexivity. Qed.

(** rewriting an argument of [rof] *)
Lemma rofE p q : (p == q)%Q -> Ok (rof p) = Ok (rof q). Proof. intros. f_equal. now apply rof_qeq. Qed.

(** ** e *)
Lemma exp1_term n : (exp_term 1 n == 1 / qnat (fact n))%Q.
Proof. unfold exp_term, qpw. now rewrite Qpower_1. Qed.
Lemma e_start : (exp_sum 1 20 == inject_Z 330665665962404000 / qnat (fact 19))%Q.
Proof.
  unfold exp_sum. rewrite (qsum_ext _ (fun i => 1 / inject_Z (zfact i))%Q).
  2:{ intros. unfold exp_term, qnat, qpw. rewrite fact_z, Qpower_1. reflexivity. }
  unfold qnat. rewrite fact_z. vm_compute. reflexivity.
Qed.
Lemma Bfactorial n : 0 <= n < 2 ^ 32 -> bfactorial n = Ok (bof (zf n)).
Proof.
  intros. unfold bfactorial. rewrite Efactorial by lia. cbn [bind]. f_equal. rewrite Bfrom_ubi; auto. pose proof (zf_pos n). lia.
Qed.
Lemma e_iter_ok k : Z.of_nat k < 2 ^ 31 - 20 -> e_iter k = Ok (rof (exp_sum 1 (20 + k))).
Proof.
  intros Hk. unfold e_iter. rewrite Bfrom_i64 by lia. cbn [bind].
  pose proof (for_spec (fun (_ : Z) '(numer, fac) => let* numer := bmul_i32_mut numer fac in
    let* numer := badd_i32_mut numer 1 in let* fac := sadd 32 fac 1 in Ok (numer, fac))
    (fun i s => exists z, s = (bof z, 20 + i) /\ (inject_Z z == exp_sum 1 (20 + Z.to_nat i) * qnat (fact (19 + Z.to_nat i)))%Q)
    k 0 (bof 330665665962404000, 20)) as H.
  destruct H as (s & E & z & -> & Hz).
  - exists 330665665962404000. split; auto. change (20 + Z.to_nat 0)%nat with 20%nat. change (19 + Z.to_nat 0)%nat with 19%nat.
    rewrite e_start. field. apply qfact_nz.
  - intros j s Hj (z & -> & Hz). rewrite Bmul_i32_mut by (unfold i32r; lia). cbn [bind]. rewrite Badd_i32_mut by (unfold i32r; lia). cbn [bind].
    unfold sadd. rewrite sres_ok by (change (2 ^ (32 - 1)) with 2147483648; lia). cbn [bind].
    apply returns_ok. exists (z * (20 + j) + 1). split. { f_equal. lia. }
    replace (Z.to_nat (j + 1)) with (S (Z.to_nat j)) by lia.
    replace (20 + S (Z.to_nat j))%nat with (S (20 + Z.to_nat j)) by lia.
    replace (19 + S (Z.to_nat j))%nat with (S (19 + Z.to_nat j)) by lia.
    unfold exp_sum in *. cbn [qsum]. rewrite inject_Z_plus, inject_Z_mult, Hz. rewrite exp1_term.
    replace (20 + Z.to_nat j)%nat with (S (19 + Z.to_nat j)) by lia.
    rewrite qfact_S. assert (inject_Z (20 + j) == qnat (S (19 + Z.to_nat j)))%Q as ->.
    { unfold qnat. replace (Z.of_nat (S (19 + Z.to_nat j))) with (20 + j) by lia. reflexivity. }
    change (inject_Z 1) with 1%Q. field. split; [apply qfact_nz | apply qnat_nz; lia].
  - rewrite E. cbn [bind]. unfold castw. rewrite (Z.mod_small (20 + (0 + _))) by lia.
    rewrite subw_ok by lia. cbn [bind]. rewrite Bfactorial by lia. cbn [bind].
    pose proof (zf_pos (20 + (0 + Z.of_nat k) - 1)). rewrite from_dn_ok by lia. apply rofE.
    rewrite Hz. replace (Z.to_nat (0 + Z.of_nat k)) with k by lia.
    replace (zf (20 + (0 + Z.of_nat k) - 1)) with (Z.of_nat (fact (19 + k))).
    2:{ rewrite fact_z. unfold zf. f_equal. lia. }
    change (inject_Z (Z.of_nat (fact (19 + k)))) with (qnat (fact (19 + k))). field. apply qfact_nz.
Qed.

(** ** pi and ln 2: the tables hold exactly the groups of terms of the series *)
Definition bbp_c (n : Z) : Q := (4 / inject_Z (8 * n + 1) - 2 / inject_Z (8 * n + 4) - 1 / inject_Z (8 * n + 5) - 1 / inject_Z (8 * n + 6))%Q.
Definition ln2_c (n : Z) : Q := (1 / inject_Z (n + 1))%Q.
Lemma qpw_nz0 z n : (0 < z)%Z -> ~ (qpw (inject_Z z) n == 0)%Q.
Proof. intros H. apply qpw_nz. intros E. assert (0 < inject_Z z)%Q by (change 0%Q with (inject_Z 0); rewrite <- Zlt_Qlt; lia). lra. Qed.
Lemma bbp_cE n : (bbp_term n == bbp_c (Z.of_nat n) / qpw 16 n)%Q.
Proof. unfold bbp_term, bbp_c, qnat. repeat match goal with |- context [Z.of_nat (8 * n + ?k)] => replace (Z.of_nat (8 * n + k)) with (8 * Z.of_nat n + Z.of_nat k)%Z by lia end. reflexivity. Qed.
Lemma bbp_pair i : (qpw 16 (2 * i + 2) * (bbp_term (2 * i + 2) + bbp_term (2 * i + 3)) == bbp_c (2 * Z.of_nat i + 2) + bbp_c (2 * Z.of_nat i + 3) / 16)%Q.
Proof.
  rewrite !bbp_cE. replace (2 * i + 3)%nat with (S (2 * i + 2)) by lia. rewrite qpw_S.
  replace (Z.of_nat (S (2 * i + 2))) with (2 * Z.of_nat i + 3)%Z by lia. replace (Z.of_nat (2 * i + 2)) with (2 * Z.of_nat i + 2)%Z by lia.
  pose proof (qpw_nz0 16 (2 * i + 2) eq_refl) as N. change (inject_Z 16) with 16%Q in N. field. exact N.
Qed.
Lemma ln2_cE n : (ln2_term n == ln2_c (Z.of_nat n) / qpw 2 (n + 1))%Q.
Proof. unfold ln2_term, ln2_c. replace (inject_Z (Z.of_nat n + 1)) with (qnat (n + 1)) by (unfold qnat; f_equal; lia). field. split; [apply qnat_nz; lia | apply (qpw_nz0 2); lia]. Qed.
Lemma ln2_six i : (qpw 2 (6 * i + 12) * (ln2_term (6 * i + 12) + ln2_term (6 * i + 13) + ln2_term (6 * i + 14)
    + ln2_term (6 * i + 15) + ln2_term (6 * i + 16) + ln2_term (6 * i + 17)) ==
  ln2_c (6 * Z.of_nat i + 12) / 2 + ln2_c (6 * Z.of_nat i + 13) / 4 + ln2_c (6 * Z.of_nat i + 14) / 8 + ln2_c (6 * Z.of_nat i + 15) / 16 + ln2_c (6 * Z.of_nat i + 16) / 32 + ln2_c (6 * Z.of_nat i + 17) / 64)%Q.
Proof.
  rewrite !ln2_cE. repeat match goal with |- context [Z.of_nat (6 * i + ?k)] => replace (Z.of_nat (6 * i + k)) with (6 * Z.of_nat i + Z.of_nat k)%Z by lia end. cbn [Z.of_nat Pos.of_succ_nat Pos.succ].
  replace (6 * i + 12 + 1)%nat with (S (6 * i + 12)) by lia. replace (6 * i + 13 + 1)%nat with (S (S (6 * i + 12))) by lia. replace (6 * i + 14 + 1)%nat with (S (S (S (6 * i + 12)))) by lia. replace (6 * i + 15 + 1)%nat with (S (S (S (S (6 * i + 12))))) by lia. replace (6 * i + 16 + 1)%nat with (S (S (S (S (S (6 * i + 12)))))) by lia. replace (6 * i + 17 + 1)%nat with (S (S (S (S (S (S (6 * i + 12))))))) by lia.
  rewrite !qpw_S. pose proof (qpw_nz0 2 (6 * i + 12) eq_refl) as N. change (inject_Z 2) with 2%Q in N. field. exact N.
Qed.
Definition pi_entry_ok (p : nat * (Z * Z)) : bool :=
  let '(i, (n, d)) := p in
  (0 <? d) && (d <? 2 ^ 127) && (- 2 ^ 127 <? n) && (n <? 2 ^ 127) && (Z.gcd n d =? 1) &&
  Qeq_bool (n # Z.to_pos d) (bbp_c (2 * Z.of_nat i + 2) + bbp_c (2 * Z.of_nat i + 3) / 16)%Q.
Lemma pi_table_ok : forallb pi_entry_ok (combine (seq 0 255) PI_TABLE) = true.
Proof. vm_compute. reflexivity. Qed.
Definition ln2_entry_ok (p : nat * (Z * Z)) : bool :=
  let '(i, (d, n)) := p in
  (0 <? d) && (d <? 2 ^ 63) && (- 2 ^ 63 <? n) && (n <? 2 ^ 63) && (Z.gcd n d =? 1) &&
  Qeq_bool (n # Z.to_pos d) (ln2_c (6 * Z.of_nat i + 12) / 2 + ln2_c (6 * Z.of_nat i + 13) / 4 + ln2_c (6 * Z.of_nat i + 14) / 8
    + ln2_c (6 * Z.of_nat i + 15) / 16 + ln2_c (6 * Z.of_nat i + 16) / 32 + ln2_c (6 * Z.of_nat i + 17) / 64)%Q.
Lemma ln2_table_ok : forallb ln2_entry_ok (combine (seq 0 205) LN2_TABLE) = true.
Proof. vm_compute. reflexivity. Qed.
Lemma in_combine_seq {A} (l : list A) i a : nth_error l i = Some a -> forall s, In ((s + i)%nat, a) (combine (seq s (length l)) l).
Proof.
  revert i. induction l; intros [| i] H s; cbn in H; try discriminate.
  - inversion H. left. f_equal. lia.
  - right. replace (s + S i)%nat with (S s + i)%nat by lia. now apply IHl.
Qed.
Lemma getv_some {A} (l : list A) i : (i < length l)%nat -> exists a, getv l i = Ok a /\ nth_error l i = Some a.
Proof.
  intros H. unfold getv. destruct (nth_error l i) eqn:E; eauto. apply nth_error_None in E. lia.
Qed.
Lemma pi_entry i : (i < 255)%nat -> exists n d, getv PI_TABLE i = Ok (n, d) /\ 0 < d < 2 ^ 127 /\ - 2 ^ 127 < n < 2 ^ 127 /\
  mkR (bof d) (bof n) = rof (qpw 16 (2 * i + 2) * (bbp_term (2 * i + 2) + bbp_term (2 * i + 3))).
Proof.
  intros H. destruct (getv_some PI_TABLE i) as ((n & d) & G & E); [exact H |]. exists n, d. split; auto.
  pose proof pi_table_ok as T. rewrite forallb_forall in T. specialize (T _ (in_combine_seq _ _ _ E 0%nat)).
  unfold pi_entry_ok in T. cbn [Nat.add] in T. rewrite !andb_true_iff in T. destruct T as (((((A1 & A2) & A3) & A4) & A5) & A6).
  apply Qeq_bool_eq in A6. rewrite ?Z.ltb_lt in *. apply Z.eqb_eq in A5. splits; try lia. apply rof_eq; auto. apply qcross; auto. rewrite bbp_pair. symmetry. exact A6.
Qed.
Lemma ln2_entry i : (i < 205)%nat -> exists n d, getv LN2_TABLE i = Ok (d, n) /\ 0 < d < 2 ^ 63 /\ - 2 ^ 63 < n < 2 ^ 63 /\
  mkR (bof d) (bof n) = rof (qpw 2 (6 * i + 12) * (ln2_term (6 * i + 12) + ln2_term (6 * i + 13) + ln2_term (6 * i + 14)
    + ln2_term (6 * i + 15) + ln2_term (6 * i + 16) + ln2_term (6 * i + 17))).
Proof.
  intros H. destruct (getv_some LN2_TABLE i) as ((d & n) & G & E); [exact H |]. exists n, d. split; auto.
  pose proof ln2_table_ok as T. rewrite forallb_forall in T. specialize (T _ (in_combine_seq _ _ _ E 0%nat)).
  unfold ln2_entry_ok in T. cbn [Nat.add] in T. rewrite !andb_true_iff in T. destruct T as (((((A1 & A2) & A3) & A4) & A5) & A6).
  apply Qeq_bool_eq in A6. rewrite ?Z.ltb_lt in *. apply Z.eqb_eq in A5. splits; try lia. apply rof_eq; auto. apply qcross; auto. rewrite ln2_six. symmetry. exact A6.
Qed.
Lemma rofF p q : (p == q)%Q -> rof p = rof q. Proof. apply rof_qeq. Qed.
Lemma pi_iter_ok k : (k <= 255)%nat -> pi_iter k = Ok (rof (bbp_sum (2 * k + 2))).
Proof.
  intros Hk. unfold pi_iter. rewrite !from_dn_i32_ok by (unfold i32r; lia). cbn [bind].
  match goal with |- context [for_ k 0 ?b ?s] => pose proof (for_spec b
    (fun i st => st = (rof (bbp_sum (2 * Z.to_nat i + 2)), rof (/ qpw 16 (2 * Z.to_nat i + 2)))) k 0 s) as H end.
  destruct H as (s & E & ->).
  - f_equal; apply rofF; vm_compute; reflexivity.
  - intros j s Hj ->. unfold pi_body. destruct (pi_entry (Z.to_nat j)) as (n & d & G & Hd & Hn & C); [lia |]. rewrite G. cbn [bind].
    rewrite !Bfrom_i128 by lia. cbn [bind]. unfold from_dn_raw. rewrite C, Rmul. cbn [bind]. rewrite Radd_mut. cbn [bind].
    rewrite Rdiv_i32_mut by (unfold i32r; lia). cbn [bind]. apply returns_ok.
    replace (2 * Z.to_nat (j + 1) + 2)%nat with (S (S (2 * Z.to_nat j + 2))) by lia.
    generalize (Z.to_nat j). intros i. f_equal; apply rofF.
    + unfold bbp_sum. cbn [qsum]. replace (2 * i + 3)%nat with (S (2 * i + 2)) by lia.
      generalize (2 * i + 2)%nat. intros m. field. apply qpw_nz. discriminate.
    + rewrite !qpw_S. change (inject_Z 256) with 256%Q. field. apply qpw_nz. discriminate.
  - rewrite E. cbn [bind]. do 3 f_equal. lia.
Qed.
Lemma ln2_iter_ok k : (k <= 205)%nat -> ln2_iter k = Ok (rof (ln2_sum (6 * k + 12))).
Proof.
  intros Hk. unfold ln2_iter. rewrite !from_dn_i32_ok by (unfold i32r; lia). cbn [bind]. rewrite Bfrom_i64 by lia. cbn [bind].
  match goal with |- context [for_ k 0 ?b ?s] => pose proof (for_spec b
    (fun i st => st = (rof (ln2_sum (6 * Z.to_nat i + 12)), bof (2 ^ (6 * i + 12)))) k 0 s) as H end.
  destruct H as (s & E & ->).
  - f_equal; apply rofF; vm_compute; reflexivity.
  - intros j s Hj ->. unfold ln2_body. destruct (ln2_entry (Z.to_nat j)) as (n & d & G & Hd & Hn & C); [lia |]. rewrite G. cbn [bind].
    rewrite !Bfrom_i64 by lia. cbn [bind]. unfold from_dn_raw, rdiv_bi. rewrite C.
    assert (0 < 2 ^ (6 * j + 12)) by (apply Z.pow_pos_nonneg; lia).
    rewrite Rdiv_bi by lia. cbn [bind]. rewrite Radd_mut. cbn [bind].
    rewrite Bmul_i32_mut by (unfold i32r; lia). cbn [bind]. apply returns_ok.
    f_equal; [apply rofF | f_equal].
    + assert (inject_Z (2 ^ (6 * j + 12)) == qpw 2 (6 * Z.to_nat j + 12))%Q as ->.
      { unfold qpw. rewrite <- (Zpower_Qpower 2) by lia. replace (Z.of_nat _) with (6 * j + 12) by lia. reflexivity. }
      replace (6 * Z.to_nat (j + 1) + 12)%nat with (S (S (S (S (S (S (6 * Z.to_nat j + 12))))))) by lia.
      generalize (Z.to_nat j). intros i.
      replace (6 * i + 13)%nat with (S (6 * i + 12)) by lia. replace (6 * i + 14)%nat with (S (S (6 * i + 12))) by lia.
      replace (6 * i + 15)%nat with (S (S (S (6 * i + 12)))) by lia. replace (6 * i + 16)%nat with (S (S (S (S (6 * i + 12))))) by lia.
      replace (6 * i + 17)%nat with (S (S (S (S (S (6 * i + 12)))))) by lia.
      unfold ln2_sum. cbn [qsum]. generalize (6 * i + 12)%nat. intros m. field. apply qpw_nz. discriminate.
    + replace (6 * (j + 1) + 12) with (6 * j + 12 + 6) by lia. rewrite (Z.pow_add_r 2 _ 6) by lia. reflexivity.
  - rewrite E. cbn [bind]. do 3 f_equal. lia.
Qed.
Lemma for_split {A} (b : Z -> A -> res A) n m i s : for_ (n + m) i b s = let* s' := for_ n i b s in for_ m (i + Z.of_nat n) b s'.
Proof.
  revert i s. induction n; intros i s; cbn [for_ Nat.add bind].
  - now replace (i + Z.of_nat 0) with i by lia.
  - destruct (b i s); cbn [bind]; auto. rewrite IHn. now replace (i + Z.of_nat (S n)) with (i + 1 + Z.of_nat n) by lia.
Qed.
Lemma for_panic {A} (b : Z -> A -> res A) n m i s : (exists s', for_ n i b s = Ok s') -> (forall s', b (i + Z.of_nat n) s' = Panic) ->
  for_ (n + S m) i b s = Panic.
Proof. intros (s' & E) H. rewrite for_split, E. cbn [bind for_]. now rewrite H. Qed.
Lemma for_ok_of {A C} (b : Z -> A -> res A) n i s (f : A -> C) c : (let* r := for_ n i b s in Ok (f r)) = Ok c -> exists s', for_ n i b s = Ok s'.
Proof. destruct (for_ n i b s); try discriminate. eauto. Qed.
Lemma pi_iter_unf k : pi_iter k = let* r := for_ k 0 pi_body (rof (inject_Z 102913 / inject_Z 32760), rof (inject_Z 1 / inject_Z 256)) in Ok (fst r).
Proof.
  unfold pi_iter. rewrite !from_dn_i32_ok by (unfold i32r; lia). cbn [bind]. destruct (for_ k 0 pi_body _) as [[? ?] | |]; reflexivity.
Qed.
Lemma ln2_iter_unf k : ln2_iter k = let* r := for_ k 0 ln2_body (rof (inject_Z 7869871 / inject_Z 11354112), bof 4096) in Ok (fst r).
Proof.
  unfold ln2_iter. rewrite !from_dn_i32_ok by (unfold i32r; lia). cbn [bind]. rewrite Bfrom_i64 by lia. cbn [bind].
  destruct (for_ k 0 ln2_body _) as [[? ?] | |]; reflexivity.
Qed.
Lemma pi_iter_panic k : (255 < k)%nat -> pi_iter k = Panic.
Proof.
  intros H. pose proof (pi_iter_ok 255 ltac:(lia)) as P. rewrite pi_iter_unf in *. apply for_ok_of in P.
  replace k with (255 + S (k - 256))%nat by lia. rewrite for_panic; auto. intros [r c]. reflexivity.
Qed.
Lemma ln2_iter_panic k : (205 < k)%nat -> ln2_iter k = Panic.
Proof.
  intros H. pose proof (ln2_iter_ok 205 ltac:(lia)) as P. rewrite ln2_iter_unf in *. apply for_ok_of in P.
  replace k with (205 + S (k - 206))%nat by lia. rewrite for_panic; auto. intros [r c]. reflexivity.
Qed.
Lemma consts_ok : pi_const = rof (bbp_sum 16) /\ e_const = rof (exp_sum 1 35) /\ ln2_const = rof (ln2_sum 78).
Proof.
  splits; [vm_compute; reflexivity | | vm_compute; reflexivity].
  rewrite (rof_qeq (exp_sum 1 35) (qsum (fun i => 1 / inject_Z (zfact i))%Q 35)). vm_compute. reflexivity.
  apply qsum_ext. intros. unfold exp_term, qnat, qpw. now rewrite fact_z, Qpower_1.
Qed.

(** ** sqrt *)
Lemma sqrt_iter_eq x k : top64 (Z.abs (qn x) * BB (1 + k)) < KSQ -> top64 (qd x * BB (1 + k)) < KSQ ->
  sqrt_iter (rof x) k = Ok (rof (inject_Z (Z.sgn (qn x) * Z.sqrt (Z.abs (qn x) * BB (1 + k))) / inject_Z (Z.sqrt (qd x * BB (1 + k))))).
Proof.
  intros H1 H2. unfold sqrt_iter. rewrite rden_rof, rnum_rof, !Bshl. pose proof (BB_pos (1 + k)). 
  rewrite Bsqrt; rewrite Z.abs_eq by nia; auto. cbn [bind]. rewrite Bsqrt by (now rewrite Z.abs_mul, (Z.abs_eq (BB _)) by lia).
  cbn [bind]. assert (1 <= Z.sqrt (qd x * BB (1 + k))). { change 1 with (Z.sqrt 1). apply Z.sqrt_le_mono. nia. }
  rewrite (Z.sgn_pos (qd x * BB (1 + k))), Z.mul_1_l by nia.
  rewrite from_dn_ok by lia. apply rofE. rewrite Z.sgn_mul, (Z.sgn_pos (BB _)), Z.mul_1_r, Z.abs_mul, (Z.abs_eq (BB _)) by lia. reflexivity.
Qed.
(** integer square roots of the shifted parts: [s^2 <= n W < (s+1)^2] and [t^2 <= d W < (t+1)^2] *)
Lemma sqrt_ratio_bound n d W : 0 <= n -> 0 < d -> 0 < W ->
  let s := Z.sqrt (n * W) in let t := Z.sqrt (d * W) in 0 < t /\
  (s * s * d <= n * (t * t) + 3 * n * t /\ n * (t * t) <= d * (s * s) + 3 * d * s).
Proof.
  intros Hn Hd HW s t. pose proof (Z.sqrt_spec (n * W) ltac:(nia)) as [S1 S2]. pose proof (Z.sqrt_spec (d * W) ltac:(nia)) as [T1 T2].
  fold s in S1, S2. fold t in T1, T2. assert (0 <= s) by apply Z.sqrt_nonneg.
  assert (0 < t). { assert (1 <= t); [| lia]. change 1 with (Z.sqrt 1). apply Z.sqrt_le_mono. nia. }
  unfold Z.succ in *. splits; auto.
  - (* s s d <= n W d <  n (t+1)^2 *)
    assert (s * s * d <= n * (d * W)) by nia. assert (n * (d * W) <= n * ((t + 1) * (t + 1))) by nia. nia.
  - destruct (Z.eq_dec s 0) as [E |]. 
    + rewrite E in *. assert (n * W = 0) by nia. assert (n = 0) by nia. subst n. lia.
    + assert (n * (t * t) <= d * (n * W)) by nia. assert (d * (n * W) <= d * ((s + 1) * (s + 1))) by nia. nia.
Qed.
Lemma Qmul_pos a b : (0 < a)%Q -> (0 < b)%Q -> (0 < a * b)%Q.
Proof. intros. setoid_replace 0%Q with (a * 0)%Q by ring. now apply Qmult_lt_l. Qed.
Definition sqrt_eps (k : nat) : Q := 3 / qpw 2 (16 * (k + 1)).
Lemma sqrt_low n k : 1 <= n -> 2 ^ (16 * (Z.of_nat k + 1)) <= Z.sqrt (n * BB (1 + k)).
Proof.
  intros. assert (0 < 2 ^ (16 * (Z.of_nat k + 1))) by (apply Z.pow_pos_nonneg; lia). pose proof (BB_pos (1 + k)).
  apply Z.sqrt_le_square; [nia | lia |].
  rewrite BB_pow2. replace (32 * Z.of_nat (1 + k)) with (16 * (Z.of_nat k + 1) + 16 * (Z.of_nat k + 1)) by lia.
  rewrite Z.pow_add_r by lia. nia.
Qed.
Lemma sqrt_iter_ok x k : (0 <= x)%Q -> top64 (qn x * BB (1 + k)) < KSQ -> top64 (qd x * BB (1 + k)) < KSQ ->
  exists r, sqrt_iter (rof x) k = Ok (rof r) /\ (0 <= r)%Q /\ (r * r <= x * (1 + sqrt_eps k))%Q /\ (x <= r * r * (1 + sqrt_eps k))%Q.
Proof.
  intros Hx H1 H2. assert (Hn : 0 <= qn x).
  { assert (0 <= Qnum x). { unfold Qle in Hx. cbn in Hx. lia. } pose proof (qn_neg x). destruct (Z.ltb_spec (qn x) 0), (Z.ltb_spec (Qnum x) 0); lia || discriminate. }
  eexists. split. { apply sqrt_iter_eq; auto. now rewrite Z.abs_eq by lia. }
  rewrite Z.abs_eq by lia. set (n := qn x) in *. set (d := qd x) in *.
  assert (Hd : 0 < d) by (unfold d; lia).
  assert (Ex : (x == inject_Z n / inject_Z d)%Q).
  { rewrite (qred_eta x). fold n d. rewrite Qmake_Qdiv. rewrite Z2Pos.id by lia. reflexivity. }
  pose proof (sqrt_ratio_bound n d (BB (1 + k)) Hn Hd (BB_pos _)) as (T0 & U1 & U2). cbn zeta in *.
  replace (Z.sgn n * Z.sqrt (n * BB (1 + k))) with (Z.sqrt (n * BB (1 + k))).
  2:{ destruct (Z.eq_dec n 0) as [-> |]; [reflexivity |]. rewrite Z.sgn_pos by lia. lia. }
  pose proof (sqrt_low d k ltac:(lia)) as T1.
  assert (S1 : n = 0 /\ Z.sqrt (n * BB (1 + k)) = 0 \/ 2 ^ (16 * (Z.of_nat k + 1)) <= Z.sqrt (n * BB (1 + k))).
  { destruct (Z.eq_dec n 0) as [-> |]; [left; split; reflexivity | right; apply sqrt_low; lia]. }
  pose proof (Z.sqrt_nonneg (n * BB (1 + k))) as S0.
  set (s := Z.sqrt (n * BB (1 + k))) in *. set (t := Z.sqrt (d * BB (1 + k))) in *.
  assert (EW : (sqrt_eps k == inject_Z 3 / inject_Z (2 ^ (16 * (Z.of_nat k + 1))))%Q).
  { unfold sqrt_eps, qpw. rewrite (Zpower_Qpower 2) by lia. replace (Z.of_nat (16 * (k + 1))) with (16 * (Z.of_nat k + 1)) by lia. reflexivity. }
  assert (W0 : 0 < 2 ^ (16 * (Z.of_nat k + 1))) by (apply Z.pow_pos_nonneg; lia).
  set (W := 2 ^ (16 * (Z.of_nat k + 1))) in *. rewrite EW, Ex. clear EW Ex H1 H2 Hx.
  assert (V1 : s * s * d * W <= n * (t * t) * (W + 3)). { assert (n * t * W <= n * t * t) by nia. nia. }
  assert (V2 : n * (t * t) * W <= d * (s * s) * (W + 3)). { assert (d * s * W <= d * s * s) by (destruct S1; nia). nia. }
  clear U1 U2 S1 T1. rewrite Zle_Qle in V1, V2, S0. rewrite Zlt_Qlt in T0, Hd, W0.
  repeat rewrite ?inject_Z_mult, ?inject_Z_plus in *. change (inject_Z 0) with 0%Q in *.
  set (s' := inject_Z s) in *. set (t' := inject_Z t) in *. set (n' := inject_Z n) in *. set (d' := inject_Z d) in *. set (W' := inject_Z W) in *.
  set (h := inject_Z 3) in *. clearbody s' t' n' d' W' h. clear -V1 V2 S0 T0 Hd W0. splits.
  - apply Qle_shift_div_l; auto. lra.
  - assert (E : (s' / t' * (s' / t') == (s' * s') / (t' * t'))%Q) by (field; lra). rewrite E.
    assert (0 < t' * t')%Q by (now apply Qmul_pos).
    assert (E2 : (n' / d' * (1 + h / W') == (n' * (W' + h)) / (d' * W'))%Q) by (field; lra). rewrite E2.
    apply Qle_shift_div_l. now apply Qmul_pos.
    assert (E3 : (s' * s' / (t' * t') * (d' * W') == (s' * s' * d' * W') / (t' * t'))%Q) by (field; lra). rewrite E3.
    apply Qle_shift_div_r; auto. lra.
  - assert (E : (s' / t' * (s' / t') * (1 + h / W') == (s' * s' * (W' + h)) / (t' * t' * W'))%Q) by (field; lra). rewrite E.
    assert (0 < t' * t' * W')%Q by (now repeat apply Qmul_pos).
    apply Qle_shift_div_r; auto. assert (E3 : (s' * s' * (W' + h) / (t' * t' * W') * d' == (d' * (s' * s') * (W' + h)) / (t' * t' * W'))%Q) by (field; lra). rewrite E3.
    apply Qle_shift_div_l; auto. lra.
Qed.
