(** Primality and factorisation. *)
From Verif Require Import Base USpec UFacts UBig UAddSub UMul UDiv UEq UFun UPow USqrt.
From Coq Require Import Znumtheory Sorted.

(** no divisor in [2, k) *)
Definition nodiv (n k : Z) : Prop := forall d, 2 <= d < k -> ~ (d | n).

Lemma nodiv_mono n k j : nodiv n k -> j <= k -> nodiv n j.
Proof. intros H Hj d Hd. apply H. lia. Qed.
Lemma nodiv_step n k : nodiv n k -> ~ (k | n) -> nodiv n (k + 1).
Proof. intros H Hk d Hd. destruct (Z.eq_dec d k) as [-> |]; auto. apply H. lia. Qed.
Lemma nodiv_dvd n m k : nodiv n k -> (m | n) -> nodiv m k.
Proof. intros H Hm d Hd C. apply (H d Hd). now apply Z.divide_trans with m. Qed.
Lemma nodiv_odd_step n k : n mod 2 = 1 -> k mod 2 = 1 -> nodiv n k -> ~ (k | n) -> nodiv n (k + 2).
Proof.
  intros Hn Hk H Hd. replace (k + 2) with (k + 1 + 1) by lia. apply nodiv_step; [now apply nodiv_step |].
  intros [c C]. assert (n mod 2 = 0).
  { rewrite C. apply Z.mod_divide; [lia |]. apply Z.divide_mul_r. apply Z.mod_divide; lia. }
  lia.
Qed.
Lemma nodiv_odd n : n mod 2 = 1 -> nodiv n 3.
Proof. intros H d Hd. assert (d = 2) as -> by lia. intros C. apply Z.mod_divide in C; lia. Qed.
Lemma nodiv_one k : nodiv 1 k.
Proof. intros d Hd [c C]. assert (c <> 0) by nia. nia. Qed.

Lemma prime_of_nodiv n k : 2 <= n -> 0 <= k -> nodiv n k -> n < k * k -> prime n.
Proof.
  intros Hn Hk H Hlt. apply prime_alt. split; [lia |]. intros d Hd [e E].
  assert (He : 1 < e < n) by nia.
  destruct (Z_lt_ge_dec d k) as [C | C].
  - apply (H d ltac:(lia)). exists e. auto.
  - destruct (Z_lt_ge_dec e k) as [D | D].
    + apply (H e ltac:(lia)). exists d. lia.
    + assert (k * k <= e * d) by (apply Z.mul_le_mono_nonneg; lia). lia.
Qed.
Lemma not_prime_div n d : 2 <= d < n -> (d | n) -> ~ prime n.
Proof. intros Hd Hdn Hp. apply prime_alt in Hp as [_ Hp]. apply (Hp d); auto; lia. Qed.
Lemma div_prime_nodiv n d : 2 <= d -> nodiv n d -> (d | n) -> prime d.
Proof.
  intros Hd H Hdn. apply prime_alt. split; [lia |]. intros e He C. apply (H e ltac:(lia)).
  now apply Z.divide_trans with d.
Qed.
Lemma mod_eq0_dvd n d : 0 < d -> (n mod d = 0 <-> (d | n)).
Proof. intros. apply Z.mod_divide. lia. Qed.

(** ** is_prime *)
Lemma prime_small_spec n s : 3 <= n -> n mod 2 = 1 -> 0 <= s -> s * s <= n -> n < (s + 1) * (s + 1) ->
  s + 1 < 4294967296 ->
  returns (loopn 32 (prime_small n (s + 1)) 3) (fun b => b = true <-> prime n).
Proof.
  intros Hn Ho Hs0 Hs1 Hs2 Hs.
  apply (loopn_spec (prime_small n (s + 1)) (fun d => 3 <= d < 4294967296 /\ d mod 2 = 1 /\ nodiv n d)
    (fun _ b => b = true <-> prime n) (fun d => 4294967296 - d)).
  - intros g d (Hd & Hdo & Hnd) IH. unfold prime_small.
    destruct (Z.ltb_spec d (s + 1)) as [C | C].
    + rewrite remw_ok by lia. cbn [bind]. destruct (Z.eqb_spec (n mod d) 0) as [E | E].
      * apply returns_ok. split; [discriminate |]. intros Hp. exfalso. apply mod_eq0_dvd in E; [| lia].
        apply (not_prime_div n d); auto. nia.
      * rewrite mod_eq0_dvd in E by lia.
        rewrite addw_ok by (change (2 ^ 32) with 4294967296; lia). cbn [bind].
        apply IH; [| lia]. splits; try lia. now apply nodiv_odd_step.
    + apply returns_ok. split; auto. intros _. apply (prime_of_nodiv n (s + 1)); try lia.
      apply nodiv_mono with d; auto.
  - splits; try lia. now apply nodiv_odd.
  - change (2 ^ Z.of_nat 32) with 4294967296. lia.
Qed.

Lemma prime_big_spec n d0 : 3 <= n -> n mod 2 = 1 -> d0 = 4294967297 -> nodiv n d0 -> 9223372036854775808 <= n ->
  returns (loopn (ufuel (uof n)) (prime_big (uof n)) (uof d0)) (fun b => b = true <-> prime n).
Proof.
  intros Hn Ho Hd0 Hnd0 Hbig.
  apply (loopn_spec (prime_big (uof n)) (fun l => exists d, l = uof d /\ 3 <= d <= n + 2 /\ d mod 2 = 1 /\ nodiv n d)
    (fun _ b => b = true <-> prime n) (fun l => n + 2 - uval l)).
  - intros g l (d & -> & Hd & Hdo & Hnd) IH. unfold prime_big.
    rewrite Emul by lia. cbn [bind]. rewrite Eleq by (try apply Z.square_nonneg; lia).
    destruct (Z.leb_spec (d * d) n) as [C | C].
    + rewrite Erem by lia. cbn [bind].
      assert (d < n) by nia.
      rewrite Eis_zero by (apply Z.mod_pos_bound; lia).
      destruct (Z.eqb_spec (n mod d) 0) as [E | E].
      * apply returns_ok. split; [discriminate |]. intros Hp. exfalso. apply mod_eq0_dvd in E; [| lia].
        apply (not_prime_div n d); auto. lia.
      * rewrite mod_eq0_dvd in E by lia.
        rewrite Eadd_u32 by lia. cbn [bind].
        apply IH; [| rewrite !uof_uval by lia; lia]. exists (d + 2). splits; auto; try lia. now apply nodiv_odd_step.
    + apply returns_ok. split; auto. intros _. apply (prime_of_nodiv n d); auto; lia.
  - exists d0. splits; auto; subst; lia || reflexivity.
  - rewrite uof_uval by lia. destruct (len_uof_bounds n ltac:(lia)) as (_ & H & _). rewrite BB_pow2 in H.
    assert (4 * n < 2 ^ Z.of_nat (ufuel (uof n))); [| lia].
    eapply Z.lt_le_trans with (2 ^ (2 + 32 * Z.of_nat (length (uof n)))).
    + rewrite Z.pow_add_r by lia. lia.
    + apply Z.pow_le_mono_r; unfold ufuel; lia.
Qed.

Lemma nodiv_skip n : n mod 2 = 1 -> nodiv n 4294967295 -> nodiv n 4294967297.
Proof.
  intros Ho H. apply (nodiv_odd_step n 4294967295); auto. intros C.
  apply (H 3 ltac:(lia)). apply Z.divide_trans with 4294967295; auto. now exists 1431655765.
Qed.

Lemma prime_mid_spec n : 9223372036854775808 <= n -> n mod 2 = 1 -> Z.of_nat (length (uof n)) < 4294967296 ->
  returns (loopn 32 (prime_mid (uof n)) (4294967295 / 2 - 1, 3)) (fun b => b = true <-> prime n).
Proof.
  intros Hn Ho HL.
  apply (loopn_spec (prime_mid (uof n)) (fun p => 0 <= fst p <= 2147483646 /\ snd p = 4294967295 - 2 * fst p /\ nodiv n (snd p))
    (fun _ b => b = true <-> prime n) fst).
  - intros g (i, d) (Hi & Hd & Hnd) IH. cbn [fst snd] in *. unfold prime_mid.
    destruct (Z.ltb_spec 0 i) as [C | C].
    + rewrite Erem_u32 by lia. cbn [bind]. rewrite Eis_zero by (apply Z.mod_pos_bound; lia).
      destruct (Z.eqb_spec (n mod d) 0) as [E | E].
      * apply returns_ok. split; [discriminate |]. intros Hp. exfalso. apply mod_eq0_dvd in E; [| lia].
        apply (not_prime_div n d); auto. lia.
      * rewrite mod_eq0_dvd in E by lia.
        rewrite addw_ok by (change (2 ^ 32) with 4294967296; lia). cbn [bind].
        apply IH; [| cbn [fst]; lia]. cbn [fst snd]. splits; try lia. apply nodiv_odd_step; auto. lia.
    + change (remw 4294967295 2) with (Ok 1). cbn [bind].
      change (addw 64 4294967295 1) with (Ok 4294967296). cbn [bind].
      change (addw 64 4294967296 1) with (Ok 4294967297). cbn [bind].
      change (ufrom_u64 4294967297) with (uof 4294967297).
      apply prime_big_spec; auto; try lia. apply nodiv_skip; auto.
      replace 4294967295 with d by lia. auto.
  - cbn [fst snd]. change (4294967295 / 2) with 2147483647. splits; try lia. apply nodiv_odd; auto.
  - cbn [fst]. change (4294967295 / 2) with 2147483647. change (2 ^ Z.of_nat 32) with 4294967296. lia.
Qed.

Lemma uof_head n : 0 <= n -> getv (uof n) 0 = Ok (n mod 4294967296).
Proof. intros. reflexivity. Qed.
Lemma prime_even n : n mod 2 = 0 -> (prime n <-> n = 2).
Proof.
  intros H. apply Z.mod_divide in H; [| lia]. split.
  - intros Hp. pose proof (prime_ge_2 n Hp). destruct (Z.eq_dec n 2); auto. exfalso.
    apply (not_prime_div n 2); auto. lia.
  - intros ->. apply prime_2.
Qed.

Lemma Eis_prime n : 0 <= n -> top64 n < KSQ -> Z.of_nat (length (uof n)) < 4294967296 ->
  exists b, uis_prime (uof n) = Ok b /\ (b = true <-> prime n).
Proof.
  intros Hn HT HL. unfold uis_prime. rewrite uof_head by auto. cbn [bind].
  assert (Hm : (n mod 4294967296) mod 2 = n mod 2).
  { rewrite <- (Znumtheory.Zmod_div_mod 2 4294967296); try lia. now exists 2147483648. }
  rewrite Hm. destruct (Z.eqb_spec (n mod 2) 0) as [E | E].
  - eexists; split; [reflexivity |]. rewrite prime_even by auto. rewrite andb_true_iff, Z.eqb_eq, Nat.eqb_eq. split.
    + intros [H1 H2]. assert (n < BB 1) by (apply nlimbs_iff; lia). change (BB 1) with 4294967296 in *.
      rewrite Z.mod_small in H1; lia.
    + intros ->. auto.
  - rewrite Eis_one by auto. destruct (Z.eqb_spec n 1) as [-> | N1].
    + eexists; split; [reflexivity |]. split; [discriminate |]. intros Hp. apply not_prime_1 in Hp. contradiction.
    + assert (Ho : n mod 2 = 1) by (pose proof (Z.mod_pos_bound n 2 ltac:(lia)); lia).
      assert (3 <= n). { destruct (Z.eq_dec n 0) as [-> |]; [discriminate |]. destruct (Z.eq_dec n 2) as [-> |]; [discriminate | lia]. }
      rewrite Esqrt by auto. cbn [bind]. destruct (sqrt_bounds n Hn) as (T0 & T1 & T2). set (s := Z.sqrt n) in *. clearbody s.
      change uadd_u32 with uadd_u32_mut. rewrite Eadd_u32 by lia. cbn [bind]. rewrite Eto_u32 by lia.
      destruct (Z.ltb_spec (s + 1) 4294967296) as [C | C].
      * assert (Hn64 : n < 2 ^ 64).
        { change (2 ^ 64) with 18446744073709551616. assert ((s + 1) * (s + 1) <= 4294967295 * 4294967295) by (apply Z.mul_le_mono_nonneg; lia). lia. }
        rewrite Eto_u64 by auto. destruct (Z.ltb_spec n (2 ^ 64)); [| lia]. cbn [expect bind].
        apply prime_small_spec; auto.
      * assert (4294967295 * 4294967295 <= s * s) by (apply Z.mul_le_mono_nonneg; lia).
        apply prime_mid_spec; auto. lia.
Qed.
Lemma is_prime_panic k : uis_prime (repeat 0 k ++ [4294967295; 4294967295]) = if (k =? 0)%nat then Panic else Ok false.
Proof.
  destruct k as [| k].
  - cbn [repeat app Nat.eqb]. unfold uis_prime. change ([4294967295; 4294967295]) with (repeat 0 0 ++ [4294967295; 4294967295]).
    rewrite sqrt_big_panic. reflexivity.
  - cbn [repeat app Nat.eqb]. unfold uis_prime. cbn [getv nth_error bind]. reflexivity.
Qed.

(** ** prime_factorial *)
Definition zprod (l : list Z) : Z := fold_right Z.mul 1 l.
Lemma zprod_app l k : zprod (l ++ k) = zprod l * zprod k.
Proof. induction l as [| x l IH]; cbn [app zprod fold_right]; [fold (zprod k); lia |]. fold (zprod (l ++ k)). fold (zprod l). rewrite IH. ring. Qed.
Lemma ss_snoc l k : StronglySorted Z.le l -> Forall (fun p => p <= k) l -> StronglySorted Z.le (l ++ [k]).
Proof.
  induction l as [| x l IH]; intros H F; cbn [app].
  - repeat constructor.
  - inversion H; subst. inversion F; subst. constructor; auto. apply Forall_app. split; auto.
Qed.

(** [a] is what is left of [n] after dividing out the sorted primes [l], none above [k] *)
Definition pinv (n k a : Z) (l : list Z) : Prop :=
  1 <= a /\ a * zprod l = n /\ Forall prime l /\ StronglySorted Z.le l /\ Forall (fun p => p <= k) l.
Lemma pinv_mono n k j a l : pinv n k a l -> k <= j -> pinv n j a l.
Proof.
  intros (H1 & H2 & H3 & H4 & H5) Hk. repeat (split; auto). eapply Forall_impl; [| exact H5]. cbn. intros; lia.
Qed.
Lemma pinv_snoc n k a l : pinv n k a l -> prime k -> (k | a) -> pinv n k (a / k) (l ++ [k]) /\ a = a / k * k /\ a / k < a.
Proof.
  intros (H1 & H2 & H3 & H4 & H5) Hp [c C]. pose proof (prime_ge_2 k Hp).
  assert (E : a / k = c) by (rewrite C; apply Z.div_mul; lia). rewrite E. splits; auto.
  - assert (0 < c) by nia. split; [lia |]. splits.
    + rewrite zprod_app. cbn. rewrite <- H2, C. ring.
    + apply Forall_app. auto.
    + now apply ss_snoc.
    + apply Forall_app. split; auto. constructor; auto. lia.
  - nia.
Qed.

Lemma ufuel_lt a b : 0 <= a <= b -> 4 * a < 2 ^ Z.of_nat (ufuel (uof b)).
Proof.
  intros Hab. destruct (len_uof_bounds b ltac:(lia)) as (_ & H & _). rewrite BB_pow2 in H.
  eapply Z.lt_le_trans with (2 ^ (2 + 32 * Z.of_nat (length (uof b)))).
  - rewrite Z.pow_add_r by lia. lia.
  - apply Z.pow_le_mono_r; unfold ufuel; lia.
Qed.

Lemma pf_two_spec n : 1 <= n ->
  returns (loopn (ufuel (uof n)) pf_two (uof n, []))
    (fun p => exists a l, p = (uof a, map uof l) /\ pinv n 2 a l /\ nodiv a 3).
Proof.
  intros Hn.
  apply (loopn_spec pf_two (fun p => exists a l, p = (uof a, map uof l) /\ pinv n 2 a l)
    (fun _ p => exists a l, p = (uof a, map uof l) /\ pinv n 2 a l /\ nodiv a 3) (fun p => uval (fst p))).
  - intros g p (a & l & -> & HI) IH. unfold pf_two. pose proof HI as (Ha & _).
    rewrite Egt_u32 by lia. cbn [bind].
    destruct (Z.ltb_spec 1 a) as [C | C].
    + change 2 with (2 ^ 1) at 1. rewrite Erem_pow2 by lia. cbn [bind]. change (2 ^ 1) with 2.
      rewrite Eis_zero by (apply Z.mod_pos_bound; lia).
      destruct (Z.eqb_spec (a mod 2) 0) as [E | E].
      * apply Z.mod_divide in E; [| lia]. rewrite Ediv_u32 by lia. cbn [bind].
        destruct (pinv_snoc n 2 a l HI prime_2 E) as (H1 & H2 & H3). pose proof H1 as (H4 & _).
        apply IH.
        -- exists (a / 2), (l ++ [2]). split; auto. rewrite map_app. reflexivity.
        -- cbn [fst]. rewrite !uof_uval by lia. lia.
      * apply returns_ok. exists a, l. splits; auto. apply nodiv_odd. pose proof (Z.mod_pos_bound a 2 ltac:(lia)). lia.
    + apply returns_ok. exists a, l. splits; auto. replace a with 1 by lia. apply nodiv_one.
  - exists n, []. split; auto. split; auto. cbn. splits; auto; try lia. constructor.
  - cbn [fst]. rewrite uof_uval by lia. pose proof (ufuel_lt n n ltac:(lia)). lia.
Qed.

Lemma pf_div32_spec n div a l : 3 <= div < 4294967296 -> Z.of_nat (length (uof a)) < 4294967296 ->
  pinv n div a l -> nodiv a div ->
  returns (loopn (ufuel (uof a)) (pf_div32 div) (uof a, map uof l))
    (fun p => exists a' l', p = (uof a', map uof l') /\ a' <= a /\ pinv n div a' l' /\ nodiv a' (div + 1) /\ (a' | a) /\
       (forall m, (m | a) -> 0 < m -> nodiv m (div + 1) -> (m | a'))).
Proof.
  intros Hd HL HI Hnd.
  apply (loopn_spec (pf_div32 div) (fun p => exists b k, p = (uof b, map uof k) /\ b <= a /\ pinv n div b k /\ nodiv b div /\ (b | a) /\
       (forall m, (m | a) -> 0 < m -> nodiv m (div + 1) -> (m | b)))
    (fun _ p => exists a' l', p = (uof a', map uof l') /\ a' <= a /\ pinv n div a' l' /\ nodiv a' (div + 1) /\ (a' | a) /\
       (forall m, (m | a) -> 0 < m -> nodiv m (div + 1) -> (m | a')))
    (fun p => uval (fst p))).
  - intros g p (b & k & -> & Hb & HIb & Hnb & Hba & Hm) IH. unfold pf_div32. pose proof HIb as (Hb1 & _).
    assert (Z.of_nat (length (uof b)) < 4294967296) by (pose proof (len_uof_mono b a ltac:(lia)); lia).
    rewrite Erem_u32 by lia. cbn [bind]. rewrite Eis_zero by (apply Z.mod_pos_bound; lia).
    destruct (Z.eqb_spec (b mod div) 0) as [E | E].
    + apply mod_eq0_dvd in E; [| lia]. rewrite Ediv_u32 by lia. cbn [bind].
      assert (Hp : prime div) by (apply (div_prime_nodiv b); auto; lia).
      destruct (pinv_snoc n div b k HIb Hp E) as (H1 & H2 & H3). pose proof H1 as (H4 & _).
      assert (Hdvd : (b / div | b)) by (exists div; lia).
      apply IH.
      * exists (b / div), (k ++ [div]). splits; auto; try lia.
        -- rewrite map_app. cbn [map]. rewrite (uof_small div) by lia. reflexivity.
        -- apply nodiv_dvd with b; auto.
        -- now apply Z.divide_trans with b.
        -- intros m M1 M2 M3. specialize (Hm m M1 M2 M3). rewrite H2 in Hm.
           apply Gauss with div; [rewrite Z.mul_comm; auto |]. apply rel_prime_sym, prime_rel_prime; auto.
           intros C. apply (M3 div); auto. lia.
      * cbn [fst]. rewrite !uof_uval by lia. lia.
    + rewrite mod_eq0_dvd in E by lia. apply returns_ok. exists b, k. splits; auto. now apply nodiv_step.
  - exists a, l. splits; auto. lia. apply Z.divide_refl.
  - cbn [fst]. destruct HI. rewrite uof_uval by lia. pose proof (ufuel_lt a a ltac:(lia)). lia.
Qed.

Lemma nodiv_even a k : k mod 2 = 1 -> 1 <= k -> nodiv a 3 -> nodiv a (k + 1) -> nodiv a (k + 2).
Proof.
  intros Hk Hk1 H3 H. replace (k + 2) with (k + 1 + 1) by lia. apply nodiv_step; auto. intros C.
  apply (H3 2 ltac:(lia)). apply Z.divide_trans with (k + 1); auto. apply Z.mod_divide; [lia |].
  rewrite Z.add_mod, Hk by lia. reflexivity.
Qed.

Notation K32 := 4294967295 (only parsing).
Notation K64 := 18446744065119617025 (only parsing).

(** [rough n]: n has a divisor that is at least (2^32-1)^2 and free of factors below 2^32-1 *)
Definition rough (n : Z) : Prop := exists m, (m | n) /\ 4294967295 * 4294967295 <= m /\ nodiv m 4294967295.

Lemma pf_odd32_spec n a l : Z.of_nat (length (uof a)) < 4294967296 -> pinv n 2 a l -> nodiv a 3 -> ~ rough a ->
  returns (loopn 33 pf_odd32 (uof a, map uof l, 3))
    (fun p => exists a' l' k, p = (uof a', map uof l') /\ pinv n k a' l' /\ nodiv a' (k + 1) /\
       a' < K64 /\ (a' = 1 \/ prime a')).
Proof.
  intros HL HI Hnd Hr.
  apply (loopn_spec pf_odd32 (fun p => exists b k d, p = (uof b, map uof k, d) /\ b <= a /\ pinv n (d - 1) b k /\ nodiv b d /\ (b | a) /\
       3 <= d < 4294967296 /\ d mod 2 = 1)
    (fun _ p => exists a' l' k, p = (uof a', map uof l') /\ pinv n k a' l' /\ nodiv a' (k + 1) /\
       a' < K64 /\ (a' = 1 \/ prime a'))
    (fun p => 4294967296 - snd p)).
  - intros g p (b & k & d & -> & Hb & HIb & Hnb & Hba & Hd & Hdo) IH. unfold pf_odd32. pose proof HIb as (Hb1 & _).
    assert (Hdd : 0 <= d * d <= K64) by (apply (mul_bound d d 4294967295 4294967295); lia).
    rewrite mulw_ok by (change (2 ^ 64) with 18446744073709551616; lia). cbn [bind].
    rewrite ufrom_u64_spec by (change (2 ^ 64) with 18446744073709551616; lia).
    rewrite Egeq by lia.
    destruct (Z.leb_spec (d * d) b) as [C | C].
    + assert (Z.of_nat (length (uof b)) < 4294967296) by (pose proof (len_uof_mono b a ltac:(lia)); lia).
      destruct (pf_div32_spec n d b k ltac:(lia) ltac:(auto)) as (q & -> & a' & l' & -> & Ha' & HI' & Hn' & Hd' & _); auto.
      { apply pinv_mono with (d - 1); auto; lia. }
      cbn [bind]. assert (d <> 4294967295).
      { intros ->. apply Hr. exists b. splits; auto. }
      rewrite addw_ok by (change (2 ^ 32) with 4294967296; lia). cbn [bind].
      apply IH; [| cbn [snd]; lia].
      exists a', l', (d + 2). splits; auto; try lia.
      * apply pinv_mono with d; auto. lia.
      * apply nodiv_even; auto; try lia. apply nodiv_dvd with b; auto. apply nodiv_mono with d; auto. lia.
      * now apply Z.divide_trans with b.
    + apply returns_ok. exists b, k, (d - 1). splits; auto; try lia.
      * replace (d - 1 + 1) with d by lia. auto.
      * destruct (Z.eq_dec b 1); auto. right. apply (prime_of_nodiv b d); auto; lia.
  - exists a, l, 3. splits; auto; try lia. apply Z.divide_refl.
  - cbn [snd]. change (2 ^ Z.of_nat 33) with 8589934592. lia.
Qed.

Lemma pf_odd32_panic n a l : Z.of_nat (length (uof a)) < 4294967296 -> pinv n 2 a l -> nodiv a 3 -> rough a ->
  loopn 33 pf_odd32 (uof a, map uof l, 3) = Panic.
Proof.
  intros HL HI Hnd (m & Hm1 & Hm2 & Hm3).
  apply (loopn_rule pf_odd32 (fun p => exists b k d, p = (uof b, map uof k, d) /\ b <= a /\ pinv n (d - 1) b k /\ nodiv b d /\ (b | a) /\
       3 <= d < 4294967296 /\ d mod 2 = 1 /\ (m | b))
    (fun _ r => r = Panic)
    (fun p => 4294967296 - snd p)).
  - intros g p (b & k & d & -> & Hb & HIb & Hnb & Hba & Hd & Hdo & Hmb) IH. unfold pf_odd32. pose proof HIb as (Hb1 & _).
    assert (Hdd : 0 <= d * d <= K64) by (apply (mul_bound d d 4294967295 4294967295); lia).
    rewrite mulw_ok by (change (2 ^ 64) with 18446744073709551616; lia). cbn [bind].
    rewrite ufrom_u64_spec by (change (2 ^ 64) with 18446744073709551616; lia).
    rewrite Egeq by lia.
    assert (m <= b) by (apply Z.divide_pos_le; auto; lia).
    destruct (Z.leb_spec (d * d) b) as [C | C]; [| lia].
    assert (Z.of_nat (length (uof b)) < 4294967296) by (pose proof (len_uof_mono b a ltac:(lia)); lia).
    destruct (pf_div32_spec n d b k ltac:(lia) ltac:(auto)) as (q & -> & a' & l' & -> & Ha' & HI' & Hn' & Hd' & Hdm); auto.
    { apply pinv_mono with (d - 1); auto; lia. }
    cbn [bind]. destruct (Z.eq_dec d 4294967295) as [-> | Nd].
    + reflexivity.
    + rewrite addw_ok by (change (2 ^ 32) with 4294967296; lia). cbn [bind].
      apply IH; [| cbn [snd]; lia].
      exists a', l', (d + 2). splits; auto; try lia.
      * apply pinv_mono with d; auto. lia.
      * apply nodiv_even; auto; try lia. apply nodiv_dvd with b; auto. apply nodiv_mono with d; auto. lia.
      * now apply Z.divide_trans with b.
      * apply Hdm; auto; try lia. apply nodiv_mono with 4294967295; auto. lia.
  - exists a, l, 3. splits; auto; try lia. apply Z.divide_refl.
  - cbn [snd]. change (2 ^ Z.of_nat 33) with 8589934592. lia.
Qed.

Lemma zprod_pos l : Forall prime l -> 0 < zprod l.
Proof.
  induction 1 as [| p l Hp Hl IH]; cbn [zprod fold_right]; [lia |]. fold (zprod l). pose proof (prime_ge_2 p Hp). nia.
Qed.
Lemma zprod_rough n k a l : pinv n k a l -> k <= 2 -> rough n <-> rough a.
Proof.
  intros (H1 & H2 & H3 & H4 & H5) Hk. split; intros (m & Hm1 & Hm2 & Hm3).
  - exists m. splits; auto. rewrite <- H2 in Hm1. clear H2 H4. induction l as [| p l IH].
    + cbn in Hm1. now rewrite Z.mul_1_r in Hm1.
    + inversion H3; subst. inversion H5; subst. apply IH; auto. cbn [zprod fold_right] in Hm1. fold (zprod l) in Hm1.
      apply Gauss with p. { now replace (p * (a * zprod l)) with (a * (p * zprod l)) by ring. }
      apply rel_prime_sym, prime_rel_prime; auto. intros C. apply (Hm3 p); auto. pose proof (prime_ge_2 p ltac:(auto)). lia.
  - exists m. splits; auto. rewrite <- H2. now apply Z.divide_mul_l.
Qed.

Lemma Epf n : 1 <= n -> Z.of_nat (length (uof n)) < 4294967296 -> ~ rough n ->
  exists l, uprime_factorial (uof n) = Ok (map uof l) /\ zprod l = n /\ StronglySorted Z.le l /\
    (2 <= n -> Forall prime l) /\ (n = 1 -> l = [1]).
Proof.
  intros Hn HL Hr. unfold uprime_factorial.
  destruct (pf_two_spec n Hn) as (p & -> & a & l & -> & HI & Hnd). cbn [bind].
  pose proof HI as (Ha & Han & Hp & _).
  assert (Hle : a <= n) by (pose proof (zprod_pos l Hp); nia).
  assert (Hra : ~ rough a) by (rewrite <- (zprod_rough n 2 a l HI); auto; lia).
  destruct (pf_odd32_spec n a l) as (p & -> & a' & l' & k & -> & HI' & Hnd' & Ha' & Hpr); auto.
  { pose proof (len_uof_mono a n ltac:(lia)). lia. }
  cbn [bind]. pose proof HI' as (Ha1 & Ha2 & Ha3 & Ha4 & Ha5).
  assert (E : loopn (ufuel (uof a')) pf_big (uof a', map uof l', ufrom_u32 4294967295) = Ok (uof a', map uof l')).
  { match goal with |- loopn ?n ?F ?x = _ => destruct (loopn_unfold F n x) as [g ->] end. unfold pf_big. change (ufrom_u32 4294967295) with (uof 4294967295).
    rewrite Emul by lia. cbn [bind]. change (4294967295 * 4294967295) with K64. rewrite Egeq by lia.
    destruct (Z.leb_spec K64 a'); [lia | reflexivity]. }
  rewrite E. cbn [bind]. rewrite Egt_u32 by lia. cbn [bind].
  destruct (Z.ltb_spec 1 a') as [C | C]; cbn [orb].
  - destruct Hpr as [-> | Hpr]; [lia |].
    exists (l' ++ [a']). rewrite map_app. splits; auto.
    + rewrite zprod_app. cbn. lia.
    + apply ss_snoc; auto. eapply Forall_impl; [| exact Ha5]. cbn. intros x Hx.
      apply Z.nlt_ge. intros D. apply (Hnd' a'); [lia |]. apply Z.divide_refl.
    + intros. apply Forall_app. auto.
    + intros ->. exfalso. assert (0 < zprod l') by now apply zprod_pos. nia.
  - assert (a' = 1) as -> by lia. destruct l' as [| q l'].
    + cbn in Ha2. subst n. exists [1]. splits; auto. repeat constructor. intros; lia.
    + cbn [map length Nat.eqb]. exists (q :: l'). splits; auto. lia.
      intros ->. exfalso. cbn [zprod fold_right] in Ha2. fold (zprod l') in Ha2.
      inversion Ha3; subst. pose proof (prime_ge_2 q ltac:(auto)). assert (0 < zprod l') by now apply zprod_pos. nia.
Qed.
Lemma Epf_zero : uprime_factorial (uof 0) = Ok [uof 0].
Proof. vm_compute. reflexivity. Qed.
Lemma Epf_panic n : 1 <= n -> Z.of_nat (length (uof n)) < 4294967296 -> rough n -> uprime_factorial (uof n) = Panic.
Proof.
  intros Hn HL Hr. unfold uprime_factorial.
  destruct (pf_two_spec n Hn) as (p & -> & a & l & -> & HI & Hnd). cbn [bind].
  pose proof HI as (Ha & Han & Hp & _).
  assert (Hle : a <= n) by (pose proof (zprod_pos l Hp); nia).
  assert (Hra : rough a) by (rewrite <- (zprod_rough n 2 a l HI); auto; lia).
  rewrite (pf_odd32_panic n a l); auto. pose proof (len_uof_mono a n ltac:(lia)). lia.
Qed.
