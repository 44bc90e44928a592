(** Scientific notation of unsigned numbers. *)
From Verif Require Import Base USpec UFacts UBig UAddSub UMul UDiv UEq UFun UPow USqrt UPrime SSpec UStr UStrP.

Lemma sci_digits_spec x : 0 <= x < 18446744073709551616 ->
  loopn 64 sci_digits_body (x, [], 0) = Ok (if x =? 0 then ([], 0) else (rev (zdigits 10 x), Z.of_nat (length (zdigits 10 x)))).
Proof.
  intros Hx.
  enough (returns (loopn 64 sci_digits_body (x, [], 0)) (fun p => p = if x =? 0 then ([], 0) else (rev (zdigits 10 x), Z.of_nat (length (zdigits 10 x))))) as (p & -> & ->) by reflexivity.
  apply (loopn_spec sci_digits_body
    (fun s => let '(m, ds, e) := s in 0 <= m /\ e = Z.of_nat (length ds) /\ (m > 0 -> zdigits 10 x = zdigits 10 m ++ rev ds) /\
       (m = 0 -> if x =? 0 then ds = [] else zdigits 10 x = rev ds))
    (fun _ p => p = if x =? 0 then ([], 0) else (rev (zdigits 10 x), Z.of_nat (length (zdigits 10 x)))) (fun s => fst (fst s))).
  - intros g ((m, ds), e) (H1 & H2 & H3 & H4) IH. unfold sci_digits_body. destruct (Z.ltb_spec 0 m) as [C | C].
    + apply IH.
      * splits; auto.
        -- apply Z.div_pos; lia.
        -- rewrite app_length. cbn [length]. lia.
        -- intros. rewrite H3 by lia. rewrite (zdigits_eq 10 m) by lia. destruct (Z.ltb_spec m 10) as [D | D].
           ++ rewrite Z.div_small in * by lia. lia.
           ++ rewrite rev_app_distr, <- app_assoc. reflexivity.
        -- intros D. assert (Hm10 : m < 10) by (apply Z.div_small_iff in D; lia).
           destruct (Z.eqb_spec x 0) as [-> | N].
           ++ exfalso. assert (length (zdigits 10 0) = 1)%nat by reflexivity. specialize (H3 ltac:(lia)).
              rewrite (zdigits_eq 10 m) in H3 by lia. destruct (Z.ltb_spec m 10); [| lia].
              change (zdigits 10 0) with [0] in H3. cbn in H3. inversion H3. lia.
           ++ rewrite H3, rev_app_distr by lia. rewrite (zdigits_eq 10 m) by lia. destruct (Z.ltb_spec m 10); [| lia].
              rewrite Z.mod_small by lia. reflexivity.
      * cbn [fst]. split; [apply Z.div_pos; lia | apply Z.div_lt; lia].
    + apply returns_ok. assert (m = 0) as -> by lia. specialize (H4 eq_refl). destruct (Z.eqb_spec x 0).
      * subst. reflexivity.
      * rewrite H4, rev_involutive, rev_length. subst. reflexivity.
  - splits; auto; try lia.
    + intros. now rewrite app_nil_r.
    + intros ->. reflexivity.
  - cbn [fst]. change (2 ^ Z.of_nat 64) with 18446744073709551616. lia.
Qed.

(** popping: [t0] over the length limit, then [t1], all zeros *)
Lemma sci_pop_spec max : (1 <= max)%nat -> forall rd, rd <> [] ->
  exists t0 t1, rd = t0 ++ t1 ++ sci_pop max rd /\ length t0 = (length rd - max)%nat /\ Forall (fun d => d = 0) t1 /\
    sci_pop max rd <> [] /\ (length (sci_pop max rd) <= max)%nat /\ (length (sci_pop max rd) = 1%nat \/ hd 0 (sci_pop max rd) <> 0).
Proof.
  intros Hm. induction rd as [| d t IH]; intros H; [congruence |]. cbn [sci_pop].
  destruct (Nat.ltb_spec max (length (d :: t))) as [C | C]; cbn [orb].
  - assert (Ht : t <> []) by (destruct t; [cbn in C; lia | discriminate]). destruct (IH Ht) as (t0 & t1 & E & E1 & E2 & E3).
    exists (d :: t0), t1. split. { cbn [app]. f_equal. exact E. } split. { cbn [length] in *. lia. } auto.
  - destruct (Nat.ltb_spec 1 (length (d :: t))) as [D | D]; cbn [andb].
    + destruct (Z.eqb_spec d 0) as [-> | N].
      * assert (Ht : t <> []) by (destruct t; [cbn in D; lia | discriminate]). destruct (IH Ht) as (t0 & t1 & E & E1 & E2 & E3).
        assert (length t0 = 0)%nat by (cbn [length] in *; lia). destruct t0; [| discriminate].
        exists [], (0 :: t1). split. { cbn [app] in *. f_equal. exact E. } split; [cbn [length] in *; lia |]. auto.
      * exists [], []. splits; auto; try (cbn [length] in *; lia).
    + exists [], []. splits; auto; try (cbn [length] in *; lia).
Qed.

Lemma zval_lin b ds acc : zval b acc ds = acc * b ^ Z.of_nat (length ds) + zval b 0 ds.
Proof.
  revert acc. induction ds as [| d ds IH]; intros; cbn [zval length].
  - change (b ^ Z.of_nat 0) with 1. lia.
  - rewrite IH, (IH (0 * b + d)), pow_S. ring.
Qed.
Lemma zval_bounds b ds : 1 <= b -> Forall (fun d => 0 <= d < b) ds -> 0 <= zval b 0 ds < b ^ Z.of_nat (length ds).
Proof.
  intros Hb. induction 1 as [| d ds Hd Hds IH]; cbn [zval length].
  - change (b ^ Z.of_nat 0) with 1. lia.
  - rewrite zval_lin, pow_S. assert (0 <= b ^ Z.of_nat (length ds)) by (apply Z.pow_nonneg; lia). nia.
Qed.
Lemma zval_zeros b ds : Forall (fun d => d = 0) ds -> zval b 0 ds = 0.
Proof. induction 1 as [| d ds -> Hds IH]; auto. Qed.

Lemma zdigits_len n : 1 <= n -> 10 ^ (Z.of_nat (length (zdigits 10 n)) - 1) <= n < 10 ^ Z.of_nat (length (zdigits 10 n)).
Proof.
  intros Hn. pose proof (zdigits_digits 10 n ltac:(lia) ltac:(lia)) as Hd. pose proof (zdigits_val 10 n ltac:(lia) ltac:(lia)) as Hv.
  pose proof (zval_bounds 10 _ ltac:(lia) Hd) as Hb. rewrite Hv in Hb. split; [| lia].
  destruct (zdigits 10 n) as [| d ds] eqn:E. { exfalso. revert E. apply zdigits_nonnil; lia. }
  cbn [length]. replace (Z.of_nat (S (length ds)) - 1) with (Z.of_nat (length ds)) by lia.
  cbn [zval] in Hv. rewrite zval_lin in Hv. apply Forall_cons_iff in Hd as [Hd1 Hd2]. pose proof (zval_bounds 10 ds ltac:(lia) Hd2).
  assert (d <> 0). { intros ->. destruct (zdigits_hd 10 n ds ltac:(lia) ltac:(lia) E). lia. }
  assert (0 < 10 ^ Z.of_nat (length ds)) by (apply Z.pow_pos_nonneg; lia). clear - Hv H H0 H1 Hd1. rewrite <- Hv.
  generalize dependent (10 ^ Z.of_nat (length ds)). generalize dependent (zval 10 0 ds). intros. nia.
Qed.

(** what the kept digits and the exponent say about the number *)
Definition sci_ok (n : Z) (max : nat) (cut : nat) (ds : list Z) (e : Z) : Prop :=
  Forall (fun d => 0 <= d < 10) ds /\ hd 0 ds <> 0 /\ (1 <= length ds <= max)%nat /\
  (length ds = 1%nat \/ last ds 0 <> 0) /\
  0 <= e /\ 10 ^ e <= n < 10 ^ (e + 1) /\ Z.of_nat (length ds) <= e + 1 /\
  let v := zval 10 0 ds * 10 ^ (e + 1 - Z.of_nat (length ds)) in
  v <= n < v + 10 ^ Z.max 0 (e + 1 - Z.of_nat (Nat.min max cut)).

Lemma last_rev_hd (l : list Z) : last (rev l) 0 = hd 0 l.
Proof. destruct l; auto. cbn [rev hd]. now rewrite last_last. Qed.

Lemma sci_parts_spec x max E n cut : 1 <= x < 18446744073709551616 -> (1 <= max)%nat -> 0 <= E ->
  x * 10 ^ E <= n < (x + 1) * 10 ^ E -> (0 < E -> 10 ^ (Z.of_nat cut - 1) <= x) ->
  exists ds e, sci_parts x max = Ok (ds, e) /\ 0 <= e /\ sci_ok n max cut ds (e + E).
Proof.
  intros Hx Hm HE Hn HC. unfold sci_parts. rewrite sci_digits_spec by lia. destruct (Z.eqb_spec x 0); [lia |]. cbn [bind].
  rewrite rev_length. set (D := length (zdigits 10 x)).
  pose proof (zdigits_nonnil 10 x ltac:(lia) ltac:(lia)) as Hnn.
  assert (HD : (1 <= D)%nat) by (unfold D; destruct (zdigits 10 x); [congruence | cbn; lia]).
  destruct (Nat.ltb_spec 0 D); [| lia].
  eexists _, _. split; [reflexivity |]. split; [lia |].
  pose proof (zdigits_len x ltac:(lia)) as HL. fold D in HL.
  destruct (sci_pop_spec max Hm (rev (zdigits 10 x))) as (t0 & t1 & P1 & P2 & P3 & P4 & P5 & P6).
  { intros C. apply Hnn. rewrite <- (rev_involutive (zdigits 10 x)), C. reflexivity. }
  set (r := sci_pop max (rev (zdigits 10 x))) in *. rewrite rev_length in P2. fold D in P2.
  assert (Ez : zdigits 10 x = rev r ++ rev t1 ++ rev t0).
  { rewrite <- (rev_involutive (zdigits 10 x)), P1, !rev_app_distr, app_assoc. reflexivity. }
  pose proof (zdigits_digits 10 x ltac:(lia) ltac:(lia)) as Hd. rewrite Ez in Hd.
  apply Forall_app in Hd as [Hd1 Hd2]. apply Forall_app in Hd2 as [Hd2 Hd3].
  pose proof (zdigits_val 10 x ltac:(lia) ltac:(lia)) as Hv. rewrite Ez, !zval_app in Hv.
  rewrite zval_lin in Hv. rewrite (zval_lin 10 (rev t1)) in Hv.
  rewrite (zval_zeros 10 (rev t1)) in Hv by (apply Forall_rev; auto).
  pose proof (zval_bounds 10 (rev t0) ltac:(lia) Hd3) as Hb3.
  rewrite !rev_length in *.
  assert (HDl : (D = length r + length t1 + length t0)%nat).
  { unfold D. rewrite Ez, !app_length, !rev_length. lia. }
  set (V := zval 10 0 (rev r)) in *. set (w := zval 10 0 (rev t0)) in *.
  assert (Hp : forall k, 0 < 10 ^ Z.of_nat k) by (intros; apply Z.pow_pos_nonneg; lia).
  assert (HpE : 0 < 10 ^ E) by (apply Z.pow_pos_nonneg; lia).
  assert (Hr1 : (1 <= length r)%nat) by (destruct r; [congruence | cbn; lia]).
  unfold sci_ok. rewrite rev_length. splits; auto; try lia.
  - destruct (rev r) as [| d ds] eqn:Er. { apply (f_equal (@length Z)) in Er. rewrite rev_length in Er. cbn [length] in Er. lia. }
    cbn [hd]. intros ->. cbn [app] in Ez. destruct (zdigits_hd 10 x _ ltac:(lia) ltac:(lia) Ez). lia.
  - rewrite last_rev_hd. auto.
  - rewrite Z.pow_add_r by lia. eapply Z.le_trans with (x * 10 ^ E); [| lia]. apply Z.mul_le_mono_nonneg_r; lia.
  - replace (Z.of_nat D - 1 + E + 1) with (Z.of_nat D + E) by lia. rewrite Z.pow_add_r by lia.
    eapply Z.lt_le_trans with ((x + 1) * 10 ^ E); [lia |]. apply Z.mul_le_mono_nonneg_r; lia.
  - replace (Z.of_nat D - 1 + E + 1 - Z.of_nat (length r)) with (Z.of_nat (length t1) + Z.of_nat (length t0) + E) by lia.
    rewrite !Z.pow_add_r by lia. pose proof (Hp (length t0)). pose proof (Hp (length t1)).
    assert (x * 10 ^ E = (V * 10 ^ Z.of_nat (length t1) * 10 ^ Z.of_nat (length t0) + w) * 10 ^ E) by (rewrite <- Hv; ring).
    nia.
  - replace (Z.of_nat D - 1 + E + 1 - Z.of_nat (length r)) with (Z.of_nat (length t1) + Z.of_nat (length t0) + E) by lia.
    rewrite !Z.pow_add_r by lia. pose proof (Hp (length t0)). pose proof (Hp (length t1)).
    assert (A : (x + 1) * 10 ^ E <= (V * 10 ^ Z.of_nat (length t1) * 10 ^ Z.of_nat (length t0) + 10 ^ Z.of_nat (length t0)) * 10 ^ E).
    { apply Z.mul_le_mono_nonneg_r; lia. }
    assert (Bd : 10 ^ Z.of_nat (length t0) * 10 ^ E <= 10 ^ Z.max 0 (Z.of_nat D - 1 + E + 1 - Z.of_nat (Nat.min max cut))).
    { rewrite <- Z.pow_add_r by lia. apply Z.pow_le_mono_r; [lia |].
      destruct (Z.eq_dec E 0) as [-> | NE]; [lia |]. specialize (HC ltac:(lia)).
      assert (Z.of_nat cut <= Z.of_nat D).
      { assert (Z.of_nat cut - 1 < Z.of_nat D); [| lia]. destruct (Z.eq_dec (Z.of_nat cut) 0); [lia |].
        apply (Z.pow_lt_mono_r_iff 10); lia. }
      lia. }
    lia.
Qed.

Lemma sci_big_spec n : 1 <= n -> Z.of_nat (length (uof n)) < 2 ^ 58 ->
  returns (loopn (ufuel (uof n)) sci_big (uof n, 0))
    (fun p => exists m e, p = (uof m, e) /\ 1 <= m <= n /\ 0 <= e < 2 ^ 63 /\ m = n / 10 ^ e /\ (0 < e -> 10 ^ 10 <= m)).
Proof.
  change (2 ^ 58) with 288230376151711744. intros Hn HL. destruct (len_uof_bounds n ltac:(lia)) as (_ & L2 & _). rewrite BB_pow2 in L2.
  apply (loopn_spec sci_big (fun p => exists m e, p = (uof m, e) /\ 1 <= m <= n /\ 0 <= e /\ m = n / 10 ^ e /\ (0 < e -> 10 ^ 10 <= m))
    (fun _ p => exists m e, p = (uof m, e) /\ 1 <= m <= n /\ 0 <= e < 2 ^ 63 /\ m = n / 10 ^ e /\ (0 < e -> 10 ^ 10 <= m)) (fun p => uval (fst p))).
  - intros g p (m & e & -> & Hm & He & Hme & Hm10) IH. unfold sci_big.
    assert (Hpe : 0 < 10 ^ e) by (apply Z.pow_pos_nonneg; lia).
    assert (He63 : e < 9223372036854775808).
    { assert (10 ^ e <= n). { apply Z.nlt_ge. intros D. rewrite Z.div_small in Hme by lia. lia. }
      assert (2 ^ e <= 10 ^ e) by (apply Z.pow_le_mono_l; lia).
      assert (e < 32 * Z.of_nat (length (uof n))) by (apply (Z.pow_lt_mono_r_iff 2); [lia | lia | eapply Z.le_lt_trans; [eassumption |]; eapply Z.le_lt_trans; eassumption]). lia. }
    destruct (Nat.ltb_spec 8 (length (uof m))) as [C | C].
    + assert (Hbig : 115792089237316195423570985008687907853269984665640564039457584007913129639936 <= m).
      { change 115792089237316195423570985008687907853269984665640564039457584007913129639936 with (BB 8).
        apply Z.nlt_ge. intros D. assert (length (uof m) <= 8)%nat by (apply nlimbs_iff; lia). lia. }
      change P64 with (uof (10 ^ 64)). change udiv_mut with udiv. rewrite Ediv by (try (apply Z.pow_nonneg; lia); lia). cbn [bind].
      assert (Hd : 10 ^ 10 <= m / 10 ^ 64). { apply Z.div_le_lower_bound; [reflexivity |]. eapply Z.le_trans; [| exact Hbig]. vm_compute. discriminate. }
      assert (Hd2 : m / 10 ^ 64 < m) by (apply Z.div_lt; [lia | reflexivity]).
      rewrite addw_ok by (change (2 ^ 64) with 18446744073709551616; lia). cbn [bind].
      change (10 ^ 10) with 10000000000 in *.
      apply IH.
      * exists (m / 10 ^ 64), (e + 64). splits; auto; try lia.
        rewrite Hme, Z.pow_add_r by lia. apply Z.div_div; lia.
      * cbn [fst]. rewrite !uof_uval by lia. lia.
    + apply returns_ok. exists m, e. change (2 ^ 63) with 9223372036854775808. splits; auto; lia.
  - exists n, 0. splits; auto; try lia.
  - cbn [fst]. rewrite uof_uval by lia. pose proof (ufuel_lt n n ltac:(lia)). lia.
Qed.

Lemma sci_mid_spec n : 1 <= n -> Z.of_nat (length (uof n)) < 2 ^ 58 -> forall m0 e0,
  1 <= m0 <= n -> 0 <= e0 -> m0 = n / 10 ^ e0 -> (0 < e0 -> 10 ^ 10 <= m0) ->
  returns (loopn (ufuel (uof n)) sci_mid (uof m0, e0))
    (fun p => exists m e, p = (uof m, e) /\ 1 <= m < 18446744073709551616 /\ 0 <= e /\ m = n / 10 ^ e /\ (0 < e -> 10 ^ 10 <= m)).
Proof.
  change (2 ^ 58) with 288230376151711744. intros Hn HL m0 e0 H1 H2 H3 H4.
  destruct (len_uof_bounds n ltac:(lia)) as (_ & L2 & _). rewrite BB_pow2 in L2.
  apply (loopn_spec sci_mid (fun p => exists m e, p = (uof m, e) /\ 1 <= m <= n /\ 0 <= e /\ m = n / 10 ^ e /\ (0 < e -> 10 ^ 10 <= m))
    (fun _ p => exists m e, p = (uof m, e) /\ 1 <= m < 18446744073709551616 /\ 0 <= e /\ m = n / 10 ^ e /\ (0 < e -> 10 ^ 10 <= m)) (fun p => uval (fst p))).
  - clear m0 e0 H1 H2 H3 H4. intros g p (m & e & -> & Hm & He & Hme & Hm10) IH. unfold sci_mid.
    assert (Hpe : 0 < 10 ^ e) by (apply Z.pow_pos_nonneg; lia).
    assert (He63 : e < 9223372036854775808).
    { assert (10 ^ e <= n). { apply Z.nlt_ge. intros D. rewrite Z.div_small in Hme by lia. lia. }
      assert (2 ^ e <= 10 ^ e) by (apply Z.pow_le_mono_l; lia).
      assert (e < 32 * Z.of_nat (length (uof n))) by (apply (Z.pow_lt_mono_r_iff 2); [lia | lia | eapply Z.le_lt_trans; [eassumption |]; eapply Z.le_lt_trans; eassumption]). lia. }
    change (10 ^ 10) with 10000000000 in *.
    destruct (Nat.ltb_spec 2 (length (uof m))) as [C | C].
    + assert (Hbig : 18446744073709551616 <= m).
      { change 18446744073709551616 with (BB 2).
        apply Z.nlt_ge. intros D. assert (length (uof m) <= 2)%nat by (apply nlimbs_iff; lia). lia. }
      change udiv_u32_mut with udiv_u32. rewrite Ediv_u32 by lia. cbn [bind].
      assert (Hd : 10000000000 <= m / 1000000000) by (apply Z.div_le_lower_bound; lia).
      assert (Hd2 : m / 1000000000 < m) by (apply Z.div_lt; lia).
      rewrite addw_ok by (change (2 ^ 64) with 18446744073709551616; lia). cbn [bind].
      apply IH.
      * exists (m / 1000000000), (e + 9). splits; auto; try lia.
        rewrite Hme, Z.pow_add_r by lia. apply Z.div_div; lia.
      * cbn [fst]. rewrite !uof_uval by lia. lia.
    + apply returns_ok. exists m, e. splits; auto; try lia.
      change 18446744073709551616 with (BB 2). apply nlimbs_iff; try lia.
  - exists m0, e0. splits; auto; lia.
  - cbn [fst]. rewrite uof_uval by lia. pose proof (ufuel_lt m0 n ltac:(lia)). lia.
Qed.

Lemma Esci_parts n max : 1 <= n -> Z.of_nat (length (uof n)) < 2 ^ 58 -> (1 <= max)%nat ->
  exists ds e, uto_sci_parts (uof n) max = Ok (ds, e) /\ sci_ok n max 11 ds e.
Proof.
  intros Hn HL Hm. unfold uto_sci_parts.
  destruct (sci_big_spec n Hn HL) as (p & -> & m0 & e0 & -> & B1 & B2 & B3 & B4). cbn [bind].
  destruct (sci_mid_spec n Hn HL m0 e0 ltac:(lia) ltac:(lia) B3 B4) as (p & -> & m & e & -> & C1 & C2 & C3 & C4). cbn [bind].
  rewrite Eto_u64 by lia. change (2 ^ 64) with 18446744073709551616. destruct (Z.ltb_spec m 18446744073709551616); [| lia]. cbn [expect bind].
  assert (Hpe : 0 < 10 ^ e) by (apply Z.pow_pos_nonneg; lia).
  destruct (sci_parts_spec m max e n 11) as (ds & e1 & -> & D1 & D2).
  1-3: lia. { pose proof (div_bounds n (10 ^ e) Hpe) as Q. rewrite <- C3 in Q. nia. } { exact C4. }
  cbn [bind].
  change (2 ^ 58) with 288230376151711744 in HL.
  destruct (len_uof_bounds n ltac:(lia)) as (_ & L2 & _). rewrite BB_pow2 in L2.
  assert (e1 + e < 32 * Z.of_nat (length (uof n))).
  { destruct D2 as (_ & _ & _ & _ & _ & (D2 & _) & _). apply (Z.pow_lt_mono_r_iff 2); try lia.
    eapply Z.le_lt_trans; [| exact L2]. eapply Z.le_trans; [| exact D2]. apply Z.pow_le_mono_l; lia. }
  rewrite addw_ok by (change (2 ^ 64) with 18446744073709551616; lia). cbn [bind].
  exists ds, (e1 + e). rewrite (Z.add_comm e e1). auto.
Qed.

Lemma Esci_0 max : uto_scientific_notation (uof 0) max = Ok [48; 101; 48].
Proof. reflexivity. Qed.
