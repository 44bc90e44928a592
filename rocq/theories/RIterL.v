(** ln_iter: exact range reduction by a power of two, then the series. *)
From Coq Require Import Zquot Qpower Lqa Znumtheory.
From Verif Require Import Base USpec SSpec UFacts UBig UFun UStr UEq UPow USqrt ULog BBig BSpec BEq RBig RSpec REq RIeee RTab RIter ISpec RIterP RIterX.
Local Open Scope Z_scope.

Lemma bernoulli c m : 0 <= c -> 0 <= m -> c ^ m * (c + m) <= c * (c + 1) ^ m.
Proof.
  intros Hc. revert m. apply natlike_ind; [rewrite !Z.pow_0_r; lia |]. intros m Hm IH. rewrite !Z.pow_succ_r by auto.
  assert (0 <= c ^ m) by (now apply Z.pow_nonneg). assert ((c + 1) * (c ^ m * (c + m)) <= (c + 1) * (c * (c + 1) ^ m)) by nia. nia.
Qed.
Lemma bern28 W : W = 2 ^ 32 -> 16 * (2 ^ 28) ^ W <= (2 ^ 28 + 1) ^ W.
Proof.
  intros HW. assert (0 <= W) by lia. pose proof (bernoulli (2 ^ 28) W ltac:(lia) ltac:(lia)) as H1.
  assert (0 <= (2 ^ 28) ^ W) by (apply Z.pow_nonneg; lia).
  set (u := (2 ^ 28) ^ W) in *. set (v := (2 ^ 28 + 1) ^ W) in *. clearbody u v.
  subst W. change (2 ^ 28 + 2 ^ 32) with (2 ^ 28 * 17) in H1. nia.
Qed.
Lemma gap_one W c a b ra rb M m : 0 < W -> 0 < c -> 16 * c ^ W <= (c + 1) ^ W ->
  0 < a -> 0 < b -> 0 <= ra -> 0 <= rb -> 0 <= M -> 0 <= m -> a ^ W < 2 ^ (ra + 2) -> 2 ^ rb <= b ^ W ->
  ra + m * W < rb + M * W + W -> a * 2 ^ m * c <= 2 * (c + 1) * (b * 2 ^ M).
Proof.
  intros HW Hc HB Ha Hb Hra Hrb HM Hm A1 B1 HR.
  assert (HMW : 0 <= M * W) by (apply Z.mul_nonneg_nonneg; lia). assert (HmW : 0 <= m * W) by (apply Z.mul_nonneg_nonneg; lia).
  assert (PM : (2 ^ M) ^ W = 2 ^ (M * W)) by (now rewrite Z.pow_mul_r by lia).
  assert (Pm : (2 ^ m) ^ W = 2 ^ (m * W)) by (now rewrite Z.pow_mul_r by lia).
  assert (0 < 2 ^ m) by (apply Z.pow_pos_nonneg; lia). assert (0 < 2 ^ M) by (apply Z.pow_pos_nonneg; lia).
  destruct (Z_le_gt_dec (a * 2 ^ m * c) (2 * (c + 1) * (b * 2 ^ M))) as [| G]; auto. exfalso.
  assert (G' : (2 * (c + 1) * (b * 2 ^ M)) ^ W <= (a * 2 ^ m * c) ^ W).
  { apply Z.pow_le_mono_l. split; [| lia]. repeat apply Z.mul_nonneg_nonneg; lia. }
  rewrite !Z.pow_mul_l, PM, Pm in G'. clear G PM Pm.
  assert (0 < 2 ^ W) by (apply Z.pow_pos_nonneg; lia). assert (0 < c ^ W) by (apply Z.pow_pos_nonneg; lia).
  assert (Q1 : 0 < 2 ^ (M * W)) by (apply Z.pow_pos_nonneg; lia). assert (Q2 : 0 < 2 ^ (m * W)) by (apply Z.pow_pos_nonneg; lia).
  assert (0 < 2 ^ rb) by (apply Z.pow_pos_nonneg; lia).
  assert (R1 : 2 ^ W * (16 * c ^ W) * (2 ^ rb * 2 ^ (M * W)) <= 2 ^ W * (c + 1) ^ W * (b ^ W * 2 ^ (M * W))).
  { apply Z.mul_le_mono_nonneg; [repeat apply Z.mul_nonneg_nonneg; lia | apply Z.mul_le_mono_nonneg_l; lia
      | apply Z.mul_nonneg_nonneg; lia | apply Z.mul_le_mono_nonneg_r; lia]. }
  assert (R2 : a ^ W * 2 ^ (m * W) * c ^ W <= 2 ^ (ra + 2) * 2 ^ (m * W) * c ^ W).
  { apply Z.mul_le_mono_nonneg_r; [lia |]. apply Z.mul_le_mono_nonneg_r; lia. }
  assert (R3 : 2 ^ (W + 4 + rb + M * W) * c ^ W <= 2 ^ (ra + 2 + m * W) * c ^ W).
  { rewrite (Z.pow_add_r 2 (ra + 2)) by lia. rewrite (Z.pow_add_r 2 (W + 4 + rb)), (Z.pow_add_r 2 (W + 4)), (Z.pow_add_r 2 W) by lia.
    change (2 ^ 4) with 16. refine (Z.le_trans _ _ _ _ R2). refine (Z.le_trans _ _ _ _ G'). refine (Z.le_trans _ _ _ _ R1).
    apply Z.eq_le_incl. ring. }
  apply Z.mul_le_mono_pos_r in R3; [| lia]. apply Z.pow_le_mono_r_iff in R3; lia.
Qed.
(** accuracy of the estimate: [n q] and [d p] differ by a factor of at most [2 (1 + 2^-28)], where [p/q = 2^L] *)
Lemma log_gap W c n d rn rd L p q :
  0 < W -> 0 < c -> 16 * c ^ W <= (c + 1) ^ W -> 0 < n -> 0 < d -> 0 <= rn -> 0 <= rd ->
  2 ^ rn <= n ^ W -> n ^ W < 2 ^ (rn + 2) -> 2 ^ rd <= d ^ W -> d ^ W < 2 ^ (rd + 2) ->
  - W < rn - rd - W * L < W -> p = 2 ^ Z.max L 0 -> q = 2 ^ Z.max (- L) 0 ->
  n * q * c <= 2 * (c + 1) * (d * p) /\ d * p * c <= 2 * (c + 1) * (n * q).
Proof.
  intros HW Hc HB Hn Hd Hrn Hrd N1 N2 D1 D2 HL -> ->.
  assert (E : Z.max (- L) 0 = Z.max L 0 - L) by lia. rewrite E. assert (0 <= Z.max L 0 - L) by lia. assert (0 <= Z.max L 0) by lia.
  set (M := Z.max L 0) in *. clearbody M. replace (W * L) with (M * W - (M - L) * W) in HL by ring.
  split.
  - apply (gap_one W c n d rn rd); auto. lia.
  - apply (gap_one W c d n rd rn); auto. lia.
Qed.

Lemma odd_rel_prime a c : Z.odd a = true -> 0 <= c -> rel_prime a (2 ^ c).
Proof.
  intros H Hc. apply rel_prime_sym. revert c Hc. apply natlike_ind.
  - apply rel_prime_1.
  - intros c Hc IH. rewrite Z.pow_succ_r by auto. apply rel_prime_sym, rel_prime_mult; apply rel_prime_sym; auto.
    apply prime_rel_prime; [exact prime_2 |]. intros (k & ->). rewrite Z.odd_mul in H. cbn in H. now rewrite andb_false_r in H.
Qed.
Lemma Bdiv2 a : bdiv_i32_mut (bof a) 2 = Ok (bof (a ÷ 2)).
Proof. apply Bdiv_i32_mut; [unfold i32r; lia | lia]. Qed.
Lemma ln_scale_ok a b c : 0 < a -> 0 < b -> Z.gcd a b = 1 -> 0 <= c < 2 ^ 63 ->
  exists a' b', ln_scale (bof a) (bof b) c = Ok (bof a', bof b') /\ 0 < a' /\ 0 < b' /\ Z.gcd a' b' = 1 /\ a' * (b * 2 ^ c) = a * b'.
Proof.
  intros Ha Hb HG Hc. unfold ln_scale.
  match goal with |- context [loopn 64 ?F ?s] => pose proof (loopn_spec F
    (fun st => exists a1 c1, st = (bof a1, c1) /\ 0 < a1 /\ 0 <= c1 <= c /\ a = a1 * 2 ^ (c - c1))
    (fun _ st => exists a1 c1, st = (bof a1, c1) /\ 0 < a1 /\ 0 <= c1 <= c /\ a = a1 * 2 ^ (c - c1) /\ (c1 = 0 \/ Z.odd a1 = true))
    snd) as H end.
  destruct (fun h => H h 64%nat (bof a, c)) as (st & E & a1 & c1 & -> & Ha1 & Hc1 & Ea & Ho).
  - intros go st (a1 & c1 & -> & Ha1 & Hc1 & Ea) IH. destruct (Z.ltb_spec 0 c1).
    + pose proof (Brem_pow2 a1 1 ltac:(lia)) as R. change (2 ^ 1) with 2 in R. rewrite R. cbn [bind]. rewrite Bis_zero.
      destruct (Z.eqb_spec (Z.rem a1 2) 0) as [Z0 | N0].
      * unfold ssub. rewrite sres_ok by (change (2 ^ (64 - 1)) with (2 ^ 63); lia). cbn [bind]. rewrite Bdiv2. cbn [bind].
        pose proof (Z.quot_rem' a1 2). apply IH; [| cbn [snd]; lia]. exists (a1 ÷ 2), (c1 - 1). splits; auto; try lia.
        replace (c - (c1 - 1)) with (c - c1 + 1) by lia. rewrite Z.pow_add_r by lia. nia.
      * apply returns_ok. exists a1, c1. splits; auto; try lia. right. pose proof (Z.quot_rem' a1 2).
        pose proof (Z.rem_bound_pos a1 2 ltac:(lia) ltac:(lia)). rewrite Zodd_even_bool. rewrite Zeven_mod.
        rewrite <- Z.rem_mod_nonneg by lia. unfold Zeq_bool. destruct (Z.rem a1 2) as [| p |]; try lia. reflexivity.
    + apply returns_ok. exists a1, c1. splits; auto; lia.
  - exists a, c. splits; auto; try lia. rewrite Z.sub_diag. cbn. lia.
  - cbn [snd]. change (2 ^ Z.of_nat 64) with (2 ^ 64). lia.
  - rewrite E. cbn [bind]. clear E H.
    assert (G1 : Z.gcd a1 b = 1).
    { apply Zgcd_1_rel_prime. apply rel_prime_div with a. now apply Zgcd_1_rel_prime. exists (2 ^ (c - c1)). lia. }
    assert (G2 : Z.gcd a1 (b * 2 ^ c1) = 1).
    { destruct Ho as [-> | Ho]. now rewrite Z.mul_1_r. apply Zgcd_1_rel_prime, rel_prime_mult. now apply Zgcd_1_rel_prime. apply odd_rel_prime; auto. lia. }
    assert (EQ : a1 * (b * 2 ^ c) = a * (b * 2 ^ c1)).
    { subst a. replace c with (c - c1 + c1) at 1 by lia. rewrite Z.pow_add_r by lia. ring. }
    assert (0 < 2 ^ c1) by (apply Z.pow_pos_nonneg; lia).
    assert (FIN : forall b2 c2, 0 <= c2 < 2 ^ 63 -> c2 mod 32 <> 31 -> b2 * 2 ^ c2 = b * 2 ^ c1 ->
      (let* s := shlw 32 1 (Z.rem c2 32) in let* b := bmul_i32_mut (bof b2) (casts 32 s) in
       let b := bshift_left_mut b (Z.to_nat (Z.quot c2 32)) in Ok (bof a1, b)) = Ok (bof a1, bof (b * 2 ^ c1))).
    { intros b2 c2 Hc2 H31 E2. rewrite Z.rem_mod_nonneg by lia. pose proof (Z.mod_pos_bound c2 32 ltac:(lia)).
      assert (2 ^ (c2 mod 32) <= 2 ^ 30) by (apply Z.pow_le_mono_r; lia). assert (0 < 2 ^ (c2 mod 32)) by (apply Z.pow_pos_nonneg; lia).
      rewrite shlw_ok by lia. cbn [bind]. rewrite Z.mul_1_l.
      rewrite casts_small by (change (2 ^ (32 - 1)) with 2147483648; lia). rewrite Bmul_i32_mut by (unfold i32r; lia). cbn [bind].
      rewrite Bshl_mut, BB_pow2. do 3 f_equal. rewrite <- E2, <- Z.mul_assoc, <- Z.pow_add_r by lia. do 2 f_equal.
      rewrite Z2Nat.id by (apply Z.quot_pos; lia). rewrite Z.quot_div_nonneg by lia. pose proof (Z.div_mod c2 32). lia. }
    exists a1, (b * 2 ^ c1). splits; [| exact Ha1 | now apply Z.mul_pos_pos | exact G2 | exact EQ].
    rewrite (Z.rem_mod_nonneg c1) by lia. destruct (Z.eqb_spec (c1 mod 32) 31).
    + unfold ssub. rewrite sres_ok by (change (2 ^ (64 - 1)) with (2 ^ 63); lia). cbn [bind]. rewrite Bmul_i32_mut by (unfold i32r; lia). cbn [bind].
      pose proof (Z.div_mod c1 32 ltac:(lia)).
      apply FIN. lia.
      * replace (c1 - 1) with (30 + c1 / 32 * 32) by lia. rewrite Z.mod_add by lia. discriminate.
      * replace c1 with (c1 - 1 + 1) at 2 by lia. rewrite Z.pow_add_r by lia. ring.
    + apply FIN; auto. lia.
Qed.

Lemma Blog2_acc n W : W = 2 ^ 32 -> 1 <= n -> Z.of_nat (length (uof n)) < 2 ^ 27 ->
  exists r, blog2_accurate (bof n) = Ok (bof r) /\ 0 <= r < W * 2 ^ 32 /\ 2 ^ r <= n ^ W /\ n ^ W < 2 ^ (r + 2).
Proof.
  intros HW Hn Hl. destruct (Elog2_accurate n Hn Hl) as (r & E & Hr & R1 & R2).
  rewrite <- HW in R1, R2. exists r. unfold blog2_accurate. rewrite Bmag, Z.abs_eq, E by lia. cbn [bind].
  assert (0 < 2 ^ r) by (apply Z.pow_pos_nonneg; lia).
  splits; auto.
  - f_equal. now apply Bfrom_ubi.
  - apply (Z.pow_lt_mono_r_iff 2); [lia | nia |].
    apply (Z.le_lt_trans _ (n ^ W)); auto. replace (W * 2 ^ 32) with (2 ^ 32 * W) by lia. rewrite Z.pow_mul_r by lia.
    apply Z.pow_lt_mono_l; [lia |]. split; [lia |].
    pose proof (len_uof_bounds n ltac:(lia)) as (_ & Hub & _). apply (Z.lt_le_trans _ _ _ Hub). rewrite BB_pow2. apply Z.pow_le_mono_r; [lia |]. change (2 ^ 32) with (32 * 2 ^ 27). lia.
  - set (u := n ^ W) in *. clearbody u. rewrite !Z.pow_add_r in * by lia. change (2 ^ 2) with 4. change (2 ^ 1) with 2 in *. lia.
Qed.
Definition q2 : Q := 2%Q.
Lemma q2_pow L : (q2 ^ L == inject_Z (2 ^ Z.max L 0) / inject_Z (2 ^ Z.max (- L) 0))%Q.
Proof.
  unfold q2. destruct (Z_le_gt_dec 0 L).
  - rewrite Z.max_l, Z.max_r by lia. change (inject_Z (2 ^ 0)) with 1%Q. rewrite Zpower_Qpower by lia. change (inject_Z 2) with 2%Q. field.
  - rewrite Z.max_r, Z.max_l by lia. change (inject_Z (2 ^ 0)) with 1%Q. rewrite Zpower_Qpower by lia. change (inject_Z 2) with 2%Q.
    rewrite Qpower_opp. field. apply Qpower_not_0. discriminate.
Qed.
Lemma ln_term_SS a i : (ln_sum a (2 * i + 1) - qpw a (2 * i + 2) / inject_Z (2 * Z.of_nat i + 2) + qpw a (2 * i + 3) / inject_Z (2 * Z.of_nat i + 3)
  == ln_sum a (2 * (i + 1) + 1))%Q.
Proof.
  replace (2 * (i + 1) + 1)%nat with (S (S (2 * i + 1))) by lia. unfold ln_sum. cbn [qsum]. unfold ln_term.
  assert (S0 : sgn (2 * i + 1) = (-1)%Q). { unfold sgn. now rewrite Nat.add_1_r, Nat.even_succ, Nat.odd_mul. }
  rewrite (sgn_S (2 * i + 1)), S0. replace (2 * i + 1 + 1)%nat with (2 * i + 2)%nat by lia. replace (S (2 * i + 1) + 1)%nat with (2 * i + 3)%nat by lia.
  replace (inject_Z (2 * Z.of_nat i + 2)) with (qnat (2 * i + 2)) by (unfold qnat; f_equal; lia).
  replace (inject_Z (2 * Z.of_nat i + 3)) with (qnat (2 * i + 3)) by (unfold qnat; f_equal; lia).
  field. split; apply qnat_nz; lia.
Qed.
Lemma ln_loop a k : Z.of_nat k < 2 ^ 29 ->
  for_ k 0 (fun k '(x_iter, result) =>
    let* x_iter := rmul_mut x_iter (rof a) in
    let* t := rdiv_i32 x_iter (casts 32 (2 * k + 2)) in
    let* result := rsub_mut result t in
    let* x_iter := rmul_mut x_iter (rof a) in
    let* t := rdiv_i32 x_iter (casts 32 (2 * k + 3)) in
    let* result := radd_mut result t in
    Ok (x_iter, result)) (rof a, rof a) = Ok (rof (qpw a (2 * k + 1)), rof (ln_sum a (2 * k + 1))).
Proof.
  intros Hk. apply returns_eq'.
  eapply returns_weaken; [eapply (for_spec _ (fun i st => st = (rof (qpw a (2 * Z.to_nat i + 1)), rof (ln_sum a (2 * Z.to_nat i + 1))))) |].
  - change (2 * Z.to_nat 0 + 1)%nat with 1%nat. f_equal; apply rofF.
    unfold ln_sum, ln_term. cbn [qsum]. change (0 + 1)%nat with 1%nat. rewrite qpw_1. change (sgn 0) with 1%Q. change (qnat 1) with 1%Q. field.
  - intros j s Hj ->. rewrite Rmul_mut. cbn [bind]. rewrite !casts_small by (change (2 ^ (32 - 1)) with 2147483648; lia).
    rewrite Rdiv_i32 by (unfold i32r; lia). cbn [bind]. rewrite Rsub_mut. cbn [bind]. rewrite Rmul_mut. cbn [bind].
    rewrite Rdiv_i32 by (unfold i32r; lia). cbn [bind]. rewrite Radd_mut. cbn [bind]. apply returns_ok.
    replace (Z.to_nat (j + 1)) with (Z.to_nat j + 1)%nat by lia.
    assert (Ei : exists i, j = Z.of_nat i) by (exists (Z.to_nat j); lia). destruct Ei as (i & ->). rewrite !Nat2Z.id.
    assert (P2 : (qpw a (2 * i + 1) * a == qpw a (2 * i + 2))%Q). { replace (2 * i + 2)%nat with (S (2 * i + 1)) by lia. rewrite qpw_S. ring. }
    assert (P3 : (qpw a (2 * i + 2) * a == qpw a (2 * i + 3))%Q). { replace (2 * i + 3)%nat with (S (2 * i + 2)) by lia. rewrite qpw_S. ring. }
    f_equal; apply rofF; rewrite P2, P3. replace (2 * (i + 1) + 1)%nat with (2 * i + 3)%nat by lia. reflexivity. apply ln_term_SS.
  - intros s ->. replace (Z.to_nat (0 + Z.of_nat k)) with k by lia. reflexivity.
Qed.
Definition ln_delta : Q := 1 # 268435456.
Lemma qn_pos x : (0 < x)%Q -> 0 < qn x.
Proof. intros H. pose proof (qn_sgn x). assert (0 < Qnum x) by (unfold Qlt in H; cbn in H; lia). lia. Qed.
Lemma Qdiv_eq a b c d : ~ (b == 0)%Q -> ~ (d == 0)%Q -> (a * d == c * b)%Q -> (a / b == c / d)%Q.
Proof.
  intros Hb Hd H. setoid_replace (a / b)%Q with ((a * d) / (b * d))%Q by (field; auto). rewrite H. field; auto.
Qed.
Lemma ln_iter_ok x k : (0 < x)%Q -> Z.of_nat (length (uof (qn x))) < 2 ^ 27 -> Z.of_nat (length (uof (qd x))) < 2 ^ 27 -> (k <= 205)%nat ->
  exists L, - 2 ^ 32 <= L <= 2 ^ 32 /\
    ((1 # 2) <= x / q2 ^ L * (1 + ln_delta))%Q /\ (x / q2 ^ L <= 2 * (1 + ln_delta))%Q /\
    ln_iter (rof x) k = Ok (rof (ln_sum (x / q2 ^ L - 1) (2 * k + 1) + inject_Z L * ln2_sum (6 * k + 12))).
Proof.
  intros Hx L1 L2 Hk. pose proof (qn_pos x Hx) as Hn. assert (Hd : 0 < qd x) by lia.
  assert (HW : exists W, W = 2 ^ 32) by eauto. destruct HW as (W & HW).
  destruct (Blog2_acc (qn x) W HW ltac:(lia) L1) as (rn & En & Hrn & N1 & N2).
  destruct (Blog2_acc (qd x) W HW ltac:(lia) L2) as (rd & Ed & Hrd & D1 & D2).
  unfold ln_iter. rewrite Ris_neg. destruct (qltb_qlt x 0) as [F | _]; [exfalso; lra |].
  rewrite Ris_zero. destruct (qeqb_qeq x 0) as [F | _]; [exfalso; lra |].
  rewrite rnum_rof, rden_rof, En. cbn [bind]. rewrite Ed. cbn [bind]. rewrite Bsub. cbn [bind]. rewrite Bshr.
  change (BB 1) with (2 ^ 32). rewrite <- HW. set (L := (rn - rd) ÷ W).
  assert (W0 : 0 < W) by lia.
  pose proof (Z.quot_rem' (rn - rd) W) as QR. fold L in QR. pose proof (Z.rem_bound_abs (rn - rd) W ltac:(lia)) as QB.
  assert (HL : - 2 ^ 32 <= L <= 2 ^ 32).
  { clear -QR QB Hrn Hrd W0. nia. }
  rewrite Bto_i64. replace (in_s 64 L) with true by (unfold in_s; change (2 ^ (64 - 1)) with (2 ^ 63); lia). cbn [unwrap bind].
  rewrite sabs_ok by (change (2 ^ (64 - 1)) with (2 ^ 63); lia). cbn [bind].
  destruct (log_gap W (2 ^ 28) (qn x) (qd x) rn rd L (2 ^ Z.max L 0) (2 ^ Z.max (- L) 0)) as (G1 & G2); auto; try lia.
  { now apply bern28. }
  clear N1 N2 D1 D2 En Ed. exists L.
  assert (Ex : (x == inject_Z (qn x) / inject_Z (qd x))%Q).
  { rewrite (qred_eta x) at 1. rewrite Qmake_Qdiv. rewrite Z2Pos.id by lia. reflexivity. }
  assert (P0 : 0 < 2 ^ Z.max L 0) by (apply Z.pow_pos_nonneg; lia). assert (Q0 : 0 < 2 ^ Z.max (- L) 0) by (apply Z.pow_pos_nonneg; lia).
  assert (EL : (x / q2 ^ L == inject_Z (qn x * 2 ^ Z.max (- L) 0) / inject_Z (qd x * 2 ^ Z.max L 0))%Q).
  { transitivity (inject_Z (qn x) / inject_Z (qd x) / q2 ^ L)%Q. { rewrite <- Ex. reflexivity. }
    rewrite q2_pow, !inject_Z_mult. rewrite Zlt_Qlt in P0, Q0, Hd. change (inject_Z 0) with 0%Q in *. field. repeat split; intro F; rewrite F in *; lra. }
  rewrite <- HW in HL. refine (conj HL (conj _ (conj _ _))).
  - rewrite EL. unfold ln_delta. clear -G2 Hn Hd P0 Q0.
    set (u := qn x * 2 ^ Z.max (- L) 0) in *. set (v := qd x * 2 ^ Z.max L 0) in *.
    assert (0 < v) by (now apply Z.mul_pos_pos). clearbody u v. unfold Qle, Qmult, Qdiv, Qinv, Qplus, inject_Z. destruct v; try lia. cbn [Qnum Qden]. cbn [Qmult Qnum Qden]. lia.
  - rewrite EL. unfold ln_delta. clear -G1 Hn Hd P0 Q0.
    set (u := qn x * 2 ^ Z.max (- L) 0) in *. set (v := qd x * 2 ^ Z.max L 0) in *.
    assert (0 < v) by (now apply Z.mul_pos_pos). clearbody u v. unfold Qle, Qmult, Qdiv, Qinv, Qplus, inject_Z. destruct v; try lia. cbn [Qmult Qnum Qden]. lia.
  - assert (SC : (if 0 <? L then let* '(n, d) := ln_scale (bof (qn x)) (bof (qd x)) (Z.abs L) in Ok (mkR d n)
      else let* '(d, n) := ln_scale (bof (qd x)) (bof (qn x)) (Z.abs L) in Ok (mkR d n)) = Ok (rof (x / q2 ^ L))).
    { destruct (Z.ltb_spec 0 L).
      - destruct (ln_scale_ok (qn x) (qd x) (Z.abs L)) as (a' & b' & -> & Ha & Hb & Hg & He); auto; try lia. apply rof_gcd.
        cbn [bind]. f_equal. apply rof_eq; auto. apply qcross; auto. rewrite EL, Qmake_Qdiv. rewrite Z2Pos.id by lia.
        rewrite Z.max_r, Z.max_l, Z.mul_1_r by lia. rewrite Z.abs_eq in He by lia. rewrite Z.max_l in P0 by lia.
        rewrite Zlt_Qlt in Ha, Hb, Hd, P0. change (inject_Z 0) with 0%Q in *.
        assert (He' : (inject_Z a' * (inject_Z (qd x) * inject_Z (2 ^ L)) == inject_Z (qn x) * inject_Z b')%Q) by (rewrite <- !inject_Z_mult, He; reflexivity).
        rewrite inject_Z_mult. apply (Qdiv_eq _ _ _ _). 
        pose proof (Qmul_pos _ _ Hd P0). lra. lra. lra.
      - destruct (ln_scale_ok (qd x) (qn x) (Z.abs L)) as (a' & b' & -> & Ha & Hb & Hg & He); auto; try lia. rewrite Z.gcd_comm. apply rof_gcd.
        cbn [bind]. f_equal. apply rof_eq; auto. now rewrite Z.gcd_comm. apply qcross; auto. rewrite EL, Qmake_Qdiv. rewrite Z2Pos.id by lia.
        rewrite Z.max_l, Z.max_r, Z.mul_1_r by lia. rewrite Z.abs_neq in He by lia. rewrite Z.max_l in Q0 by lia.
        rewrite Zlt_Qlt in Ha, Hb, Hd, Q0. change (inject_Z 0) with 0%Q in *.
        assert (He' : (inject_Z a' * (inject_Z (qn x) * inject_Z (2 ^ - L)) == inject_Z (qd x) * inject_Z b')%Q) by (rewrite <- !inject_Z_mult, He; reflexivity).
        rewrite inject_Z_mult. apply (Qdiv_eq _ _ _ _). lra. lra. lra. }
    rewrite SC. cbn [bind]. rewrite Rsub_i32_mut by (unfold i32r; lia). cbn [bind]. change (inject_Z 1) with 1%Q. rewrite ln_loop by lia. cbn [bind].
    rewrite ln2_iter_ok by auto. cbn [bind]. rewrite Bfrom_i64 by lia. cbn [bind]. unfold rmul_bi. rewrite Rmul_bi. cbn [bind]. rewrite Radd.
    apply rofE. ring.
Qed.
Lemma ln_iter_nonpos x k : (x <= 0)%Q -> ln_iter (rof x) k = Panic.
Proof.
  intros H. unfold ln_iter. rewrite Ris_neg, Ris_zero. destruct (qltb_qlt x 0); auto. destruct (qeqb_qeq x 0); auto. exfalso. lra.
Qed.
