(** Inverse trigonometric functions of F192 against the real functions. *)
From Verif Require Import Base FSpec RSpec UBig UFun UStr UAddSub BBig BEq RBig RIeee RIeeeP XNum XFun XSpec XP1 XP2 XP3 XP6 XP7 XP8 XP9 XC13 XPow XFast Props_X1 Props_X2 RReal RReal2 RReal4 XReal Props_R5 XErr XLog XPw XTrig XTrig2.
From Coq Require Import Reals Lra Lia Qreals ZArith QArith Qabs Bool.
From Coquelicot Require Import Coquelicot.
Local Open Scope R_scope.

(** ** Runs that may panic *)
Definition nop {A} (m : res A) (Q : A -> Prop) : Prop := m = Panic \/ returns m Q.
Lemma nop_ret {A} (m : res A) Q : returns m Q -> nop m Q. Proof. right. auto. Qed.
Lemma nop_bind {A B} (m : res A) (f : A -> res B) P Q : nop m P -> (forall a, P a -> nop (f a) Q) -> nop (bind m f) Q.
Proof. intros [-> | (a & -> & H)] F; [left; reflexivity | cbn [bind]; auto]. Qed.
Lemma nop_weaken {A} (m : res A) (P Q : A -> Prop) : nop m P -> (forall a, P a -> Q a) -> nop m Q. Proof. intros [H | H] F; [left; auto | right; eapply returns_weaken; eauto]. Qed.
Lemma for_nop {A} (body : Z -> A -> res A) (I : Z -> A -> Prop) : forall n i s, I i s -> (forall j s, (i <= j < i + Z.of_nat n)%Z -> I j s -> nop (body j s) (I (j + 1)%Z)) -> nop (for_ n i body s) (I (i + Z.of_nat n)%Z).
Proof.
  induction n as [| n IH]; intros i s HI Hb; cbn [for_].
  - right. apply returns_ok. now replace (i + Z.of_nat 0)%Z with i by lia.
  - eapply nop_bind. { apply (Hb i s); auto; lia. } intros s' HI'. replace (i + Z.of_nat (S n))%Z with (i + 1 + Z.of_nat n)%Z by lia. apply IH; auto. intros; apply Hb; auto; lia.
Qed.

(** ** Relative errors *)
Lemma rel_mul v t a w u b x c : Rabs (v - t) <= a * Rabs t -> Rabs (w - u) <= b * Rabs u -> Rabs (x - v * w) <= c * Rabs (v * w) -> 0 <= a <= / 100 -> 0 <= b <= / 100 -> 0 <= c <= / 100 -> Rabs (x - t * u) <= (a + 2 * b + 2 * c) * Rabs (t * u).
Proof.
  intros H1 H2 H3 Ha Hb Hc. rewrite (Rabs_mult t u) in *. set (T := Rabs t) in *. set (U := Rabs u) in *. assert (T0 : 0 <= T) by apply Rabs_pos. assert (U0 : 0 <= U) by apply Rabs_pos. assert (TU : 0 <= T * U) by (apply Rmult_le_pos; auto).
  assert (V : Rabs v <= (1 + a) * T). { replace v with (t + (v - t)) by ring. eapply Rle_trans; [apply Rabs_triang |]. fold T. lra. } assert (W : Rabs w <= (1 + b) * U). { replace w with (u + (w - u)) by ring. eapply Rle_trans; [apply Rabs_triang |]. fold U. lra. }
  assert (VW : Rabs (v * w) <= (1 + a) * (1 + b) * (T * U)). { rewrite Rabs_mult. replace ((1 + a) * (1 + b) * (T * U)) with ((1 + a) * T * ((1 + b) * U)) by ring. apply Rmult_le_compat; auto; apply Rabs_pos. }
  assert (P : Rabs (v * w - t * u) <= (a + b + a * b) * (T * U)). { replace (v * w - t * u) with ((v - t) * w + t * (w - u)) by ring. eapply Rle_trans; [apply Rabs_triang |]. rewrite !Rabs_mult. fold T. assert (Rabs (v - t) * Rabs w <= a * T * ((1 + b) * U)) by (apply Rmult_le_compat; auto; apply Rabs_pos). assert (T * Rabs (w - u) <= T * (b * U)) by (apply Rmult_le_compat_l; auto). lra. }
  replace (x - t * u) with (x - v * w + (v * w - t * u)) by ring. eapply Rle_trans; [apply Rabs_triang |]. assert (c * Rabs (v * w) <= c * ((1 + a) * (1 + b) * (T * U))) by (apply Rmult_le_compat_l; lra).
  assert (c * ((1 + a) * (1 + b)) <= c * 2) by (apply Rmult_le_compat_l; [lra |]; apply (Rle_trans _ ((1 + / 100) * (1 + / 100))); [apply Rmult_le_compat; lra | lra]). assert (a * b <= 1 * b) by (apply Rmult_le_compat_r; lra). assert (c * ((1 + a) * (1 + b)) * (T * U) <= 2 * c * (T * U)) by (apply Rmult_le_compat_r; lra). assert ((a + b + a * b) * (T * U) <= (a + 2 * b) * (T * U)) by (apply Rmult_le_compat_r; lra). lra.
Qed.
Lemma rel_k v t a k x c : Rabs (v - t) <= a * Rabs t -> Rabs (x - v * k) <= c * Rabs (v * k) -> 0 <= a <= / 100 -> 0 <= c <= / 100 -> Rabs (x - t * k) <= (a + 2 * c) * Rabs (t * k).
Proof. intros H1 H2 Ha Hc. replace (a + 2 * c) with (a + 2 * 0 + 2 * c) by ring. apply (rel_mul v t a k k 0 x c); auto; try lra. rewrite Rminus_eq_0, Rabs_R0. lra. Qed.
Lemma rel_pos v t a : Rabs (v - t) <= a * Rabs t -> 0 <= t -> 0 <= a <= / 2 -> 0 <= v <= 2 * t. Proof. intros H T A. rewrite (Rabs_pos_eq t) in H by auto. apply Rabs_le_between in H. nra. Qed.

Lemma muli_R K s n : xb K s -> (0 <= K)%Z -> (K < 2 ^ 32)%Z -> (0 < n < 2 ^ 31)%Z -> nop (xmul_i32 s n) (fun c => xb (K + 256) c /\ Rabs (xR c - xR s * IZR n) <= ep 127 * Rabs (xR s * IZR n)).
Proof.
  intros B HK HK2 Hn. change (2 ^ 32)%Z with 4294967296%Z in HK2. change (2 ^ 31)%Z with 2147483648%Z in Hn. destruct (xnull s) eqn:N. { right. rewrite (xnull_zero s N). rewrite (proj1 (C46_mul_i32_zero s n)). apply returns_ok. rewrite xR_zero, Rmult_0_l, Rminus_0_r, Rabs_R0. split; [apply xb_zero | lra]. }
  assert (B' := B). destruct B as [W P]. destruct P as [P | P]; [congruence |]. unfold xpow in P. change (2 ^ 48)%Z with 281474976710656%Z in P.
  eapply nop_weaken; [apply C46_mul_i32_partial; auto; [lia | change (2 ^ 31)%Z with 2147483648%Z; lia | lia | change (2 ^ 64)%Z with 18446744073709551616%Z; lia] |]. intros c Hc.
  assert (V : Q2R (xval s * inject_Z n) = xR s * IZR n) by (rewrite Q2R_mult, injR; reflexivity). destruct (mag_R s W N) as [M1 M2]. assert (I1 : 1 <= IZR n < powerRZ 2 32). { change 32%Z with (Z.of_nat 32). rewrite p2_nat, pow_IZR. split; [apply IZR_le; lia | apply IZR_lt; change (2 ^ Z.of_nat 32)%Z with 4294967296%Z; lia]. }
  assert (A : Rabs (xR s * IZR n) = Rabs (xR s) * IZR n) by (rewrite Rabs_mult, (Rabs_pos_eq (IZR n)); lra). set (v := xR s * IZR n) in *. pose proof (Rabs_pos (xR s)).
  assert (L : powerRZ 2 (- K) <= Rabs v). { apply (Rle_trans _ (Rabs (xR s))); [| rewrite A; nra]. eapply Rle_trans; [| exact M1]. apply p2_le. unfold xpow. change (2 ^ 48)%Z with 281474976710656%Z. lia. }
  assert (U : Rabs v < powerRZ 2 (K + 32 + 129)). { rewrite A. replace (K + 32 + 129)%Z with (K + 129 + 32)%Z by ring. rewrite p2_add. pose proof (val_up K s B' HK). assert (powerRZ 2 (K + 128) <= powerRZ 2 (K + 129)) by (apply p2_le; lia). apply Rmult_le_0_lt_compat; lra. }
  destruct (down_rel K (xval s * inject_Z n) c Hc) as (R1 & R2 & R3); [change (2 ^ 40)%Z with 1099511627776%Z; lia | right; rewrite V; auto |]. rewrite V in R1, R2, R3. split; auto.
  apply (xb_le (Z.max (K + 1 + 128) (K + 32 + 129))); [| lia]. apply xb_val; try lia; [apply Hc | right | lra].
  replace (- (K + 1))%Z with (- K + - Z.of_nat 1)%Z by lia. rewrite p2_add, p2_opp. unfold ep at 1. cbn [pow]. assert (e1 : ep 127 <= / 2) by (apply (Rle_trans _ (ep 1)); [apply ep_le; lia | unfold ep; cbn; lra]). assert (Rabs v <= Rabs (xR c) + Rabs (xR c - v)). { rewrite (Rabs_minus_sym (xR c) v). replace v with (xR c + (v - xR c)) at 1 by ring. apply Rabs_triang. } pose proof (Rabs_pos v). nra.
Qed.

(** ** asin *)
Definition aT (r : R) (n : nat) : R := cb n * (r ^ (2 * n + 1) / INR (2 * n + 1)).
Lemma aT_S r n : aT r (S n) = aT r n * (r * r) * (INR (2 * n + 1) * INR (2 * n + 1) * INR (2 * n + 2)) / (INR (n + 1) * INR (n + 1) * INR (2 * n + 3) * 4).
Proof.
  unfold aT. pose proof (cb_S n) as E. assert (C : cb (S n) = (2 * INR n + 1) * cb n / (2 * INR (S n))). { rewrite E. field. apply not_0_INR. lia. } rewrite C. replace (2 * S n + 1)%nat with (S (S (2 * n + 1))) by lia. cbn [pow]. replace (S (S (2 * n + 1))) with (2 * n + 3)%nat by lia. rewrite !plus_INR, !mult_INR, S_INR. cbn [INR]. pose proof (pos_INR n). field. repeat split; lra.
Qed.
Lemma aT_bd r n : 0 <= r <= 1 -> 0 <= aT r n <= r.
Proof.
  intros H. unfold aT. pose proof (cb_pos n). pose proof (cb_le1 n). assert (1 <= INR (2 * n + 1)) by (change 1 with (INR 1); apply le_INR; lia). assert (0 <= r ^ (2 * n + 1) <= r). { split; [apply pow_le; lra |]. replace (2 * n + 1)%nat with (S (2 * n)) by lia. cbn [pow]. assert (r ^ (2 * n) <= 1) by (rewrite <- (pow1 (2 * n)); apply pow_incr; lra). assert (0 <= r ^ (2 * n)) by (apply pow_le; lra). nra. }
  assert (0 <= / INR (2 * n + 1) <= 1). { split; [apply Rlt_le, Rinv_0_lt_compat; lra |]. rewrite <- Rinv_1. apply Rinv_le_contravar; lra. } unfold Rdiv. set (u := r ^ (2 * n + 1)) in *. set (w := / INR (2 * n + 1)) in *. assert (0 <= u * w <= r) by nra. nra.
Qed.
Lemma asum_bd r n : 0 <= r <= 1 -> 0 <= asin_rsum r n <= INR n * r.
Proof. intros H. induction n; [unfold asin_rsum; cbn; lra |]. unfold asin_rsum in *. cbn [rsum]. fold (aT r n). pose proof (aT_bd r n H). rewrite S_INR. lra. Qed.
Definition aI (K : Z) (r : R) (i : Z) (s : f192 * f192) : Prop := let '(res, cur) := s in (0 <= i)%Z /\
  xb (33 * K + 20000 + 256 * i) res /\ xb (3 * K + 768 + i * (2 * K + 1024)) cur /\ Rabs (xR cur - aT r (Z.to_nat i + 1)) <= 40 * (IZR i + 1) * ep 128 * Rabs (aT r (Z.to_nat i + 1)) /\ Rabs (xR res - asin_rsum r (Z.to_nat i + 1)) <= 710 * IZR i * ep 128 * r /\ 0 <= xR res.
Lemma asin_step_R K r q i s : (0 <= K <= 2 ^ 26)%Z -> 0 <= r <= 1 -> xb (2 * K + 256) q -> Rabs (xR q - r * r) <= ep 125 * Rabs (r * r) -> (0 <= i < 15)%Z -> aI K r i s -> nop (xasin_step q i s) (aI K r (i + 1)).
Proof.
  intros HK Hr Bq Eq Hi. change (2 ^ 26)%Z with 67108864%Z in HK. destruct s as [res cur]. intros (_ & Br & Bc & Ec & Er & R0). destruct eps as (e0 & e1 & e127 & e126 & e125 & _). unfold xasin_step. set (n := (Z.to_nat i + 1)%nat) in *. set (N := IZR i) in *. assert (N0 : 0 <= N <= 14) by (unfold N; split; apply IZR_le; lia).
  pose proof (aT_bd r n Hr) as T0. pose proof (asum_bd r n Hr) as S0. assert (In : INR n = N + 1) by (unfold n, N; rewrite plus_INR, INR_IZR_INZ, Z2Nat.id by lia; cbn; ring).
  assert (C0 : 0 <= xR cur <= 2 * aT r n). { apply (rel_pos _ _ (40 * (N + 1) * ep 128)); auto; [lra |]. split; [apply Rmult_le_pos; lra |]. apply (Rle_trans _ (600 * / 1048576)); [apply Rmult_le_compat; lra | lra]. }
  assert (RS : xR res <= INR n * r + 710 * N * ep 128 * r) by (apply Rabs_le_between in Er; lra). assert (e128r : 0 <= ep 128 * r <= / 1048576 * r) by (split; [apply Rmult_le_pos; lra | apply Rmult_le_compat_r; lra]).
  assert (NE : 710 * N * ep 128 * r <= r). { replace (710 * N * ep 128 * r) with (710 * N * (ep 128 * r)) by ring. apply (Rle_trans _ (710 * 14 * (/ 1048576 * r))); [apply Rmult_le_compat; lra | lra]. }
  eapply nop_bind. { apply nop_ret. apply (addR (33 * K + 20000 + 256 * i) res cur); auto; [apply (xb_le _ _ _ Bc); nia | lia | change (2 ^ 32)%Z with 4294967296%Z; lia | left; apply Rmult_le_pos; lra]. } intros res' [Br' Er'].
  eapply nop_bind. { apply nop_ret. apply (mulR (3 * K + 768 + i * (2 * K + 1024)) (2 * K + 256) cur q); auto; try nia; change (2 ^ 40)%Z with 1099511627776%Z; nia. } intros c1 (B1 & _ & _ & E1).
  assert (A0 : 0 <= 40 * (N + 1) * ep 128 <= / 1000) by (split; [apply Rmult_le_pos; lra | apply (Rle_trans _ (600 * / 1048576)); [apply Rmult_le_compat; lra | lra]]).
  assert (X1 := rel_mul _ _ _ _ _ _ _ _ Ec Eq E1 ltac:(lra) ltac:(lra) ltac:(lra)).
  set (m := ((2 * i + 3) * (2 * i + 3) * (2 * i + 4))%Z) in *. set (d := ((i + 2) * (i + 2) * (2 * i + 5) * 4)%Z) in *. assert (Hm : (0 < m < 2 ^ 31)%Z) by (change (2 ^ 31)%Z with 2147483648%Z; unfold m; nia). assert (Hd : (0 < d < 2 ^ 31)%Z) by (change (2 ^ 31)%Z with 2147483648%Z; unfold d; nia).
  eapply nop_bind. { eapply (muli_R (3 * K + 768 + i * (2 * K + 1024) + (2 * K + 256) + 256) c1 m); auto; try nia; change (2 ^ 32)%Z with 4294967296%Z; nia. } intros c2 (B2 & E2).
  assert (X2 := rel_k _ _ _ _ _ _ X1 E2 ltac:(lra) ltac:(lra)).
  eapply nop_bind. { apply nop_ret. apply (divi_R (3 * K + 768 + i * (2 * K + 1024) + (2 * K + 256) + 256 + 256) c2 d); auto; try nia; change (2 ^ 32)%Z with 4294967296%Z; nia. } intros c3 (B3 & _ & _ & E3).
  unfold Rdiv in E3. assert (X3 := rel_k _ _ _ _ _ _ X2 E3 ltac:(lra) ltac:(lra)). apply nop_ret, returns_ok. unfold aI. split; [lia |]. splits.
  - apply (xb_le _ _ _ Br'). lia.
  - apply (xb_le _ _ _ B3). nia.
  - replace (Z.to_nat (i + 1) + 1)%nat with (S n) by (unfold n; lia). assert (T : aT r (S n) = aT r n * (r * r) * IZR m * / IZR d). { rewrite aT_S. unfold Rdiv. f_equal; [f_equal |]; [| f_equal]; unfold m, d; rewrite ?mult_IZR, ?plus_IZR, ?mult_IZR; fold N; rewrite !plus_INR, !mult_INR, ?In; cbn [INR]; ring. }
    rewrite T. rewrite plus_IZR. fold N. eapply Rle_trans; [exact X3 |]. apply Rmult_le_compat_r; [apply Rabs_pos |]. rewrite e125, e127. lra.
  - replace (Z.to_nat (i + 1) + 1)%nat with (S n) by (unfold n; lia). unfold asin_rsum. cbn [rsum]. fold (aT r n) (asin_rsum r n). rewrite plus_IZR. fold N. replace (xR res' - (asin_rsum r n + aT r n)) with (xR res' - (xR res + xR cur) + (xR res - asin_rsum r n) + (xR cur - aT r n)) by ring. eapply Rle_trans; [apply Rabs_triang |]. eapply Rle_trans; [apply Rplus_le_compat_r, Rabs_triang |].
    rewrite (Rabs_pos_eq (aT r n)) in Ec by lra. rewrite (Rabs_pos_eq (xR res + xR cur)), e127 in Er' by lra. assert (40 * (N + 1) * ep 128 * aT r n <= 600 * ep 128 * r). { apply Rmult_le_compat; try lra. apply Rmult_le_compat_r; lra. } assert (Nr : INR n * r <= 15 * r) by (rewrite In; apply Rmult_le_compat_r; lra). assert (2 * ep 128 * (xR res + xR cur) <= 2 * ep 128 * (18 * r)) by (apply Rmult_le_compat_l; lra). lra.
  - rewrite (Rabs_pos_eq (xR res + xR cur)), e127 in Er' by lra. apply Rabs_le_between in Er'. assert (2 * ep 128 * (xR res + xR cur) <= 1 * (xR res + xR cur)) by (apply Rmult_le_compat_r; lra). lra.
Qed.
Lemma asin_bnd16 : asin_bnd 16 <= 145 / 1000.
Proof. unfold asin_bnd, cb. rewrite !zf_fact. change (zf (2 * 16)) with 263130836933693530167218012160000000%Z. change (zf 16) with 20922789888000%Z. rewrite !plus_INR, !mult_INR. cbn [INR pow]. lra. Qed.
Lemma xasin_R K a : xb K a -> (0 <= K <= 2 ^ 26)%Z -> -1 <= xR a <= s2 -> nop (xasin a) (fun c => xb (33 * K + 24000) c /\ Rabs (xR c - asin (xR a)) <= 145 / 1000 * Rabs (xR a) ^ 33 + ep 114 * Rabs (xR a) /\ 0 <= xR c * xR a).
Proof.
  intros Ba HK Ha. assert (HK' := HK). change (2 ^ 26)%Z with 67108864%Z in HK. destruct s2_c as (Bs & _ & S2). unfold xasin. destruct (sgn_R a (proj1 Ba)) as [SN SP]. destruct (neg_b K a Ba) as [Bn Vn]; [change (2 ^ 32)%Z with 4294967296%Z; lia |]. set (r0 := if xis_neg a then xneg a else a) in *.
  assert (Br : xb K r0) by (unfold r0; destruct (xis_neg a); auto). assert (Vr : xR r0 = Rabs (xR a)). { unfold r0. destruct (xis_neg a); [rewrite Vn, Rabs_left1 | rewrite Rabs_pos_eq]; auto. } set (r := Rabs (xR a)) in *. assert (Hr : 0 <= r <= 1) by (split; [apply Rabs_pos | unfold r; apply Rabs_le; lra]).
  assert (G1 : xgt r0 xONE = false). { destruct (xgt r0 xONE) eqn:G; auto. apply gt_R in G; [| apply Br | split; cbn; lia]. replace (xR xONE) with 1 in G; [lra |]. unfold xR. replace 1 with (Q2R 1) by (unfold Q2R; cbn; field). apply Qeq_eqR. vm_compute. reflexivity. }
  assert (G2 : xgt a xONE_OVER_SQRT_2 = false). { destruct (xgt a xONE_OVER_SQRT_2) eqn:G; auto. apply gt_R in G; [| apply Ba | apply Bs]. fold s2 in G. lra. } rewrite G1, G2. destruct eps as (e0 & e1 & e127 & e126 & e125 & _).
  eapply nop_bind. { apply nop_ret. apply (mulR K K r0 r0); auto; try lia; change (2 ^ 40)%Z with 1099511627776%Z; lia. } intros q (Bq & _ & _ & Eq). rewrite Vr in Eq.
  eapply nop_bind. { apply nop_ret. apply (mulR (K + K + 256) K q r0); auto; try lia; change (2 ^ 40)%Z with 1099511627776%Z; lia. } intros c1 (B1 & _ & _ & E1). rewrite Vr in E1.
  assert (Z0 : Rabs (r - r) <= 0 * Rabs r) by (rewrite Rminus_eq_0, Rabs_R0; lra). assert (X1 := rel_mul _ _ _ _ _ _ _ _ Eq Z0 E1 ltac:(lra) ltac:(lra) ltac:(lra)).
  eapply nop_bind. { apply nop_ret. apply (divi_R (K + K + 256 + K + 256) c1 6); auto; try lia; change (2 ^ 32)%Z with 4294967296%Z; lia. } intros c2 (B2 & _ & _ & E2). unfold Rdiv in E2. assert (X2 := rel_k _ _ _ _ _ _ X1 E2 ltac:(lra) ltac:(lra)).
  eapply nop_bind with (P := aI K r 15).
  { apply (for_nop (xasin_step q) (aI K r) 15 0 (r0, c2)).
    - unfold aI. split; [lia |]. change (Z.to_nat 0 + 1)%nat with 1%nat. splits.
      + apply (xb_le K); auto. lia.
      + apply (xb_le (K + K + 256 + K + 256 + 256)); auto. lia.
      + replace (aT r 1) with (r * r * r * / 6). * eapply Rle_trans; [exact X2 |]. apply Rmult_le_compat_r; [apply Rabs_pos |]. rewrite e125, e127. lra. * unfold aT, cb. cbn [fact Nat.mul Nat.add INR pow]. field.
      + unfold asin_rsum. cbn [rsum]. rewrite Vr, cb_0. cbn [Nat.mul Nat.add pow INR]. replace (r - (0 + 1 * (r * 1 / 1))) with 0 by field. rewrite Rabs_R0. lra.
      + lra.
    - intros j s Hj. apply (asin_step_R K r q j s); auto; try lia. apply (xb_le (K + K + 256)); auto; lia. }
  intros [res cur] (_ & B3 & _ & _ & E3 & R3). change (Z.to_nat 15 + 1)%nat with 16%nat in E3. apply nop_ret, returns_ok. assert (e114 : ep 114 = 16384 * ep 128). { rewrite (ep_S 114), (ep_S 115), (ep_S 116), (ep_S 117), (ep_S 118), (ep_S 119), (ep_S 120), (ep_S 121), (ep_S 122), (ep_S 123), (ep_S 124), (ep_S 125), e126. lra. }
  assert (M : Rabs (xR res - asin r) <= 145 / 1000 * r ^ 33 + ep 114 * r). { destruct (asin_rem_pos 16 r Hr) as [L U]. change (2 * 16 + 1)%nat with 33%nat in U. pose proof asin_bnd16. assert (0 <= r ^ 33) by (apply pow_le; lra). assert (asin_bnd 16 * r ^ 33 <= 145 / 1000 * r ^ 33) by (apply Rmult_le_compat_r; auto). replace (xR res - asin r) with (xR res - asin_rsum r 16 + - (asin r - asin_rsum r 16)) by ring. eapply Rle_trans; [apply Rabs_triang |]. rewrite Rabs_Ropp, (Rabs_pos_eq (asin r - _)) by auto. assert (0 <= ep 128 * r) by (apply Rmult_le_pos; lra). rewrite e114. lra. }
  destruct (xis_neg a) eqn:S.
  - destruct (neg_b _ _ B3) as [Bm Vm]; [change (2 ^ 32)%Z with 4294967296%Z; lia |]. split; [apply (xb_le _ _ _ Bm); lia |]. specialize (SN eq_refl). rewrite Vm. split; [| nra]. replace (xR a) with (- r) by (unfold r; rewrite Rabs_left1; lra). rewrite asin_opp. replace (- xR res - - asin r) with (- (xR res - asin r)) by ring. rewrite Rabs_Ropp. auto.
  - split; [apply (xb_le _ _ _ B3); lia |]. specialize (SP eq_refl). split; [| nra]. replace (xR a) with r by (unfold r; rewrite Rabs_pos_eq; lra). auto.
Qed.

(** ** acos *)
Lemma s2_33 r : 0 <= r <= s2 -> 145 / 1000 * r ^ 33 + ep 114 * r <= ep 19.
Proof.
  intros H. destruct s2_c as (_ & _ & S2). assert (P : r ^ 33 <= (70711 / 100000) ^ 33) by (apply pow_incr; lra). assert (N : 145 / 1000 * (70711 / 100000) ^ 33 <= 17 / 10000000) by (cbn [pow]; lra). assert (e : ep 114 <= / 1099511627776) by (apply (Rle_trans _ (ep 40)); [apply ep_le; lia | unfold ep; cbn; lra]). pose proof (ep_pos 114). assert (ep 114 * r <= / 1099511627776 * 1) by (apply Rmult_le_compat; lra). replace (ep 19) with (/ 524288) by (unfold ep; cbn; lra). lra.
Qed.
Lemma pi2_sub K s : xb K s -> (200 <= K)%Z -> (K < 2 ^ 32)%Z -> -2 <= xR s <= 81 / 100 -> returns (xsub xPI_OVER_2 s) (fun c => xb (K + 256) c /\ Rabs (xR c - (PI / 2 - xR s)) <= 10 * ep 128).
Proof.
  intros Bs HK HK2 Hs. destruct half_pi as [Bp Vp]. destruct pi1_c as (_ & Pe & P1 & P2). destruct eps as (e0 & e1 & e127 & e126 & e125 & _). assert (Bp' : xb K xPI_OVER_2) by (apply (xb_le 200); auto).
  eapply returns_weaken with (Q := xnear (K + 256) (xR xPI_OVER_2 - xR s)).
  - destruct (Rle_dec (xR s) 0) as [S0 | S0]. { apply subR; auto; [lia |]. left. rewrite Vp. nra. } destruct (Rle_dec (pi1 / 2 - xR s) 1) as [V1 | V1].
    + apply (sub_grid K xPI_OVER_2 s (-128)); auto; try lia; rewrite ?(proj1 g128), ?(proj2 g128), ?Vp; rewrite Rabs_pos_eq; lra.
    + apply subR; auto; [lia |]. right. apply (nocarry_range _ 0). rewrite Vp, Rabs_pos_eq by lra. change (powerRZ 2 0) with 1. change (powerRZ 2 (0 + 1)) with (2 * 1). assert (ep 129 <= / 2 * ep 128) by (rewrite (ep_S 128); lra). lra.
  - intros c [Bc Ec]. split; auto. rewrite e127, Vp in Ec. assert (A : Rabs (pi1 / 2 - xR s) <= 4) by (apply Rabs_le; lra). assert (2 * ep 128 * Rabs (pi1 / 2 - xR s) <= 2 * ep 128 * 4) by (apply Rmult_le_compat_l; lra). replace (xR c - (PI / 2 - xR s)) with (xR c - (pi1 / 2 - xR s) + / 2 * (pi1 - PI)) by field. eapply Rle_trans; [apply Rabs_triang |]. rewrite Rabs_mult, (Rabs_pos_eq (/ 2)) by lra. lra.
Qed.
Lemma xacos_R K a : xb K a -> (0 <= K <= 2 ^ 26)%Z -> -1 <= xR a <= s2 -> nop (xacos a) (fun c => xb (33 * K + 24456) c /\ Rabs (xR c - acos (xR a)) <= 145 / 1000 * Rabs (xR a) ^ 33 + ep 114 * Rabs (xR a) + ep 124).
Proof.
  intros Ba HK Ha. assert (HK' := HK). change (2 ^ 26)%Z with 67108864%Z in HK. destruct eps as (e0 & e1 & e127 & e126 & e125 & e124 & _). unfold xacos. eapply nop_bind; [apply (xasin_R K a Ba HK' Ha) |]. intros s (Bs & Es & Ss).
  destruct s2_c as (_ & _ & S2). assert (AA : acos (xR a) = PI / 2 - asin (xR a)) by (apply acos_asin; lra). destruct pi1_c as (_ & Pe & P1 & P2). rewrite e126 in Pe. apply Rabs_le_between in Pe.
  assert (AL : - (PI / 2) <= asin (xR a)) by (pose proof (asin_bound (xR a)); lra). assert (D1 : 145 / 1000 * Rabs (xR a) ^ 33 + ep 114 * Rabs (xR a) <= 15 / 100). { assert (r1 : Rabs (xR a) <= 1) by (apply Rabs_le; lra). pose proof (Rabs_pos (xR a)). assert (Rabs (xR a) ^ 33 <= 1) by (rewrite <- (pow1 33); apply pow_incr; lra). assert (e : ep 114 <= / 1099511627776) by (apply (Rle_trans _ (ep 40)); [apply ep_le; lia | unfold ep; cbn; lra]). pose proof (ep_pos 114). assert (ep 114 * Rabs (xR a) <= / 1099511627776 * 1) by (apply Rmult_le_compat; lra). lra. }
  assert (AU : xR s <= 81 / 100). { destruct (Rlt_dec (xR a) 0) as [N | N]. - apply Rnot_lt_le. intros C. assert (0 < xR s * - xR a) by (apply Rmult_lt_0_compat; lra). lra.
    - assert (asin (xR a) <= 8 / 10). { apply Rnot_lt_le. intros C. assert (sin (8 / 10) < xR a). { rewrite <- (sin_asin (xR a)) by lra. pose proof (asin_bound (xR a)). apply sin_increasing_1; lra. } pose proof (sin_rem 2 (8 / 10)) as SR. rewrite (Rabs_pos_eq (8 / 10)) in SR by lra. apply Rabs_le_between in SR. unfold sin_rsum in SR. cbn [rsum] in SR. rewrite !zf_fact in SR. change (zf (2 * 0 + 1)) with 1%Z in SR. change (zf (2 * 1 + 1)) with 6%Z in SR. change (zf (2 * 2 + 1)) with 120%Z in SR. cbn [pow Nat.mul Nat.add] in SR. lra. } pose proof (s2_33 (Rabs (xR a))) as SS. rewrite (Rabs_pos_eq (xR a)) in SS, Es by lra. specialize (SS ltac:(lra)). apply Rabs_le_between in Es. unfold ep in SS at 2. cbn in SS. lra. }
  apply nop_ret. eapply returns_weaken; [apply (pi2_sub (33 * K + 24200) s); [apply (xb_le _ _ _ Bs); lia | lia | change (2 ^ 32)%Z with 4294967296%Z; lia | apply Rabs_le_between in Es; lra] |]. intros c [Bc Ec]. split; [apply (xb_le _ _ _ Bc); lia |].
  rewrite AA. replace (xR c - (PI / 2 - asin (xR a))) with (xR c - (PI / 2 - xR s) + - (xR s - asin (xR a))) by ring. eapply Rle_trans; [apply Rabs_triang |]. rewrite Rabs_Ropp, e124. lra.
Qed.

(** ** atan *)
(** [v] is within a relative [2^-k] of a power of two *)
Definition near2 (k : nat) (v : R) : Prop := exists E : Z, Rabs (v - powerRZ 2 E) <= ep k * powerRZ 2 E.
Lemma carry_near2 v S d k : Rcarry v -> Rabs (v - S) <= d -> d <= ep (k + 1) * / 2 * S -> 0 <= v -> (2 <= k <= 126)%nat -> near2 k S.
Proof.
  intros (E & C1 & C2) D D2 V Hk. exists E. pose proof (p2_pos E) as P. set (p := powerRZ 2 E) in *. rewrite (Rabs_pos_eq v) in * by auto. assert (e1 : ep 129 <= ep (k + 1) * / 2). { rewrite (ep_S (k + 1)). assert (ep 129 <= ep (Datatypes.S (k + 1))) by (apply ep_le; lia). lra. }
  assert (ek : ep k = 2 * ep (k + 1)) by (replace (k + 1)%nat with (Datatypes.S k) by lia; apply ep_S). assert (e2 : ep (k + 1) <= / 8). { apply (Rle_trans _ (ep 3)); [apply ep_le; lia | unfold ep; cbn; lra]. } pose proof (ep_pos (k + 1)). apply Rabs_le_between in D. assert (S <= 2 * p). { assert (ep (k + 1) * / 2 * S <= / 2 * S \/ S <= 0). { destruct (Rle_dec 0 S); [left; apply Rmult_le_compat_r; lra | right; lra]. } lra. }
  assert (ep (k + 1) * / 2 * S <= ep (k + 1) * / 2 * (2 * p)) by (apply Rmult_le_compat_l; lra). assert (ep 129 * p <= ep (k + 1) * / 2 * p) by (apply Rmult_le_compat_r; lra). assert (0 <= ep (k + 1) * p) by (apply Rmult_le_pos; lra). rewrite ek. apply Rabs_le. lra.
Qed.
Definition tT (r : R) (n : nat) : R := r ^ (2 * n + 1) / INR (2 * n + 1).
Lemma atan_bd r : 0 <= r <= 71 / 100 -> 4 / 5 * r <= atan r <= r.
Proof. intros H. pose proof (atan_rem_pos 1 r ltac:(lra)) as A. unfold atan_rsum in A. cbn [rsum pow Nat.mul Nat.add] in A. replace (INR 1) with 1 in A by reflexivity. replace (INR 3) with 3 in A by (cbn; lra). assert (r * (r * r) <= r * (71 / 100 * (71 / 100))). { apply Rmult_le_compat_l; [lra |]. apply Rmult_le_compat; lra. } lra. Qed.
Lemma pow_bd r n : 0 <= r <= 71 / 100 -> (1 <= n)%nat -> 0 <= r ^ (2 * n + 1) <= 51 / 100 * r.
Proof.
  intros H Hn. split; [apply pow_le; lra |]. replace (2 * n + 1)%nat with (2 + (2 * (n - 1) + 1))%nat by lia. rewrite pow_add. assert (r ^ (2 * (n - 1) + 1) <= r). { rewrite pow_add, pow_1. assert (r ^ (2 * (n - 1)) <= 1) by (rewrite <- (pow1 (2 * (n - 1))); apply pow_incr; lra). assert (0 <= r ^ (2 * (n - 1))) by (apply pow_le; lra). nra. } assert (0 <= r ^ (2 * (n - 1) + 1)) by (apply pow_le; lra). assert (0 <= r ^ 2 <= 51 / 100). { split; [apply pow_le; lra |]. cbn [pow]. nra. } apply Rmult_le_compat; tauto.
Qed.
Lemma tT_bd r n : 0 <= r <= 71 / 100 -> (1 <= n)%nat -> 0 <= tT r n <= 17 / 100 * r.
Proof.
  intros H Hn. destruct (pow_bd r n H Hn) as [P1 P2]. unfold tT. assert (3 <= INR (2 * n + 1)) by (replace 3 with (INR 3) by (cbn; lra); apply le_INR; lia). assert (0 < / INR (2 * n + 1) <= / 3). { split; [apply Rinv_0_lt_compat; lra | apply Rinv_le_contravar; lra]. } unfold Rdiv. split; [apply Rmult_le_pos; lra |]. apply (Rle_trans _ (51 / 100 * r * / 3)); [| lra]. apply Rmult_le_compat; lra.
Qed.
Lemma tsum_bd r n : 0 <= r <= 71 / 100 -> (1 <= n)%nat -> 3 / 5 * r <= atan_rsum r n <= 6 / 5 * r.
Proof.
  intros H Hn. pose proof (atan_rem n r) as A. rewrite (Rabs_pos_eq r) in A by lra. fold (tT r n) in A. pose proof (tT_bd r n H Hn). pose proof (atan_bd r H). apply Rabs_le_between in A. lra.
Qed.
Lemma tsum_S r n : atan_rsum r (S n) = atan_rsum r n + (-1) ^ n * tT r n. Proof. reflexivity. Qed.

(** invariant: after [i] double steps, [res] is the partial sum of [2 i + 1] terms *)
Definition tI (K : Z) (r : R) (i : Z) (s : f192 * f192 * Z) : Prop := let '(res, cur, co) := s in (0 <= i)%Z /\ co = (4 * i + 3)%Z /\
  xb (40 * K + 20000 + 512 * i) res /\ xb (3 * K + 512 + i * (4 * K + 1024)) cur /\ Rabs (xR cur - r ^ (4 * Z.to_nat i + 3)) <= (240 + 480 * IZR i) * ep 128 * Rabs (r ^ (4 * Z.to_nat i + 3)) /\ Rabs (xR res - atan_rsum r (2 * Z.to_nat i + 1)) <= (32 + 1270 * IZR i) * ep 128 * r.
Definition tclear (r : R) : Prop := forall n : nat, (1 <= n <= 8)%nat -> ~ near2 110 (atan_rsum r (2 * n)).

Lemma tsub_R K r n c res cur co : (0 <= K)%Z -> (K + 256 < 2 ^ 32)%Z -> 0 <= r <= 71 / 100 -> (1 <= n <= 8)%nat -> tclear r -> co = (4 * Z.of_nat n - 1)%Z -> xb K cur -> xb (K + 256) res ->
  Rabs (xR cur - r ^ (4 * n - 1)) <= 3700 * ep 128 * Rabs (r ^ (4 * n - 1)) -> 0 <= c <= 17000 -> Rabs (xR res - atan_rsum r (2 * n - 1)) <= c * ep 128 * r ->
  returns (let* q := xdiv_i32 cur co in xsub res q) (fun x => xb (K + 512) x /\ Rabs (xR x - atan_rsum r (2 * n)) <= (c + 640) * ep 128 * r /\ 0 <= xR x).
Proof.
  intros HK HK2 Hr Hn HC Hco Bc Br Ec Hc Er. change (2 ^ 32)%Z with 4294967296%Z in HK2. destruct eps as (e0 & e1 & e127 & e126 & e125 & _).
  eapply returns_bind. { apply (divi_R K cur co); auto; try (change (2 ^ 32)%Z with 4294967296%Z; lia); try lia; change (2 ^ 31)%Z with 2147483648%Z; lia. } intros q (Bq & _ & _ & Eq). unfold Rdiv in Eq.
  assert (X := rel_k _ _ _ _ _ _ Ec Eq ltac:(lra) ltac:(lra)). assert (T : r ^ (4 * n - 1) * / IZR co = tT r (2 * n - 1)). { unfold tT, Rdiv. replace (2 * (2 * n - 1) + 1)%nat with (4 * n - 1)%nat by lia. f_equal. f_equal. rewrite INR_IZR_INZ. f_equal. lia. } rewrite T in X. clear Eq T. pose proof (tT_bd r (2 * n - 1) Hr ltac:(lia)) as TB. rewrite (Rabs_pos_eq (tT _ _)) in X by lra.
  assert (r128 : 0 <= ep 128 * r <= / 1048576 * r) by (split; [apply Rmult_le_pos; lra | apply Rmult_le_compat_r; lra]). assert (X' : Rabs (xR q - tT r (2 * n - 1)) <= 634 * (ep 128 * r)). { eapply Rle_trans; [exact X |]. rewrite e127. replace (634 * (ep 128 * r)) with (634 * ep 128 * r) by ring. apply (Rle_trans _ ((3700 * ep 128 + 2 * (2 * ep 128)) * (17 / 100 * r))); [apply Rmult_le_compat_l; lra | lra]. }
  assert (SS : atan_rsum r (2 * n) = atan_rsum r (2 * n - 1) - tT r (2 * n - 1)). { replace (2 * n)%nat with (S (2 * n - 1)) at 1 by lia. rewrite tsum_S. replace ((-1) ^ (2 * n - 1)) with (-1); [ring |]. replace (2 * n - 1)%nat with (S (2 * (n - 1))) by lia. cbn [pow]. rewrite pow_mult. replace ((-1) ^ 2) with 1 by ring. rewrite pow1. ring. }
  pose proof (tsum_bd r (2 * n) Hr ltac:(lia)) as SB. set (S := atan_rsum r (2 * n)) in *. assert (cr : 0 <= c * (ep 128 * r) <= 17000 * (ep 128 * r)) by (split; [apply Rmult_le_pos; lra | apply Rmult_le_compat_r; lra]). assert (V : Rabs (xR res - xR q - S) <= (c + 634) * (ep 128 * r)). { rewrite SS. replace (xR res - xR q - (atan_rsum r (2 * n - 1) - tT r (2 * n - 1))) with (xR res - atan_rsum r (2 * n - 1) + - (xR q - tT r (2 * n - 1))) by ring. eapply Rle_trans; [apply Rabs_triang |]. rewrite Rabs_Ropp. lra. }
  assert (VB : 0 <= xR res - xR q <= 2 * r). { apply Rabs_le_between in V. lra. }
  eapply returns_weaken; [apply (subR (K + 256) res q); auto; [lia | right] |].
  - intros C. apply (HC n Hn). apply (carry_near2 _ S _ 110 C V); [| lra | lia]. assert (e111 : ep 111 = 131072 * ep 128) by (rewrite (ep_S 111), (ep_S 112), (ep_S 113), (ep_S 114), (ep_S 115), (ep_S 116), (ep_S 117), (ep_S 118), (ep_S 119), (ep_S 120), (ep_S 121), (ep_S 122), (ep_S 123), (ep_S 124), (ep_S 125), e126; lra). change (110 + 1)%nat with 111%nat. rewrite e111. apply (Rle_trans _ (17634 * (ep 128 * r))); [apply Rmult_le_compat_r; lra |]. assert (65536 * ep 128 * (3 / 5 * r) <= 65536 * ep 128 * S) by (apply Rmult_le_compat_l; lra). lra.
  - intros x [Bx Ex]. rewrite (Rabs_pos_eq (xR res - xR q)), e127 in Ex by lra. assert (2 * ep 128 * (xR res - xR q) <= 2 * ep 128 * (2 * r)) by (apply Rmult_le_compat_l; lra). splits.
    + apply (xb_le _ _ _ Bx). lia.
    + replace (xR x - S) with (xR x - (xR res - xR q) + (xR res - xR q - S)) by ring. eapply Rle_trans; [apply Rabs_triang |]. lra.
    + apply Rabs_le_between in Ex. assert (2 * ep 128 * (xR res - xR q) <= 1 * (xR res - xR q)) by (apply Rmult_le_compat_r; lra). lra.
Qed.

Lemma atan_step_R K r q i s : (0 <= K <= 2 ^ 26)%Z -> 0 <= r <= 71 / 100 -> tclear r -> xb (2 * K + 256) q -> Rabs (xR q - r * r) <= 112 * ep 128 * Rabs (r * r) -> (0 <= i < 7)%Z -> tI K r i s -> returns (xatan_step q i s) (tI K r (i + 1)).
Proof.
  intros HK Hr HC Bq Eq Hi. change (2 ^ 26)%Z with 67108864%Z in HK. destruct s as [[res cur] co]. intros (_ & Hco & Br & Bc & Ec & Er). destruct eps as (e0 & e1 & e127 & e126 & e125 & _). unfold xatan_step. set (N := IZR i) in *. assert (N0 : 0 <= N <= 6) by (unfold N; split; apply IZR_le; lia). set (m := Z.to_nat i) in *. assert (Hm : i = Z.of_nat m) by (unfold m; lia).
  assert (r128 : 0 <= ep 128 * r <= / 1048576 * r) by (split; [apply Rmult_le_pos; lra | apply Rmult_le_compat_r; lra]). assert (Ne : 0 <= N * ep 128 <= 6 * ep 128) by (split; [apply Rmult_le_pos; lra | apply Rmult_le_compat_r; lra]). assert (Nr : 0 <= N * (ep 128 * r) <= 6 * (ep 128 * r)) by (split; [apply Rmult_le_pos; lra | apply Rmult_le_compat_r; lra]).
  assert (TS := tsub_R (40 * K + 20000 + 512 * i - 256) r (m + 1) (32 + 1270 * N) res cur co). specialize (TS ltac:(lia) ltac:(change (2 ^ 32)%Z with 4294967296%Z; lia) Hr ltac:(lia) HC ltac:(lia) ltac:(apply (xb_le _ _ _ Bc); nia) ltac:(apply (xb_le _ _ _ Br); lia)). replace (4 * (m + 1) - 1)%nat with (4 * m + 3)%nat in TS by lia. replace (2 * (m + 1) - 1)%nat with (2 * m + 1)%nat in TS by lia.
  specialize (TS ltac:(eapply Rle_trans; [exact Ec | apply Rmult_le_compat_r; [apply Rabs_pos | lra]]) ltac:(lra) Er).
  destruct TS as (res1 & E1 & B1 & R1 & P1). destruct (xdiv_i32 cur co) as [q1 | |]; cbn [bind] in E1; try discriminate. cbn [bind]. rewrite E1. cbn [bind].
  rewrite (sadd_ok 32 co 2) by (change (2 ^ (32 - 1))%Z with 2147483648%Z; lia). cbn [bind].
  eapply returns_bind. { apply (mulR (3 * K + 512 + i * (4 * K + 1024)) (2 * K + 256) cur q); auto; try nia; change (2 ^ 40)%Z with 1099511627776%Z; nia. } intros c1 (Bc1 & _ & _ & Ec1).
  assert (A0 : 0 <= (240 + 480 * N) * ep 128 <= / 100) by lra. assert (X1 := rel_mul _ _ _ _ _ _ _ _ Ec Eq Ec1 ltac:(lra) ltac:(lra) ltac:(lra)). assert (PW : r ^ (4 * m + 3) * (r * r) = r ^ (4 * m + 5)) by (replace (4 * m + 5)%nat with (4 * m + 3 + 2)%nat by lia; rewrite (pow_add _ _ 2); cbn [pow]; ring). rewrite PW in X1.
  eapply returns_bind. { apply (divi_R (3 * K + 512 + i * (4 * K + 1024) + (2 * K + 256) + 256) c1 (co + 2)); auto; try nia; change (2 ^ 32)%Z with 4294967296%Z; change (2 ^ 31)%Z with 2147483648%Z; nia. } intros q2 (Bq2 & _ & _ & Eq2). unfold Rdiv in Eq2. assert (X2 := rel_k _ _ _ _ _ _ X1 Eq2 ltac:(lra) ltac:(lra)).
  assert (T : r ^ (4 * m + 5) * / IZR (co + 2) = tT r (2 * m + 2)). { unfold tT, Rdiv. replace (2 * (2 * m + 2) + 1)%nat with (4 * m + 5)%nat by lia. f_equal. f_equal. rewrite INR_IZR_INZ. f_equal. lia. } rewrite T in X2. pose proof (tT_bd r (2 * m + 2) Hr ltac:(lia)) as TB. rewrite (Rabs_pos_eq (tT _ _)) in X2 by lra.
  assert (Q0 : 0 <= xR q2 <= 2 * tT r (2 * m + 2)). { apply (rel_pos _ _ ((240 + 480 * N) * ep 128 + 2 * (112 * ep 128) + 2 * ep 125 + 2 * ep 127)); [rewrite (Rabs_pos_eq (tT _ _)) by lra; exact X2 | lra | lra]. }
  assert (X2' : Rabs (xR q2 - tT r (2 * m + 2)) <= 580 * (ep 128 * r)). { eapply Rle_trans; [exact X2 |]. rewrite e125, e127. apply (Rle_trans _ (3400 * ep 128 * (17 / 100 * r))); [apply Rmult_le_compat; try lra | lra]. }
  pose proof (tsum_bd r (2 * (m + 1)) Hr ltac:(lia)) as SB. assert (U1 : xR res1 <= 2 * r) by (apply Rabs_le_between in R1; lra).
  eapply returns_bind. { apply (addR (40 * K + 20000 + 512 * i + 256) res1 q2); [apply (xb_le _ _ _ B1); lia | apply (xb_le _ _ _ Bq2); nia | lia | change (2 ^ 32)%Z with 4294967296%Z; lia | left; apply Rmult_le_pos; lra]. } intros res2 [B2 E2].
  rewrite (sadd_ok 32 (co + 2) 2) by (change (2 ^ (32 - 1))%Z with 2147483648%Z; lia). cbn [bind].
  eapply returns_bind. { apply (mulR (3 * K + 512 + i * (4 * K + 1024) + (2 * K + 256) + 256) (2 * K + 256) c1 q); auto; try nia; change (2 ^ 40)%Z with 1099511627776%Z; nia. } intros c2 (Bc2 & _ & _ & Ec2).
  assert (X3 := rel_mul _ _ _ _ _ _ _ _ X1 Eq Ec2 ltac:(lra) ltac:(lra) ltac:(lra)). apply returns_ok. unfold tI. replace (Z.to_nat (i + 1)) with (m + 1)%nat by lia. rewrite plus_IZR. fold N. splits; try lia.
  - apply (xb_le _ _ _ B2). lia.
  - apply (xb_le _ _ _ Bc2). nia.
  - replace (r ^ (4 * (m + 1) + 3)) with (r ^ (4 * m + 5) * (r * r)) by (replace (4 * (m + 1) + 3)%nat with (4 * m + 5 + 2)%nat by lia; rewrite (pow_add _ _ 2); cbn [pow]; ring). eapply Rle_trans; [exact X3 |]. apply Rmult_le_compat_r; [apply Rabs_pos |]. rewrite e125. lra.
  - assert (SS : atan_rsum r (2 * (m + 1) + 1) = atan_rsum r (2 * (m + 1)) + tT r (2 * m + 2)). { replace (2 * (m + 1) + 1)%nat with (S (2 * (m + 1))) by lia. rewrite tsum_S. rewrite pow_mult. replace ((-1) ^ 2) with 1 by ring. rewrite pow1. replace (2 * (m + 1))%nat with (2 * m + 2)%nat by lia. ring. }
    rewrite SS. rewrite (Rabs_pos_eq (xR res1 + xR q2)), e127 in E2 by lra. assert (2 * ep 128 * (xR res1 + xR q2) <= 2 * ep 128 * (3 * r)) by (apply Rmult_le_compat_l; lra). replace (xR res2 - (atan_rsum r (2 * (m + 1)) + tT r (2 * m + 2))) with (xR res2 - (xR res1 + xR q2) + (xR res1 - atan_rsum r (2 * (m + 1))) + (xR q2 - tT r (2 * m + 2))) by ring. eapply Rle_trans; [apply Rabs_triang |]. eapply Rle_trans; [apply Rplus_le_compat_r, Rabs_triang |]. lra.
Qed.
(** the series part: [result] is within a relative [2^-123] of [r] *)
Lemma atan_series_R K r x : xb K x -> (0 <= K <= 2 ^ 26)%Z -> 0 <= r <= 71 / 100 -> tclear r -> Rabs (xR x - r) <= ep 123 * Rabs r ->
  returns (let* x_sqr := xmul x x in let* c := xmul x_sqr x in let* '(result, curr_x, coeff) := for_ 7 0 (xatan_step x_sqr) (x, c, 3%Z) in let* q := xdiv_i32 curr_x coeff in xsub result q)
    (fun c => xb (40 * K + 24100) c /\ Rabs (xR c - atan r) <= r ^ 33 / 33 + ep 114 * r /\ 0 <= xR c <= 8 / 10).
Proof.
  intros Bx HK Hr HC Ex. assert (HK' := HK). change (2 ^ 26)%Z with 67108864%Z in HK. destruct eps as (e0 & e1 & e127 & e126 & e125 & e124 & e123 & _). assert (Ex0 := Ex). rewrite e123 in Ex.
  eapply returns_bind. { apply (mulR K K x x); auto; try lia; change (2 ^ 40)%Z with 1099511627776%Z; lia. } intros q (Bq & _ & _ & Eq). assert (X1 := rel_mul _ _ _ _ _ _ _ _ Ex Ex Eq ltac:(lra) ltac:(lra) ltac:(lra)).
  assert (X1' : Rabs (xR q - r * r) <= 112 * ep 128 * Rabs (r * r)) by (eapply Rle_trans; [exact X1 |]; apply Rmult_le_compat_r; [apply Rabs_pos | lra]).
  eapply returns_bind. { apply (mulR (K + K + 256) K q x); auto; try lia; change (2 ^ 40)%Z with 1099511627776%Z; lia. } intros c1 (B1 & _ & _ & E1). assert (X2 := rel_mul _ _ _ _ _ _ _ _ X1' Ex E1 ltac:(lra) ltac:(lra) ltac:(lra)).
  assert (F := for_spec (xatan_step q) (tI K r) 7 0 (x, c1, 3%Z)). change (0 + Z.of_nat 7)%Z with 7%Z in F. eapply returns_bind. { apply F.
    - unfold tI. change (Z.to_nat 0) with 0%nat. cbn [Nat.mul Nat.add]. splits; try lia.
      + apply (xb_le K); auto. lia.
      + apply (xb_le _ _ _ B1). lia.
      + replace (r ^ 3) with (r * r * r) by ring. eapply Rle_trans; [exact X2 |]. apply Rmult_le_compat_r; [apply Rabs_pos |]. rewrite e125. lra.
      + unfold atan_rsum. cbn [rsum Nat.mul Nat.add]. replace (INR 1) with 1 by reflexivity. replace (0 + (-1) ^ 0 * (r ^ 1 / 1)) with r by field. rewrite (Rabs_pos_eq r) in Ex by lra. lra.
    - intros j s Hj Hs. apply atan_step_R; auto; try lia. apply (xb_le _ _ _ Bq). lia. }
  intros [[res cur] co] (_ & Hco & B3 & B4 & E3 & E4). change (Z.to_nat 7) with 7%nat in *. cbn [Nat.mul Nat.add] in E3, E4. eapply returns_weaken; [apply (tsub_R (40 * K + 23500) r 8 9000 res cur co); auto; try lia; try lra |].
  - apply (xb_le _ _ _ B4). nia.
  - apply (xb_le _ _ _ B3). lia.
  - cbn [Nat.mul Nat.add Nat.sub]. eapply Rle_trans; [exact E3 |]. apply Rmult_le_compat_r; [apply Rabs_pos | lra].
  - cbn [Nat.mul Nat.add Nat.sub]. eapply Rle_trans; [exact E4 |]. apply Rmult_le_compat_r; [lra | lra].
  - intros c (B5 & E5 & P5). cbn [Nat.mul Nat.add] in E5. split; [apply (xb_le _ _ _ B5); lia |]. pose proof (atan_rem_pos 16 r ltac:(lra)) as A. pose proof (tsum_bd r 16 Hr ltac:(lia)) as SB. assert (r128 : 0 <= ep 128 * r <= / 1048576 * r) by (split; [apply Rmult_le_pos; lra | apply Rmult_le_compat_r; lra]). change (2 * 16 + 1)%nat with 33%nat in A. replace ((-1) ^ 16) with 1 in A by ring. replace (INR 33) with 33 in A by (rewrite INR_IZR_INZ; reflexivity).
    pose proof (atan_bd r Hr) as AB. assert (e114 : ep 114 = 16384 * ep 128) by (rewrite (ep_S 114), (ep_S 115), (ep_S 116), (ep_S 117), (ep_S 118), (ep_S 119), (ep_S 120), (ep_S 121), (ep_S 122), (ep_S 123), (ep_S 124), (ep_S 125), e126; lra). set (p := r ^ 33) in *. rewrite e114. apply Rabs_le_between in E5. split; [apply Rabs_le; lra |]. lra.
Qed.
Lemma one_R : xR xONE = 1. Proof. unfold xR. replace 1 with (Q2R 1) by (unfold Q2R; cbn; field). apply Qeq_eqR. vm_compute. reflexivity. Qed.
Lemma xatan_R K a : xb K a -> (0 <= K <= 2 ^ 25)%Z -> let r := if Rle_dec (Rabs (xR a)) 1 then Rabs (xR a) else / Rabs (xR a) in Rabs (xR a) <= s2 \/ 142 / 100 <= Rabs (xR a) -> tclear r ->
  returns (xatan a) (fun c => xb (40 * K + 100000) c /\ Rabs (xR c - atan (xR a)) <= r ^ 33 / 33 + ep 113 * (if Rle_dec (Rabs (xR a)) 1 then r else 1)).
Proof.
  intros Ba HK r HD HC. assert (HK' := HK). change (2 ^ 25)%Z with 33554432%Z in HK. destruct s2_c as (Bs & _ & S2). destruct (sgn_R a (proj1 Ba)) as [SN SP]. destruct (neg_b K a Ba) as [Bn Vn]; [change (2 ^ 32)%Z with 4294967296%Z; lia |]. unfold xatan. set (r0 := if xis_neg a then xneg a else a) in *. assert (Br : xb K r0) by (unfold r0; destruct (xis_neg a); auto).
  assert (Vr : xR r0 = Rabs (xR a)). { unfold r0. destruct (xis_neg a); [rewrite Vn, Rabs_left1 | rewrite Rabs_pos_eq]; auto. } set (A := Rabs (xR a)) in *. assert (A0 : 0 <= A) by apply Rabs_pos. destruct eps as (e0 & e1 & e127 & e126 & e125 & e124 & e123 & _). assert (e113 : ep 113 = 2 * ep 114) by apply ep_S. assert (e114 : ep 114 = 16384 * ep 128) by (rewrite (ep_S 114), (ep_S 115), (ep_S 116), (ep_S 117), (ep_S 118), (ep_S 119), (ep_S 120), (ep_S 121), (ep_S 122), (ep_S 123), (ep_S 124), (ep_S 125), e126; lra).
  assert (SG : forall x D, xb (40 * K + 90000) x -> Rabs (xR x - atan A) <= D -> returns (Ok (if xis_neg a then xneg x else x)) (fun c => xb (40 * K + 100000) c /\ Rabs (xR c - atan (xR a)) <= D)).
  { intros x D Bx Ex. apply returns_ok. destruct (xis_neg a).
    - destruct (neg_b _ _ Bx) as [Bm Vm]; [change (2 ^ 32)%Z with 4294967296%Z; lia |]. split; [apply (xb_le _ _ _ Bm); lia |]. rewrite Vm. replace (xR a) with (- A) by (unfold A; rewrite Rabs_left1; [ring | auto]). rewrite atan_opp. replace (- xR x - - atan A) with (- (xR x - atan A)) by ring. rewrite Rabs_Ropp. auto.
    - split; [apply (xb_le _ _ _ Bx); lia |]. replace (xR a) with A by (unfold A; rewrite Rabs_pos_eq; auto). auto. }
  pose proof one_R as O1. assert (W1 : xb 200 xONE) by (split; [split; cbn; lia | right; vm_compute; discriminate]). revert r HC. destruct (Rle_dec A 1) as [A1 | A1]; intros r HC; unfold r in *; clear r.
  - assert (G1 : xgt r0 xONE = false). { destruct (xgt r0 xONE) eqn:G; auto. apply gt_R in G; [lra | apply Br | apply W1]. } rewrite G1. cbn [bind]. assert (G2 : xgt r0 xONE_OVER_SQRT_2 = false). { destruct (xgt r0 xONE_OVER_SQRT_2) eqn:G; auto. apply gt_R in G; [fold s2 in G; lra | apply Br | apply Bs]. } rewrite G2.
    eapply returns_bind. { apply (atan_series_R K A r0); auto; [change (2 ^ 26)%Z with 67108864%Z; lia | lra |]. rewrite Vr, Rminus_eq_0, Rabs_R0. apply Rmult_le_pos; [apply Rlt_le, ep_pos | apply Rabs_pos]. } intros c (Bc & Ec & _). cbn [bind]. apply SG; [apply (xb_le _ _ _ Bc); lia |]. assert (0 <= ep 128 * A) by (apply Rmult_le_pos; lra). rewrite e113, e114 in *. lra.
  - assert (G1 : xgt r0 xONE = true). { apply gt_R; [apply Br | apply W1 | lra]. } rewrite G1. assert (A2 : 142 / 100 <= A) by lra. assert (N0 : xnull r0 = false). { destruct (xnull r0) eqn:N; auto. apply null_R in N. lra. }
    assert (IA : 0 < / A <= 705 / 1000). { split; [apply Rinv_0_lt_compat; lra |]. apply (Rle_trans _ (/ (142 / 100))); [apply Rinv_le_contravar; lra | lra]. }
    eapply returns_bind. { apply (divR 200 K xONE r0); auto; try lia; change (2 ^ 32)%Z with 4294967296%Z; lia. } intros x (Bx & _ & _ & Ex). rewrite O1, Vr in Ex. replace (1 / A) with (/ A) in Ex by (field; lra).
    assert (Ux : xR x <= s2). { rewrite (Rabs_pos_eq (/ A)), e123 in Ex by lra. assert (32 * ep 128 * / A <= 32 * / 1048576 * (705 / 1000)) by (apply Rmult_le_compat; lra). apply Rabs_le_between in Ex. lra. }
    assert (G2 : xgt x xONE_OVER_SQRT_2 = false). { destruct (xgt x xONE_OVER_SQRT_2) eqn:G; auto. apply gt_R in G; [fold s2 in G; lra | apply Bx | apply Bs]. } rewrite G2.
    eapply returns_bind. { apply (atan_series_R (200 + K + 512) (/ A) x); auto; [change (2 ^ 26)%Z with 67108864%Z; lia | lra]. } intros c (Bc & Ec & P0 & P1).
    eapply returns_bind. { apply (pi2_sub (40 * (200 + K + 512) + 24100) c); auto; [lia | change (2 ^ 32)%Z with 4294967296%Z; lia | lra]. } intros d (Bd & Ed). apply SG; [apply (xb_le _ _ _ Bd); lia |].
    replace (atan A) with (PI / 2 - atan (/ A)) by (pose proof (atan_inv A ltac:(lra)); lra). replace (xR d - (PI / 2 - atan (/ A))) with (xR d - (PI / 2 - xR c) + - (xR c - atan (/ A))) by ring. eapply Rle_trans; [apply Rabs_triang |]. rewrite Rabs_Ropp. rewrite e113, e114 in *. assert (ep 128 * / A <= ep 128 * 1) by (apply Rmult_le_compat_l; lra). lra.
Qed.
