(** Reading F192 numbers from text. *)
From Coq Require Import ZArith QArith Qabs Lqa Lia Bool List Qfield Qpower.
From Verif Require Import Base UBig UStr SSpec USpec UEq BBig BSpec BEq RBig RIeee FSpec RIeeeP XNum XSpec XP1 XP2 XP3 XP6 XP7 XFun XC13 XPow XTxt XTxtS Props_X1.
Local Open Scope Z_scope.

(** ** computations that may panic: [b] tells that this one does not *)
Definition pret {A} (b : bool) (m : res A) (P : A -> Prop) : Prop := (b = false /\ m = Panic) \/ returns m P.
Lemma pret_ret {A} b (m : res A) P : returns m P -> pret b m P. Proof. right. auto. Qed.
Lemma pret_bind {A C} b (m : res A) (k : A -> res C) P Q : pret b m P -> (forall a, P a -> pret b (k a) Q) -> pret b (bind m k) Q.
Proof. intros [[H1 H2] | (a & -> & H)] HK; [left; subst; auto | cbn [bind]; auto]. Qed.
Lemma pret_weaken {A} b (m : res A) (P Q : A -> Prop) : pret b m P -> (forall a, P a -> Q a) -> pret b m Q.
Proof. intros [H | H] HK; [left; auto | right; eapply returns_weaken; eauto]. Qed.

(** ** exact and nearly exact steps on nonnegative integers *)
Definition isint (n : Z) (c : f192) : Prop := xwf c /\ (xval c == inject_Z n)%Q.
Lemma int_rep n : 0 <= n < 2 ^ 128 -> exists y, isint n y.
Proof. intros H. destruct (xfrom_prim_ok U128 n) as (y & _ & H1 & H2); [cbn; lia | lia |]. exists y. split; auto. Qed.
Lemma int_zero c : isint 0 c -> c = xZERO.
Proof. intros [W V]. apply xval_inj; [auto | apply xwf_zero |]. rewrite V, xval_zero. reflexivity. Qed.
Lemma int_mag n c : isint n c -> 0 <= n -> (xmag c == inject_Z n)%Q.
Proof. intros [W V] H. rewrite <- xabs_val by auto. rewrite V. apply Qabs_pos. change 0%Q with (inject_Z 0). rewrite <- Zle_Qle. auto. Qed.
Lemma int_pos n c : isint n c -> 0 < n -> xnull c = false /\ xsign c = false.
Proof.
  intros [W V] H. rewrite Zlt_Qlt in H. change (inject_Z 0) with 0%Q in H. split.
  - destruct (xnull c) eqn:N; auto. rewrite (xnull_zero c N), xval_zero in V. lra.
  - destruct (xsign c) eqn:S; auto. pose proof (xval_neg c W S). lra.
Qed.
Lemma int_pow n c k : isint n c -> 0 < n < 2 ^ k -> 0 <= k -> - 127 <= xpow c /\ xpow c + 127 < k.
Proof.
  intros I H Hk. destruct (int_pos n c I ltac:(lia)) as [N S]. pose proof (int_mag n c I ltac:(lia)) as M. destruct I as [W V]. split.
  - assert (0 < xpow c + 128); [| lia]. apply (xpow_large c 0); auto. rewrite M. change (two 0) with (inject_Z 1). rewrite <- Zle_Qle. lia.
  - apply xpow_small; auto. rewrite M, two_Z by auto. rewrite <- Zlt_Qlt. lia.
Qed.
Lemma int_short n m j w c : isint n c -> n = m * 2 ^ j -> 0 < m < 2 ^ (128 - w) -> 0 <= j -> 0 <= w <= 127 -> xd c mod 2 ^ w = 0.
Proof.
  intros I E0 Hm Hj Hw. assert (PJ : 0 < 2 ^ j) by (apply Z.pow_pos_nonneg; lia). assert (H : 0 < n < 2 ^ (128 - w + j)) by (rewrite Z.pow_add_r by lia; nia). destruct (int_pow n c (128 - w + j) I H ltac:(lia)) as [P1 P2]. destruct (int_pos n c I ltac:(lia)) as [N S]. pose proof (int_mag n c I ltac:(lia)) as M. destruct I as [W V].
  unfold xmag in M. rewrite N in M. assert (E : xsig c = m * 2 ^ (j - xpow c)).
  { assert (T : (inject_Z (xsig c) * two (xpow c) == inject_Z (m * 2 ^ (j - xpow c)) * two (xpow c))%Q). { rewrite M, E0, !inject_Z_mult, <- !two_Z by lia. rewrite <- Qmult_assoc, <- two_plus. replace (j - xpow c + xpow c) with j by lia. reflexivity. } now apply tz_eq in T. }
  assert (PW : 0 < 2 ^ w) by (apply Z.pow_pos_nonneg; lia). assert (W127 : (2 ^ w | 2 ^ 127)) by (exists (2 ^ (127 - w)); rewrite <- Z.pow_add_r by lia; f_equal; lia).
  assert (D : (2 ^ w | xsig c)). { rewrite E. apply Z.divide_mul_r. exists (2 ^ (j - xpow c - w)). rewrite <- Z.pow_add_r by lia. f_equal. lia. }
  apply Z.mod_divide; [lia |]. unfold xsig in D. assert (D2 : (2 ^ w | xd c mod 2 ^ 127)) by (apply (Z.divide_add_cancel_r _ (2 ^ 127)); auto).
  rewrite (Z.div_mod (xd c) (2 ^ 127)) by lia. apply Z.divide_add_r; auto. apply Z.divide_mul_l; auto.
Qed.
Lemma int_low n c : isint n c -> 0 < n < 2 ^ 96 -> xd c mod 2 ^ 32 = 0.
Proof. intros I H. apply (int_short n n 0 32 c I); lia. Qed.
Lemma down_exact q c y : xrounds_down q c -> xwf y -> (xval y == q)%Q -> (xval c == q)%Q.
Proof.
  intros (W & L & S & B & _) Wy E. assert (X : (Qabs (xval c) == Qabs q)%Q). { apply Qle_antisym; auto. rewrite <- E. apply B; auto. rewrite E. apply Qle_refl. }
  revert X S. apply (Qabs_case (xval c)); intros H1; apply (Qabs_case q); intros H2 X S; try lra.
  - assert (Z : (xval c * q == - (q * q))%Q) by (rewrite X; ring). assert (0 <= q * q)%Q by nra. assert (Z2 : (q * q == 0)%Q) by lra. apply Qmult_integral in Z2. destruct Z2; lra.
  - assert (Z : (xval c * q == - (q * q))%Q). { setoid_replace (xval c) with (- q)%Q by lra. ring. } assert (0 <= q * q)%Q by nra. assert (Z2 : (q * q == 0)%Q) by lra. apply Qmult_integral in Z2. destruct Z2; lra.
Qed.
Notation u127 := (two (- 127)).
(** rounding a positive number down *)
Lemma down_rel q c : xrounds_down q c -> (1 <= q)%Q -> (q * (1 - u127) <= xval c <= q)%Q.
Proof.
  intros (W & L & S & _ & U) H. rewrite (Qabs_pos q) in L by lra. pose proof (Qle_Qabs (xval c)). assert (P : (0 <= xval c)%Q) by nra. split; [| lra].
  destruct (xnull c) eqn:N.
  { exfalso. assert (V0 : (xval c == 0)%Q) by (rewrite (xnull_zero c N), xval_zero; reflexivity). assert (X : xpow c < 0) by (rewrite (xnull_zero c N); unfold xpow, xZERO; cbn [xe]; lia). unfold xulp in U.
    assert (E : (Qabs (xval c - q) == q)%Q) by (setoid_replace (xval c - q)%Q with (- q)%Q by (rewrite V0; ring); rewrite Qabs_opp; apply Qabs_pos; lra). rewrite E in U.
    assert (Y : 0 < xpow c); [| lia]. apply two_lt_inv. change (two 0) with 1%Q. lra. }
  assert (M : (xmag c == xval c)%Q) by (rewrite <- xabs_val by auto; apply Qabs_pos; auto). destruct (xmag_bin c W N) as [B _]. rewrite two_plus, M in B. unfold xulp in U. assert (T := two_pos (xpow c)). assert (E1 : (two 127 * u127 == 1)%Q) by reflexivity. assert (T2 := two_pos (- 127)).
  assert (Hq : (q - xval c < two (xpow c))%Q). { pose proof (Qle_Qabs (- (xval c - q))) as A. rewrite Qabs_opp in A. lra. }
  assert (two (xpow c) <= xval c * u127)%Q. { setoid_replace (two (xpow c)) with (two (xpow c) * two 127 * u127)%Q by (rewrite <- Qmult_assoc, E1; ring). apply Qmult_le_r; auto. }
  assert (xval c * u127 <= q * u127)%Q by (apply Qmult_le_r; auto; lra). lra.
Qed.
Lemma mul_i32_int b n s a : isint n s -> 0 <= n < 2 ^ 127 -> 0 < a < 2 ^ 31 -> (b = true -> n < 2 ^ 96) ->
  pret b (xmul_i32 s a) (fun c => xwf c /\ (n * a < 2 ^ 128 -> isint (n * a) c) /\ (inject_Z (n * a) * (1 - u127) <= xval c <= inject_Z (n * a))%Q).
Proof.
  intros I Hn Ha Hb. destruct (Z.eq_dec n 0) as [-> | Nz].
  { rewrite (int_zero s I). rewrite (proj1 (C46_mul_i32_zero s a)). apply pret_ret, returns_ok. split; [apply xwf_zero |]. split; [intros _; split; [apply xwf_zero | reflexivity] |]. cbn [Z.mul]. rewrite xval_zero. change (inject_Z 0) with 0%Q. lra. }
  destruct (int_pow n s 127 I ltac:(lia) ltac:(lia)) as [P1 P2]. destruct (int_pos n s I ltac:(lia)) as [N S]. unfold xpow in P1, P2.
  assert (K : forall c, xrounds_down (xval s * inject_Z a) c -> xwf c /\ (n * a < 2 ^ 128 -> isint (n * a) c) /\ (inject_Z (n * a) * (1 - u127) <= xval c <= inject_Z (n * a))%Q).
  { intros c H. assert (E : (xval s * inject_Z a == inject_Z (n * a))%Q) by (rewrite inject_Z_mult, (proj2 I); reflexivity). assert (Wc := proj1 H). split; auto. split.
    - intros L. destruct (int_rep (n * a)) as (y & Wy & Vy); [nia |]. split; auto. rewrite (down_exact _ c y H Wy); [exact E | rewrite Vy, E; reflexivity].
    - assert (H1 : (1 <= xval s * inject_Z a)%Q) by (rewrite E; change 1%Q with (inject_Z 1); rewrite <- Zle_Qle; nia). pose proof (down_rel _ c H H1) as R. rewrite E in R. exact R. }
  destruct b.
  - apply pret_ret. eapply returns_weaken; [apply C46_mul_i32_short; auto; try lia; [apply (proj1 I) | apply (int_low n); auto; specialize (Hb eq_refl); lia] | exact K].
  - destruct (C46_mul_i32_partial s a (proj1 I) N ltac:(lia) ltac:(lia) ltac:(lia) ltac:(lia)) as [H | H]; [left; auto | right]. eapply returns_weaken; [exact H | exact K].
Qed.
Lemma int_lowest n c : isint n c -> 0 <= n -> xlowest c = false.
Proof. intros [W V] H. destruct (xlowest c) eqn:L; auto. rewrite Zle_Qle in H. change (inject_Z 0) with 0%Q in H. assert (X : xsign c = true). { destruct c as [d e]. unfold xlowest in L. cbn [xd xe] in L. unfold xsign. cbn [xd]. change SIGNM with (2 ^ 127) in L. lia. } pose proof (xval_neg c W X). lra. Qed.
Lemma pos_lowest c : xwf c -> (0 <= xval c)%Q -> xlowest c = false.
Proof. intros W H. destruct (xlowest c) eqn:L; auto. assert (X : xsign c = true). { destruct c as [d e]. unfold xlowest in L. cbn [xd xe] in L. unfold xsign. cbn [xd]. change SIGNM with (2 ^ 127) in L. lia. } pose proof (xval_neg c W X). lra. Qed.
(** adding a small integer to a number in (n (1 - 2^-127), n] *)
Lemma add_int s n d t : xwf s -> (inject_Z n * (1 - u127) <= xval s <= inject_Z n)%Q -> 0 <= n < 2 ^ 132 -> isint d t -> 0 <= d < 2 ^ 64 ->
  returns (xadd s t) (fun c => xwf c /\ (isint n s -> n + d < 2 ^ 128 -> isint (n + d) c) /\ (inject_Z (n + d) * (1 - uu) <= xval c <= inject_Z (n + d))%Q).
Proof.
  intros W B Hn It Hd. assert (U : (0 < u127 < 1)%Q) by (split; reflexivity). assert (UV : (uu == 4 * u127)%Q) by reflexivity. assert (P : (0 <= xval s)%Q). { assert (0 <= inject_Z n)%Q by (change 0%Q with (inject_Z 0); rewrite <- Zle_Qle; lia). nra. }
  assert (Ls := pos_lowest s W P). assert (Lt := int_lowest d t It ltac:(lia)). destruct (Z.eq_dec d 0) as [-> | Dz].
  { rewrite (int_zero t It), xadd_zero_r by auto. apply returns_ok. rewrite Z.add_0_r. split; auto. split; auto. assert (0 <= inject_Z n)%Q by (change 0%Q with (inject_Z 0); rewrite <- Zle_Qle; lia). rewrite UV. split; [nra | lra]. }
  destruct (int_pos d t It ltac:(lia)) as [Nt St]. destruct (int_pow d t 64 It ltac:(lia) ltac:(lia)) as [T1 T2]. destruct (Z.eq_dec n 0) as [-> | Nz].
  { assert (s = xZERO). { apply xval_inj; auto; [apply xwf_zero |]. change (inject_Z 0) with 0%Q in B. rewrite xval_zero. lra. } subst s. rewrite xadd_zero_l by (auto; apply It). apply returns_ok. cbn [Z.add]. split; [apply It |]. split; [auto |]. rewrite (proj2 It). split.
    - assert (0 <= inject_Z d)%Q by (change 0%Q with (inject_Z 0); rewrite <- Zle_Qle; lia). assert (0 < uu < 1)%Q by (split; reflexivity). nra.
    - apply Qle_refl. }
  assert (H1 : (1 <= inject_Z n)%Q) by (change 1%Q with (inject_Z 1); rewrite <- Zle_Qle; lia). assert (H2 : (1 <= inject_Z d)%Q) by (change 1%Q with (inject_Z 1); rewrite <- Zle_Qle; lia).
  assert (Ps : (1 # 2 <= xval s)%Q). { assert (X : (u127 < 1 # 2)%Q) by reflexivity. nra. }
  assert (Ns : xnull s = false). { destruct (xnull s) eqn:N; auto. rewrite (xnull_zero s N), xval_zero in Ps. lra. } assert (Ss : xsign s = false). { destruct (xsign s) eqn:S; auto. pose proof (xval_neg s W S). lra. }
  assert (Ms : (xmag s == xval s)%Q) by (rewrite <- xabs_val by auto; apply Qabs_pos; auto). assert (Hs : xpow s + 127 < 132). { apply xpow_small; auto. rewrite Ms, two_Z by lia. apply Qle_lt_trans with (inject_Z n); [apply B | rewrite <- Zlt_Qlt; lia]. }
  unfold xpow in Hs, T1, T2. eapply returns_weaken; [apply C45_add_same_sign; auto; try congruence; try lia; apply It |]. intros c H. assert (Wc := proj1 H). split; auto. split.
  - intros Is L. destruct (int_rep (n + d)) as (y & Wy & Vy); [lia |]. split; auto. assert (E : (xval s + xval t == inject_Z (n + d))%Q) by (rewrite inject_Z_plus, (proj2 Is), (proj2 It); reflexivity). rewrite (down_exact _ c y H Wy); [exact E | rewrite Vy, E; reflexivity].
  - assert (Vt := proj2 It). assert (X := down_rel _ c H ltac:(lra)). rewrite Vt in X. rewrite inject_Z_plus, UV. set (p := inject_Z n) in *. set (q := inject_Z d) in *. set (v := xval s) in *. set (w := xval c) in *. set (e := u127) in *. clearbody p q v w e. clear - B U H1 H2 X. split; [| lra].
    assert ((p * (1 - e) + q) * (1 - e) <= (v + q) * (1 - e))%Q by (apply Qmult_le_r; lra). nra.
Qed.

(** ** runs of digits *)
Notation digc := (fun c => 48 <= c <= 57).
Lemma run_acc l : forall n, fold_left (fun a c => a * 10 + (c - 48)) l n = n * 10 ^ Z.of_nat (length l) + dec_run l.
Proof.
  unfold dec_run. induction l as [| c t IH]; intros n; cbn [fold_left length]; [change (10 ^ Z.of_nat 0) with 1; lia |]. rewrite IH, (IH (0 * 10 + (c - 48))), Nat2Z.inj_succ, Z.pow_succ_r by lia. ring.
Qed.
Lemma run_app k l : dec_run (k ++ l) = dec_run k * 10 ^ Z.of_nat (length l) + dec_run l.
Proof. unfold dec_run at 1. rewrite fold_left_app. apply run_acc. Qed.
Lemma run_cons c l : dec_run (c :: l) = (c - 48) * 10 ^ Z.of_nat (length l) + dec_run l.
Proof. apply (run_app [c] l). Qed.
Lemma run_range l : Forall digc l -> 0 <= dec_run l < 10 ^ Z.of_nat (length l).
Proof.
  induction 1 as [| c t Hc Ht IH]; [cbn; lia |]. rewrite run_cons. cbn [length]. rewrite Nat2Z.inj_succ, Z.pow_succ_r by lia. nia.
Qed.
Lemma p38 p : 0 <= p <= 38 -> 10 ^ p < 2 ^ 127.
Proof. intros H. apply Z.le_lt_trans with (10 ^ 38); [apply Z.pow_le_mono_r; lia | reflexivity]. Qed.
Lemma p28 p : 0 <= p <= 28 -> 10 ^ p < 2 ^ 96.
Proof. intros H. apply Z.le_lt_trans with (10 ^ 28); [apply Z.pow_le_mono_r; lia | reflexivity]. Qed.
(** within 2^-125 below an integer, and equal to it when it fits *)
Definition nearint (D : Z) (c : f192) : Prop := xwf c /\ (D < 2 ^ 128 -> isint D c) /\ (inject_Z D * (1 - uu) <= xval c <= inject_Z D)%Q.
Lemma int_nearint D c : isint D c -> 0 <= D -> nearint D c.
Proof. intros I H. split; [apply I |]. split; auto. rewrite (proj2 I). rewrite Zle_Qle in H. change (inject_Z 0) with 0%Q in H. assert (0 < uu < 1)%Q by (split; reflexivity). nra. Qed.
Lemma run1_ok b digs : Forall digc digs -> forall r n p, isint n r -> 0 <= n < 10 ^ p -> 0 <= p -> p + Z.of_nat (length digs) <= 39 -> (b = true -> p + Z.of_nat (length digs) <= 29) ->
  pret b (run1 digs r) (nearint (n * 10 ^ Z.of_nat (length digs) + dec_run digs)).
Proof.
  induction 1 as [| c t Hc Ht IH]; intros r n p I Hn Hp HL Hb.
  { cbn [run1 length]. change (n * 10 ^ Z.of_nat 0 + dec_run []) with (n * 1 + 0). rewrite Z.mul_1_r, Z.add_0_r. apply pret_ret, returns_ok, int_nearint; auto. lia. }
  cbn [length] in *. rewrite Nat2Z.inj_succ in *. cbn [run1]. pose proof (p38 p ltac:(lia)) as P38.
  eapply pret_bind. { apply (mul_i32_int b n r 10); auto; try lia. intros B. specialize (Hb B). pose proof (p28 p ltac:(lia)). lia. } intros r1 (W1 & I1 & R1).
  rewrite castw_small by lia. rewrite subw_ok by lia. cbn [bind]. eapply pret_bind. { apply pret_ret, (xfrom_prim_ok U8 (c - 48)); [cbn; lia | lia]. } intros d Id.
  eapply pret_bind. { apply pret_ret. apply (add_int r1 (n * 10) (c - 48) d); auto; lia. } intros r2 (W2 & I2 & R2).
  assert (Pw : 10 ^ (p + 1) = 10 * 10 ^ p) by (rewrite Z.pow_add_r by lia; change (10 ^ 1) with 10; ring).
  replace (n * 10 ^ Z.succ (Z.of_nat (length t)) + dec_run (c :: t)) with ((n * 10 + (c - 48)) * 10 ^ Z.of_nat (length t) + dec_run t) by (rewrite run_cons, Z.pow_succ_r by lia; ring).
  destruct t as [| c' t'].
  - cbn [run1 length]. change (10 ^ Z.of_nat 0) with 1. change (dec_run []) with 0. rewrite Z.mul_1_r, Z.add_0_r. apply pret_ret, returns_ok. split; auto. split; auto. intros L. apply I2; auto. apply I1. lia.
  - cbn [length] in *. pose proof (p38 (p + 1) ltac:(lia)). apply (IH r2 _ (p + 1)); auto; try lia. apply I2; [apply I1; lia | lia].
Qed.
Lemma p33 p : 0 <= p <= 33 -> 10 ^ p <= 10 ^ 33. Proof. intros. apply Z.pow_le_mono_r; lia. Qed.
Lemma run_value_ok b digs : Forall digc digs -> (length digs <= 39)%nat -> (b = true -> (length digs <= 29)%nat) -> pret b (run_value digs) (nearint (dec_run digs)).
Proof.
  intros Hd HL Hb. unfold run_value. set (Dt := dec_run digs).
  set (J := fun s : list Z * f192 => Forall digc (fst s) /\ exists n p, isint n (snd s) /\ 0 <= n < 10 ^ p /\ 0 <= p /\ p + Z.of_nat (length (fst s)) <= 39 /\ (b = true -> p + Z.of_nat (length (fst s)) <= 29) /\ n * 10 ^ Z.of_nat (length (fst s)) + dec_run (fst s) = Dt).
  assert (L : pret b (loopn 8 run6_body (digs, xZERO)) J).
  { apply (loopn_rule run6_body J (fun _ m => pret b m J) (fun s => Z.of_nat (length (fst s)))).
    - intros self [ds r] Js Hs. unfold run6_body. destruct (Nat.ltb_spec 6 (length ds)) as [G | G]; [| apply pret_ret, returns_ok; exact Js]. destruct Js as (F & n & p & I & Hn & Hp & Hl & Hb' & E). cbn [fst snd] in *.
      pose proof (p38 p ltac:(lia)) as P38. eapply pret_bind. { apply (mul_i32_int b n r 1000000); auto; try lia. intros B. specialize (Hb' B). pose proof (p28 p ltac:(lia)). lia. } intros r1 (W1 & I1 & R1).
      assert (F6 : Forall digc (firstn 6 ds)) by (apply Forall_forall; intros x Hx; rewrite Forall_forall in F; apply F; rewrite <- (firstn_skipn 6 ds); apply in_or_app; auto).
      assert (S6 : Forall digc (skipn 6 ds)) by (apply Forall_forall; intros x Hx; rewrite Forall_forall in F; apply F; rewrite <- (firstn_skipn 6 ds); apply in_or_app; auto).
      assert (L6 : length (firstn 6 ds) = 6%nat) by (apply firstn_length_le; lia). pose proof (run_range _ F6) as R6. rewrite L6 in R6. change (10 ^ Z.of_nat 6) with 1000000 in R6. assert (LS : length (skipn 6 ds) = (length ds - 6)%nat) by apply skipn_length.
      eapply pret_bind. { apply pret_ret, (xfrom_prim_ok U32 (dec_run (firstn 6 ds))); [cbn [pmin pmax]; lia | lia]. } intros d Id. pose proof (p33 p ltac:(lia)) as P33. assert (10 ^ 33 * 1000000 < 2 ^ 130) by reflexivity.
      eapply pret_bind. { apply pret_ret. apply (add_int r1 (n * 1000000) (dec_run (firstn 6 ds)) d); auto; lia. } intros r2 (W2 & I2 & R2).
      assert (P6 : 10 ^ (p + 6) = 1000000 * 10 ^ p) by (rewrite Z.pow_add_r by lia; change (10 ^ 6) with 1000000; ring). pose proof (p38 (p + 6) ltac:(lia)).
      apply Hs; [| cbn [fst]; lia]. split; [exact S6 |]. cbn [fst snd]. exists (n * 1000000 + dec_run (firstn 6 ds)), (p + 6). split; [apply I2; [apply I1; lia | lia] |]. split; [lia |]. split; [lia |]. split; [lia |]. split; [intros B; specialize (Hb' B); lia |].
      rewrite <- E. assert (RA : dec_run ds = dec_run (firstn 6 ds) * 10 ^ Z.of_nat (length ds - 6) + dec_run (skipn 6 ds)) by (rewrite <- LS, <- run_app, firstn_skipn; reflexivity). rewrite RA, LS. replace (Z.of_nat (length ds)) with (6 + Z.of_nat (length ds - 6)) by lia. rewrite Z.pow_add_r by lia. change (10 ^ 6) with 1000000. ring.
    - split; auto. exists 0, 0. cbn [fst snd]. split; [split; [apply xwf_zero | reflexivity] |]. split; [lia |]. split; [lia |]. split; [lia |]. split; [intros B; specialize (Hb B); lia | unfold Dt; lia].
    - cbn [fst]. lia. }
  eapply pret_bind; [exact L |]. intros [ds r] (F & n & p & I & Hn & Hp & Hl & Hb' & E). cbn [fst snd] in *. rewrite <- E. apply (run1_ok b ds F r n p); auto.
Qed.

(** ** powers of ten *)
Lemma pwr_inv a n b r : xwf a -> xnull a = false -> n < 0 -> b = Z.abs n -> b * (Z.abs (xpow a + 127) + 1) <= 2 ^ 35 -> pwr a b (2 * b) r ->
  returns (xdiv xONE r) (fun c => xwf c /\ xnull c = false /\ xsign c = xsign a && Z.odd n /\ (xmag a ^ n <= xmag c)%Q /\ (xmag c <= xmag a ^ n * (1 + inject_Z (4 * b + 10) * uu))%Q).
Proof.
  intros Wa Na Hn Eb H Hr. assert (Hb : 0 < b) by lia. assert (b <= 2 ^ 35) by nia.
  pose proof (pwr_exp a b (2 * b) r _ _ Wa Na eq_refl eq_refl ltac:(lia) ltac:(lia) ltac:(lia) Hr) as Xr. destruct Hr as (Wr & Nr & Sr & Lr & Ur).
  eapply returns_weaken; [apply xdiv_main; auto; [split; split; vm_compute; congruence | reflexivity | lia] |]. intros c (Wc & Nc & Sc & Lc & Uc & _). split; auto. split; auto. split.
  { rewrite Sc, Sr. change (xsign xONE) with false. replace (Z.odd b) with (Z.odd n) by (rewrite Eb; destruct (Z.abs_spec n) as [[_ ->] | [_ ->]]; rewrite ?Z.odd_opp; auto). destruct (xsign a && Z.odd n); reflexivity. }
  assert (V1 : (Qabs (xval xONE / xval r) == 1 / xmag r)%Q). { assert (E1 : (xval xONE == 1)%Q) by reflexivity. rewrite E1. unfold Qdiv. rewrite Qabs_Qmult, Qabs_Qinv, (xabs_val r Wr). reflexivity. }
  rewrite V1 in Lc, Uc. rewrite xabs_val in Lc, Uc by auto. assert (Pa := xmag_pos a Wa Na). assert (Pr := xmag_pos r Wr Nr). assert (Pc := xmag_pos c Wc Nc). assert (Pw := Qpower_0_lt (xmag a) b Pa).
  assert (En : (xmag a ^ n == 1 / xmag a ^ b)%Q). { replace n with (- b) by lia. rewrite Qpower_opp. unfold Qdiv. ring. } rewrite En. clear En V1.
  destruct (k_small (2 * b) ltac:(lia)) as [K1 K2]. destruct (xmag_bin c Wc Nc) as [M1 _]. rewrite two_plus in M1. unfold xulp in Uc. assert (Tc := two_pos (xpow c)). assert (T127 : (two 127 == 4 * two 125)%Q) by reflexivity. assert (UU : (two (- 125) * two 125 == 1)%Q) by reflexivity.
  rewrite !inject_Z_plus, !inject_Z_mult. rewrite inject_Z_mult in Lr, K1, K2. change (inject_Z 4) with 4%Q. change (inject_Z 2) with 2%Q in *. change (inject_Z 10) with 10%Q. assert (U : (0 < uu < 1 # 1000)%Q) by (split; reflexivity).
  set (p := (xmag a ^ b)%Q) in *. set (x := xmag r) in *. set (y := xmag c) in *. set (w := two (xpow c)) in *. set (u := uu) in *. set (t := two 125) in *. set (B := inject_Z b) in *. assert (Q70 : ((1 # 2 ^ 70) <= 1 # 1000)%Q) by (vm_compute; discriminate).
  assert (Nw : (9 * w <= (9 # 4) * u * y)%Q). { rewrite T127 in M1. assert ((w * (4 * t)) * u <= y * u)%Q by (apply Qmult_le_r; [lra | auto]). setoid_replace (w * (4 * t) * u)%Q with (4 * w * (u * t))%Q in H1 by ring. rewrite UU in H1. lra. }
  clearbody p x y w u t B. clear - Lr Ur Lc Uc Nw Pw Pr Pc K1 K2 U Q70. set (g := (2 * B * u)%Q) in *. setoid_replace ((4 * B + 10) * u)%Q with (2 * g + 10 * u)%Q by (unfold g; ring). clearbody g. destruct U as [U1 U2].
  split.
  - eapply Qle_trans; [| exact Lc]. apply Qle_shift_div_r; auto. setoid_replace (1 / x * p)%Q with (p / x)%Q by (field; lra). apply Qle_shift_div_l; lra.
  - assert (Q1 : (1 / x <= (1 + 2 * g) / p)%Q). { apply Qle_shift_div_r; auto. setoid_replace ((1 + 2 * g) / p * x)%Q with (x * (1 + 2 * g) / p)%Q by (field; lra). apply Qle_shift_div_l; auto. assert (p * (1 - g) * (1 + 2 * g) <= x * (1 + 2 * g))%Q by (apply Qmult_le_r; lra). nra. }
    assert (Y : (y * (1 - (9 # 4) * u) < (1 + 2 * g) / p)%Q) by lra. setoid_replace (1 / p * (1 + (2 * g + 10 * u)))%Q with ((1 + 2 * g + 10 * u) / p)%Q by (field; lra). apply Qle_shift_div_l; auto.
    assert (Z : (y * p * (1 - (9 # 4) * u) < 1 + 2 * g)%Q). { apply (Qmult_lt_r _ _ p Pw) in Y. setoid_replace ((1 + 2 * g) / p * p)%Q with (1 + 2 * g)%Q in Y by (field; lra). lra. }
    set (z := (y * p)%Q) in *. clearbody z. destruct (Qlt_le_dec (1 + 2 * g + 10 * u) z) as [C |]; auto. exfalso. assert ((1 + 2 * g + 10 * u) * (1 - (9 # 4) * u) < z * (1 - (9 # 4) * u))%Q by (apply Qmult_lt_r; lra). nra.
Qed.
Definition ten : f192 := mkX (2 ^ 125) (EXPC - 124).
Lemma ten_wf : xwf ten. Proof. split; cbn; lia. Qed.
Lemma ten_null : xnull ten = false. Proof. reflexivity. Qed.
Lemma ten_mag : (xmag ten == 10)%Q. Proof. reflexivity. Qed.
Lemma ten_from : xfrom_prim I32 10 = Ok ten. Proof. reflexivity. Qed.
Lemma ten_pow n : 0 <= n -> (xmag ten ^ n == inject_Z (10 ^ n))%Q.
Proof. intros H. rewrite ten_mag. symmetry. apply (Zpower_Qpower 10 n H). Qed.
Lemma ten_exact n : 0 <= n < 37 -> returns (xfrom_prim U128 (10 ^ n)) (pwr ten n 0).
Proof.
  intros H. assert (P : 0 < 10 ^ n < 2 ^ 127) by (split; [apply Z.pow_pos_nonneg; lia | apply p38; lia]). eapply returns_weaken; [apply xfrom_prim_ok; [cbn [pmin pmax]; lia | lia] |]. intros c I. destruct (int_pos _ c I ltac:(lia)) as [N S].
  split; [apply I |]. split; auto. split; [rewrite S; reflexivity |]. rewrite ten_pow by lia. rewrite (int_mag _ c I) by lia. change (inject_Z 0) with 0%Q. split; lra.
Qed.
Lemma pow10_worker_ok fuel : forall n, 0 <= n < 37 * 2 ^ Z.of_nat fuel -> n * 4 <= 2 ^ 46 -> returns (xpow10_worker fuel n) (pwr ten n (Z.max 0 (n - 1))).
Proof.
  assert (PM := pwr_mul ten 3 4). assert (Sm : forall fuel n, 0 <= n < 37 -> returns (xpow10_worker fuel n) (pwr ten n (Z.max 0 (n - 1)))).
  { intros f n H. replace (xpow10_worker f n) with (xfrom_prim U128 (10 ^ n)) by (destruct f; cbn [xpow10_worker]; rewrite (proj2 (Z.ltb_lt n 37)) by lia; reflexivity). eapply returns_weaken; [apply ten_exact; auto |]. intros c Hc. eapply pwr_weak; [apply ten_wf | apply ten_null | lia | | exact Hc]. lia. }
  induction fuel as [| fuel IH]; intros n H H4. { apply Sm. change (2 ^ Z.of_nat 0) with 1 in H. lia. }
  destruct (Z_lt_ge_dec n 37); [apply Sm; lia |]. rewrite Nat2Z.inj_succ, Z.pow_succ_r in H by lia. cbn [xpow10_worker]. rewrite (proj2 (Z.ltb_ge n 37)) by lia. pose proof (Z.div_mod n 2 ltac:(lia)) as DM. pose proof (Z.mod_pos_bound n 2 ltac:(lia)) as MB. set (h := n / 2) in *.
  eapply returns_bind; [apply IH; lia |]. intros r Hr. rewrite Z.max_r in Hr by lia. eapply returns_bind. { apply (PM h (h - 1) r h (h - 1) r ten_wf ten_null eq_refl eq_refl); auto; lia. } intros r2 Hr2. replace (h + h) with (2 * h) in Hr2 by lia. replace (h - 1 + (h - 1) + 1) with (2 * h - 1) in Hr2 by lia.
  destruct (Z.eqb_spec (n mod 2) 1) as [O | O].
  - rewrite ten_from. cbn [bind]. replace n with (2 * h + 1) at 1 by lia. replace (Z.max 0 (n - 1)) with (2 * h - 1 + 0 + 1) by lia. destruct (ten_exact 1 ltac:(lia)) as (t & Et & Ht). assert (t = ten). { apply xval_inj; [apply Ht | apply ten_wf |]. change (10 ^ 1) with 10 in Et. assert (Ok t = Ok ten) by (rewrite <- Et; reflexivity). congruence. } subst t.
    apply (PM (2 * h) (2 * h - 1) r2 1 0 ten ten_wf ten_null eq_refl eq_refl); auto; lia.
  - apply returns_ok. replace n with (2 * h) at 1 by lia. eapply pwr_weak; [apply ten_wf | apply ten_null | lia | | exact Hr2]. lia.
Qed.
(** [pow10]: within (4 |n| + 10) 2^-125 of the power, exactly for small nonnegative exponents *)
Lemma pow10_ok n : - 2 ^ 33 <= n <= 2 ^ 33 -> returns (xpow10 n) (fun c => xwf c /\ xnull c = false /\ xsign c = false /\ (0 <= n < 37 -> (xmag c == 10 ^ n)%Q) /\
  (10 ^ n * (1 - inject_Z (4 * Z.abs n + 10) * uu) <= xmag c)%Q /\ (xmag c <= 10 ^ n * (1 + inject_Z (4 * Z.abs n + 10) * uu))%Q).
Proof.
  intros H. unfold xpow10. rewrite sabs_ok by (change (64 - 1) with 63; lia). cbn [bind]. rewrite castw_small by lia.
  destruct (pow10_worker_ok 64 (Z.abs n) ltac:(change (Z.of_nat 64) with 64; lia) ltac:(lia)) as (w & Ew & Hw). rewrite Ew. cbn [bind].
  assert (K1 : (0 <= inject_Z (4 * Z.abs n + 10) * uu)%Q) by (apply Qmult_le_0_compat; [change 0%Q with (inject_Z 0); rewrite <- Zle_Qle; lia | apply Qlt_le_weak, two_pos]).
  assert (T10 : forall z, (0 < 10 ^ z)%Q) by (intros z; apply Qpower_0_lt; reflexivity).
  destruct (Z.ltb_spec n 0) as [Neg | Pos].
  - assert (Hw2 : pwr ten (Z.abs n) (2 * Z.abs n) w) by (eapply pwr_weak; [apply ten_wf | apply ten_null | lia | | exact Hw]; lia).
    eapply returns_weaken; [apply (pwr_inv ten n (Z.abs n) w ten_wf ten_null Neg eq_refl); [change (Z.abs (xpow ten + 127) + 1) with 4; lia | exact Hw2] |]. intros c (Wc & Nc & Sc & Lc & Uc). rewrite ten_mag in Lc, Uc.
    split; auto. split; auto. split; [rewrite Sc; reflexivity |]. split; [lia |]. split; auto. specialize (T10 n). set (x := (10 ^ n)%Q) in *. set (k := (inject_Z (4 * Z.abs n + 10) * uu)%Q) in *. clearbody x k. nra.
  - apply returns_ok. destruct (Z_lt_ge_dec n 37) as [Sm | Lg].
    + destruct (ten_exact n ltac:(lia)) as (w2 & Ew2 & Hw2). assert (w2 = w). { rewrite Z.abs_eq in Ew by lia. assert (Ok w2 = Ok w); [| congruence]. rewrite <- Ew, <- Ew2. cbn [xpow10_worker]. rewrite (proj2 (Z.ltb_lt n 37)) by lia. reflexivity. } subst w2.
      destruct Hw2 as (Wc & Nc & Sc & Lc & Uc). rewrite ten_mag in Lc, Uc. change (inject_Z 0) with 0%Q in Lc. assert (E : (xmag w == 10 ^ n)%Q) by (apply Qle_antisym; [auto |]; eapply Qle_trans; [| exact Lc]; lra).
      split; auto. split; auto. split; [rewrite Sc; reflexivity |]. split; auto. rewrite E. specialize (T10 n). set (x := (10 ^ n)%Q) in *. set (k := (inject_Z (4 * Z.abs n + 10) * uu)%Q) in *. clearbody x k. clear - T10 K1. split; nra.
    + destruct Hw as (Wc & Nc & Sc & Lc & Uc). rewrite ten_mag, Z.abs_eq in Lc, Uc by lia. split; auto. split; auto. split; [rewrite Sc; reflexivity |]. split; [lia |]. specialize (T10 n). split.
      * eapply Qle_trans; [| exact Lc]. apply Qmult_le_l; auto. assert (inject_Z (Z.max 0 (n - 1)) <= inject_Z (4 * Z.abs n + 10))%Q by (rewrite <- Zle_Qle; lia). assert (inject_Z (Z.max 0 (n - 1)) * uu <= inject_Z (4 * Z.abs n + 10) * uu)%Q by (apply Qmult_le_r; [apply two_pos | auto]). lra.
      * eapply Qle_trans; [exact Uc |]. set (x := (10 ^ n)%Q) in *. set (k := (inject_Z (4 * Z.abs n + 10) * uu)%Q) in *. clearbody x k. clear - T10 K1. nra.
Qed.
