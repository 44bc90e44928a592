(** Square root of F192. *)
From Coq Require Import ZArith QArith Qabs Lqa Lia Bool List Qfield.
From Verif Require Import Base UBig UStr USpec UEq BBig BSpec BEq RBig RIeee FSpec RIeeeP XNum XSpec XP1 XP2 XP3 XP6 XP7 XP8 XP9 XFun XC13 XPow.
Local Open Scope Z_scope.

(** ** one step of Newton's method on integers *)
Lemma newton_low n x : 0 < n -> 0 < x -> n < ((x + n / x) / 2 + 1) * ((x + n / x) / 2 + 1).
Proof.
  intros Hn Hx. set (y := (x + n / x) / 2). pose proof (Z.div_mod n x ltac:(lia)) as D1. pose proof (Z.mod_pos_bound n x Hx) as D2. pose proof (Z.div_mod (x + n / x) 2 ltac:(lia)) as D3. pose proof (Z.mod_pos_bound (x + n / x) 2 ltac:(lia)) as D4. fold y in D3.
  set (q := n / x) in *. set (r := n mod x) in *. set (s := (x + q) mod 2) in *. assert (0 <= q) by (apply Z.div_pos; lia). clearbody y q r s.
  assert (K : x * x + n < 2 * (y + 1) * x). { replace (2 * (y + 1) * x) with ((x + q - s + 2) * x) by (replace (2 * (y + 1)) with (x + q - s + 2) by lia; ring). nia. } assert (0 <= y) by lia. assert (4 * (x * x) * n < 4 * (x * x) * ((y + 1) * (y + 1))); [| nia].
  assert (4 * (x * x) * n <= (x * x + n) * (x * x + n)) by (pose proof (Z.square_nonneg (x * x - n)); lia). assert ((x * x + n) * (x * x + n) < (2 * (y + 1) * x) * (2 * (y + 1) * x)) by (apply Z.mul_lt_mono_nonneg; nia). nia.
Qed.
Lemma newton_up S A B C n x : 0 < S -> 0 < A <= B -> 0 < C -> 0 < n -> 0 < x -> A * n <= S * (x * x) <= B * n -> (A + S) * (A + S) <= 4 * A * C -> (B + S) * (B + S) <= 4 * B * C ->
  S * (((x + n / x) / 2) * ((x + n / x) / 2)) <= C * n.
Proof.
  intros HS HA HC Hn Hx [H1 H2] EA EB. set (y := (x + n / x) / 2). pose proof (Z.div_mod n x ltac:(lia)) as D1. pose proof (Z.mod_pos_bound n x Hx) as D2. pose proof (Z.div_mod (x + n / x) 2 ltac:(lia)) as D3. pose proof (Z.mod_pos_bound (x + n / x) 2 ltac:(lia)) as D4. fold y in D3.
  set (q := n / x) in *. set (r := n mod x) in *. set (s := (x + q) mod 2) in *. assert (0 <= q) by (apply Z.div_pos; lia). clearbody q r s.
  assert (K : 2 * y * x <= x * x + n). { replace (2 * y) with (x + q - s) by lia. nia. } assert (0 <= y) by lia. set (t := x * x) in *. assert (Ht : 0 < t) by (unfold t; nia). assert (K2 : 4 * t * (y * y) <= (t + n) * (t + n)). { unfold t in *. replace (4 * (x * x) * (y * y)) with ((2 * y * x) * (2 * y * x)) by ring. apply Z.mul_le_mono_nonneg; nia. }
  clearbody t. set (T := S * t) in *. assert (G : (T + S * n) * (T + S * n) <= 4 * C * T * n).
  { assert (P : 0 <= (T - A * n) * (B * n - T)) by (apply Z.mul_nonneg_nonneg; lia). assert (P2 : (T + S * n) * (T + S * n) <= n * ((A + B + 2 * S) * T + (S * S - A * B) * n)) by nia.
    assert (P3 : (A + B + 2 * S - 4 * C) * T + (S * S - A * B) * n <= 0).
    { destruct (Z_le_gt_dec 0 (A + B + 2 * S - 4 * C)) as [Hk | Hk].
      - assert ((A + B + 2 * S - 4 * C) * T <= (A + B + 2 * S - 4 * C) * (B * n)) by (apply Z.mul_le_mono_nonneg_l; lia). assert (n * ((B + S) * (B + S)) <= n * (4 * B * C)) by (apply Z.mul_le_mono_nonneg_l; lia). nia.
      - assert ((A + B + 2 * S - 4 * C) * T <= (A + B + 2 * S - 4 * C) * (A * n)) by (apply Z.mul_le_mono_nonpos_l; lia). assert (n * ((A + S) * (A + S)) <= n * (4 * A * C)) by (apply Z.mul_le_mono_nonneg_l; lia). nia. }
    assert (n * ((A + B + 2 * S - 4 * C) * T + (S * S - A * B) * n) <= 0) by nia. nia. }
  assert (G2 : S * ((t + n) * (t + n)) <= 4 * C * t * n). { unfold T in G. assert (S * (S * ((t + n) * (t + n))) <= S * (4 * C * t * n)) by nia. nia. }
  assert (4 * t * (S * (y * y)) <= 4 * t * (C * n)) by nia. nia.
Qed.
Lemma isqrt_step_ok n x : 0 < x < 2 ^ 65 -> 0 <= n < 2 ^ 128 -> 2 ^ 60 <= x -> isqrt_step n x = Ok ((x + n / x) / 2).
Proof.
  intros Hx Hn H60. unfold isqrt_step. unfold divw. rewrite (proj2 (Z.eqb_neq x 0)) by lia. cbn [bind]. assert (0 <= n / x < 2 ^ 68) by (split; [apply Z.div_pos; lia | apply Z.div_lt_upper_bound; nia]). rewrite addw_ok by lia. cbn [bind]. rewrite shrw_ok by lia. f_equal.
Qed.
Lemma sq_le x y : 0 <= x -> 0 <= y -> x * x <= y * y -> x <= y.
Proof. intros. nia. Qed.
Lemma sq_lt x y : 0 <= x -> 0 <= y -> x * x < y * y -> x < y.
Proof. intros. nia. Qed.
Lemma isqrt_ok n : 2 ^ 127 <= n <= 2 ^ 128 - 2 ^ 90 -> returns (xisqrt n) (fun s => 2 ^ 63 <= s < 2 ^ 64 /\ n - 2 ^ 66 <= s * s /\ 10 ^ 18 * (s * s) <= (10 ^ 18 + 2276000) * n).
Proof.
  intros Hn. unfold xisqrt. set (x0 := 13043817825332782212). set (S := 10 ^ 18).
  assert (Low : forall x, 0 < x -> let y := (x + n / x) / 2 in 2 ^ 63 <= y /\ n - 2 * y - 1 < y * y). { intros x Hx y. pose proof (newton_low n x ltac:(lia) Hx) as K. fold y in K. assert (0 <= y) by (apply Z.div_pos; [assert (0 <= n / x) by (apply Z.div_pos; lia); lia | lia]). split; [| nia]. assert (2 ^ 63 < y + 1); [| lia]. apply sq_lt; lia. }
  assert (Hi : forall y C, 0 <= y -> S * (y * y) <= C * n -> C <= 2 * S -> y < 2 ^ 65) by (intros y C Hy H1 H2; apply sq_lt; unfold S in *; nia).
  rewrite isqrt_step_ok by (unfold x0; lia). cbn [bind]. set (x1 := (x0 + n / x0) / 2).
  assert (U1 : S * (x1 * x1) <= (10 ^ 18 + 125100000000000000) * n). { apply (newton_up S (499900000000000000) (10 ^ 18) _ n x0); unfold S, x0; lia. }
  destruct (Low x0 ltac:(unfold x0; lia)) as [L1 L1']. fold x1 in L1, L1'. assert (H1 := Hi x1 _ ltac:(lia) U1 ltac:(unfold S; lia)). clearbody x1.
  rewrite isqrt_step_ok by lia. cbn [bind]. set (x2 := (x1 + n / x1) / 2).
  assert (U2 : S * (x2 * x2) <= (10 ^ 18 + 3480000000000000) * n). { apply (newton_up S (10 ^ 18 - 10) (10 ^ 18 + 125100000000000000) _ n x1); unfold S in *; lia. }
  destruct (Low x1 ltac:(lia)) as [L2 L2']. fold x2 in L2, L2'. assert (H2 := Hi x2 _ ltac:(lia) U2 ltac:(unfold S; lia)). clearbody x2.
  rewrite isqrt_step_ok by lia. cbn [bind]. set (x3 := (x2 + n / x2) / 2).
  assert (U3 : S * (x3 * x3) <= (10 ^ 18 + 3017200000000) * n). { apply (newton_up S (10 ^ 18 - 10) (10 ^ 18 + 3480000000000000) _ n x2); unfold S in *; lia. }
  destruct (Low x2 ltac:(lia)) as [L3 L3']. fold x3 in L3, L3'. assert (H3 := Hi x3 _ ltac:(lia) U3 ltac:(unfold S; lia)). clearbody x3.
  rewrite isqrt_step_ok by lia. cbn [bind]. set (x4 := (x3 + n / x3) / 2).
  assert (U4 : S * (x4 * x4) <= (10 ^ 18 + 2276000) * n). { apply (newton_up S (10 ^ 18 - 10) (10 ^ 18 + 3017200000000) _ n x3); unfold S in *; lia. }
  destruct (Low x3 ltac:(lia)) as [L4 L4']. fold x4 in L4, L4'. assert (H4 := Hi x4 _ ltac:(lia) U4 ltac:(unfold S; lia)). clearbody x4. apply returns_ok.
  assert (V4 : x4 < 2 ^ 64) by (apply sq_lt; unfold S in *; lia). split; [lia |].
  destruct (Z.min_spec x3 x4) as [[Hm ->] | [Hm ->]]; (split; [lia |]); [| exact U4]. assert (x3 * x3 <= x4 * x4) by (apply Z.mul_le_mono_nonneg; lia). unfold S in *. lia.
Qed.
(** ** Newton's method on F192 *)
Definition pos (c : f192) : Prop := xwf c /\ xnull c = false /\ xsign c = false.
Lemma pos_val c : pos c -> xval c = xmag c /\ (0 < xmag c)%Q.
Proof. intros (W & N & S). unfold xval. rewrite S. split; auto. now apply xmag_pos. Qed.
(** [A] is the root of [X] up to the relative error [e] of its square *)
Definition near (e : Q) (X A : Q) : Prop := ((1 - e) * X <= A * A <= (1 + e) * X)%Q.
Lemma near_exp e x a : pos x -> pos a -> near e (xmag x) (xmag a) -> (0 <= e <= 1 # 2)%Q -> 2 * xpow a < xpow x - 125 /\ xpow x - 130 < 2 * xpow a.
Proof.
  intros Px Pa [H1 H2] He. destruct (pos_val x Px) as [_ X0]. destruct (pos_val a Pa) as [_ A0]. destruct Px as (Wx & Nx & _). destruct Pa as (Wa & Na & _). destruct (xmag_bin x Wx Nx) as [X1 X2]. destruct (xmag_bin a Wa Na) as [A1 A2].
  set (X := xmag x) in *. set (A := xmag a) in *. assert (T1 := two_pos (xpow a + 127)). assert (T2 := two_pos (xpow a + 128)). assert (T3 := two_pos (xpow x + 127)).
  split.
  - assert (2 * (xpow a + 127) < xpow x + 129); [| lia]. apply two_lt_inv. replace (2 * (xpow a + 127)) with (xpow a + 127 + (xpow a + 127)) by ring. replace (xpow x + 129) with (1 + (xpow x + 128)) by ring. rewrite (two_plus 1), (two_plus (xpow a + 127)). change (two 1) with 2%Q.
    set (t := two (xpow a + 127)) in *. set (s := two (xpow x + 128)) in *. clearbody t s X A. assert (t * t <= A * A)%Q by nra. assert ((1 + e) * X <= 2 * X)%Q by nra. lra.
  - assert (xpow x + 126 < 2 * (xpow a + 128)); [| lia]. apply two_lt_inv. replace (2 * (xpow a + 128)) with (xpow a + 128 + (xpow a + 128)) by ring. replace (xpow x + 126) with (- (1) + (xpow x + 127)) by ring. rewrite (two_plus (- (1))), (two_plus (xpow a + 128)). change (two (- (1))) with (1 # 2)%Q.
    set (t := two (xpow a + 128)) in *. set (s := two (xpow x + 127)) in *. clearbody t s X A. assert (A * A < t * t)%Q by nra. assert ((1 # 2) * X <= (1 - e) * X)%Q by nra. lra.
Qed.
Notation tiny := (two (- 122)).
Lemma newton_step e x a : pos x -> pos a -> Z.abs (xpow x) < 2 ^ 35 -> near e (xmag x) (xmag a) -> (0 <= e <= 1 # 1000)%Q ->
  returns (xnewton x a) (fun c => pos c /\ ((1 - tiny) * xmag x <= xmag c * xmag c)%Q /\ (xmag c * xmag c <= (1 + e * e) * (1 + 2 * tiny) * xmag x)%Q).
Proof.
  intros Px Pa Hx Hn He. assert (He2 : (0 <= e <= 1 # 2)%Q) by (split; lra). pose proof (near_exp e x a Px Pa Hn He2) as [E1 E2]. destruct (pos_val x Px) as [Vx X0]. destruct (pos_val a Pa) as [Va A0]. destruct Hn as [N1 N2].
  destruct Px as (Wx & Nx & Sx). destruct Pa as (Wa & Na & Sa). unfold xnewton.
  eapply returns_bind; [apply (xdiv_main x a); auto; lia |]. intros q (Wq & Nq & Sq & Lq & Uq & _). rewrite Sx, Sa in Sq. cbn [xorb] in Sq. assert (Pq : pos q) by (split; auto). destruct (pos_val q Pq) as [Vq Q0].
  rewrite Vx, Va in Lq, Uq. rewrite Vq in Lq, Uq. rewrite !(Qabs_pos (xmag q)) in Lq, Uq by lra. assert (D0 : (0 < xmag x / xmag a)%Q) by (apply Qlt_shift_div_l; lra). rewrite (Qabs_pos (xmag x / xmag a)) in Lq, Uq by lra.
  assert (Uq2 : (xmag q * (1 - two (- 123)) <= xmag x / xmag a)%Q).
  { destruct (xmag_bin q Wq Nq) as [B1 _]. rewrite two_plus in B1. unfold xulp in Uq. assert (T := two_pos (xpow q)). assert (K : (9 <= two (- 123) * two 127)%Q) by (vm_compute; discriminate). assert (T3 := two_pos (- 123)). set (w := two (xpow q)) in *. set (u := two (- 123)) in *. set (v := two 127) in *. clearbody w u v. assert (9 * w <= u * (w * v))%Q by nra. assert (u * (w * v) <= u * xmag q)%Q by nra. lra. }
  assert (Eq : Z.abs (xpow q) < 2 ^ 36).
  { (* the quotient is about as large as the root *)
    assert (K1 : xpow x + 127 - (xpow a + 128) < xpow q + 128). { apply two_lt_inv. destruct (xmag_bin x Wx Nx) as [B1 _]. destruct (xmag_bin a Wa Na) as [_ B2]. destruct (xmag_bin q Wq Nq) as [_ B3]. eapply Qlt_trans; [| exact B3]. eapply Qlt_le_trans; [| exact Lq]. apply Qlt_shift_div_l; auto. replace (xpow x + 127) with ((xpow x + 127 - (xpow a + 128)) + (xpow a + 128)) in B1 by ring. rewrite two_plus in B1. assert (T := two_pos (xpow x + 127 - (xpow a + 128))). set (t := two (xpow x + 127 - (xpow a + 128))) in *. clearbody t. nra. }
    assert (K2 : xpow q + 127 < xpow x + 128 - (xpow a + 127) + 1). { apply two_lt_inv. destruct (xmag_bin x Wx Nx) as [_ B1]. destruct (xmag_bin a Wa Na) as [B2 _]. destruct (xmag_bin q Wq Nq) as [B3 _]. eapply Qle_lt_trans; [exact B3 |]. rewrite two_plus. change (two 1) with 2%Q.
      assert (T3 : (two (- 123) < 1 # 2)%Q) by reflexivity. assert (T4 := two_pos (- 123)). assert (xmag q <= 2 * (xmag x / xmag a))%Q by (set (v := two (- 123)) in *; clearbody v; nra). assert (xmag x / xmag a < two (xpow x + 128 - (xpow a + 127)))%Q; [| lra]. apply Qlt_shift_div_r; auto. replace (xpow x + 128) with ((xpow x + 128 - (xpow a + 127)) + (xpow a + 127)) in B1 by ring. rewrite two_plus in B1. assert (T := two_pos (xpow x + 128 - (xpow a + 127))). set (t := two (xpow x + 128 - (xpow a + 127))) in *. clearbody t. nra. }
    lia. }
  unfold xpow in Eq, E1, E2, Hx. eapply returns_bind; [apply (xadd_same_rounds _ a q); auto; try lia; congruence |]. intros s (Ws & B1 & B2 & B4 & B3). rewrite Va, Vq in B1, B2, B3, B4. set (S := (xmag a + xmag q)%Q) in *. assert (S0 : (0 < S)%Q) by (unfold S; lra).
  assert (As : (xmag a <= Qabs (xval s))%Q). { assert (K := B4 a Wa). rewrite Va in K. rewrite (Qabs_pos (xmag a)), (Qabs_pos S) in K by lra. apply K. unfold S. lra. }
  assert (Ns : xnull s = false). { destruct (xnull s) eqn:Ns; auto. exfalso. rewrite (xnull_zero s Ns) in As. change (Qabs (xval xZERO)) with 0%Q in As. lra. }
  assert (Ss : xsign s = false). { destruct (xsign s) eqn:Ss; auto. exfalso. pose proof (xval_sign s Ws) as K. rewrite Ss in K. nra. } assert (Ps : pos s) by (split; auto). destruct (pos_val s Ps) as [Vs M0]. rewrite Vs in B1, B2, B3. clear B4 As. rewrite !(Qabs_pos (xmag s)) in B1 by lra. rewrite (Qabs_pos S) in B1 by lra.
  assert (Us : (S <= xmag s * (1 + two (- 127)))%Q). { assert (K : (Qabs (xmag s - S) == S - xmag s)%Q) by (rewrite Qabs_neg by lra; ring). rewrite K in B3. destruct (xmag_bin s Ws Ns) as [C1 _]. rewrite two_plus in C1. unfold xulp in B3. assert (T := two_pos (xpow s)). assert (UV : (two (- 127) * two 127 == 1)%Q) by reflexivity. assert (T3 := two_pos (- 127)). set (w := two (xpow s)) in *. set (u := two (- 127)) in *. set (v := two 127) in *. clearbody w u v.
    assert (w <= xmag s * u)%Q; [| lra]. apply Qle_trans with (w * v * u)%Q; [| apply Qmult_le_r; auto]. setoid_replace (w * v * u)%Q with (w * (u * v))%Q by ring. rewrite UV. lra. }
  assert (Es : 1 < xe s). { destruct (xmag_bin s Ws Ns) as [_ C2]. destruct (xmag_bin a Wa Na) as [Ba _]. assert (T3 : (two (- 127) < 1)%Q) by reflexivity. assert (xpow a + 126 < xpow s + 128); [| unfold xpow in *; lia]. apply two_lt_inv. replace (xpow a + 127) with (1 + (xpow a + 126)) in Ba by ring. rewrite two_plus in Ba. change (two 1) with 2%Q in Ba. unfold S in *. assert (T5 := two_pos (- 127)). set (u := two (- 127)) in *. clearbody u. assert (xmag s * (1 + u) <= xmag s * 2)%Q by nra. lra. }
  eapply returns_weaken; [apply (xshr_ok s 1 Ws); lia |]. intros c (Wc & Vc). change (two (- (1))) with (1 # 2)%Q in Vc. rewrite Vs in Vc.
  assert (Pc : pos c). { assert (0 < xval c)%Q by (rewrite Vc; lra). split; auto. split. - destruct (xnull c) eqn:Nc; auto. rewrite (xnull_zero c Nc) in H. vm_compute in H. discriminate. - destruct (xsign c) eqn:Sc; auto. pose proof (xval_sign c Wc) as K. rewrite Sc in K. lra. }
  destruct (pos_val c Pc) as [Vc' C0]. rewrite Vc' in Vc. split; auto.
  (* arithmetic *)
  assert (AX : (xmag a * (xmag x / xmag a) == xmag x)%Q) by (field; lra).
  assert (U127 : (0 < two (- 127) <= (1 # 4) * tiny)%Q) by (split; [reflexivity | vm_compute; discriminate]). assert (U123 : (two (- 123) == (1 # 2) * tiny)%Q) by reflexivity. assert (U1 : (0 < tiny < 1 # 1000000)%Q) by (split; reflexivity). rewrite U123 in Uq2.
  set (X := xmag x) in *. set (A := xmag a) in *. set (qq := xmag q) in *. set (d := (X / A)%Q) in *. set (C := xmag c) in *. set (M := xmag s) in *. set (u := tiny) in *. set (z := two (- 127)) in *. unfold S in *. clearbody X A qq d C M u z. clear - X0 A0 Q0 D0 C0 M0 Lq Uq2 B1 Us Vc AX N1 N2 He U127 U1.
  assert (SqD : forall v : Q, (0 <= v * v)%Q) by (intros; nra). assert (G : (4 * X <= (A + d) * (A + d))%Q) by (pose proof (SqD (A - d)%Q); lra).
  assert (G2 : ((A + d) * (A + d) <= 4 * X * (1 + (1 # 2) * e * e))%Q).
  { (* (A + d)^2 = 4 X + (A - d)^2 and A (A - d) = A^2 - X *) assert (Dd : ((A * (A - d)) == A * A - X)%Q) by lra. assert (Ae : (- (e * X) <= A * (A - d) <= e * X)%Q) by (split; lra). assert (K : ((A * (A - d)) * (A * (A - d)) <= (e * X) * (e * X))%Q) by (set (g := (A * (A - d))%Q) in *; clearbody g; nra).
    assert (K2 : ((A * A) * ((A - d) * (A - d)) <= e * e * X * X)%Q) by lra. assert (K3 : (((1 # 2) * X) * ((A - d) * (A - d)) <= e * e * X * X)%Q). { eapply Qle_trans; [| exact K2]. apply Qmult_le_compat_r; [nra | apply SqD]. }
    assert (K4 : ((A - d) * (A - d) <= 2 * e * e * X)%Q). { apply (Qmult_le_r _ _ X X0). lra. } lra. }
  split.
  - (* from below *) assert (H1 : (A + d <= 2 * C * (1 + z))%Q) by nra. assert (H2 : (4 * X <= 4 * (C * C) * ((1 + z) * (1 + z)))%Q). { eapply Qle_trans; [exact G |]. assert ((A + d) * (A + d) <= (2 * C * (1 + z)) * (2 * C * (1 + z)))%Q by nra. lra. }
    assert (H3 : ((1 - u) * ((1 + z) * (1 + z)) <= 1)%Q) by nra. assert (CC : (0 < C * C)%Q) by nra. assert ((1 - u) * X <= (1 - u) * ((C * C) * ((1 + z) * (1 + z))))%Q by nra. assert ((C * C) * ((1 - u) * ((1 + z) * (1 + z))) <= C * C * 1)%Q; [| lra]. rewrite !(Qmult_comm (C * C)). apply Qmult_le_r; auto.
  - assert (H1 : (2 * C * (1 - (1 # 2) * u) <= A + d)%Q) by nra. assert (H2 : (4 * (C * C) * ((1 - (1 # 2) * u) * (1 - (1 # 2) * u)) <= 4 * X * (1 + (1 # 2) * e * e))%Q). { eapply Qle_trans; [| exact G2]. assert (0 <= 2 * C * (1 - (1 # 2) * u))%Q by nra. assert ((2 * C * (1 - (1 # 2) * u)) * (2 * C * (1 - (1 # 2) * u)) <= (A + d) * (A + d))%Q by nra. lra. }
    assert (H3 : (1 <= (1 + 2 * u) * ((1 - (1 # 2) * u) * (1 - (1 # 2) * u)))%Q) by nra. assert (CC : (0 < C * C)%Q) by nra. assert (E0 : (0 <= e * e)%Q) by nra.
    apply Qle_trans with (C * C * ((1 + 2 * u) * ((1 - (1 # 2) * u) * (1 - (1 # 2) * u))))%Q. { apply Qle_trans with (C * C * 1)%Q; [lra |]. rewrite !(Qmult_comm (C * C)). apply Qmult_le_r; auto. }
    apply Qle_trans with ((1 + 2 * u) * (X * (1 + (1 # 2) * e * e)))%Q. { setoid_replace (C * C * ((1 + 2 * u) * ((1 - (1 # 2) * u) * (1 - (1 # 2) * u))))%Q with ((1 + 2 * u) * (C * C * ((1 - (1 # 2) * u) * (1 - (1 # 2) * u))))%Q by ring. rewrite !(Qmult_comm (1 + 2 * u)). apply Qmult_le_r; lra. }
    setoid_replace ((1 + e * e) * (1 + 2 * u) * X)%Q with ((1 + 2 * u) * (X * (1 + e * e)))%Q by ring. rewrite !(Qmult_comm (1 + 2 * u)). apply Qmult_le_r; [lra |]. rewrite !(Qmult_comm X). apply Qmult_le_r; lra.
Qed.
(** ** the square root *)
Definition sqrt_start (a : f192) : res f192 :=
  let digits := xhid (xd a) in
  let* exp := xei a in
  let* digits_sqrt := xisqrt digits in
  let exp_sqrt := Z.quot exp 2 in
  let* ae := sabs 64 exp in
  let exp_odd := Z.rem ae 2 =? 1 in
  let* digits_sqrt := shlw 128 digits_sqrt 64 in
  let* exp_sqrt := ssub 64 exp_sqrt 64 in
  let* e := sadd 64 exp_sqrt EXPC in
  let approx := mkX (xlow digits_sqrt) (castw 64 e) in
  if exp_odd then
    let* approx := xmul approx xSQRT_2 in
    if exp <? 0 then xshr approx 1 else Ok approx
  else Ok approx.
Lemma sqrt_split a : xis_zero a = false -> xis_neg a = false -> xsqrt a = let* s := sqrt_start a in let* s := xnewton a s in xnewton a s.
Proof.
  intros Z N. unfold xsqrt, sqrt_start. rewrite Z, N. cbn [orb]. destruct (xei a) as [e1 | |]; cbn [bind]; auto. destruct (xisqrt (xhid (xd a))) as [e2 | |]; cbn [bind]; auto. destruct (sabs 64 e1) as [e3 | |]; cbn [bind]; auto. destruct (shlw 128 e2 64) as [e4 | |]; cbn [bind]; auto. destruct (ssub 64 (Z.quot e1 2) 64) as [e5 | |]; cbn [bind]; auto. destruct (sadd 64 e5 EXPC) as [e6 | |]; cbn [bind]; auto.
Qed.
Lemma start_ok x : pos x -> Z.abs (xpow x) < 2 ^ 35 -> xsig x <= 2 ^ 128 - 2 ^ 90 -> returns (sqrt_start x) (fun a => pos a /\ near (1 # 10 ^ 11) (xmag x) (xmag a)).
Proof.
  intros Px Hx Hs. destruct Px as (Wx & Nx & Sx). destruct (xof_of x Wx) as (Ex & Sg & Xr). assert (Vx : xmag x = xq (xsig x) (xe x)) by (unfold xmag; rewrite Nx; reflexivity). unfold sqrt_start. rewrite xei_ok by (split; auto; unfold xpow in Hx; lia). cbn [bind].
  replace (xhid (xd x)) with (xsig x) by (rewrite Ex at 2; now rewrite xhid_xof). destruct (isqrt_ok (xsig x)) as (s & -> & S1 & S2 & S3). { unfold sigr in Sg. change SIGNM with (2 ^ 127) in Sg. lia. } cbn [bind].
  change (xe x - EXPC) with (xpow x). rewrite Vx. unfold xq. change (xe x - EXPC) with (xpow x). set (m := xsig x) in *. set (E := xpow x) in *. rewrite sabs_ok by (change (64 - 1) with 63; lia). cbn [bind]. rewrite shlw_ok by lia. cbn [bind].
  assert (Q2 : Z.abs (Z.quot E 2) <= 2 ^ 34) by (pose proof (Z.quot_rem' E 2); pose proof (Z.rem_bound_abs E 2 ltac:(lia)); lia). rewrite ssub_ok by (change (64 - 1) with 63; lia). cbn [bind]. rewrite sadd_ok by (change (64 - 1) with 63; unfold EXPC; lia). cbn [bind]. rewrite castw_small by (unfold EXPC; lia).
  assert (Sg2 : sigr (s * 2 ^ 64)) by (unfold sigr; change SIGNM with (2 ^ 127); lia). set (a0 := mkX (xlow (s * 2 ^ 64)) (Z.quot E 2 - 64 + EXPC)). assert (Ea : a0 = xof false (s * 2 ^ 64) (Z.quot E 2 - 64 + EXPC)). { unfold a0, xof, xlow. f_equal. symmetry. apply (Z.mod_unique _ _ 1); [left |]; unfold sigr in Sg2; unfold SIGNM in *; lia. }
  assert (Na : xnull a0 = false) by (rewrite Ea; apply xnull_pos; [auto | unfold EXPC; lia]). assert (Wa : xwf a0) by (rewrite Ea; apply xof_wf; [auto | unfold expr, EXPC; lia]). assert (Sa : xsign a0 = false) by (rewrite Ea; now apply xsign_of). assert (Xa : xpow a0 = Z.quot E 2 - 64) by (unfold xpow, a0; cbn [xe]; unfold EXPC; ring).
  assert (Va : (xmag a0 == inject_Z s * two (Z.quot E 2))%Q). { rewrite Ea, xmag_of by (auto; rewrite <- Ea; auto). unfold xq. replace (Z.quot E 2 - 64 + EXPC - EXPC) with (- 64 + Z.quot E 2) by ring. rewrite two_plus, inject_Z_mult. change (inject_Z (2 ^ 64)) with (two 64). assert (K : (two 64 * two (- 64) == 1)%Q) by reflexivity. setoid_replace (inject_Z s * two 64 * (two (- 64) * two (Z.quot E 2)))%Q with (inject_Z s * two (Z.quot E 2) * (two 64 * two (- 64)))%Q by ring. rewrite K. ring. }
  clearbody a0. clear Ea.
  assert (Sq : ((1 - (1 # 10 ^ 15)) * inject_Z m <= inject_Z s * inject_Z s <= (1 + (3 # 10 ^ 12)) * inject_Z m)%Q).
  { assert (10 ^ 15 * m - m <= 10 ^ 15 * (s * s)) by (unfold sigr in Sg; change SIGNM with (2 ^ 127) in Sg; lia). assert (10 ^ 12 * (s * s) <= (10 ^ 12 + 3) * m) by lia. rewrite Zle_Qle in H, H0. unfold Z.sub in H. rewrite inject_Z_plus, inject_Z_opp, !inject_Z_mult in H. rewrite !inject_Z_mult, inject_Z_plus in H0. change (inject_Z (10 ^ 15)) with (1000000000000000 # 1)%Q in *. change (inject_Z (10 ^ 12)) with (1000000000000 # 1)%Q in *. change (inject_Z 3) with (3 # 1)%Q in *. change (1 # 10 ^ 15)%Q with (1 # 1000000000000000)%Q. change (3 # 10 ^ 12)%Q with (3 # 1000000000000)%Q. split; lra. }
  assert (M0 : (0 < inject_Z m)%Q) by (change 0%Q with (inject_Z 0); rewrite <- Zlt_Qlt; unfold sigr in Sg; change SIGNM with (2 ^ 127) in Sg; lia). destruct Sq as [Q3 Q4].
  assert (EvOdd : (Z.rem (Z.abs E) 2 =? 1) = Z.odd E /\ E = 2 * Z.quot E 2 + Z.rem E 2 /\ (Z.odd E = false -> Z.rem E 2 = 0) /\ (Z.odd E = true -> Z.rem E 2 = if E <? 0 then - (1) else 1)).
  { split; [| split; [apply Z.quot_rem' |]].
    - rewrite Z.rem_mod_nonneg by lia. replace (Z.odd E) with (Z.odd (Z.abs E)) by (destruct (Z.abs_spec E) as [[_ ->] | [_ ->]]; rewrite ?Z.odd_opp; auto). rewrite (Zmod_odd (Z.abs E)). destruct (Z.odd (Z.abs E)); reflexivity.
    - pose proof (Z.quot_rem' E 2) as K. pose proof (Z.rem_bound_abs E 2 ltac:(lia)) as K2. split; intros O.
      + assert (Z.even E = true) by (rewrite <- Z.negb_odd, O; auto). apply Z.even_spec in H. destruct H as [k Hk]. lia.
      + apply Z.odd_spec in O. destruct O as [k Hk]. destruct (Z.ltb_spec E 0) as [H | H]; [pose proof (Z.rem_nonpos E 2 ltac:(lia) ltac:(lia)) | pose proof (Z.rem_nonneg E 2 ltac:(lia) ltac:(lia))]; lia. }
  destruct EvOdd as (-> & EE & Ev & Od). assert (N11 : forall k : positive, ((1 # k) == 1 / inject_Z (Zpos k))%Q) by reflexivity. clear N11.
  destruct (Z.odd E) eqn:O.
  - specialize (Od eq_refl). assert (Tq := two_pos (Z.quot E 2)).
    eapply returns_bind; [apply (mul_step a0 xSQRT_2); auto; [split; split; vm_compute; congruence | change (xpow xSQRT_2) with (- 127); lia] |]. intros c (Wc & Nc & Sc & Lc & Uc). rewrite Sa in Sc. change (xsign xSQRT_2) with false in Sc. cbn [xorb] in Sc.
    assert (R2 : ((2 - (1 # 10 ^ 15)) <= xmag xSQRT_2 * xmag xSQRT_2 <= 2 + (1 # 10 ^ 15))%Q) by (split; vm_compute; discriminate). assert (R0 : (0 < xmag xSQRT_2)%Q) by reflexivity. set (R := xmag xSQRT_2) in *. clearbody R.
    assert (C2 : ((2 - (2 # 10 ^ 14)) * (inject_Z m * (two (Z.quot E 2) * two (Z.quot E 2))) <= xmag c * xmag c <= (2 + (8 # 10 ^ 12)) * (inject_Z m * (two (Z.quot E 2) * two (Z.quot E 2))))%Q).
    { rewrite Va in Lc, Uc. assert (C0 := xmag_pos c Wc Nc). assert (U : (0 < uu < 1 # 10 ^ 15)%Q) by (split; reflexivity). assert (S0 : (0 < inject_Z s)%Q) by (change 0%Q with (inject_Z 0); rewrite <- Zlt_Qlt; lia). set (t := two (Z.quot E 2)) in *. set (u := uu) in *. set (C := xmag c) in *. set (sv := inject_Z s) in *. set (mv := inject_Z m) in *. change (1 # 10 ^ 15)%Q with (1 # 1000000000000000)%Q in *. change (3 # 10 ^ 12)%Q with (3 # 1000000000000)%Q in *. change (8 # 10 ^ 12)%Q with (8 # 1000000000000)%Q. change (2 # 10 ^ 14)%Q with (2 # 100000000000000)%Q. clearbody t u C sv mv. clear - Lc Uc C0 U S0 M0 Tq R0 R2 Q3 Q4.
      assert (T2 : (0 < t * t)%Q) by nra. assert (P0 : (0 < sv * t * R)%Q) by (apply Qmult_lt_0_compat; [apply Qmult_lt_0_compat |]; auto). set (p := (sv * t * R)%Q) in *. assert (Ep : (p * p == (sv * sv) * (R * R) * (t * t))%Q) by (unfold p; ring). clearbody p. set (t2 := (t * t)%Q) in *. set (s2 := (sv * sv)%Q) in *. set (r2 := (R * R)%Q) in *. clearbody t2 s2 r2.
      assert (Hs2 : (0 < s2)%Q) by nra. assert (B1 : (C * C <= p * p)%Q) by nra. assert (B2 : (p * p * ((1 - u) * (1 - u)) <= C * C)%Q). { assert (0 <= p * (1 - u))%Q by nra. assert ((p * (1 - u)) * (p * (1 - u)) <= C * C)%Q by nra. lra. }
      assert (B3 : ((1 - (2 # 1000000000000000)) <= (1 - u) * (1 - u))%Q) by nra. rewrite Ep in B1, B2. set (v := ((1 - u) * (1 - u))%Q) in *. clearbody v.
      assert (L1 : ((2 - (15 # 1000000000000000)) * mv <= s2 * r2 * v)%Q). { assert ((1 - (1 # 1000000000000000)) * mv * (2 - (1 # 1000000000000000)) <= s2 * r2)%Q by nra. assert (0 <= s2 * r2)%Q by nra. assert (s2 * r2 * (1 - (2 # 1000000000000000)) <= s2 * r2 * v)%Q by nra. lra. }
      assert (L2 : (s2 * r2 <= (2 + (8 # 1000000000000)) * mv)%Q) by (assert (s2 * r2 <= (1 + (3 # 1000000000000)) * mv * (2 + (1 # 1000000000000000)))%Q by nra; lra). split; nra. }
    assert (TT : (two E == two (Z.quot E 2) * two (Z.quot E 2) * (if E <? 0 then 1 # 2 else 2))%Q). { rewrite EE at 1. rewrite two_plus, Od. replace (2 * Z.quot E 2) with (Z.quot E 2 + Z.quot E 2) by ring. rewrite two_plus. destruct (E <? 0); reflexivity. }
    set (w := (two (Z.quot E 2) * two (Z.quot E 2))%Q) in *. assert (W0 : (0 < inject_Z m * w)%Q) by (unfold w; apply Qmult_lt_0_compat; [auto | apply Qmult_lt_0_compat; auto]). change (8 # 10 ^ 12)%Q with (8 # 1000000000000)%Q in C2. change (2 # 10 ^ 14)%Q with (2 # 100000000000000)%Q in C2.
    change (1 # 10 ^ 11)%Q with (1 # 100000000000)%Q.
    destruct (Z.ltb_spec E 0) as [En | En].
    + assert (Xc : 1 < xe c). { assert (xpow a0 + 127 + 127 - 127 - 1 < xpow c + 128). { apply xpow_large; auto. destruct (xmag_bin a0 Wa Na) as [Ba _]. assert (U : (0 < uu < 1 # 10)%Q) by (split; reflexivity). assert (R1 : (1 <= R)%Q) by (destruct R2; change (1 # 10 ^ 15)%Q with (1 # 1000000000000000)%Q in *; nra). replace (xpow a0 + 127 + 127 - 127 - 1) with (- (1) + (xpow a0 + 127)) by ring. rewrite two_plus. change (two (- (1))) with (1 # 2)%Q. assert (T := two_pos (xpow a0 + 127)). set (tt := two (xpow a0 + 127)) in *. set (u := uu) in *. clearbody u tt. eapply Qle_trans; [| exact Lc]. assert (tt * 1 <= xmag a0 * R)%Q by nra. assert (0 < xmag a0 * R)%Q by lra. nra. } unfold xpow in *. lia. }
      eapply returns_weaken; [apply (xshr_ok c 1 Wc); lia |]. intros d (Wd & Vd). change (two (- (1))) with (1 # 2)%Q in Vd. assert (C0 := xmag_pos c Wc Nc). assert (Vc : xval c = xmag c) by (unfold xval; now rewrite Sc). rewrite Vc in Vd.
      assert (Pd : pos d). { assert (0 < xval d)%Q by (rewrite Vd; lra). split; auto. split. - destruct (xnull d) eqn:Nd; auto. rewrite (xnull_zero d Nd) in H. vm_compute in H. discriminate. - destruct (xsign d) eqn:Sd; auto. pose proof (xval_sign d Wd) as K. rewrite Sd in K. lra. }
      split; auto. destruct (pos_val d Pd) as [Vd' _]. rewrite Vd' in Vd. unfold near. rewrite Vd, TT. set (mw := (inject_Z m * w)%Q) in *. setoid_replace (inject_Z m * (w * (1 # 2)))%Q with (mw * (1 # 2))%Q by (unfold mw; ring). clearbody mw. set (CC := (xmag c * xmag c)%Q) in *. setoid_replace (xmag c * (1 # 2) * (xmag c * (1 # 2)))%Q with (CC * (1 # 4))%Q by (unfold CC; ring). clearbody CC. split; lra.
    + apply returns_ok. split; [split; auto |]. unfold near. rewrite TT. set (mw := (inject_Z m * w)%Q) in *. setoid_replace (inject_Z m * (w * 2))%Q with (mw * 2)%Q by (unfold mw; ring). clearbody mw. set (CC := (xmag c * xmag c)%Q) in *. clearbody CC. split; lra.
  - specialize (Ev eq_refl). apply returns_ok. split; [split; auto |]. unfold near. rewrite Va. assert (TT : (two E == two (Z.quot E 2) * two (Z.quot E 2))%Q). { rewrite <- two_plus. replace (Z.quot E 2 + Z.quot E 2) with E by lia. reflexivity. } rewrite TT. assert (T := two_pos (Z.quot E 2)). set (t := two (Z.quot E 2)) in *. set (mv := inject_Z m) in *. set (sv := inject_Z s) in *. clearbody t mv sv.
    setoid_replace (sv * t * (sv * t))%Q with (sv * sv * (t * t))%Q by ring. rewrite !Qmult_assoc. setoid_replace ((1 - (1 # 10 ^ 11)) * mv * t * t)%Q with ((1 - (1 # 10 ^ 11)) * mv * (t * t))%Q by ring. setoid_replace ((1 + (1 # 10 ^ 11)) * mv * t * t)%Q with ((1 + (1 # 10 ^ 11)) * mv * (t * t))%Q by ring. setoid_replace (sv * sv * t * t)%Q with (sv * sv * (t * t))%Q by ring.
    assert (T2 : (0 < t * t)%Q) by nra. change (1 # 10 ^ 15)%Q with (1 # 1000000000000000)%Q in *. change (3 # 10 ^ 12)%Q with (3 # 1000000000000)%Q in *. change (1 # 10 ^ 11)%Q with (1 # 100000000000)%Q. split; apply Qmult_le_r; auto; lra.
Qed.
Lemma sqrt_ok x : pos x -> Z.abs (xpow x) < 2 ^ 35 -> xsig x <= 2 ^ 128 - 2 ^ 90 -> returns (xsqrt x) (fun c => pos c /\ near (two (- 120)) (xmag x) (xmag c)).
Proof.
  intros Px Hx Hs. pose proof Px as (Wx & Nx & Sx). rewrite sqrt_split; [| now rewrite xis_zero_null | now rewrite xis_neg_sign]. destruct (pos_val x Px) as [_ X0].
  eapply returns_bind; [apply start_ok; auto |]. intros a (Pa & Na). eapply returns_bind; [apply (newton_step (1 # 10 ^ 11)); auto; split; vm_compute; discriminate |]. intros b (Pb & B1 & B2).
  eapply returns_weaken; [apply (newton_step (1 # 10 ^ 20)); auto |].
  - split; eapply Qle_trans.
    + apply Qmult_le_r; [auto |]. instantiate (1 := (1 - tiny)%Q). vm_compute. discriminate.
    + exact B1.
    + exact B2.
    + apply Qmult_le_r; [auto |]. vm_compute. discriminate.
  - split; vm_compute; discriminate.
  - intros c (Pc & C1 & C2). split; auto. split; eapply Qle_trans.
    + apply Qmult_le_r; [auto |]. instantiate (1 := (1 - tiny)%Q). vm_compute. discriminate.
    + exact C1.
    + exact C2.
    + apply Qmult_le_r; [auto |]. vm_compute. discriminate.
Qed.
