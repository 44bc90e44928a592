(** Reading F192 numbers from text: scaling, the scan, base prefixes. *)
From Coq Require Import ZArith QArith Qabs Lqa Lia Bool List Qfield Qpower.
From Verif Require Import Base UBig UStr SSpec USpec UEq BBig BSpec BEq RBig RIeee FSpec RIeeeP XNum XSpec XP1 XP2 XP3 XP6 XP7 XFun XC13 XPow XTxt XTxtS XTxtP Props_X1.
Local Open Scope Z_scope.

(** ** scaling by a power of ten *)
Lemma scale_q D T k r p c u : (0 <= D)%Q -> (0 <= T)%Q -> (0 <= k)%Q -> (0 < u <= 1)%Q -> (k <= 1)%Q -> (D * (1 - u) <= r <= D)%Q -> (T * (1 - k) <= p <= T * (1 + k))%Q -> (r * p * (1 - u) <= c <= r * p)%Q ->
  (Qabs (c - D * T) <= (k + 2 * u) * (D * T))%Q.
Proof.
  intros HD HT Hk Hu Hk1 [R1 R2] [P1 P2] [C1 C2]. assert (HR : (0 <= r)%Q) by nra. assert (HP : (0 <= p)%Q) by nra. assert (DT : (0 <= D * T)%Q) by (apply Qmult_le_0_compat; auto).
  assert (A1 : (D * (1 - u) * (T * (1 - k)) <= r * p)%Q). { apply Qle_trans with (r * (T * (1 - k)))%Q; [apply Qmult_le_compat_r; auto; apply Qmult_le_0_compat; lra |]. rewrite (Qmult_comm r), (Qmult_comm r). apply Qmult_le_compat_r; auto. }
  assert (A2 : (r * p <= D * (T * (1 + k)))%Q). { apply Qle_trans with (D * p)%Q; [apply Qmult_le_compat_r; auto |]. rewrite (Qmult_comm D), (Qmult_comm D). apply Qmult_le_compat_r; auto. }
  assert (A3 : (D * (1 - u) * (T * (1 - k)) * (1 - u) <= r * p * (1 - u))%Q) by (apply Qmult_le_compat_r; [auto | lra]).
  set (v := (D * T)%Q) in *. setoid_replace (D * (T * (1 + k)))%Q with (v * (1 + k))%Q in A2 by (unfold v; ring). setoid_replace (D * (1 - u) * (T * (1 - k)) * (1 - u))%Q with (v * ((1 - u) * (1 - u) * (1 - k)))%Q in A3 by (unfold v; ring).
  assert (A4 : (1 - 2 * u - k <= (1 - u) * (1 - u) * (1 - k))%Q). { assert (0 <= u * u * (1 - k))%Q by (apply Qmult_le_0_compat; [apply Qmult_le_0_compat; lra | lra]). assert (0 <= u * k)%Q by (apply Qmult_le_0_compat; lra). lra. }
  assert (A5 : (v * (1 - 2 * u - k) <= v * ((1 - u) * (1 - u) * (1 - k)))%Q) by (rewrite !(Qmult_comm v); apply Qmult_le_compat_r; auto).
  assert (0 <= v * u)%Q by (apply Qmult_le_0_compat; lra). apply Qabs_case; intros _; lra.
Qed.
Lemma near_pos D c : nearint D c -> 0 <= D -> (0 <= xval c)%Q /\ (xmag c == xval c)%Q.
Proof. intros (W & _ & B) H. rewrite Zle_Qle in H. change (inject_Z 0) with 0%Q in H. assert (0 < uu < 1)%Q by (split; reflexivity). assert (P : (0 <= xval c)%Q) by nra. split; auto. rewrite <- xabs_val by auto. apply Qabs_pos; auto. Qed.
Definition fin_dec (neg : bool) (exp : Z) (digs : list Z) : res (rslt f192 cerr) :=
  let* result := run_value digs in
  let result := if neg then xneg result else result in
  if exp =? 0 then Ok (ROk result) else let* p := xpow10 exp in let* r := xmul result p in Ok (ROk r).
(** what reading [D * 10^E] gives *)
Definition fin_post (neg : bool) (D E : Z) (o : rslt f192 cerr) : Prop :=
  exists c, o = ROk c /\ xwf c /\ (Qabs (xval c - sgq neg (inject_Z D * 10 ^ E)) <= inject_Z (4 * Z.abs E + 12) * two (- 125) * (inject_Z D * 10 ^ E))%Q /\
  (E = 0 /\ D < 2 ^ 128 \/ 0 <= E <= 27 /\ D < 2 ^ 64 -> (xval c == sgq neg (inject_Z D * 10 ^ E))%Q).
Lemma p5 e : 0 <= e <= 27 -> 0 < 5 ^ e < 2 ^ 64.
Proof. intros H. split; [apply Z.pow_pos_nonneg; lia |]. apply Z.le_lt_trans with (5 ^ 27); [apply Z.pow_le_mono_r; lia | reflexivity]. Qed.
Lemma sgq_abs neg x y : (Qabs (sgq neg x - sgq neg y) == Qabs (x - y))%Q.
Proof. destruct neg; unfold sgq; [| reflexivity]. setoid_replace (- x - - y)%Q with (- (x - y))%Q by ring. apply Qabs_opp. Qed.
Lemma sgq_wd neg x y : (x == y)%Q -> (sgq neg x == sgq neg y)%Q. Proof. destruct neg; unfold sgq; intros ->; reflexivity. Qed.
Lemma p10_pow p E k : xwf p -> xnull p = false -> - 2 ^ 32 <= E <= 2 ^ 32 -> (0 <= k)%Q -> (k < 1 # 2)%Q -> (10 ^ E * (1 - k) <= xmag p)%Q -> (xmag p <= 10 ^ E * (1 + k))%Q -> Z.abs (xpow p + 127) <= 2 ^ 34 + 2 ^ 34.
Proof.
  intros Wp Np HE K1 K2 Lp Up. assert (T10 : (0 < 10 ^ E)%Q) by (apply Qpower_0_lt; reflexivity).
  destruct (xmag_bin p Wp Np) as [M1 M2]. destruct (Z_lt_ge_dec E 0) as [Ne | Po].
      - destruct (pow_bounds 10 3 (- E) ltac:(split; [discriminate | reflexivity]) ltac:(lia)) as [PB1 PB2]. assert (EI : (10 ^ E == / 10 ^ (- E))%Q) by (rewrite Qpower_opp, Qinv_involutive; reflexivity). assert (T' : (0 < 10 ^ (- E))%Q) by (apply Qpower_0_lt; reflexivity).
        assert (Q1 : (10 ^ E * two (- E * 3) <= 1)%Q). { apply Qle_trans with (10 ^ E * 10 ^ (- E))%Q; [rewrite !(Qmult_comm (10 ^ E)); apply Qmult_le_compat_r; lra | rewrite EI, Qmult_comm, Qmult_inv_r by lra; lra]. }
        assert (Q2 : (1 <= 10 ^ E * two (- E * (3 + 1)))%Q). { apply Qle_trans with (10 ^ E * 10 ^ (- E))%Q; [rewrite EI, Qmult_comm, Qmult_inv_r by lra; lra | rewrite !(Qmult_comm (10 ^ E)); apply Qmult_le_compat_r; lra]. }
        assert (S1 : xpow p + 127 < E * 3 + 1). { apply xpow_small; auto. rewrite two_plus. change (two 1) with 2%Q. assert (TT : (two (E * 3) * two (- E * 3) == 1)%Q) by (rewrite <- two_plus; replace (E * 3 + - E * 3) with 0 by ring; reflexivity). assert (T3 := two_pos (- E * 3)). assert (T4 := two_pos (E * 3)).
          assert (10 ^ E <= two (E * 3))%Q. { setoid_replace (10 ^ E)%Q with (10 ^ E * two (- E * 3) * two (E * 3))%Q by (rewrite <- Qmult_assoc, (Qmult_comm (two (- E * 3))), TT; ring). setoid_replace (two (E * 3)) with (1 * two (E * 3))%Q at 2 by ring. apply Qmult_le_compat_r; lra. } nra. }
        assert (S2 : E * 4 - 1 < xpow p + 128). { apply xpow_large; auto. replace (E * 4 - 1) with (- (1) + E * 4) by ring. rewrite two_plus. change (two (- (1))) with (1 # 2)%Q. assert (TT : (two (E * 4) * two (- E * (3 + 1)) == 1)%Q) by (rewrite <- two_plus; replace (E * 4 + - E * (3 + 1)) with 0 by ring; reflexivity). assert (T4 := two_pos (E * 4)).
          assert (two (E * 4) <= 10 ^ E)%Q. { setoid_replace (10 ^ E)%Q with (10 ^ E * two (- E * (3 + 1)) * two (E * 4))%Q by (rewrite <- Qmult_assoc, (Qmult_comm (two (- E * (3 + 1)))), TT; ring). setoid_replace (two (E * 4)) with (1 * two (E * 4))%Q at 1 by ring. apply Qmult_le_compat_r; lra. } nra. }
        lia.
      - destruct (pow_bounds 10 3 E ltac:(split; [discriminate | reflexivity]) ltac:(lia)) as [PB1 PB2].
        assert (S1 : xpow p + 127 < E * (3 + 1) + 1). { apply xpow_small; auto. rewrite two_plus. change (two 1) with 2%Q. assert (T4 := two_pos (E * (3 + 1))). nra. }
        assert (S2 : E * 3 - 1 < xpow p + 128). { apply xpow_large; auto. replace (E * 3 - 1) with (- (1) + E * 3) by ring. rewrite two_plus. change (two (- (1))) with (1 # 2)%Q. nra. }
        lia.
Qed.
Lemma neg_short r rs w : xwf r -> xwf rs -> xnull r = false -> xnull rs = false -> xpow rs = xpow r -> (xmag rs == xmag r)%Q -> 0 <= w <= 127 -> xd r mod 2 ^ w = 0 -> xd rs mod 2 ^ w = 0.
Proof.
  intros W Ws Nr Ns Ps Ms Hw Sh2. assert (SS : xsig rs = xsig r). { unfold xmag in Ms. rewrite Ns, Nr, Ps in Ms. now apply tz_eq in Ms. } assert (PW : 0 < 2 ^ w) by (apply Z.pow_pos_nonneg; lia). assert (W127 : (2 ^ w | 2 ^ 127)) by (exists (2 ^ (127 - w)); rewrite <- Z.pow_add_r by lia; f_equal; lia).
  assert (X : (2 ^ w | xsig r)). { unfold xsig. apply Z.divide_add_r; auto. apply Z.mod_divide in Sh2; [| lia]. rewrite Z.mod_eq by lia. apply Z.divide_sub_r; auto. apply Z.divide_mul_l; auto. }
  apply Z.mod_divide; [lia |]. rewrite <- SS in X. unfold xsig in X. assert (D2 : (2 ^ w | xd rs mod 2 ^ 127)) by (apply (Z.divide_add_cancel_r _ (2 ^ 127)); auto). rewrite (Z.div_mod (xd rs) (2 ^ 127)) by lia. apply Z.divide_add_r; auto. apply Z.divide_mul_l; auto.
Qed.
Lemma fin_dec_ok b neg digs E : Forall (fun c => 48 <= c <= 57) digs -> (length digs <= 39)%nat -> (b = true -> (length digs <= 29)%nat) -> - 2 ^ 32 <= E <= 2 ^ 32 -> pret b (fin_dec neg E digs) (fin_post neg (dec_run digs) E).
Proof.
  intros Hd HL Hb HE. unfold fin_dec. eapply pret_bind; [apply (run_value_ok b); auto |]. intros r Hr. pose proof (run_range digs Hd) as RR. set (D := dec_run digs) in *. assert (L10 : 10 ^ Z.of_nat (length digs) <= 10 ^ 39) by (apply Z.pow_le_mono_r; lia). assert (D10 : 10 ^ 39 < 2 ^ 130) by reflexivity. assert (DB : 0 <= D < 2 ^ 130) by (clear - RR L10 D10; lia). clear RR L10 D10. clearbody D.
  destruct (near_pos D r Hr ltac:(lia)) as [Pr Mr]. assert (Hr0 := Hr). destruct Hr as (W & Ex & B). assert (UB : (0 < uu < 1 # 2)%Q) by (split; reflexivity).
  assert (T10 : (0 < 10 ^ E)%Q) by (apply Qpower_0_lt; reflexivity). assert (HD : (0 <= inject_Z D)%Q) by (change 0%Q with (inject_Z 0); rewrite <- Zle_Qle; lia).
  assert (Lr := pos_lowest r W Pr). set (rs := if neg then xneg r else r). assert (Ws : xwf rs) by (unfold rs; destruct neg; auto using xneg_wf). assert (Vs : (xval rs == sgq neg (xval r))%Q) by (unfold rs, sgq; destruct neg; [apply xneg_ok; auto | reflexivity]).
  assert (K12 : (0 <= inject_Z (4 * Z.abs E + 12))%Q) by (change 0%Q with (inject_Z 0); rewrite <- Zle_Qle; lia). assert (DT : (0 <= inject_Z D * 10 ^ E)%Q) by (apply Qmult_le_0_compat; lra).
  destruct (Z.eqb_spec E 0) as [E0 | E0].
  - apply pret_ret, returns_ok. exists rs. split; auto. split; auto. subst E. change (10 ^ 0)%Q with 1%Q. change (Z.abs 0) with 0. change (inject_Z (4 * 0 + 12)) with 12%Q. split.
    + rewrite Vs, sgq_abs. apply Qabs_case; intros _; nra.
    + intros H. rewrite Vs. apply sgq_wd. destruct (Ex ltac:(lia)) as [_ V]. rewrite V. ring.
  - eapply pret_bind; [apply pret_ret, (pow10_ok E); lia |]. intros p (Wp & Np & Sp & Xp & Lp & Up). assert (Vp : (xval p == xmag p)%Q) by (unfold xval; rewrite Sp; reflexivity).
    destruct (Z.eq_dec D 0) as [Dz | Dz].
    { assert (rs = xZERO). { apply xval_inj; [auto | apply xwf_zero |]. rewrite Vs, xval_zero. rewrite Dz in B. change (inject_Z 0) with 0%Q in B. assert (R0 : (xval r == 0)%Q) by lra. unfold sgq. destruct neg; rewrite R0; reflexivity. }
      fold rs. rewrite H. rewrite (proj2 (C46_zero p)). cbn [bind]. apply pret_ret, returns_ok. exists xZERO. split; auto. split; [apply xwf_zero |]. rewrite Dz, xval_zero. change (inject_Z 0) with 0%Q. split.
      + assert (Z0 : (Qabs (0 - sgq neg (0 * 10 ^ E)) == 0)%Q) by (unfold sgq; destruct neg; rewrite Qmult_0_l; reflexivity). rewrite Z0, Qmult_0_l, Qmult_0_r. lra.
      + intros _. unfold sgq. destruct neg; rewrite Qmult_0_l; reflexivity. }
    assert (H1 : (1 <= inject_Z D)%Q) by (change 1%Q with (inject_Z 1); rewrite <- Zle_Qle; lia). assert (R2 : (1 # 2 <= xval r)%Q) by nra.
    assert (Nr : xnull r = false). { destruct (xnull r) eqn:N; auto. rewrite (xnull_zero r N), xval_zero in R2. lra. } assert (Sr : xsign r = false). { destruct (xsign r) eqn:S; auto. pose proof (xval_neg r W S). lra. }
    assert (Ns : xnull rs = false /\ xsign rs = neg /\ xpow rs = xpow r /\ (xmag rs == xmag r)%Q).
    { unfold rs. destruct neg; [| auto with *]. destruct (xnull_false_neg r W Nr Lr) as (A1 & A2 & A3 & A4 & A5). rewrite Sr in A2. repeat split; auto. rewrite <- !xabs_val by (auto using xneg_wf). rewrite xneg_ok by auto. apply Qabs_opp. }
    destruct Ns as (Ns & Ss & Ps & Ms). assert (Hp1 : - 129 < xpow r). { assert (HH : - (1) < xpow r + 128); [| clear - HH; lia]. apply (xpow_large r (-(1))); auto. rewrite Mr. exact R2. } assert (Hp2 : xpow r + 127 < 130). { apply xpow_small; auto. rewrite Mr, two_Z by (clear; lia). apply Qle_lt_trans with (inject_Z D); [apply B | rewrite <- Zlt_Qlt; apply DB]. }
    destruct (k_small (4 * Z.abs E + 10) ltac:(clear - HE; lia)) as [K1 K2]. assert (K3 : ((1 # 2 ^ 70) < 1 # 2)%Q) by reflexivity. set (kk := (inject_Z (4 * Z.abs E + 10) * uu)%Q) in *.
    assert (XP : Z.abs (xpow p + 127) <= 2 ^ 34 + 2 ^ 34) by (apply (p10_pow p E kk); auto; clear - K2 K3; lra).
    fold rs. destruct (mul_step rs p Ws Wp Ns Np ltac:(clear - Hp1 Hp2 XP Ps; lia)) as (c & Ec & Wc & Nc & Sc & Lc & Uc). rewrite Ec. cbn [bind]. apply pret_ret, returns_ok. exists c. split; auto. split; auto. rewrite Ss, Sp, xorb_false_r in Sc. rewrite Ms, Mr in Lc, Uc.
    assert (Vc : (xval c == sgq neg (xmag c))%Q) by (unfold xval, sgq; rewrite Sc; reflexivity). split.
    + rewrite Vc, sgq_abs. setoid_replace (inject_Z (4 * Z.abs E + 12) * two (- 125))%Q with (kk + 2 * uu)%Q by (unfold kk; rewrite !inject_Z_plus; change (inject_Z 10) with 10%Q; change (inject_Z 12) with 12%Q; ring).
      apply (scale_q (inject_Z D) (10 ^ E) kk (xval r) (xmag p) (xmag c) uu); auto; [apply Qlt_le_weak, T10 | clear - UB; lra | clear - K2 K3; lra].
    + intros [[HE0 _] | [HE1 HD2]]; [contradiction |]. specialize (Xp ltac:(clear - HE1; lia)). destruct (Ex ltac:(clear - HD2; lia)) as [_ Vr]. assert (Ip : isint (10 ^ E) p). { split; auto. rewrite Vp, Xp. symmetry. change 10%Q with (inject_Z 10). rewrite <- Zpower_Qpower by (clear - HE1; lia). reflexivity. }
      assert (Sh1 : xd p mod 2 ^ 64 = 0). { apply (int_short (10 ^ E) (5 ^ E) E 64 p Ip); [rewrite <- Z.pow_mul_l; reflexivity | change (2 ^ (128 - 64)) with (2 ^ 64); apply p5; exact HE1 | apply HE1 | clear; lia]. }
      assert (Sh2 : xd r mod 2 ^ 64 = 0) by (apply (int_short D D 0 64 r); [split; auto | ring | change (2 ^ (128 - 64)) with (2 ^ 64); clear - DB Dz HD2; lia | clear; lia | clear; lia]).
      assert (Sh3 : xd rs mod 2 ^ 64 = 0) by (apply (neg_short r rs 64); auto; clear; lia).
      destruct (C46_mul_exact rs p Ws Wp Ns Np ltac:(clear - Hp1 Hp2 XP Ps; unfold xpow, EXPC in *; lia) ltac:(clear - Hp1 Hp2 XP Ps; unfold xpow, EXPC in *; lia) Sh3 Sh1) as (c' & Ec' & _ & V'). assert (c' = c) by congruence. subst c'. rewrite V', Vs, Vp, Xp. unfold sgq. destruct neg; rewrite Vr; ring.
Qed.
