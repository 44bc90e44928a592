(** F192: is_integer, floor, ceil, round, frac and the fallible conversions to integers. *)
From Coq Require Import ZArith QArith Qabs Lqa Lia Bool List.
From Verif Require Import Base UBig UStr USpec UAddSub UEq BBig BSpec BEq RBig RSpec REq RIeee FSpec RIeeeP XNum XSpec XP1 XP2 XP3 XP7.
Local Open Scope Z_scope.

Lemma trunc_unique q z w : trunc_to q z -> (q == inject_Z w)%Q -> z = w.
Proof.
  intros (T1 & T2 & T3) E. rewrite E in *. change (Qabs (inject_Z w)) with (inject_Z (Z.abs w)) in *. rewrite <- Zle_Qle in T1. change 1%Q with (inject_Z 1) in T2. rewrite <- inject_Z_plus, <- Zlt_Qlt in T2.
  rewrite <- inject_Z_mult in T3. change 0%Q with (inject_Z 0) in T3. rewrite <- Zle_Qle in T3. nia.
Qed.
Lemma xis_integer_trunc a : xwf a -> xe a < 2 ^ 63 -> xis_integer a = let* c := xtruncate a in Ok (xeq c a).
Proof.
  intros W D. unfold xis_integer, xtruncate. rewrite xis_zero_null. destruct (xnull a) eqn:N. { rewrite (xnull_zero a N). reflexivity. }
  rewrite xei_ok by (split; auto). cbn [bind]. destruct (_ <? _).
  - cbn [bind]. destruct (xeq xZERO a) eqn:E; auto. unfold xeq in E. cbn [xd xe xZERO] in E. unfold xnull in N. rewrite (Z.eqb_sym 0), (Z.eqb_sym 0) in E. congruence.
  - destruct (0 <=? _). { cbn [bind]. unfold xeq. rewrite !Z.eqb_refl. reflexivity. }
    destruct (sneg _ _); cbn [bind]; auto. destruct (shrw _ _ _); cbn [bind]; auto. destruct (shlw _ _ _); cbn [bind]; auto. unfold xeq. cbn [xd xe]. now rewrite Z.eqb_refl, andb_true_r.
Qed.
Lemma xeq_refl a b : xeq a b = true -> a = b.
Proof. unfold xeq. rewrite andb_true_iff, !Z.eqb_eq. destruct a, b. cbn. intros [-> ->]. reflexivity. Qed.
Lemma xis_integer_ok a : xwf a -> xe a < 2 ^ 63 -> exists b, xis_integer a = Ok b /\ (b = true <-> exists z, (xval a == inject_Z z)%Q).
Proof.
  intros W D. rewrite xis_integer_trunc by auto. destruct (xtruncate_ok a W D) as (c & -> & Wc & z & V & T & _ & Q & _). cbn [bind]. eexists. split; [reflexivity |]. split.
  - intros E. apply xeq_refl in E. subst c. exists z. auto.
  - intros (w & Hw). apply Q. rewrite V, (trunc_unique _ z w T Hw). symmetry. auto.
Qed.

(** ** adding a unit to a truncated value *)
Definition xunit (u : Z) : f192 := mkX (if u <? 0 then SIGNM else 0) (EXPC - 127).
Lemma unit_of u : u = 1 \/ u = - 1 -> xfrom_prim I32 u = Ok (xunit u) /\ xwf (xunit u) /\ xnull (xunit u) = false /\ xlowest (xunit u) = false /\ xsign (xunit u) = (u <? 0) /\ (xval (xunit u) == inject_Z u)%Q /\ xpow (xunit u) = - 127.
Proof. intros [-> | ->]; splits; try reflexivity; try (cbn; lia); unfold Qeq; vm_compute; try reflexivity; intuition discriminate. Qed.
Definition truncated (t : f192) (z : Z) (s : bool) : Prop := xwf t /\ (xval t == inject_Z z)%Q /\ Z.abs z < 2 ^ 127 /\ (t = xZERO \/ (xnull t = false /\ xsign t = s /\ - 127 <= xpow t < 0)).
Lemma add_unit t z u : u = 1 \/ u = - 1 -> truncated t z (u <? 0) -> returns (xadd t (xunit u)) (fun c => xwf c /\ (xval c == inject_Z (z + u))%Q).
Proof.
  intros U (W & V & B & C). destruct (unit_of u U) as (_ & Wu & Nu & Lu & Su & Vu & Pu). destruct C as [-> | (N & S & P)].
  - rewrite xadd_zero_l by auto. apply returns_ok. split; auto. rewrite Vu, inject_Z_plus. rewrite xval_zero in V. rewrite <- V. ring.
  - pose proof P48. eapply returns_weaken; [apply (xadd_same_rounds _ t (xunit u)); auto; [congruence | unfold xpow in P; lia | unfold xunit; cbn [xe]; lia] |]. intros c R.
    destruct (rep (z + u) 0) as (y & Wy & Vy); [lia | lia |]. assert (E : (xval y == xval t + xval (xunit u))%Q) by (rewrite Vy, V, Vu, inject_Z_plus; change (two 0) with 1%Q; ring).
    split; [apply R |]. rewrite (rounds_rep _ _ _ R Wy E). rewrite V, Vu, inject_Z_plus. reflexivity.
Qed.
Lemma sub_unit t z : truncated t z true -> returns (xsub t (xunit 1)) (fun c => xwf c /\ (xval c == inject_Z (z - 1))%Q).
Proof.
  intros (W & V & B & C). destruct (unit_of 1 ltac:(lia)) as (_ & Wu & Nu & Lu & Su & Vu & Pu). pose proof P48. destruct C as [-> | (N & S & P)].
  - rewrite xsub_zero_l by auto. apply returns_ok. split; [now apply xneg_wf |]. rewrite xneg_ok by auto. rewrite Vu, <- Z.add_opp_r, inject_Z_plus. rewrite xval_zero in V. rewrite <- V. reflexivity.
  - eapply returns_weaken; [apply (xsub_opp t (xunit 1)); auto; [unfold xlowest; destruct (Z.eqb_spec (xe t) 0); [unfold xpow in P; lia | apply andb_false_r] | rewrite S, Su; discriminate | unfold xpow in P; lia | unfold xunit; cbn [xe]; lia] |]. intros c R.
    destruct (rep (z - 1) 0) as (y & Wy & Vy); [lia | lia |]. assert (E : (xval y == xval t - xval (xunit 1))%Q) by (rewrite Vy, V, Vu, <- Z.add_opp_r, inject_Z_plus; change (two 0) with 1%Q; change (inject_Z (- (1))) with (- (1))%Q; change (inject_Z 1) with 1%Q; ring).
    split; [apply R |]. rewrite (rounds_rep _ _ _ R Wy E). rewrite V, Vu, <- Z.add_opp_r, inject_Z_plus. reflexivity.
Qed.
(** what truncation leaves when it changed something *)
Lemma trunc_small a z : xwf a -> trunc_to (xval a) z -> xpow a < 0 -> Z.abs z < 2 ^ 128.
Proof.
  intros W (T1 & _) P. rewrite xabs_val in T1 by auto. destruct (xnull a) eqn:N. { rewrite (xmag_null a N) in T1. change 0%Q with (inject_Z 0) in T1. rewrite <- Zle_Qle in T1. lia. }
  destruct (xmag_bin a W N) as [_ B]. assert ((two (xpow a + 128) <= two 127)%Q) by (apply two_le; lia). change (two 127) with (inject_Z (2 ^ 127)) in H. rewrite Zlt_Qlt. assert ((inject_Z (2 ^ 127) < inject_Z (2 ^ 128))%Q) by reflexivity. lra.
Qed.
Lemma xtrunc_cases a : xwf a -> xe a < 2 ^ 63 -> exists t z, xtruncate a = Ok t /\ xwf t /\ (xval t == inject_Z z)%Q /\ trunc_to (xval a) z /\
  ((xeq t a = true /\ t = a) \/ (xeq t a = false /\ ~ (xval a == inject_Z z)%Q /\ xnull a = false /\ truncated t z (xsign a) /\ xpow a < 0 /\ (t = xZERO \/ xpow t = xpow a))).
Proof.
  intros W D. destruct (xtruncate_ok a W D) as (t & E & Wt & z & V & T & C & Q & I). exists t, z. split; [auto |]. split; [auto |]. split; [auto |]. split; [auto |].
  destruct (xeq t a) eqn:X. { left. split; auto. now apply xeq_refl. } right. split; [auto |].
  assert (Ne : ~ (xval a == inject_Z z)%Q). { intros K. assert (xval t == xval a)%Q by (rewrite V, K; reflexivity). specialize (Q H). congruence. }
  assert (P : xpow a < 0). { destruct (Z_lt_le_dec (xpow a) 0); auto. rewrite I in X by auto. unfold xeq in X. rewrite !Z.eqb_refl in X. discriminate. }
  assert (N : xnull a = false). { destruct (xnull a) eqn:N; auto. rewrite I in X by auto. unfold xeq in X. rewrite !Z.eqb_refl in X. discriminate. }
  split; [auto |]. split; [auto |]. split; [| split; [auto |]].
  - split; [auto |]. split; [auto |]. split.
    + destruct T as [T1 _]. rewrite xabs_val in T1 by auto. destruct (xmag_bin a W N) as [_ B]. assert ((two (xpow a + 128) <= two 127)%Q) by (apply two_le; lia). change (two 127) with (inject_Z (2 ^ 127)) in H. rewrite Zlt_Qlt. lra.
    + destruct C as [[C _] | (C1 & C2 & C3 & _)]; [left; now apply xnull_zero |]. right. split; [auto |]. split; [auto |]. split; [| lia].
      destruct (Z_le_gt_dec (- 127) (xpow t)); auto. exfalso. destruct (xmag_bin t Wt C1) as [B1 B2]. assert ((two (xpow t + 128) <= 1)%Q) by (change 1%Q with (two 0); apply two_le; lia). pose proof (two_pos (xpow t + 127)).
      pose proof (xabs_val t Wt) as A. rewrite V in A. change (Qabs (inject_Z z)) with (inject_Z (Z.abs z)) in A. destruct (Z.eq_dec z 0) as [-> |]; [change (inject_Z (Z.abs 0)) with 0%Q in A; lra |].
      assert (1 <= inject_Z (Z.abs z))%Q by (change 1%Q with (inject_Z 1); rewrite <- Zle_Qle; lia). lra.
  - destruct C as [[C _] | (C1 & C2 & C3 & _)]; [left; now apply xnull_zero | auto].
Qed.

(** ** floor, ceil *)
Lemma trunc_sign q z : trunc_to q z -> ~ (q == inject_Z z)%Q -> ((q < 0)%Q -> (inject_Z z - 1 < q < inject_Z z)%Q) /\ ((0 <= q)%Q -> (inject_Z z < q < inject_Z z + 1)%Q).
Proof.
  intros (T1 & T2 & T3) Ne. assert (Az : (inject_Z (Z.abs z) == Qabs (inject_Z z))%Q) by reflexivity. rewrite Az in *. clear Az.
  assert (Zi : z = 0 \/ (1 <= inject_Z z)%Q \/ (inject_Z z <= - (1))%Q).
  { destruct (Z.lt_trichotomy z 0) as [H | [H | H]]; auto; right; [right | left]; [change (- (1))%Q with (inject_Z (- (1))) | change 1%Q with (inject_Z 1)]; rewrite <- Zle_Qle; lia. }
  assert (Z0 : z = 0 -> (inject_Z z == 0)%Q) by (intros ->; reflexivity). set (x := inject_Z z) in *. clearbody x.
  revert T1 T2. apply (Qabs_case x); intros X; apply (Qabs_case q); intros Y T1 T2; split; intros Hq; destruct Zi as [Zi | [Zi | Zi]]; try (specialize (Z0 Zi)); split; try lra; try nra;
    (destruct (Qlt_le_dec x q); [lra |]) || (destruct (Qlt_le_dec q x); [lra |]); exfalso; apply Ne; lra.
Qed.
Lemma xval_sign a : xwf a -> if xsign a then (xval a < 0)%Q else (0 <= xval a)%Q.
Proof. intros W. destruct (xsign a) eqn:S; [now apply xval_neg | now apply xval_pos]. Qed.
Lemma xfloor_ok a : xwf a -> xe a < 2 ^ 63 -> returns (xfloor a) (fun c => xwf c /\ exists z, (xval c == inject_Z z)%Q /\ floor_to (xval a) z).
Proof.
  intros W D. destruct (xtrunc_cases a W D) as (t & z & E & Wt & V & T & C). unfold xfloor. rewrite E. cbn [bind].
  destruct C as [[-> ->] | (-> & Ne & N & Tr & P & _)].
  - apply returns_ok. split; auto. exists z. split; auto. unfold floor_to. rewrite V. lra.
  - destruct (trunc_sign _ _ T Ne) as [T1 T2]. rewrite xis_neg_sign by auto. pose proof (xval_sign a W) as S. destruct (xsign a) eqn:Sa.
    + destruct (unit_of 1 ltac:(lia)) as (-> & _). cbn [bind]. eapply returns_weaken; [apply (sub_unit t z Tr) |]. intros c (Wc & Vc). split; auto. exists (z - 1). split; auto. specialize (T1 S). unfold floor_to.
      rewrite <- Z.add_opp_r, inject_Z_plus. change (inject_Z (- (1))) with (- (1))%Q. lra.
    + apply returns_ok. split; auto. exists z. split; auto. specialize (T2 S). unfold floor_to. lra.
Qed.
Lemma xceil_ok a : xwf a -> xe a < 2 ^ 63 -> returns (xceil a) (fun c => xwf c /\ exists z, (xval c == inject_Z z)%Q /\ ceil_to (xval a) z).
Proof.
  intros W D. destruct (xtrunc_cases a W D) as (t & z & E & Wt & V & T & C). unfold xceil. rewrite E. cbn [bind].
  destruct C as [[-> ->] | (-> & Ne & N & Tr & P & _)].
  - apply returns_ok. split; auto. exists z. split; auto. unfold ceil_to. rewrite V. lra.
  - destruct (trunc_sign _ _ T Ne) as [T1 T2]. rewrite xis_neg_sign by auto. pose proof (xval_sign a W) as S. destruct (xsign a) eqn:Sa.
    + apply returns_ok. split; auto. exists z. split; auto. specialize (T1 S). unfold ceil_to. lra.
    + destruct (unit_of 1 ltac:(lia)) as (-> & _). cbn [bind]. eapply returns_weaken; [apply (add_unit t z 1); auto |]. intros c (Wc & Vc). split; auto. exists (z + 1). split; auto. specialize (T2 S). unfold ceil_to.
      rewrite inject_Z_plus. change (inject_Z 1) with 1%Q. lra.
Qed.

(** ** frac, round *)
Lemma frac_ok a t z : xwf a -> xnull a = false -> xlowest a = false -> truncated t z (xsign a) -> xpow a < 0 -> t = xZERO \/ xpow t = xpow a -> trunc_to (xval a) z ->
  returns (xsub a t) (fun c => xwf c /\ (xval c == xval a - inject_Z z)%Q).
Proof.
  intros W N L (Wt & V & B & C) P C' T. pose proof P48. destruct C as [-> | (Nt & St & Pt)].
  - rewrite xsub_zero_r by auto. apply returns_ok. split; auto. rewrite xval_zero in V. rewrite <- V. ring.
  - destruct C' as [-> | Pe]; [discriminate |]. unfold xsub. rewrite xsub_same by (auto; lia).
    assert (R : exists y, xwf y /\ (xval y == xval a - xval t)%Q).
    { destruct (xof_of a W) as (_ & Ra & _). destruct (xof_of t Wt) as (_ & Rt & _). destruct (rep (if xsign a then xsig t - xsig a else xsig a - xsig t) (xpow a)) as (y & Wy & Vy).
      - rewrite P128. unfold sigr in *. pose proof PS. destruct (xsign a); lia.
      - rewrite Pe in Pt. unfold xpow in *. lia.
      - exists y. split; auto. rewrite Vy. unfold xval, xmag. rewrite N, Nt, St, Pe. destruct (xsign a); rewrite <- Z.add_opp_r, inject_Z_plus, inject_Z_opp; ring. }
    destruct R as (y & Wy & Vy). rewrite <- (rof_qeq _ _ Vy). rewrite xfrom_ratio_exact by auto. apply returns_ok. split; auto. rewrite Vy, V. reflexivity.
Qed.
Lemma xfrac_ok a : xwf a -> xe a < 2 ^ 63 -> xlowest a = false -> Z.abs (xpow a) < 2 ^ 32 \/ xnull a = true -> returns (xfrac a) (fun c => xwf c /\ exists z, (xval c == xval a - inject_Z z)%Q /\ trunc_to (xval a) z).
Proof.
  intros W D L M. destruct (xtrunc_cases a W D) as (t & z & E & Wt & V & T & C). unfold xfrac. rewrite E. cbn [bind].
  destruct C as [[_ ->] | (_ & Ne & N & Tr & P & C')].
  - destruct (xnull a) eqn:N.
    + rewrite (xnull_zero a N) in *. exists xZERO. split; [reflexivity |]. split; auto. exists z. split; auto. rewrite <- V, xval_zero. reflexivity.
    + destruct M as [M | M]; [| discriminate]. unfold xsub. rewrite xsub_same by auto. rewrite xfrom_ratio_zero by ring. apply returns_ok. split; [apply xwf_zero |]. exists z. split; auto. rewrite xval_zero, <- V. ring.
  - eapply returns_weaken; [apply (frac_ok a t z); auto |]. intros c (Wc & Vc). split; auto. exists z. auto.
Qed.
Lemma half_val : xshr xONE 1 = Ok (mkX 0 (EXPC - 128)) /\ (xval (mkX 0 (EXPC - 128)) == 1 # 2)%Q /\ (xval (xneg (mkX 0 (EXPC - 128))) == - (1 # 2))%Q /\ xwf (mkX 0 (EXPC - 128)) /\ xwf (xneg (mkX 0 (EXPC - 128))).
Proof. splits; try reflexivity; try (unfold Qeq; vm_compute; reflexivity); vm_compute; intuition discriminate. Qed.
Lemma xround_ok a : xwf a -> xe a < 2 ^ 63 -> xlowest a = false -> returns (xround a) (fun c => xwf c /\ exists z, (xval c == inject_Z z)%Q /\ round_to (xval a) z).
Proof.
  intros W D L. destruct (xtrunc_cases a W D) as (t & z & E & Wt & V & T & C). unfold xround. rewrite E. cbn [bind].
  destruct C as [[-> ->] | (-> & Ne & N & Tr & P & C')].
  - apply returns_ok. split; auto. exists z. split; auto. unfold round_to. rewrite V. setoid_replace (inject_Z z - inject_Z z)%Q with 0%Q by ring. change (Qabs 0) with 0%Q. split; [lra |]. intros _. apply Qle_refl.
  - destruct (frac_ok a t z) as (f & -> & Wf & Vf); auto. cbn [bind]. destruct half_val as (-> & H1 & H2 & W1 & W2). cbn [bind].
    set (h := mkX 0 (EXPC - 128)) in *. clearbody h. destruct (trunc_sign _ _ T Ne) as [T1 T2]. pose proof (xval_sign a W) as S.
    destruct T as (T3 & T4 & T5). change (inject_Z (Z.abs z)) with (Qabs (inject_Z z)) in T3, T4.
    destruct (xle f (xneg h)) eqn:B1.
    + apply xle_ok in B1; auto. rewrite Vf, H2 in B1. assert (Sa : xsign a = true) by (destruct (xsign a); auto; specialize (T2 S); lra). rewrite Sa in *. specialize (T1 S).
      destruct (unit_of (- 1) ltac:(lia)) as (-> & _). cbn [bind]. eapply returns_weaken; [apply (add_unit t z (- 1)); auto |]. intros c (Wc & Vc). split; auto. exists (z + - 1). split; auto.
      unfold round_to. rewrite inject_Z_plus. change (inject_Z (- 1)) with (- (1))%Q. split; [apply Qabs_le_iff; lra |]. intros _. rewrite !Qabs_neg by lra. lra.
    + assert (B1' : ~ (xval f <= xval (xneg h))%Q) by (intros K; apply xle_ok in K; auto; congruence). rewrite Vf, H2 in B1'. apply Qnot_le_lt in B1'.
      destruct (xge f h) eqn:B2.
      * apply xge_ok in B2; auto. rewrite Vf, H1 in B2. assert (Sa : xsign a = false) by (destruct (xsign a); auto; specialize (T1 S); lra). rewrite Sa in *. specialize (T2 S).
        destruct (unit_of 1 ltac:(lia)) as (-> & _). cbn [bind]. eapply returns_weaken; [apply (add_unit t z 1); auto |]. intros c (Wc & Vc). split; auto. exists (z + 1). split; auto.
        unfold round_to. rewrite inject_Z_plus. change (inject_Z 1) with 1%Q. split; [apply Qabs_le_iff; lra |]. intros _. rewrite !Qabs_pos by lra. lra.
      * assert (B2' : ~ (xval h <= xval f)%Q) by (intros K; apply xge_ok in K; auto; congruence). rewrite Vf, H1 in B2'. apply Qnot_le_lt in B2'.
        apply returns_ok. split; auto. exists z. split; auto. unfold round_to. split; [apply Qabs_le_iff; lra |]. intros K. exfalso. revert K. apply Qabs_case; intros; lra.
Qed.
(** ** fallible conversions to integers *)
Lemma trunc_neg q z : trunc_to q z -> trunc_to (- q) (- z).
Proof. intros (T1 & T2 & T3). unfold trunc_to. rewrite Qabs_opp, Z.abs_opp. splits; auto. rewrite inject_Z_opp. nra. Qed.
Lemma lowest_eq a : xlowest a = true -> a = mkX SIGNM 0.
Proof. destruct a as [d e]. unfold xlowest. cbn [xd xe]. rewrite andb_true_iff, !Z.eqb_eq. intros [-> ->]. reflexivity. Qed.
Lemma xto_i128_pos a : xwf a -> xsign a = false -> xnull a = false -> - 127 <= xpow a < 0 -> returns (xto_i128 a) (fun r => exists z, r = ROk z /\ trunc_to (xval a) z).
Proof.
  intros W S N P. unfold xto_i128. rewrite xis_neg_sign, S by auto. destruct (xto_u128_pos a W S N ltac:(lia)) as (r & -> & z & -> & B & T & Ez). cbn [rbind bind].
  assert (Bz : z < 2 ^ 127). { subst z. apply Z.div_lt_upper_bound; [apply Z.pow_pos_nonneg; lia |]. destruct (xof_of a W) as (_ & Sg & _). apply xsig_range in Sg. assert (2 ^ 1 <= 2 ^ (- xpow a)) by (apply Z.pow_le_mono_r; lia). nia. }
  unfold prim_s, in_s. change (128 - 1) with 127. destruct (Z.leb_spec (- 2 ^ 127) z); [| lia]. destruct (Z.ltb_spec z (2 ^ 127)); [| lia]. cbn [andb]. apply returns_ok. eauto.
Qed.
Lemma xto_i128_neg a : xwf a -> xsign a = true -> - 127 <= xpow a < 0 -> returns (xto_i128 a) (fun r => exists z, r = ROk z /\ trunc_to (xval a) z).
Proof.
  intros W S P. pose proof P48. assert (N : xnull a = false) by (destruct (xnull a) eqn:N; auto; apply xnull_sign in N; congruence).
  assert (L : xlowest a = false). { unfold xlowest. destruct (Z.eqb_spec (xe a) 0); [unfold xpow in P; lia | apply andb_false_r]. }
  destruct (xnull_false_neg a W N L) as (N1 & S1 & P1 & W1 & _). unfold xto_i128. rewrite xis_neg_sign, S by auto. rewrite S in S1. destruct (xto_u128_pos (xneg a) W1 S1 N1 ltac:(lia)) as (r & -> & z & -> & B & T & Ez). cbn [rbind bind].
  assert (Bz : z < 2 ^ 127). { subst z. apply Z.div_lt_upper_bound; [apply Z.pow_pos_nonneg; lia |]. destruct (xof_of _ W1) as (_ & Sg & _). apply xsig_range in Sg. assert (2 ^ 1 <= 2 ^ (- xpow (xneg a))) by (apply Z.pow_le_mono_r; lia). nia. }
  destruct (Z.ltb_spec z (2 ^ 127)); [| lia]. rewrite casts_small by (change (128 - 1) with 127; lia). unfold sneg. rewrite sres_ok by (change (128 - 1) with 127; lia). cbn [bind]. apply returns_ok. exists (- z). split; auto.
  apply trunc_neg in T. destruct T as (T1 & T2 & T3). unfold trunc_to. rewrite xneg_ok, Qopp_involutive in * by auto. auto.
Qed.
Lemma xto_i128_big a : xwf a -> 0 <= xpow a -> xto_i128 a = Ok (RErr NotInRange).
Proof.
  intros W P. pose proof P48. assert (X0 : 0 < xe a) by (unfold xpow in P; lia). assert (N : forall b, xe b = xe a -> xnull b = false) by (intros b E; unfold xnull; rewrite E; destruct (Z.eqb_spec (xe a) 0); [lia | apply andb_false_r]).
  assert (Big : forall b, xwf b -> xsign b = false -> xe b = xe a -> xto_u128 b = Ok (RErr NotInRange) \/ exists z, xto_u128 b = Ok (ROk z) /\ 2 ^ 127 <= z).
  { intros b Wb Sb Eb. destruct (Z.eq_dec (xpow b) 0) as [Z0 | nz].
    - right. destruct (xto_u128_pos b Wb Sb (N b Eb) ltac:(lia)) as (r & -> & z & -> & _ & _ & Ez). exists z. split; auto. rewrite Ez, Z0. change (2 ^ (- 0)) with 1. rewrite Z.div_1_r. destruct (xof_of b Wb) as (_ & [Sg _] & _). exact Sg.
    - left. apply xto_u128_big; auto. unfold xpow in *. rewrite Eb in *. lia. }
  unfold xto_i128. rewrite xis_neg_sign by auto. destruct (xsign a) eqn:S.
  - assert (L : xlowest a = false). { unfold xlowest. destruct (Z.eqb_spec (xe a) 0); [lia | apply andb_false_r]. } destruct (xnull_false_neg a W (N a eq_refl) L) as (N1 & S1 & P1 & W1 & E1). rewrite S in S1.
    destruct (Big _ W1 S1 E1) as [-> | (z & -> & Bz)]; [reflexivity |]. cbn [rbind bind]. destruct (Z.ltb_spec z (2 ^ 127)); [lia | reflexivity].
  - destruct (Big _ W S eq_refl) as [-> | (z & -> & Bz)]; [reflexivity |]. cbn [rbind bind]. unfold prim_s, in_s. change (128 - 1) with 127. destruct (Z.ltb_spec z (2 ^ 127)); [lia |]. rewrite andb_false_r. reflexivity.
Qed.
Lemma xto_i128_frac a : xwf a -> xnull a = false -> xlowest a = false -> xpow a < - 127 -> xto_i128 a = Panic.
Proof.
  intros W N L P. unfold xto_i128. rewrite xis_neg_sign by auto. destruct (xsign a) eqn:S.
  - destruct (xnull_false_neg a W N L) as (N1 & S1 & P1 & W1 & _). rewrite xto_u128_frac; auto; [rewrite S1, S; reflexivity | lia].
  - rewrite xto_u128_frac; auto.
Qed.
