(** F192: the 13 character code. *)
From Coq Require Import ZArith QArith Qabs Lqa Lia Bool List.
From Verif Require Import Base UBig UStr USpec UAddSub UEq BBig BSpec BEq RBig RSpec REq RIeee FSpec RIeeeP XNum XSpec XP1 XP2 XP3 XP7 XFun CSpec.
Import ListNotations.
Local Open Scope Z_scope.

Lemma sadd_ok w a b : - 2 ^ (w - 1) <= a + b < 2 ^ (w - 1) -> sadd w a b = Ok (a + b). Proof. apply sres_ok. Qed.
Lemma ssub_ok w a b : - 2 ^ (w - 1) <= a - b < 2 ^ (w - 1) -> ssub w a b = Ok (a - b). Proof. apply sres_ok. Qed.
(** ** characters *)
Lemma c62_range c v : c62 c = Some v -> 0 <= v < 62.
Proof. unfold c62. zb; cbn [andb]; intros E; try discriminate; injection E as <-; lia. Qed.
Lemma to_int_ok c : to_int c = match c62 c with Some v => ROk v | None => RErr (InvalidChar c) end.
Proof. unfold to_int, c62. zb; cbn [andb]; try reflexivity; try lia; f_equal; lia. Qed.
Lemma from_to c v : c62 c = Some v -> from_int v = c.
Proof. unfold c62, from_int. zb; cbn [andb]; intros E; try discriminate; injection E as E; zb; lia. Qed.
Lemma to_from v : 0 <= v < 62 -> c62 (from_int v) = Some v.
Proof. intros H. unfold c62, from_int. zb; cbn [andb]; try lia; f_equal; lia. Qed.
Lemma v62_range c : 0 <= v62 c < 62.
Proof. unfold v62. destruct (c62 c) eqn:E; [now apply c62_range in E | lia]. Qed.
Lemma from_v62 c : valid62 c -> from_int (v62 c) = c.
Proof. intros [v E]. unfold v62. rewrite E. now apply from_to. Qed.
Lemma to_v62 c : valid62 c -> to_int c = ROk (v62 c).
Proof. intros [v E]. rewrite to_int_ok. unfold v62. now rewrite E. Qed.
Lemma valid_from v : 0 <= v < 62 -> valid62 (from_int v) /\ v62 (from_int v) = v.
Proof. intros H. unfold valid62, v62. rewrite to_from by auto. eauto. Qed.
Lemma valid48 : valid62 48 /\ v62 48 = 0. Proof. split; [exists 0 |]; reflexivity. Qed.

Lemma c13_digits_ok s : forall d, Forall valid62 s -> 0 <= d -> (d + 62) * 62 ^ Z.of_nat (length s) < 2 ^ 128 -> c13_digits s d = Ok (ROk (fold_left (fun d c => (d + v62 c) * 62) s d)).
Proof.
  induction s as [| c s IH]; intros d V H B; [reflexivity |]. inversion V; subst. cbn [c13_digits rbind bind]. rewrite to_v62 by auto. cbn [rbind bind].
  pose proof (v62_range c). cbn [length] in B. rewrite Nat2Z.inj_succ, Z.pow_succ_r in B by lia. assert (P : 1 <= 62 ^ Z.of_nat (length s)) by (assert (0 < 62 ^ Z.of_nat (length s)) by (apply Z.pow_pos_nonneg; lia); lia).
  assert ((d + 62) * 62 < 2 ^ 128) by nia. rewrite addw_ok by lia. cbn [bind]. rewrite mulw_ok by lia. cbn [bind fold_left]. apply IH; [auto | lia |]. set (p := 62 ^ Z.of_nat (length s)) in *. nia.
Qed.
Lemma c13_digits_err l c r : forall d, Forall valid62 l -> c62 c = None -> 0 <= d -> (d + 62) * 62 ^ Z.of_nat (length l) < 2 ^ 128 -> c13_digits (l ++ c :: r) d = Ok (RErr (InvalidChar c)).
Proof.
  induction l as [| a s IH]; intros d V N H B; [cbn [app c13_digits rbind bind]; rewrite to_int_ok, N; reflexivity |]. inversion V; subst. cbn [app c13_digits rbind bind]. rewrite to_v62 by auto. cbn [rbind bind].
  pose proof (v62_range a). cbn [length] in B. rewrite Nat2Z.inj_succ, Z.pow_succ_r in B by lia. assert (P : 1 <= 62 ^ Z.of_nat (length s)) by (assert (0 < 62 ^ Z.of_nat (length s)) by (apply Z.pow_pos_nonneg; lia); lia).
  assert ((d + 62) * 62 < 2 ^ 128) by nia. rewrite addw_ok by lia. cbn [bind]. rewrite mulw_ok by lia. cbn [bind fold_left]. apply IH; [auto | auto | lia |]. set (p := 62 ^ Z.of_nat (length s)) in *. nia.
Qed.
Lemma fold_shift s : forall n, fold_left (fun d c => (d + v62 c) * 62) s (n * 62) = fold_left (fun n c => n * 62 + v62 c) s n * 62.
Proof. induction s as [| c s IH]; intros n; [reflexivity |]. cbn [fold_left]. now rewrite IH. Qed.
Lemma n62_digits s : fold_left (fun d c => (d + v62 c) * 62) s 0 = n62 s * 62.
Proof. exact (fold_shift s 0). Qed.
Lemma n62_range s : 0 <= n62 s < 62 ^ Z.of_nat (length s).
Proof.
  unfold n62. assert (K : forall s n, 0 <= n -> 0 <= fold_left (fun n c => n * 62 + v62 c) s n < (n + 1) * 62 ^ Z.of_nat (length s)).
  { clear. induction s as [| c s IH]; intros n H; [cbn; lia |]. pose proof (v62_range c). specialize (IH (n * 62 + v62 c) ltac:(lia)). cbn [fold_left length]. rewrite Nat2Z.inj_succ, Z.pow_succ_r by lia. 
    assert (0 < 62 ^ Z.of_nat (length s)) by (apply Z.pow_pos_nonneg; lia). set (p := 62 ^ Z.of_nat (length s)) in *. nia. }
  specialize (K s 0 ltac:(lia)). lia.
Qed.

(** ** the two encodings agree on thirteen characters *)
Definition B13 : Z := 62 ^ 10 * 31.
Lemma B13_ok : BASE13 = B13. Proof. reflexivity. Qed.
Lemma text_decode e d : 0 <= e < 7688 -> 0 <= d < B13 -> let s := c13_text e d in Forall valid62 s /\ length s = 13%nat /\ hd13 s = e /\ dig13 s = B13 + d.
Proof.
  intros He Hd. cbv zeta. unfold c13_text. change B13 with 26018280341918546944 in *.
  remember (d / 31) as n0 eqn:F0. remember (n0 / 62) as n1 eqn:F1. remember (n1 / 62) as n2 eqn:F2. remember (n2 / 62) as n3 eqn:F3. remember (n3 / 62) as n4 eqn:F4. remember (n4 / 62) as n5 eqn:F5. remember (n5 / 62) as n6 eqn:F6. remember (n6 / 62) as n7 eqn:F7. remember (n7 / 62) as n8 eqn:F8. remember (n8 / 62) as n9 eqn:F9.
  assert (Q : forall a k p, 0 < k -> 0 < p -> k * 62 = p -> d / k = a -> d / p = a / 62) by (intros a k p K P <- <-; rewrite Z.div_div by lia; reflexivity).
  assert (E1 : d / 1922 = n1) by (rewrite F1; apply (Q n0 31); auto; reflexivity). assert (E2 : d / 119164 = n2) by (rewrite F2; apply (Q n1 1922); auto; reflexivity). assert (E3 : d / 7388168 = n3) by (rewrite F3; apply (Q n2 119164); auto; reflexivity). assert (E4 : d / 458066416 = n4) by (rewrite F4; apply (Q n3 7388168); auto; reflexivity). assert (E5 : d / 28400117792 = n5) by (rewrite F5; apply (Q n4 458066416); auto; reflexivity). assert (E6 : d / 1760807303104 = n6) by (rewrite F6; apply (Q n5 28400117792); auto; reflexivity). assert (E7 : d / 109170052792448 = n7) by (rewrite F7; apply (Q n6 1760807303104); auto; reflexivity). assert (E8 : d / 6768543273131776 = n8) by (rewrite F8; apply (Q n7 109170052792448); auto; reflexivity). assert (E9 : d / 419649682934170112 = n9) by (rewrite F9; apply (Q n8 6768543273131776); auto; reflexivity).
  rewrite E1, E2, E3, E4, E5, E6, E7, E8, E9.
  assert (R9 : 0 <= n9 < 62) by (rewrite <- E9; split; [apply Z.div_pos; lia | apply Z.div_lt_upper_bound; lia]).
  pose proof (Z.mod_pos_bound n0 62 ltac:(lia)) as M0. pose proof (Z.mod_pos_bound n1 62 ltac:(lia)) as M1. pose proof (Z.mod_pos_bound n2 62 ltac:(lia)) as M2. pose proof (Z.mod_pos_bound n3 62 ltac:(lia)) as M3. pose proof (Z.mod_pos_bound n4 62 ltac:(lia)) as M4.
  pose proof (Z.mod_pos_bound n5 62 ltac:(lia)) as M5. pose proof (Z.mod_pos_bound n6 62 ltac:(lia)) as M6. pose proof (Z.mod_pos_bound n7 62 ltac:(lia)) as M7. pose proof (Z.mod_pos_bound n8 62 ltac:(lia)) as M8.
  pose proof (Z.mod_pos_bound d 31 ltac:(lia)) as Md. pose proof (Z.mod_pos_bound e 2 ltac:(lia)) as Me.
  assert (X0 : 0 <= e / 124 < 62) by (split; [apply Z.div_pos; lia | apply Z.div_lt_upper_bound; lia]). pose proof (Z.mod_pos_bound e 124 ltac:(lia)) as X1. assert (X2 : 0 <= e mod 124 / 2 < 62) by (clear - X1; split; [apply Z.div_pos; lia | apply Z.div_lt_upper_bound; lia]).
  assert (C8 : forall x, 0 <= x < 62 -> castw 8 x = x) by (clear; intros; apply castw_small; change (2 ^ 8) with 256; lia).
  rewrite (C8 _ X0), (C8 _ X2), (C8 _ R9), (C8 _ M0), (C8 _ M1), (C8 _ M2), (C8 _ M3), (C8 _ M4), (C8 _ M5), (C8 _ M6), (C8 _ M7), (C8 _ M8), (C8 (e mod 2 * 31)), (C8 (d mod 31)) by (clear - Me Md; lia).
  pose proof (valid_from _ X0) as [V0 W0]. pose proof (valid_from _ X2) as [V1 W1]. assert (Rm : 0 <= e mod 2 * 31 + d mod 31 < 62) by (clear - Me Md; lia). pose proof (valid_from _ Rm) as [V2 W2]. pose proof (valid_from _ R9) as [V3 W3].
  pose proof (valid_from _ M8) as [V4 W4]. pose proof (valid_from _ M7) as [V5 W5]. pose proof (valid_from _ M6) as [V6 W6]. pose proof (valid_from _ M5) as [V7 W7]. pose proof (valid_from _ M4) as [V8 W8].
  pose proof (valid_from _ M3) as [V9 W9]. pose proof (valid_from _ M2) as [V10 W10]. pose proof (valid_from _ M1) as [V11 W11]. pose proof (valid_from _ M0) as [V12 W12].
  split; [repeat (constructor; auto) |]. split; [reflexivity |]. unfold hd13, dig13, pad13, n62. cbn [length Nat.sub repeat app nth skipn fold_left]. rewrite W0, W1, W2, W3, W4, W5, W6, W7, W8, W9, W10, W11, W12. split.
  - clear - Md He. rewrite Z.div_add_l by lia. rewrite (Z.div_small (d mod 31)) by lia. pose proof (Z.div_mod e 124 ltac:(lia)). pose proof (Z.div_mod (e mod 124) 2 ltac:(lia)). assert (e mod 124 mod 2 = e mod 2) by (symmetry; apply (Znumtheory.Zmod_div_mod 2 124); [lia | lia | exists 62; reflexivity]). lia.
  - replace ((e mod 2 * 31 + d mod 31) mod 31) with (d mod 31) by (rewrite Z.add_comm, Z.mod_add by lia; now rewrite Z.mod_mod by lia).
    clear V0 V1 V2 V3 V4 V5 V6 V7 V8 V9 V10 V11 V12 W0 W1 W2 W3 W4 W5 W6 W7 W8 W9 W10 W11 W12.
    pose proof (Z.div_mod d 31 ltac:(discriminate)). rewrite <- F0 in H. pose proof (Z.div_mod n0 62 ltac:(discriminate)) as G0. rewrite <- F1 in G0. pose proof (Z.div_mod n1 62 ltac:(discriminate)) as G1. rewrite <- F2 in G1. pose proof (Z.div_mod n2 62 ltac:(discriminate)) as G2. rewrite <- F3 in G2. pose proof (Z.div_mod n3 62 ltac:(discriminate)) as G3. rewrite <- F4 in G3. pose proof (Z.div_mod n4 62 ltac:(discriminate)) as G4. rewrite <- F5 in G4.
    pose proof (Z.div_mod n5 62 ltac:(discriminate)) as G5. rewrite <- F6 in G5. pose proof (Z.div_mod n6 62 ltac:(discriminate)) as G6. rewrite <- F7 in G6. pose proof (Z.div_mod n7 62 ltac:(discriminate)) as G7. rewrite <- F8 in G7. pose proof (Z.div_mod n8 62 ltac:(discriminate)) as G8. rewrite <- F9 in G8.
    change (62 ^ 10 * 31) with 26018280341918546944. clear - H G0 G1 G2 G3 G4 G5 G6 G7 G8. revert H G0 G1 G2 G3 G4 G5 G6 G7 G8. generalize (d mod 31) (n0 mod 62) (n1 mod 62) (n2 mod 62) (n3 mod 62) (n4 mod 62) (n5 mod 62) (n6 mod 62) (n7 mod 62) (n8 mod 62). intros. lia.
Qed.
Lemma digit_at n k p hi lo x : 0 < p -> n = (hi * 62 + x) * p + lo -> 0 <= lo < p -> 0 <= x < 62 -> k = 31 * p -> forall r, 0 <= r < 31 -> (31 * n + r) / k mod 62 = x.
Proof.
  intros P -> L X -> r R. rewrite <- Z.div_div by lia. replace (31 * ((hi * 62 + x) * p + lo) + r) with (r + ((hi * 62 + x) * p + lo) * 31) by ring. rewrite Z.div_add by lia. rewrite (Z.div_small r) by lia. rewrite Z.add_0_l.
  rewrite Z.div_add_l by lia. rewrite (Z.div_small lo) by lia. rewrite Z.add_0_r, Z.add_comm, Z.mod_add by lia. now apply Z.mod_small.
Qed.
Lemma cons_eq (a b : Z) l m : a = b -> l = m -> a :: l = b :: m. Proof. congruence. Qed.
Lemma chr_eq X c : valid62 c -> X = v62 c -> from_int (castw 8 X) = c.
Proof. intros V ->. rewrite castw_small by (pose proof (v62_range c); change (2 ^ 8) with 256; lia). now apply from_v62. Qed.
Lemma text_encode s : Forall valid62 s -> length s = 13%nat -> c13_text (hd13 s) (dig13 s - B13) = s /\ 0 <= hd13 s < 7688 /\ 0 <= dig13 s - B13 < B13.
Proof.
  intros V L. do 13 (destruct s as [| ?c s]; [discriminate |]). destruct s; [| discriminate]. clear L.
  unfold hd13, dig13, pad13, n62. cbn [length Nat.sub repeat app nth skipn fold_left]. repeat match goal with H : Forall _ (_ :: _) |- _ => inversion H; subst; clear H end. clear H15.
  pose proof (v62_range c). pose proof (v62_range c0). pose proof (v62_range c1). pose proof (v62_range c2). pose proof (v62_range c3). pose proof (v62_range c4). pose proof (v62_range c5). pose proof (v62_range c6).
  pose proof (v62_range c7). pose proof (v62_range c8). pose proof (v62_range c9). pose proof (v62_range c10). pose proof (v62_range c11).
  set (v0 := v62 c) in *. set (v1 := v62 c0) in *. set (v2 := v62 c1) in *.
  pose proof (Z.mod_pos_bound v2 31 ltac:(lia)) as M2. pose proof (Z.div_mod v2 31 ltac:(lia)) as D2. assert (Q2 : 0 <= v2 / 31 < 2) by (split; [apply Z.div_pos; lia | apply Z.div_lt_upper_bound; lia]).
  set (e := v0 * 124 + v1 * 2 + v2 / 31) in *.
  match goal with |- c13_text _ (62 ^ 10 * 31 + ?N * 31 + ?r - B13) = _ /\ _ => set (n := N) in *; replace (62 ^ 10 * 31 + n * 31 + r - B13) with (31 * n + r) by (unfold B13; ring) end.
  assert (Hn : n = v62 c2 * 62 ^ 9 + v62 c3 * 62 ^ 8 + v62 c4 * 62 ^ 7 + v62 c5 * 62 ^ 6 + v62 c6 * 62 ^ 5 + v62 c7 * 62 ^ 4 + v62 c8 * 62 ^ 3 + v62 c9 * 62 ^ 2 + v62 c10 * 62 + v62 c11) by (unfold n; ring).
  clearbody n. unfold B13.
  set (w2 := v62 c2) in *. set (w3 := v62 c3) in *. set (w4 := v62 c4) in *. set (w5 := v62 c5) in *. set (w6 := v62 c6) in *. set (w7 := v62 c7) in *. set (w8 := v62 c8) in *. set (w9 := v62 c9) in *. set (w10 := v62 c10) in *. set (w11 := v62 c11) in *.
  assert (Rn : 0 <= n < 62 ^ 10) by (clear - Hn H H0 H1 H2 H3 H4 H5 H6 H7 H8 H9 H10 H11 H12 H13 H14 H15 H16 H17 H18 H19 H20 H21 H22 H23 H24; lia).
  split; [| split; [unfold e; lia | lia]]. unfold c13_text.
  assert (DA : forall p hi lo x k, 0 < p -> n = (hi * 62 + x) * p + lo -> 0 <= lo < p -> 0 <= x < 62 -> k = 31 * p -> (31 * n + v2 mod 31) / k mod 62 = x) by (intros p hi lo x k P1 P2 P3 P4 P5; apply (digit_at n k p hi lo x P1 P2 P3 P4 P5); exact M2).
  assert (De : e / 124 = v0 /\ e mod 124 / 2 = v1 /\ e mod 2 * 31 + (31 * n + v2 mod 31) mod 31 = v2).
  { assert (E1 : e / 124 = v0) by (symmetry; apply (Z.div_unique e 124 v0 (v1 * 2 + v2 / 31)); unfold e; lia). split; auto.
    assert (E2 : e mod 124 = v1 * 2 + v2 / 31) by (symmetry; apply (Z.mod_unique e 124 v0); unfold e; lia). rewrite E2. split; [symmetry; apply (Z.div_unique _ 2 v1 (v2 / 31)); lia |].
    assert (E3 : e mod 2 = v2 / 31) by (symmetry; apply (Z.mod_unique e 2 (v0 * 62 + v1)); unfold e; lia). rewrite E3. rewrite Z.add_comm with (n := 31 * n), Z.mul_comm with (n := 31), Z.mod_add, Z.mod_mod by lia. lia. }
  destruct De as (D0 & D1 & D2').
  clear D2 Q2.
  assert (K0 : (31 * n + v2 mod 31) / 419649682934170112 mod 62 = w2) by (apply (DA (62 ^ 9) (0) (w3 * 62 ^ 8 + w4 * 62 ^ 7 + w5 * 62 ^ 6 + w6 * 62 ^ 5 + w7 * 62 ^ 4 + w8 * 62 ^ 3 + w9 * 62 ^ 2 + w10 * 62 ^ 1 + w11 * 62 ^ 0)); [reflexivity | rewrite Hn; ring | clear - H12 H13 H14 H15 H16 H17 H18 H19 H20 H21 H22 H23 H24; lia | auto | reflexivity]).
  assert (K1 : (31 * n + v2 mod 31) / 6768543273131776 mod 62 = w3) by (apply (DA (62 ^ 8) (w2 * 62 ^ 0) (w4 * 62 ^ 7 + w5 * 62 ^ 6 + w6 * 62 ^ 5 + w7 * 62 ^ 4 + w8 * 62 ^ 3 + w9 * 62 ^ 2 + w10 * 62 ^ 1 + w11 * 62 ^ 0)); [reflexivity | rewrite Hn; ring | clear - H12 H13 H14 H15 H16 H17 H18 H19 H20 H21 H22 H23 H24; lia | auto | reflexivity]).
  assert (K2 : (31 * n + v2 mod 31) / 109170052792448 mod 62 = w4) by (apply (DA (62 ^ 7) (w2 * 62 ^ 1 + w3 * 62 ^ 0) (w5 * 62 ^ 6 + w6 * 62 ^ 5 + w7 * 62 ^ 4 + w8 * 62 ^ 3 + w9 * 62 ^ 2 + w10 * 62 ^ 1 + w11 * 62 ^ 0)); [reflexivity | rewrite Hn; ring | clear - H12 H13 H14 H15 H16 H17 H18 H19 H20 H21 H22 H23 H24; lia | auto | reflexivity]).
  assert (K3 : (31 * n + v2 mod 31) / 1760807303104 mod 62 = w5) by (apply (DA (62 ^ 6) (w2 * 62 ^ 2 + w3 * 62 ^ 1 + w4 * 62 ^ 0) (w6 * 62 ^ 5 + w7 * 62 ^ 4 + w8 * 62 ^ 3 + w9 * 62 ^ 2 + w10 * 62 ^ 1 + w11 * 62 ^ 0)); [reflexivity | rewrite Hn; ring | clear - H12 H13 H14 H15 H16 H17 H18 H19 H20 H21 H22 H23 H24; lia | auto | reflexivity]).
  assert (K4 : (31 * n + v2 mod 31) / 28400117792 mod 62 = w6) by (apply (DA (62 ^ 5) (w2 * 62 ^ 3 + w3 * 62 ^ 2 + w4 * 62 ^ 1 + w5 * 62 ^ 0) (w7 * 62 ^ 4 + w8 * 62 ^ 3 + w9 * 62 ^ 2 + w10 * 62 ^ 1 + w11 * 62 ^ 0)); [reflexivity | rewrite Hn; ring | clear - H12 H13 H14 H15 H16 H17 H18 H19 H20 H21 H22 H23 H24; lia | auto | reflexivity]).
  assert (K5 : (31 * n + v2 mod 31) / 458066416 mod 62 = w7) by (apply (DA (62 ^ 4) (w2 * 62 ^ 4 + w3 * 62 ^ 3 + w4 * 62 ^ 2 + w5 * 62 ^ 1 + w6 * 62 ^ 0) (w8 * 62 ^ 3 + w9 * 62 ^ 2 + w10 * 62 ^ 1 + w11 * 62 ^ 0)); [reflexivity | rewrite Hn; ring | clear - H12 H13 H14 H15 H16 H17 H18 H19 H20 H21 H22 H23 H24; lia | auto | reflexivity]).
  assert (K6 : (31 * n + v2 mod 31) / 7388168 mod 62 = w8) by (apply (DA (62 ^ 3) (w2 * 62 ^ 5 + w3 * 62 ^ 4 + w4 * 62 ^ 3 + w5 * 62 ^ 2 + w6 * 62 ^ 1 + w7 * 62 ^ 0) (w9 * 62 ^ 2 + w10 * 62 ^ 1 + w11 * 62 ^ 0)); [reflexivity | rewrite Hn; ring | clear - H12 H13 H14 H15 H16 H17 H18 H19 H20 H21 H22 H23 H24; lia | auto | reflexivity]).
  assert (K7 : (31 * n + v2 mod 31) / 119164 mod 62 = w9) by (apply (DA (62 ^ 2) (w2 * 62 ^ 6 + w3 * 62 ^ 5 + w4 * 62 ^ 4 + w5 * 62 ^ 3 + w6 * 62 ^ 2 + w7 * 62 ^ 1 + w8 * 62 ^ 0) (w10 * 62 ^ 1 + w11 * 62 ^ 0)); [reflexivity | rewrite Hn; ring | clear - H12 H13 H14 H15 H16 H17 H18 H19 H20 H21 H22 H23 H24; lia | auto | reflexivity]).
  assert (K8 : (31 * n + v2 mod 31) / 1922 mod 62 = w10) by (apply (DA (62 ^ 1) (w2 * 62 ^ 7 + w3 * 62 ^ 6 + w4 * 62 ^ 5 + w5 * 62 ^ 4 + w6 * 62 ^ 3 + w7 * 62 ^ 2 + w8 * 62 ^ 1 + w9 * 62 ^ 0) (w11 * 62 ^ 0)); [reflexivity | rewrite Hn; ring | clear - H12 H13 H14 H15 H16 H17 H18 H19 H20 H21 H22 H23 H24; lia | auto | reflexivity]).
  assert (K9 : (31 * n + v2 mod 31) / 31 mod 62 = w11) by (apply (DA (62 ^ 0) (w2 * 62 ^ 8 + w3 * 62 ^ 7 + w4 * 62 ^ 6 + w5 * 62 ^ 5 + w6 * 62 ^ 4 + w7 * 62 ^ 3 + w8 * 62 ^ 2 + w9 * 62 ^ 1 + w10 * 62 ^ 0) (0)); [reflexivity | rewrite Hn; ring | clear - H12 H13 H14 H15 H16 H17 H18 H19 H20 H21 H22 H23 H24; lia | auto | reflexivity]).
  assert (S3 : (31 * n + v2 mod 31) / 419649682934170112 = w2).
  { rewrite <- K0. symmetry. apply Z.mod_small. clear - Rn M2. split; [apply Z.div_pos; lia | apply Z.div_lt_upper_bound; lia]. }
  rewrite D0, D1, K1, K2, K3, K4, K5, K6, K7, K8, K9, S3.
  assert (C8 : castw 8 (e mod 2 * 31) + castw 8 ((31 * n + v2 mod 31) mod 31) = v2).
  { pose proof (Z.mod_pos_bound e 2 ltac:(lia)) as H25. pose proof (Z.mod_pos_bound (31 * n + v2 mod 31) 31 ltac:(lia)) as HM. clear - H25 HM D2'. rewrite !castw_small by (change (2 ^ 8) with 256; lia). exact D2'. }
  rewrite C8.
  repeat apply cons_eq; auto; try (apply chr_eq; auto; fail). now apply from_v62.
Qed.

(** ** reading *)
Lemma list_eqb_eq a : forall b, list_eqb a b = true <-> a = b.
Proof.
  induction a as [| x a IH]; intros [| y b]; cbn; try (split; [discriminate | discriminate]); try (now split).
  rewrite andb_true_iff, Z.eqb_eq, IH. split; intros H; [destruct H; congruence | injection H; auto].
Qed.
Lemma pad_len s : (length s <= 13)%nat -> length (pad13 s) = 13%nat.
Proof. intros H. unfold pad13. rewrite app_length, repeat_length. lia. Qed.
Lemma pad_valid s : Forall valid62 s -> Forall valid62 (pad13 s).
Proof. intros H. apply Forall_app. split; auto. apply Forall_forall. intros x Hx. apply repeat_spec in Hx. subst. apply valid48. Qed.
Lemma pad_pad s : (length s <= 13)%nat -> pad13 (pad13 s) = pad13 s.
Proof. intros H. unfold pad13 at 1. rewrite pad_len by auto. reflexivity. Qed.
Lemma hd_pad s : (length s <= 13)%nat -> hd13 (pad13 s) = hd13 s /\ dig13 (pad13 s) = dig13 s.
Proof. intros H. unfold hd13, dig13. now rewrite pad_pad. Qed.
Lemma code_range s : Forall valid62 s -> (length s <= 13)%nat -> 0 <= hd13 s < 7688 /\ B13 <= dig13 s < 2 * B13.
Proof. intros V L. destruct (hd_pad s L) as [E1 E2]. destruct (text_encode (pad13 s) (pad_valid s V) (pad_len s L)) as (_ & A & B). rewrite E1 in A. rewrite E2 in B. unfold B13 in *. lia. Qed.
Definition dz (d : Z) : Z := 127 - Z.log2 d.
Lemma dz_cases d : B13 <= d < 2 * B13 -> (dz d = 63 /\ d < 2 ^ 65) \/ (dz d = 62 /\ 2 ^ 65 <= d).
Proof.
  intros H. change B13 with 26018280341918546944 in H. unfold dz. destruct (Z_lt_le_dec d (2 ^ 65)); [left | right]; split; auto.
  - assert (Z.log2 d = 64); [| lia]. apply Z.log2_unique; lia.
  - assert (Z.log2 d = 65); [| lia]. apply Z.log2_unique; lia.
Qed.
Lemma dz_sig d : B13 <= d < 2 * B13 -> sigr (d * 2 ^ dz d).
Proof. intros H. unfold sigr, SIGNM. change B13 with 26018280341918546944 in H. destruct (dz_cases d H) as [[-> K] | [-> K]]; lia. Qed.
Lemma exp13_ok e : 0 <= e -> Z.quot (e + 2) 4 * (Z.quot (Z.rem e 4) 2 * 2 - 1) = exp13 e.
Proof.
  intros H. rewrite Z.quot_div_nonneg, Z.rem_mod_nonneg by lia. pose proof (Z.mod_pos_bound e 4 ltac:(lia)). pose proof (Z.div_mod e 4 ltac:(lia)). unfold exp13.
  rewrite Z.quot_div_nonneg by lia. set (q := e / 4) in *. set (r := e mod 4) in *. clearbody q r. subst e.
  destruct (Z.ltb_spec r 2).
  - rewrite (Z.div_small r 2) by lia. replace ((4 * q + r + 2) / 4) with q by (apply (Z.div_unique _ 4 q (r + 2)); lia). ring.
  - replace (r / 2) with 1 by (apply (Z.div_unique r 2 1 (r - 2)); lia). ring.
Qed.
Lemma exp13_range e : 0 <= e < 7688 -> - 1921 <= exp13 e <= 1922.
Proof. intros H. unfold exp13. pose proof (Z.div_mod e 4 ltac:(lia)). pose proof (Z.mod_pos_bound e 4 ltac:(lia)). destruct (_ <? _); [lia |]. split; [apply Z.le_trans with 0; [lia | apply Z.div_pos; lia] |]. apply Z.lt_succ_r. apply Z.div_lt_upper_bound; lia. Qed.
Definition x13 (s : bool) (d X : Z) : f192 := xof s (d * 2 ^ dz d) (X - dz d - 64 + EXPC).
Lemma decode_ok s : s <> [] -> Forall valid62 s -> (length s <= 13)%nat -> s <> zero13 -> xfrom_code13 s = Ok (ROk (x13 (hd13 s mod 2 =? 1) (dig13 s) (exp13 (hd13 s)))).
Proof.
  intros N V L Z0. destruct (code_range s V L) as [Rh Rd]. unfold xfrom_code13. destruct (list_eqb s code13_zero) eqn:E; [apply list_eqb_eq in E; contradiction |].
  rewrite (proj2 (Nat.leb_le _ _) L). destruct s as [| c0 s0]; [contradiction |]. set (s := c0 :: s0) in *. change (repeat 48 (13 - length s) ++ s) with (pad13 s).
  assert (VP := pad_valid s V). assert (LP := pad_len s L). unfold hd13, dig13 in *. set (p := pad13 s) in *. clearbody p.
  do 3 (destruct p as [| ?p p]; [discriminate |]). cbn [nth skipn] in *. inversion VP; subst. inversion H2; subst. inversion H4; subst. rewrite !to_v62 by auto. cbn [rbind bind].
  cbn [length] in LP. rewrite c13_digits_ok; [| auto | lia | replace (length p) with 10%nat by lia; reflexivity]. cbn [rbind bind]. rewrite n62_digits.
  replace (n62 p * 62 / 2) with (n62 p * 31) by (replace (n62 p * 62) with (n62 p * 31 * 2) by ring; now rewrite Z.div_mul by lia).
  set (e := v62 p0 * 124 + v62 p1 * 2 + v62 p2 / 31) in *. change (62 ^ 10 * 31) with B13 in *. set (d := B13 + n62 p * 31 + v62 p2 mod 31) in *.
  pose proof (Z.mod_pos_bound (v62 p2) 31 ltac:(lia)) as M. pose proof (n62_range p) as Rn. change B13 with 26018280341918546944 in Rd. 
  rewrite addw_ok by (unfold d in Rd; change B13 with 26018280341918546944 in Rd; lia). cbn [bind]. rewrite B13_ok. rewrite addw_ok by (unfold d in Rd; change B13 with 26018280341918546944 in *; lia). cbn [bind].
  replace (n62 p * 31 + v62 p2 mod 31 + B13) with d by (unfold d; ring). assert (HS := dz_sig d Rd). assert (HZ := dz_cases d Rd). unfold lz128. destruct (Z.eqb_spec d 0); [lia |]. fold (dz d).
  rewrite exp13_ok by lia. pose proof (exp13_range e Rh) as RX. rewrite Z.rem_mod_nonneg by lia.
  rewrite shlw_ok; [| lia | unfold sigr, SIGNM in HS; lia]. cbn [bind]. rewrite ssub_ok by (change (32 - 1) with 31; lia). cbn [bind]. rewrite ssub_ok by (change (64 - 1) with 63; lia). cbn [bind].
  rewrite sadd_ok by (change (64 - 1) with 63; unfold EXPC; lia). cbn [bind]. rewrite castw_small by (unfold EXPC; lia). unfold x13. rewrite pack by auto. do 3 f_equal.
  pose proof (Z.mod_pos_bound e 2 ltac:(lia)). destruct (Z.eqb_spec (e mod 2) 1) as [-> | Hn]; [reflexivity |]. replace (e mod 2) with 0 by lia. reflexivity.
Qed.
Lemma x13_ok s d X : B13 <= d < 2 * B13 -> Z.abs X < 2 ^ 20 -> xwf (x13 s d X) /\ xnull (x13 s d X) = false /\ xsign (x13 s d X) = s /\ (xval (x13 s d X) == (if s then - (1) else 1) * (inject_Z d * two (X - 64)))%Q.
Proof.
  intros H HX. assert (Sg := dz_sig d H). assert (K := dz_cases d H). assert (Ex : 0 < X - dz d - 64 + EXPC < 2 ^ 63) by (unfold EXPC; lia).
  assert (N := xnull_pos s _ (X - dz d - 64 + EXPC) Sg ltac:(lia)). unfold x13. split; [apply xof_wf; [auto | unfold expr; lia] |]. split; [auto |]. split; [now apply xsign_of |]. rewrite xval_of by auto. unfold xq.
  rewrite (sg_eq s _ (inject_Z d * two (X - 64))); [unfold sg; destruct s; ring |]. replace (X - dz d - 64 + EXPC - EXPC) with (- dz d + (X - 64)) by ring. rewrite two_plus, inject_Z_mult, <- two_Z by lia.
  assert (T : (two (dz d) * two (- dz d) == 1)%Q) by (pose proof (two_plus (dz d) (- dz d)) as T; rewrite Z.add_opp_diag_r in T; rewrite <- T; reflexivity).
  setoid_replace (inject_Z d * two (dz d) * (two (- dz d) * two (X - 64)))%Q with (inject_Z d * two (X - 64) * (two (dz d) * two (- dz d)))%Q by ring. rewrite T. ring.
Qed.
Lemma decode_err l c r : (length (l ++ c :: r) <= 13)%nat -> Forall valid62 l -> c62 c = None -> xfrom_code13 (l ++ c :: r) = Ok (RErr (InvalidChar c)).
Proof.
  intros L V N. unfold xfrom_code13. destruct (list_eqb (l ++ c :: r) code13_zero) eqn:E.
  { apply list_eqb_eq in E. assert (Forall valid62 (l ++ c :: r)) by (rewrite E; repeat constructor; eexists; reflexivity). apply Forall_app in H as [_ H]. inversion H; subst. destruct H2 as [v H2]. congruence. }
  rewrite (proj2 (Nat.leb_le _ _) L). destruct (l ++ c :: r) as [| c0 s0] eqn:El; [destruct l; discriminate |]. rewrite <- El in *. clear El c0 s0. rewrite app_assoc.
  set (q := repeat 48 (13 - length (l ++ c :: r)) ++ l). assert (Vq : Forall valid62 q) by (apply Forall_app; split; auto; apply Forall_forall; intros x Hx; apply repeat_spec in Hx; subst; apply valid48).
  assert (Lq : (length q + length r = 12)%nat) by (unfold q; rewrite app_length, repeat_length; rewrite app_length in L |- *; cbn [length] in *; lia). clearbody q. clear E L V l.
  assert (Er : to_int c = RErr (InvalidChar c)) by (rewrite to_int_ok, N; reflexivity).
  destruct q as [| a0 q]; [cbn [app nth]; rewrite Er; reflexivity |]. inversion Vq; subst. cbn [app nth]. rewrite (to_v62 a0) by auto. cbn [rbind bind].
  destruct q as [| a1 q]; [cbn [app nth]; rewrite Er; reflexivity |]. inversion H2; subst. cbn [app nth]. rewrite (to_v62 a1) by auto. cbn [rbind bind].
  destruct q as [| a2 q]; [cbn [app nth]; rewrite Er; reflexivity |]. inversion H4; subst. cbn [app nth]. rewrite (to_v62 a2) by auto. cbn [rbind bind skipn].
  rewrite c13_digits_err; auto; [lia |]. cbn [length] in Lq. apply Z.le_lt_trans with ((0 + 62) * 62 ^ 10); [| reflexivity]. apply Z.mul_le_mono_nonneg_l; [lia |]. apply Z.pow_le_mono_r; lia.
Qed.

(** ** writing *)
Definition e13 (X : Z) (s : bool) : Z := (if X <=? 0 then - (4 * X) else 4 * X - 2) + Z.b2z s.
Definition t13 (m : Z) : Z := if B13 * 2 ^ 63 <=? m then 1 else 0.
Definition r13 (m : Z) : Z := let g := m / 2 ^ (57 + t13 m) in if 15 <? g mod 32 then g / 32 + 1 else g / 32.
Lemma r13_ok m : sigr m -> 0 <= t13 m <= 1 /\ B13 <= r13 m <= 2 * B13 /\ - 2 ^ (61 + t13 m) < r13 m * 2 ^ (62 + t13 m) - m <= 2 ^ (61 + t13 m) /\ B13 <= m / 2 ^ (57 + t13 m) / 32 < 2 * B13.
Proof.
  intros H. unfold r13, t13. change B13 with 26018280341918546944. unfold sigr, SIGNM in H. destruct (Z.leb_spec (26018280341918546944 * 2 ^ 63) m).
  - change (57 + 1) with 58. change (61 + 1) with 62. change (62 + 1) with 63. set (g := m / 2 ^ 58) in *. assert (G : m = 2 ^ 58 * g + m mod 2 ^ 58) by (unfold g; apply Z.div_mod; lia). pose proof (Z.mod_pos_bound m (2 ^ 58) ltac:(lia)).
    pose proof (Z.div_mod g 32 ltac:(lia)). pose proof (Z.mod_pos_bound g 32 ltac:(lia)). generalize dependent (m mod 2 ^ 58). generalize dependent (g mod 32). generalize (g / 32). clearbody g. intros. destruct (Z.ltb_spec 15 z0); lia.
  - change (57 + 0) with 57. change (61 + 0) with 61. change (62 + 0) with 62. set (g := m / 2 ^ 57) in *. assert (G : m = 2 ^ 57 * g + m mod 2 ^ 57) by (unfold g; apply Z.div_mod; lia). pose proof (Z.mod_pos_bound m (2 ^ 57) ltac:(lia)).
    pose proof (Z.div_mod g 32 ltac:(lia)). pose proof (Z.mod_pos_bound g 32 ltac:(lia)). generalize dependent (m mod 2 ^ 57). generalize dependent (g mod 32). generalize (g / 32). clearbody g. intros. destruct (Z.ltb_spec 15 z0); lia.
Qed.
Definition n13 (m e : Z) : Z * Z := if r13 m =? 2 * B13 then (B13, e - EXPC + 127 + t13 m) else (r13 m, e - EXPC + 126 + t13 m).
Lemma recn_exit {A C} (F : (A -> res C) -> A -> res C) a r : (forall g, F g a = r) -> forall n bot, recn n F bot a = r.
Proof. intros H. induction n as [| n IH]; intros bot; cbn [recn]; auto. Qed.
Lemma recn_one {A C} (F : (A -> res C) -> A -> res C) a b r : (forall g, F g a = g b) -> (forall g, F g b = r) -> forall n bot, recn (S n) F bot a = r.
Proof. intros H1 H2. induction n as [| n IH]; intros bot; cbn [recn]; [rewrite H1; apply H2 |]. apply (IH (recn (S n) F bot)). Qed.
Lemma shift_loop m x : sigr m -> - 2 ^ 60 < x < 2 ^ 63 - 2 ^ 40 -> loopn 8 c13_shift (m / 2 ^ 57, x) = Ok (m / 2 ^ (57 + t13 m), x + t13 m).
Proof.
  intros H Hx. assert (T : (B13 * 64 <=? m / 2 ^ 57) = (B13 * 2 ^ 63 <=? m)).
  { change B13 with 26018280341918546944. pose proof (Z.div_mod m (2 ^ 57) ltac:(lia)). pose proof (Z.mod_pos_bound m (2 ^ 57) ltac:(lia)). zb; lia. }
  assert (M : 0 <= m / 2 ^ 57 < 2 ^ 71) by (unfold sigr, SIGNM in H; split; [apply Z.div_pos; lia | apply Z.div_lt_upper_bound; lia]).
  unfold t13. rewrite <- T. unfold loopn. destruct (B13 * 64 <=? m / 2 ^ 57) eqn:E.
  - change 8%nat with (S 7). apply (recn_one c13_shift _ (m / 2 ^ 57 / 2, x + 1)); intros g; unfold c13_shift; rewrite B13_ok.
    + rewrite E. rewrite sadd_ok by (change (64 - 1) with 63; lia). reflexivity.
    + assert (m / 2 ^ 57 / 2 < 2 ^ 70) by (apply Z.div_lt_upper_bound; lia). change B13 with 26018280341918546944. destruct (Z.leb_spec (26018280341918546944 * 64) (m / 2 ^ 57 / 2)); [lia |]. rewrite Z.div_div by lia. reflexivity.
  - apply recn_exit. intros g. unfold c13_shift. rewrite B13_ok, E. do 2 f_equal. lia.
Qed.
Lemma encode_ok s m e : sigr m -> 0 <= e < 2 ^ 63 -> xnull (xof s m e) = false -> xinto_code13 (xof s m e) =
  let '(r, X) := n13 m e in
  if X <? - 1921 then Ok (ROk zero13) else if 1922 <? X then let* _ := xto_text (xof s m e) in Ok (RErr NotInRange) else Ok (ROk (c13_strip 12 (c13_text (e13 X s) (r - B13)))).
Proof.
  intros H He N. unfold xinto_code13. rewrite xis_zero_null, N. cbn [xof xd xe]. rewrite xhid_of by auto. rewrite shrw_ok by lia. cbn [bind]. rewrite xneg_of by auto.
  rewrite xei_ok by (split; [apply xof_wf; [auto | unfold expr; lia] | cbn [xe xof]; lia]). cbn [bind xof xe]. rewrite sadd_ok by (change (64 - 1) with 63; unfold EXPC; lia). cbn [bind].
  rewrite shift_loop by (auto; unfold EXPC; lia). cbn [bind]. destruct (r13_ok m H) as (T & R & _ & R2). unfold n13. set (t := t13 m) in *.
  assert (ER : r13 m = if 15 <? (m / 2 ^ (57 + t)) mod 32 then m / 2 ^ (57 + t) / 32 + 1 else m / 2 ^ (57 + t) / 32) by reflexivity.
  set (g := m / 2 ^ (57 + t)) in *. clearbody g t. change B13 with 26018280341918546944 in *. change BASE13 with 26018280341918546944.
  rewrite sadd_ok by (change (64 - 1) with 63; unfold EXPC; lia). cbn [bind].
  set (nx := let '(r, X) := if r13 m =? 2 * 26018280341918546944 then (26018280341918546944, e - EXPC + 127 + t) else (r13 m, e - EXPC + 126 + t) in (r, X - 64)).
  match goal with |- bind ?M ?K = _ => assert (EM : M = Ok nx) end.
  { unfold nx. rewrite ER. destruct (15 <? g mod 32) eqn:E15.
    - rewrite addw_ok by lia. cbn [bind]. destruct (Z.eqb_spec (g / 32 + 1) (26018280341918546944 * 2)) as [Eq | Ne].
      + rewrite sadd_ok by (change (64 - 1) with 63; unfold EXPC; lia). cbn [bind]. rewrite (proj2 (Z.eqb_eq (g / 32 + 1) (2 * 26018280341918546944))) by lia. do 2 f_equal. lia.
      + rewrite (proj2 (Z.eqb_neq (g / 32 + 1) _)) by lia. do 2 f_equal. lia.
    - rewrite (proj2 (Z.eqb_neq (g / 32) _)) by lia. do 2 f_equal. lia. }
  rewrite EM. cbn [bind]. unfold nx. clear EM nx.
  assert (P : forall r X, 26018280341918546944 <= r < 2 * 26018280341918546944 -> - 2 ^ 50 < X < 2 ^ 63 -> 
    (let* d := subw r 26018280341918546944 in let* exp := sadd 64 (X - 64) 64 in
     if exp <? -1921 then Ok (ROk code13_zero) else if 1922 <? exp then let* _ := xto_text (xof s m e) in Ok (RErr NotInRange)
     else let* ae := sabs 64 exp in let* e := mulw 64 (castw 64 ae) 4 in let* e := subw (Z.max e 2) 2 in let* e := addw 64 e (if exp <? 0 then 2 else 0) in let* e := addw 64 e (if s then 1 else 0) in Ok (ROk (c13_strip 12 (c13_text e d)))) =
    (if X <? -1921 then Ok (ROk zero13) else if 1922 <? X then let* _ := xto_text (xof s m e) in Ok (RErr NotInRange) else Ok (ROk (c13_strip 12 (c13_text (e13 X s) (r - 26018280341918546944)))))).
  { intros r X Hr HX. rewrite subw_ok by lia. cbn [bind]. rewrite sadd_ok by (change (64 - 1) with 63; lia). cbn [bind]. replace (X - 64 + 64) with X by ring.
    destruct (Z.ltb_spec X (- 1921)) as [L1 | L1]; [reflexivity |]. destruct (Z.ltb_spec 1922 X) as [L2 | L2]; [reflexivity |]. clear - L1 L2. rewrite sabs_ok by (change (64 - 1) with 63; lia). cbn [bind]. rewrite castw_small by lia. rewrite mulw_ok by lia. cbn [bind].
    rewrite subw_ok by lia. cbn [bind]. rewrite addw_ok by (destruct (_ <? _); lia). cbn [bind]. rewrite addw_ok by (destruct (_ <? _), s; lia). cbn [bind]. do 4 f_equal. unfold e13. destruct (Z.ltb_spec X 0), (Z.leb_spec X 0), s; cbn [Z.b2z]; lia. }
  destruct (Z.eqb_spec (r13 m) (2 * 26018280341918546944)); cbn [bind]; apply P; unfold EXPC; lia.
Qed.
Lemma strip_canon s : forall k, length s = S k -> c13_strip k s = canon13 s.
Proof.
  induction s as [| c s IH]; intros k L; [discriminate |]. destruct s as [| c' s].
  - cbn [length] in L. injection L as <-. reflexivity.
  - cbn [length] in L, IH. destruct k as [| k]; [discriminate |]. cbn [c13_strip]. cbn [canon13]. destruct (c =? 48); auto.
Qed.
Lemma canon_pad k s : s <> [] -> canon13 (repeat 48 k ++ s) = canon13 s.
Proof. intros N. induction k as [| k IH]; auto. cbn [repeat app]. destruct (repeat 48 k ++ s) eqn:E; [destruct k, s; try discriminate; contradiction |]. rewrite <- IH. reflexivity. Qed.
Lemma e13_ok h : 0 <= h < 7688 -> e13 (exp13 h) (h mod 2 =? 1) = h.
Proof.
  intros H. unfold e13, exp13. pose proof (Z.div_mod h 4 ltac:(lia)). pose proof (Z.mod_pos_bound h 4 ltac:(lia)). pose proof (Z.div_mod h 2 ltac:(lia)). pose proof (Z.mod_pos_bound h 2 ltac:(lia)).
  set (q := h / 4) in *. set (r := h mod 4) in *. set (w := h / 2) in *. set (b := h mod 2) in *. assert (0 <= q) by (apply Z.div_pos; lia).
  assert (E2 : r mod 2 = b). { subst r b. symmetry. apply (Znumtheory.Zmod_div_mod 2 4); [lia | lia | exists 2; reflexivity]. }
  assert (Er : r = 0 \/ r = 1 \/ r = 2 \/ r = 3) by lia.
  assert (Q4 : r >= 2 -> (h + 2) / 4 = q + 1) by (intros; symmetry; apply (Z.div_unique _ 4 (q + 1) (r - 2)); lia). clearbody q r w b.
  destruct Er as [-> | [-> | [-> | ->]]]; cbn in E2; subst b; cbn [Z.ltb Z.compare Pos.compare Pos.compare_cont Z.eqb Pos.eqb Z.b2z]; try rewrite Q4 by lia; zb; lia.
Qed.
Lemma into_x13 s d X : B13 <= d < 2 * B13 -> - 1921 <= X <= 1922 -> xinto_code13 (x13 s d X) = Ok (ROk (c13_strip 12 (c13_text (e13 X s) (d - B13)))).
Proof.
  intros H HX. destruct (x13_ok s d X H ltac:(lia)) as (_ & N & _ & _). assert (Sg := dz_sig d H). assert (K := dz_cases d H). unfold x13 in *. rewrite encode_ok; [| auto | unfold EXPC; lia | auto].
  assert (T : t13 (d * 2 ^ dz d) = dz d - 62 /\ r13 (d * 2 ^ dz d) = d).
  { assert (T : t13 (d * 2 ^ dz d) = dz d - 62) by (unfold t13; change B13 with 26018280341918546944 in *; destruct K as [[-> K] | [-> K]]; zb; lia). split; auto.
    unfold r13. rewrite T. replace (57 + (dz d - 62)) with (dz d - 5) by ring. replace (d * 2 ^ dz d / 2 ^ (dz d - 5)) with (d * 32).
    - rewrite Z.mod_mul, Z.div_mul by lia. reflexivity.
    - replace (2 ^ dz d) with (2 ^ 5 * 2 ^ (dz d - 5)) by (rewrite <- Z.pow_add_r by lia; f_equal; ring). rewrite Z.mul_assoc, Z.div_mul; [reflexivity |]. apply Z.pow_nonzero; lia. }
  destruct T as [T1 T2]. unfold n13. rewrite T1, T2. destruct (Z.eqb_spec d (2 * B13)); [lia |]. replace (X - dz d - 64 + EXPC - EXPC + 126 + (dz d - 62)) with X by ring.
  destruct (Z.ltb_spec X (- 1921)); [lia |]. destruct (Z.ltb_spec 1922 X); [lia |]. reflexivity.
Qed.
(** reading and writing back gives the canonical text *)
Lemma code_round s : s <> [] -> Forall valid62 s -> (length s <= 13)%nat -> exists c, xfrom_code13 s = Ok (ROk c) /\ xinto_code13 c = Ok (ROk (canon13 s)).
Proof.
  intros N V L. destruct (list_eqb s zero13) eqn:E.
  { apply list_eqb_eq in E. subst s. exists xZERO. split; reflexivity. }
  assert (Z0 : s <> zero13) by (intros ->; discriminate). eexists. split; [apply decode_ok; auto |]. destruct (code_range s V L) as [R1 R2].
  rewrite into_x13; [| auto | now apply exp13_range]. rewrite e13_ok by auto. destruct (hd_pad s L) as [<- <-]. destruct (text_encode (pad13 s) (pad_valid s V) (pad_len s L)) as (-> & _).
  rewrite strip_canon by now rewrite pad_len. unfold pad13. rewrite canon_pad by auto. reflexivity.
Qed.
(** ** writing and reading back *)
Lemma canon_props s : s <> [] -> canon13 s <> [] /\ (length (canon13 s) <= length s)%nat /\ (Forall valid62 s -> Forall valid62 (canon13 s)) /\ s = repeat 48 (length s - length (canon13 s)) ++ canon13 s /\ canon13 (canon13 s) = canon13 s.
Proof.
  induction s as [| c s IH]; intros N; [contradiction |]. destruct s as [| c' s]; [cbn; splits; auto |].
  destruct (IH ltac:(discriminate)) as (A & B & C & D & E). cbn [canon13]. change (match s with [] => c' :: s | _ :: _ => if c' =? 48 then canon13 s else c' :: s end) with (canon13 (c' :: s)).
  destruct (Z.eqb_spec c 48) as [-> | Hc].
  - splits; auto; [cbn [length] in *; lia | intros V; inversion V; auto |]. rewrite D at 1. set (u := canon13 (c' :: s)) in *. replace (length (48%Z :: c' :: s) - length u)%nat with (S (length (c' :: s) - length u)) by (cbn [length] in *; lia). reflexivity.
  - repeat match goal with |- _ /\ _ => split end; auto; [now rewrite Nat.sub_diag |]. cbn [canon13]. now rewrite (proj2 (Z.eqb_neq c 48) Hc).
Qed.
Lemma pad_canon s : s <> [] -> length s = 13%nat -> pad13 (canon13 s) = s.
Proof. intros N L. destruct (canon_props s N) as (_ & _ & _ & D & _). unfold pad13. rewrite L in D. now rewrite <- D. Qed.
Lemma e13_range X s : - 1921 <= X <= 1922 -> 0 <= e13 X s < 7688 /\ exp13 (e13 X s) = X /\ (e13 X s mod 2 =? 1) = s.
Proof.
  intros H. unfold e13, exp13. destruct (Z.leb_spec X 0).
  - assert (M4 : (- (4 * X) + Z.b2z s) mod 4 = Z.b2z s) by (symmetry; apply (Z.mod_unique _ 4 (- X)); destruct s; cbn [Z.b2z]; lia). assert (M2 : (- (4 * X) + Z.b2z s) mod 2 = Z.b2z s) by (symmetry; apply (Z.mod_unique _ 2 (- (2 * X))); destruct s; cbn [Z.b2z]; lia).
    assert (D4 : (- (4 * X) + Z.b2z s) / 4 = - X) by (symmetry; apply (Z.div_unique _ 4 (- X) (Z.b2z s)); destruct s; cbn [Z.b2z]; lia). rewrite M4, M2, D4. splits; [destruct s; cbn [Z.b2z]; lia | destruct s; cbn [Z.b2z]; lia | destruct s; cbn; lia | destruct s; reflexivity].
  - assert (M4 : (4 * X - 2 + Z.b2z s) mod 4 = 2 + Z.b2z s) by (symmetry; apply (Z.mod_unique _ 4 (X - 1)); destruct s; cbn [Z.b2z]; lia). assert (M2 : (4 * X - 2 + Z.b2z s) mod 2 = Z.b2z s) by (symmetry; apply (Z.mod_unique _ 2 (2 * X - 1)); destruct s; cbn [Z.b2z]; lia).
    assert (D4 : (4 * X - 2 + Z.b2z s + 2) / 4 = X) by (symmetry; apply (Z.div_unique _ 4 X (Z.b2z s)); destruct s; cbn [Z.b2z]; lia). rewrite M4, M2, D4. splits; [destruct s; cbn [Z.b2z]; lia | destruct s; cbn [Z.b2z]; lia | destruct s; cbn; lia | destruct s; reflexivity].
Qed.
Lemma near13 m e : sigr m -> let '(r, X) := n13 m e in B13 <= r < 2 * B13 /\
  (Qabs (inject_Z r * two (X - 64) - xq m e) <= two (- 65) * xq m e)%Q /\ (xq m e <= (inject_Z r + (1 # 2)) * two (X - 64))%Q /\ ((inject_Z r - (1 # 2)) * two (X - 64) <= xq m e)%Q.
Proof.
  intros H. destruct (r13_ok m H) as (T & R & K & _). unfold n13. set (t := t13 m) in *. set (r := r13 m) in *. clearbody r t. set (y := 62 + t + (e - EXPC)).
  assert (TT : (two (62 + t) * two (- (62 + t)) == 1)%Q) by (pose proof (two_plus (62 + t) (- (62 + t))) as T0; rewrite Z.add_opp_diag_r in T0; rewrite <- T0; reflexivity).
  assert (Q1 : (xq m e == inject_Z m * two (- (62 + t)) * two y)%Q). { unfold xq, y. rewrite <- Qmult_assoc. rewrite <- (two_plus (- (62 + t))). replace (- (62 + t) + (62 + t + (e - EXPC))) with (e - EXPC) by ring. reflexivity. }
  set (u := (inject_Z m * two (- (62 + t)))%Q) in *. assert (Ty := two_pos y).
  assert (Ku : (inject_Z r - (1 # 2) <= u)%Q /\ (u <= inject_Z r + (1 # 2))%Q).
  { assert (T62 : (0 < two (62 + t))%Q) by apply two_pos. assert (E : (u * two (62 + t) == inject_Z m)%Q) by (unfold u; rewrite <- Qmult_assoc, (Qmult_comm (two (- _))), TT; ring).
    destruct K as [K1 K2]. assert (Z1 : (inject_Z (r * 2 ^ (62 + t)) <= inject_Z (m + 2 ^ (61 + t)))%Q) by (rewrite <- Zle_Qle; lia). assert (Z2 : (inject_Z (m) <= inject_Z (r * 2 ^ (62 + t) + 2 ^ (61 + t)))%Q) by (rewrite <- Zle_Qle; lia).
    rewrite inject_Z_plus, inject_Z_mult, <- !two_Z in Z1, Z2 by lia. assert (H2 : (two (62 + t) == 2 * two (61 + t))%Q) by (replace (62 + t) with (1 + (61 + t)) by ring; rewrite two_plus; reflexivity).
    split; apply (Qmult_le_r _ _ (two (62 + t))); auto; rewrite ?E; lra. }
  destruct Ku as [U1 U2]. change B13 with 26018280341918546944 in *. assert (Rq : (inject_Z 26018280341918546944 <= inject_Z r)%Q) by (rewrite <- Zle_Qle; lia). change (inject_Z 26018280341918546944) with (26018280341918546944 # 1)%Q in Rq.
  assert (Main : (Qabs (inject_Z r * two y - xq m e) <= two (- 65) * xq m e)%Q).
  { rewrite Q1. setoid_replace (inject_Z r * two y - u * two y)%Q with ((inject_Z r - u) * two y)%Q by ring. rewrite Qabs_Qmult, (Qabs_pos (two y)) by lra. rewrite Qmult_assoc. apply Qmult_le_r; auto.
    assert (T65 : (two (- 65) == 1 # 2 ^ 65)%Q) by reflexivity. rewrite T65. apply Qabs_Qle_condition. assert ((1 # 2) <= (1 # 2 ^ 65) * u)%Q; [| split; lra]. assert ((26018280341918546943 # 1) <= u)%Q by lra.
    apply Qle_trans with ((1 # 2 ^ 65) * (26018280341918546943 # 1))%Q; [vm_compute; discriminate |]. rewrite !(Qmult_comm (1 # 2 ^ 65)). apply Qmult_le_r; [reflexivity | auto]. }
  destruct (Z.eqb_spec r (2 * 26018280341918546944)) as [Er | Er].
  - split; [lia |]. replace (e - EXPC + 127 + t - 64) with (y + 1) by (unfold y; ring). rewrite two_plus. change (two 1) with 2%Q. assert (E2 : (inject_Z 26018280341918546944 * (two y * 2) == inject_Z r * two y)%Q) by (rewrite Er, inject_Z_mult; ring). rewrite E2. split; auto.
    rewrite Q1. assert ((u * two y <= (inject_Z r + (1 # 2)) * two y)%Q) by (apply Qmult_le_r; auto). assert (((inject_Z r - (1 # 2)) * two y <= u * two y)%Q) by (apply Qmult_le_r; auto). split; lra.
  - split; [lia |]. replace (e - EXPC + 126 + t - 64) with y by (unfold y; ring). split; auto. rewrite Q1. split; apply Qmult_le_r; auto.
Qed.
Lemma code_approx a s : xwf a -> xnull a = false -> xe a < 2 ^ 63 -> xinto_code13 a = Ok (ROk s) ->
  exists c, xfrom_code13 s = Ok (ROk c) /\ xinto_code13 c = Ok (ROk s) /\
    ((c = xZERO /\ s = zero13 /\ (Qabs (xval a) <= (inject_Z B13 + (1 # 2)) * two (- 1985))%Q) \/ (xwf c /\ xsign c = xsign a /\ (Qabs (xval c - xval a) <= two (- 65) * Qabs (xval a))%Q)).
Proof.
  intros W N X2 H. destruct (xof_of a W) as (E & Sg & Ex). revert N H. rewrite E. rewrite xsign_of by auto. generalize (xsign a) (xsig a) (xe a) Sg Ex X2. clear. intros sn m e Sg Ex X2 N H.
  assert (P := xq_pos m e Sg). assert (Ab : (Qabs (xval (xof sn m e)) == xq m e)%Q). { rewrite xval_of by auto. unfold sg. destruct sn; [rewrite Qabs_opp |]; apply Qabs_pos; lra. }
  unfold expr in Ex. rewrite encode_ok in H by (auto; lia). pose proof (near13 m e Sg) as K. destruct (n13 m e) as [r X]. destruct K as (R & K1 & K2 & _).
  destruct (Z.ltb_spec X (- 1921)) as [L1 | L1].
  { injection H as <-. exists xZERO. split; [reflexivity |]. split; [reflexivity |]. left. split; auto. split; auto. rewrite Ab. eapply Qle_trans; [exact K2 |]. assert (T : (two (X - 64) <= two (- 1986))%Q) by (apply two_le; lia).
    assert (T2 : (two (- 1985) == 2 * two (- 1986))%Q) by (change (-1985) with (1 + -1986); rewrite two_plus; reflexivity). rewrite T2. assert (Tp := two_pos (- 1986)). set (w := two (- 1986)) in *. clearbody w. clear T2.
    assert (Rq : (inject_Z r <= inject_Z (2 * B13))%Q) by (rewrite <- Zle_Qle; lia). rewrite inject_Z_mult in Rq. assert (R0 : (0 <= inject_Z r)%Q) by (change 0%Q with (inject_Z 0); rewrite <- Zle_Qle; unfold B13 in R; lia).
    apply Qle_trans with ((inject_Z r + (1 # 2)) * w)%Q; [rewrite !(Qmult_comm (inject_Z r + _)); apply Qmult_le_r; [lra | auto] |]. setoid_replace ((inject_Z B13 + (1 # 2)) * (2 * w))%Q with ((2 * inject_Z B13 + 1) * w)%Q by ring. apply Qmult_le_r; auto. change (inject_Z 2) with 2%Q in Rq. lra. }
  destruct (Z.ltb_spec 1922 X) as [L2 | L2]; [destruct (xto_text _); discriminate |]. assert (RX : - 1921 <= X <= 1922) by lia. destruct (e13_range X sn RX) as (E1 & E2 & E3).
  destruct (text_decode (e13 X sn) (r - B13) E1 ltac:(lia)) as (V & L & D1 & D2). set (T := c13_text (e13 X sn) (r - B13)) in *. assert (TN : T <> []) by (intros C; rewrite C in L; discriminate).
  rewrite (strip_canon T 12 L) in H. assert (Es : s = canon13 T) by congruence. destruct (canon_props T TN) as (C1 & C2 & C3 & C4 & C5). rewrite L in C2. rewrite <- Es in C1, C2, C3, C5.
  assert (Ps : pad13 s = T) by (rewrite Es; now apply pad_canon). assert (Hs : hd13 s = e13 X sn /\ dig13 s = r). { rewrite <- (proj1 (hd_pad s C2)), <- (proj2 (hd_pad s C2)), Ps, D1, D2. split; lia. } destruct Hs as [Hs1 Hs2].
  destruct (code_round s C1 (C3 V) C2) as (c & F1 & F2). exists c. split; auto. rewrite F2, C5. split; auto. destruct (list_eqb s zero13) eqn:Ez.
  - apply list_eqb_eq in Ez. left. rewrite Ez in F1. injection F1 as <-. split; auto. split; auto. rewrite Ab. rewrite Ez in Hs1, Hs2. vm_compute in Hs2. assert (X = -1921) by (rewrite <- E2, <- Hs1; reflexivity). subst X r. exact K2.
  - right. assert (Z0 : s <> zero13) by (intros Eq; rewrite Eq in Ez; discriminate). rewrite (decode_ok s C1 (C3 V) C2 Z0) in F1. injection F1 as <-. rewrite Hs1, Hs2, E2, E3. destruct (x13_ok sn r X R ltac:(lia)) as (A1 & A2 & A3 & A4). split; auto. split; auto.
    rewrite Ab, A4. rewrite xval_of by auto. unfold sg. destruct sn; [| setoid_replace (1 * (inject_Z r * two (X - 64)))%Q with (inject_Z r * two (X - 64))%Q by ring; exact K1].
    setoid_replace (- (1) * (inject_Z r * two (X - 64)) - - xq m e)%Q with (- (inject_Z r * two (X - 64) - xq m e))%Q by ring. rewrite Qabs_opp. exact K1.
Qed.
Lemma code_total a : xwf a -> xe a < 2 ^ 63 -> (Qabs (xval a) < (2 * inject_Z B13 - 1) * two 1858)%Q ->
  exists s, xinto_code13 a = Ok (ROk s) /\ s <> [] /\ Forall valid62 s /\ (length s <= 13)%nat /\ canon13 s = s.
Proof.
  intros W X2 H. destruct (xnull a) eqn:N.
  { rewrite (xnull_zero a N). exists zero13. split; [reflexivity |]. split; [discriminate |]. split; [repeat constructor; eexists; reflexivity |]. split; [cbn; lia | reflexivity]. }
  destruct (xof_of a W) as (E & Sg & Ex). revert N H. rewrite E. generalize (xsign a) (xsig a) (xe a) Sg Ex X2. clear. intros sn m e Sg Ex X2 N H.
  assert (P := xq_pos m e Sg). assert (Ab : (Qabs (xval (xof sn m e)) == xq m e)%Q). { rewrite xval_of by auto. unfold sg. destruct sn; [rewrite Qabs_opp |]; apply Qabs_pos; lra. } rewrite Ab in H.
  unfold expr in Ex. rewrite encode_ok by (auto; lia). pose proof (near13 m e Sg) as K. destruct (n13 m e) as [r X]. destruct K as (R & _ & _ & K).
  destruct (Z.ltb_spec X (- 1921)) as [L1 | L1].
  { exists zero13. split; [reflexivity |]. split; [discriminate |]. split; [repeat constructor; eexists; reflexivity |]. split; [cbn; lia | reflexivity]. }
  destruct (Z.ltb_spec 1922 X) as [L2 | L2].
  { exfalso. assert (T : (two (1859) <= two (X - 64))%Q) by (apply two_le; lia). assert (T2 : (two 1859 == 2 * two 1858)%Q) by (change 1859 with (1 + 1858); rewrite two_plus; reflexivity). assert (Rq : (inject_Z B13 <= inject_Z r)%Q) by (rewrite <- Zle_Qle; lia). assert (B1 : (1 <= inject_Z B13)%Q) by (vm_compute; discriminate).
    assert (Tp := two_pos 1858). set (w := two 1858) in *. set (v := two (X - 64)) in *. clearbody w v. assert (((inject_Z B13 - (1 # 2)) * v <= (inject_Z r - (1 # 2)) * v)%Q) by (apply Qmult_le_r; lra).
    assert (((inject_Z B13 - (1 # 2)) * two 1859 <= (inject_Z B13 - (1 # 2)) * v)%Q) by (rewrite !(Qmult_comm (inject_Z B13 - _)); apply Qmult_le_r; [lra | auto]). rewrite T2 in H1.
    assert (((inject_Z B13 - (1 # 2)) * (2 * w) == (2 * inject_Z B13 - 1) * w)%Q) by ring. rewrite H2 in H1. lra. }
  assert (RX : - 1921 <= X <= 1922) by lia. destruct (e13_range X sn RX) as (E1 & _). destruct (text_decode (e13 X sn) (r - B13) E1 ltac:(lia)) as (V & L & _). set (T := c13_text (e13 X sn) (r - B13)) in *.
  rewrite (strip_canon T 12 L). exists (canon13 T). destruct (canon_props T) as (C1 & C2 & C3 & _ & C5); [intros C; rewrite C in L; discriminate |]. split; [reflexivity |]. split; [auto |]. split; [auto |]. split; [lia | auto].
Qed.
Lemma first_invalid s : Forall valid62 s \/ exists l c r, s = l ++ c :: r /\ Forall valid62 l /\ c62 c = None.
Proof.
  induction s as [| c s IH]; [left; constructor |]. destruct (c62 c) as [v |] eqn:E.
  - destruct IH as [IH | (l & x & r & -> & A & B)]; [left; constructor; auto; exists v; auto |]. right. exists (c :: l), x, r. split; auto. split; auto. constructor; auto. exists v; auto.
  - right. exists [], c, s. auto.
Qed.
