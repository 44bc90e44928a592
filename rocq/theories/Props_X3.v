(** Properties C52 and C61-C63: the 13 character code, powers and roots of the type F192. *)
From Coq Require Import ZArith QArith Qabs Lqa Lia Bool List.
From Verif Require Import Base UBig UStr USpec UEq BBig BSpec BEq RBig RIeee FSpec RIeeeP XNum XSpec XP1 XP2 XP3 XP7 XP8 XFun CSpec XC13 XPow XSqrt.
Import ListNotations.
Local Open Scope Z_scope.

(** ** C52 code13 *)
(** every text, valid or not, is decided, never a panic *)
Theorem C52_from_valid : forall s, s <> [] -> Forall valid62 s -> (length s <= 13)%nat -> s <> zero13 ->
  exists c, xfrom_code13 s = Ok (ROk c) /\ xwf c /\ (xval c == val13 s)%Q.
Proof. intros s N V L Z0. destruct (code_range s V L) as [R1 R2]. pose proof (exp13_range _ R1). eexists. split; [now apply decode_ok |]. destruct (x13_ok (hd13 s mod 2 =? 1) (dig13 s) (exp13 (hd13 s)) R2 ltac:(lia)) as (A & _ & _ & B). split; auto. Qed.
Theorem C52_from_zero : xfrom_code13 zero13 = Ok (ROk xZERO).
Proof. reflexivity. Qed.
Theorem C52_from_empty : xfrom_code13 [] = Ok (RErr NoData).
Proof. reflexivity. Qed.
Theorem C52_from_long : forall s, (13 < length s)%nat -> xfrom_code13 s = Ok (RErr (InvalidChar (nth 13 s 0))).
Proof.
  intros s L. unfold xfrom_code13. destruct (list_eqb s code13_zero) eqn:E.
  - apply list_eqb_eq in E. subst s. cbn in L. lia.
  - now rewrite (proj2 (Nat.leb_gt _ _) L).
Qed.
Theorem C52_from_invalid : forall l c r, (length (l ++ c :: r) <= 13)%nat -> Forall valid62 l -> c62 c = None -> xfrom_code13 (l ++ c :: r) = Ok (RErr (InvalidChar c)).
Proof. exact decode_err. Qed.
Theorem C52_from_total : forall s, exists r, xfrom_code13 s = Ok r.
Proof.
  intros s. destruct (Nat.leb_spec (length s) 13) as [L | L]; [| eexists; now apply C52_from_long]. destruct s as [| c0 s0]; [eexists; reflexivity |]. set (s := c0 :: s0) in *.
  destruct (first_invalid s) as [V | (l & c & r & E & V & N)].
  - destruct (code_round s ltac:(discriminate) V L) as (c & E & _). eauto.
  - rewrite E in *. eexists. now apply decode_err.
Qed.
(** reading then writing gives the text back, without superfluous zeros in front *)
Theorem C52_into_from : forall s, s <> [] -> Forall valid62 s -> (length s <= 13)%nat -> exists c, xfrom_code13 s = Ok (ROk c) /\ xinto_code13 c = Ok (ROk (canon13 s)).
Proof. exact code_round. Qed.
(** writing then reading gives a number within 2^-65 of the first, relatively, of the same sign, or zero for tiny numbers; it is written the same way *)
Theorem C52_from_into_partial : forall a s, xwf a -> xnull a = false -> xe a < 2 ^ 63 -> xinto_code13 a = Ok (ROk s) ->
  exists c, xfrom_code13 s = Ok (ROk c) /\ xinto_code13 c = Ok (ROk s) /\
    ((c = xZERO /\ (Qabs (xval a) <= (inject_Z (62 ^ 10 * 31) + (1 # 2)) * two (- 1985))%Q) \/
     (xwf c /\ xsign c = xsign a /\ (Qabs (xval c - xval a) <= two (- 65) * Qabs (xval a))%Q)).
Proof. intros a s W N X H. destruct (code_approx a s W N X H) as (c & A & B & [(C1 & _ & C2) | C]); exists c; split; auto; split; auto. Qed.
Theorem C52_zero : xinto_code13 xZERO = Ok (ROk zero13).
Proof. reflexivity. Qed.
(** numbers up to the largest code are written, in at most 13 valid characters *)
Theorem C52_into_total_partial : forall a, xwf a -> xe a < 2 ^ 63 -> (Qabs (xval a) < (2 * inject_Z (62 ^ 10 * 31) - 1) * two 1858)%Q ->
  exists s, xinto_code13 a = Ok (ROk s) /\ s <> [] /\ Forall valid62 s /\ (length s <= 13)%nat /\ canon13 s = s.
Proof. exact code_total. Qed.
(** the code of zero is also the code of the smallest positive number with a code, which is lost *)
Theorem C52_zero_collision_refuted : exists a, xwf a /\ xnull a = false /\ (xval a == val13 zero13)%Q /\ (0 < xval a)%Q /\ xinto_code13 a = Ok (ROk zero13) /\ xfrom_code13 zero13 = Ok (ROk xZERO).
Proof. exists (x13 false (62 ^ 10 * 31) (- 1921)). split; [split; split; vm_compute; congruence |]. split; [reflexivity |]. split; [vm_compute; reflexivity |]. split; [vm_compute; reflexivity |]. split; [vm_compute; reflexivity | reflexivity]. Qed.
(** an exponent field from 2^63 is taken for a negative exponent: a huge number is written as zero *)
Theorem C52_huge_refuted : exists a, xwf a /\ 2 ^ 63 <= xe a /\ 2 ^ 62 < xpow a /\ xinto_code13 a = Ok (ROk zero13).
Proof. exists (mkX 0 (2 ^ 63 + 2 ^ 49)). split; [split; split; vm_compute; congruence |]. split; [cbn; lia |]. split; [reflexivity |]. vm_compute. reflexivity. Qed.
Example C52_case : exists s c, xinto_code13 (mkX (2 ^ 126 + 12345) (EXPC - 126)) = Ok (ROk s) /\ (length s = 12)%nat /\ xfrom_code13 s = Ok (ROk c) /\ (xval c == 3)%Q.
Proof. eexists. eexists. split; [vm_compute; reflexivity |]. split; [reflexivity |]. split; [vm_compute; reflexivity |]. vm_compute. reflexivity. Qed.
Example C52_text : Forall valid62 [65; 98; 57] /\ canon13 [48; 48; 65; 98; 57] = [65; 98; 57] /\ c62 33 = None.
Proof. split; [repeat constructor; eexists; reflexivity | split; reflexivity]. Qed.

(** ** C61 powers of two and the integer logarithm *)
Theorem C61_from_pow2_partial : forall n, - 2 ^ 48 + 127 < n < 2 ^ 63 - 2 ^ 48 -> returns (xfrom_pow2 n) (fun c => xwf c /\ (xval c == two n)%Q).
Proof. exact pow2_ok. Qed.
(** below that the exponent wraps or the number is zero; above, the addition overflows *)
Theorem C61_from_pow2_refuted : xfrom_pow2 (- 2 ^ 48 + 127) = Ok xZERO /\ (exists c, xfrom_pow2 (- 2 ^ 48 + 126) = Ok c /\ xpow c = 2 ^ 64 - 1 - 2 ^ 48) /\ xfrom_pow2 (2 ^ 63 - 2 ^ 48) = Panic.
Proof. split; [reflexivity |]. split; [eexists; split; reflexivity | reflexivity]. Qed.
Theorem C61_ilog2_partial : forall a, xwf a -> xnull a = false -> xsign a = false -> xe a < 2 ^ 63 ->
  returns (xilog2 a) (fun c => xwf c /\ exists k, (xval c == inject_Z k)%Q /\ (two k <= xval a < two (k + 1))%Q).
Proof. exact ilog2_ok. Qed.
Theorem C61_ilog2_panic : forall a, xwf a -> xnull a = true \/ xsign a = true -> xilog2 a = Panic.
Proof. intros a W [N | S]; unfold xilog2; [rewrite (xnull_zero a N); reflexivity |]. rewrite xis_neg_sign, S by auto. reflexivity. Qed.
Theorem C61_inverse : forall n, - 2 ^ 48 + 127 < n < 2 ^ 62 -> exists p l, xfrom_pow2 n = Ok p /\ xilog2 p = Ok l /\ (xval l == inject_Z n)%Q.
Proof.
  intros n H. destruct (pow2_ok n ltac:(lia)) as (p & E & W & V). assert (Ep : p = mkX 0 (n + EXPC - 127)). { revert E. unfold xfrom_pow2. rewrite sadd_ok by (change (64 - 1) with 63; unfold EXPC; lia). cbn [bind]. rewrite ssub_ok by (change (64 - 1) with 63; unfold EXPC; lia). cbn [bind]. rewrite castw_small by (unfold EXPC; lia). congruence. }
  assert (Np : xnull p = false) by (subst p; unfold xnull; cbn [xd xe]; rewrite (proj2 (Z.eqb_neq (n + EXPC - 127) 0)) by (unfold EXPC; lia); reflexivity). assert (Sp : xsign p = false) by (subst p; reflexivity).
  destruct (ilog2_ok p W Np Sp ltac:(subst p; cbn [xe]; unfold EXPC; lia)) as (l & El & Wl & k & Vl & K1 & K2). exists p, l. split; auto. split; auto. assert (k = n); [| subst k; exact Vl]. rewrite V in K1, K2.
  apply two_lt_inv in K2. destruct (Z_le_gt_dec k n); [lia |]. exfalso. assert (two n < two k)%Q by (apply two_lt; lia). lra.
Qed.
Example C61_case : xfrom_pow2 10 = Ok (mkX 0 (EXPC - 117)) /\ (exists c, xilog2 (mkX 5 (EXPC - 117)) = Ok c /\ (xval c == 10)%Q) /\ xnull (mkX 5 (EXPC - 117)) = false.
Proof. split; [reflexivity |]. split; [eexists; split; [vm_compute; reflexivity | vm_compute; reflexivity] | reflexivity]. Qed.

(** ** C62 integer powers *)
(** nonnegative exponents: never above the exact power, at most 2 n 2^-125 of it below; the sign is exact *)
Theorem C62_powi_partial : forall a n, xwf a -> xnull a = false -> 0 <= n -> n * (Z.abs (xpow a + 127) + 1) <= 2 ^ 46 ->
  returns (xpowi a n) (fun c => xwf c /\ xsign c = xsign a && Z.odd n /\
    (Qabs (xval a) ^ n * (1 - inject_Z (2 * n) * two (- 125)) <= Qabs (xval c))%Q /\ (Qabs (xval c) <= Qabs (xval a) ^ n)%Q).
Proof. intros a n W N Hn H. eapply returns_weaken; [apply powi_pos; auto |]. intros c (Wc & _ & Sc & L & U). rewrite !xabs_val by auto. auto. Qed.
(** negative ones: never below, at most (4 n + 10) 2^-125 of it above *)
Theorem C62_powi_negative_partial : forall a n, xwf a -> xnull a = false -> n < 0 -> Z.abs n * (Z.abs (xpow a + 127) + 1) <= 2 ^ 35 ->
  returns (xpowi a n) (fun c => xwf c /\ xsign c = xsign a && Z.odd n /\
    (Qabs (xval a) ^ n <= Qabs (xval c))%Q /\ (Qabs (xval c) <= Qabs (xval a) ^ n * (1 + inject_Z (4 * Z.abs n + 10) * two (- 125)))%Q).
Proof. intros a n W N Hn H. eapply returns_weaken; [apply powi_neg; auto |]. intros c (Wc & _ & Sc & L & U). rewrite !xabs_val by auto. auto. Qed.
Theorem C62_powi_zero : forall n, 0 < n < 2 ^ 63 -> xpowi xZERO n = Ok xZERO /\ xpowi xZERO (- n) = Panic.
Proof.
  intros n H. unfold xpowi. rewrite !sabs_ok by (change (64 - 1) with 63; lia). cbn [bind]. rewrite Z.abs_opp, Z.abs_eq, castw_small by lia. rewrite powi_abs_zero by (change (Z.of_nat 64) with 64; lia). cbn [bind].
  destruct (Z.ltb_spec n 0); [lia |]. destruct (Z.ltb_spec (- n) 0); [| lia]. split; reflexivity.
Qed.
Theorem C62_powi_0 : forall a, xpowi a 0 = Ok xONE.
Proof. reflexivity. Qed.
Theorem C62_powi_min_refuted : forall a, xpowi a (- 2 ^ 63) = Panic.
Proof. reflexivity. Qed.
Example C62_case : (exists c, xpowi (mkX (2 ^ 126) (EXPC - 127)) 11 = Ok c /\ (Qabs (xval c - (177147 # 2048)) < two (- 110))%Q) /\ 11 * (Z.abs (xpow (mkX (2 ^ 126) (EXPC - 127)) + 127) + 1) <= 2 ^ 35.
Proof. split; [eexists; split; [vm_compute; reflexivity | vm_compute; reflexivity] | vm_compute; discriminate]. Qed.

(** ** C63 square root *)
(** the square of the result is within 2^-120 of the argument, relatively.  Missing: significands above 2^128 - 2^90, refuted below, and large exponents. *)
Theorem C63_sqrt_partial : forall x, xwf x -> xnull x = false -> xsign x = false -> Z.abs (xpow x) < 2 ^ 35 -> xsig x <= 2 ^ 128 - 2 ^ 90 ->
  returns (xsqrt x) (fun c => xwf c /\ (0 < xval c)%Q /\ (Qabs (xval c * xval c - xval x) <= two (- 120) * xval x)%Q).
Proof.
  intros x W N S H1 H2. eapply returns_weaken; [apply sqrt_ok; auto; split; auto |]. intros c (Pc & N1 & N2). destruct (pos_val c Pc) as [-> C0]. assert (Px : pos x) by (split; auto). destruct (pos_val x Px) as [-> _]. destruct Pc as (Wc & _). split; auto. split; auto. apply Qabs_Qle_condition. split; lra.
Qed.
Theorem C63_sqrt_nonpositive : forall x, xwf x -> xnull x = true \/ xsign x = true -> xsqrt x = Ok xZERO.
Proof. intros x W [N | S]; unfold xsqrt; [rewrite (xnull_zero x N); reflexivity |]. rewrite xis_neg_sign, S by auto. rewrite orb_true_r. reflexivity. Qed.
(** the root of the largest number below one comes out as 1.0249...: the first guess is 2^64 and loses its top bit *)
Theorem C63_sqrt_refuted : exists x c, xwf x /\ xnull x = false /\ xsign x = false /\ (xval x == 1 - two (- 128))%Q /\ xsqrt x = Ok c /\ (1024 # 1000 < xval c)%Q.
Proof. exists (mkX (2 ^ 127 - 1) (EXPC - 128)). eexists. split; [split; split; vm_compute; congruence |]. split; [reflexivity |]. split; [reflexivity |]. split; [vm_compute; reflexivity |]. split; [vm_compute; reflexivity |]. vm_compute. reflexivity. Qed.
(** the integer square root under it *)
Theorem C63_isqrt_partial : forall n, 2 ^ 127 <= n <= 2 ^ 128 - 2 ^ 90 -> returns (xisqrt n) (fun s => 2 ^ 63 <= s < 2 ^ 64 /\ n - 2 ^ 66 <= s * s /\ 10 ^ 18 * (s * s) <= (10 ^ 18 + 2276000) * n).
Proof. exact isqrt_ok. Qed.
Example C63_case : (exists c, xsqrt (mkX 0 (EXPC - 126)) = Ok c /\ (Qabs (xval c * xval c - 2) < two (- 120))%Q) /\ xnull (mkX 0 (EXPC - 126)) = false /\ xsig (mkX 0 (EXPC - 126)) <= 2 ^ 128 - 2 ^ 90 /\ (xval (mkX 0 (EXPC - 126)) == 2)%Q.
Proof. split; [eexists; split; [vm_compute; reflexivity | vm_compute; reflexivity] |]. split; [reflexivity |]. split; [vm_compute; discriminate | vm_compute; reflexivity]. Qed.
Print Assumptions C52_from_valid.
Print Assumptions C52_from_zero.
Print Assumptions C52_from_empty.
Print Assumptions C52_from_long.
Print Assumptions C52_from_invalid.
Print Assumptions C52_from_total.
Print Assumptions C52_into_from.
Print Assumptions C52_from_into_partial.
Print Assumptions C52_zero.
Print Assumptions C52_into_total_partial.
Print Assumptions C52_zero_collision_refuted.
Print Assumptions C52_huge_refuted.
Print Assumptions C61_from_pow2_partial.
Print Assumptions C61_from_pow2_refuted.
Print Assumptions C61_ilog2_partial.
Print Assumptions C61_ilog2_panic.
Print Assumptions C61_inverse.
Print Assumptions C62_powi_partial.
Print Assumptions C62_powi_negative_partial.
Print Assumptions C62_powi_zero.
Print Assumptions C62_powi_0.
Print Assumptions C62_powi_min_refuted.
Print Assumptions C63_sqrt_partial.
Print Assumptions C63_sqrt_nonpositive.
Print Assumptions C63_sqrt_refuted.
Print Assumptions C63_isqrt_partial.
