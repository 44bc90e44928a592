(** Properties C73 to C75: inverse sine, cosine and tangent of F192 against the real functions.
    [xR a] is the real number denoted by [a], [ep k] is 2^-k. *)
From Verif Require Import Base FSpec RSpec UBig UFun UStr UAddSub BBig BEq RBig RIeee RIeeeP XNum XFun XSpec XP1 XP2 XP3 XP6 XP7 XP8 XP9 XC13 XPow XFast Props_X1 Props_X2 RReal RReal2 RReal4 XReal Props_R5 XErr XLog XPw XTrig XTrig2 XAtrig.
From Coq Require Import Reals Lra Lia Qreals ZArith QArith Qabs Bool.
From Coquelicot Require Import Coquelicot.
Local Open Scope R_scope.

Definition moderate25 (a : f192) : Prop := xwf a /\ (xnull a = true \/ (Z.abs (xpow a) <= 2 ^ 25)%Z).
Lemma mod_b25 a : moderate25 a -> xb (2 ^ 25) a. Proof. auto. Qed.
Lemma h_m : moderate25 (mkX 0 (EXPC - 128)). Proof. split; [split; cbn; lia | right; vm_compute; discriminate]. Qed.
Lemma h_R : xR (mkX 0 (EXPC - 128)) = / 2. Proof. unfold xR. replace (/ 2) with (Q2R (1 # 2)) by (unfold Q2R; cbn; field). apply Qeq_eqR. vm_compute. reflexivity. Qed.
Lemma two_m : moderate25 (mkX 0 (EXPC - 126)). Proof. split; [split; cbn; lia | right; vm_compute; discriminate]. Qed.
Lemma two_R : xR (mkX 0 (EXPC - 126)) = 2. Proof. unfold xR. replace 2 with (Q2R 2) by (unfold Q2R; cbn; field). apply Qeq_eqR. vm_compute. reflexivity. Qed.

(** ** C73 asin *)
(** the remainder of the series of 16 terms and the rounding errors; the remainder is what is left of the accuracy near -1.
    Missing: which arguments make the multiplication by the coefficient panic. *)
Theorem C73_asin_partial : forall a, moderate25 a -> -1 <= xR a <= s2 -> xasin a = Panic \/ returns (xasin a) (fun c => xwf c /\ Rabs (xR c - asin (xR a)) <= 145 / 1000 * Rabs (xR a) ^ 33 + ep 114 * Rabs (xR a) /\ 0 <= xR c * xR a).
Proof. intros a M H. eapply nop_weaken; [apply (xasin_R (2 ^ 25) a); [now apply mod_b25 | lia | auto] |]. intros c (B & E & S). split; auto. apply B. Qed.
(** arguments outside are refused; [s2] is the constant 1/sqrt 2 of the code *)
Theorem C73_domain : forall a, moderate25 a -> xR a < -1 \/ s2 < xR a -> xasin a = Panic.
Proof.
  intros a M H. pose proof (mod_b25 a M) as B. assert (W := proj1 M). unfold xasin. destruct (sgn_R a W) as [SN SP]. destruct (neg_b _ a B) as [Bn Vn]; [lia |]. destruct s2_c as (Bs & _ & S2). set (r0 := if xis_neg a then xneg a else a). assert (Vr : xR r0 = Rabs (xR a)). { unfold r0. destruct (xis_neg a); [rewrite Vn, Rabs_left1 | rewrite Rabs_pos_eq]; auto. } assert (Wr : xwf r0) by (unfold r0; destruct (xis_neg a); auto; apply Bn).
  destruct (xgt r0 xONE) eqn:G; auto. assert (xR r0 <= 1). { rewrite <- one_R. apply gt_R_false; auto. split; cbn; lia. } destruct (xgt a xONE_OVER_SQRT_2) eqn:G2; auto. apply gt_R_false in G2; auto; [| apply Bs]. fold s2 in G2. rewrite Vr in H0. destruct H; [| lra]. rewrite Rabs_left1 in H0 by lra. lra.
Qed.
Theorem C73_s2 : Rabs (s2 - 1 / sqrt 2) <= ep 128. Proof. apply s2_c. Qed.
(** inside the domain: an argument near 0.5296 panics, and asin(-1) comes out above -1.43 instead of -1.5708 *)
Definition bad_asin : f192 := mkX (180217597865588865840085054777587386485 - 2 ^ 127) (EXPC - 128).
Theorem C73_panic_refuted : moderate25 bad_asin /\ 52 / 100 < xR bad_asin < 53 / 100 /\ xasin bad_asin = Panic.
Proof.
  split; [split; [split; cbn; lia | right; vm_compute; discriminate] |]. split; [| vm_compute; reflexivity].
  unfold xR. replace (52 / 100) with (Q2R (52 # 100)) by (unfold Q2R; cbn; field). replace (53 / 100) with (Q2R (53 # 100)) by (unfold Q2R; cbn; field). split; apply Qlt_Rlt; vm_compute; reflexivity.
Qed.
Theorem C73_minus_one_refuted : xR (xneg xONE) = -1 /\ asin (-1) < -157 / 100 /\ exists c, xasin (xneg xONE) = Ok c /\ -144 / 100 < xR c.
Proof.
  splits.
  - destruct (neg_b 200 xONE) as [_ V]; [split; [split; cbn; lia | right; vm_compute; discriminate] | lia |]. rewrite V, one_R. lra.
  - replace (asin (-1)) with (- asin 1) by (rewrite <- asin_opp; f_equal; lra). rewrite asin_1. destruct pi1_c as (_ & E & P). assert (ep 126 <= ep 20) by (apply ep_le; lia). assert (ep 20 <= / 100000) by (unfold ep; cbn; lra). apply Rabs_le_between in E. lra.
  - exists (mkX 243199502877843814362064327646494186837 281474976710529). split; [vm_compute; reflexivity |]. unfold xR. replace (-144 / 100) with (Q2R (-144 # 100)) by (unfold Q2R; cbn; field). apply Qlt_Rlt. vm_compute. reflexivity.
Qed.
Lemma ok_not_panic {A} (m : res A) Q : (match m with Panic => false | _ => true end) = true -> m = Panic \/ returns m Q -> returns m Q. Proof. intros H [E | E]; auto. rewrite E in H. discriminate. Qed.
(** asin(1/2) is pi/6 to 34 binary digits *)
Example C73_case : returns (xasin (mkX 0 (EXPC - 128))) (fun c => Rabs (xR c - PI / 6) <= ep 35).
Proof.
  destruct s2_c as (_ & _ & S2). eapply returns_weaken; [apply ok_not_panic; [| apply C73_asin_partial; [apply h_m | rewrite h_R; lra]]; vm_compute; reflexivity |]. intros c (_ & E & _). rewrite h_R in E. replace (asin (/ 2)) with (PI / 6) in E. 2: { pose proof PI_RGT_0. assert (Q : asin (sin (PI / 6)) = PI / 6) by (apply asin_sin; lra). rewrite sin_PI6 in Q. rewrite <- Q. f_equal. lra. }
  rewrite (Rabs_pos_eq (/ 2)) in E by lra. replace ((/ 2) ^ 33) with (ep 33) in E by (unfold ep; rewrite pow_inv; reflexivity). rewrite (ep_S 33), (ep_S 34) in E. assert (ep 114 <= ep 40) by (apply ep_le; lia). pose proof (ep_pos 114). rewrite (ep_S 35), (ep_S 36), (ep_S 37), (ep_S 38), (ep_S 39) in E. rewrite (ep_S 35), (ep_S 36), (ep_S 37), (ep_S 38), (ep_S 39). lra.
Qed.

(** ** C74 acos *)
(** Missing: which arguments make [asin] panic *)
Theorem C74_acos_partial : forall a, moderate25 a -> -1 <= xR a <= s2 -> xacos a = Panic \/ returns (xacos a) (fun c => xwf c /\ Rabs (xR c - acos (xR a)) <= 145 / 1000 * Rabs (xR a) ^ 33 + ep 114 * Rabs (xR a) + ep 124).
Proof. intros a M H. eapply nop_weaken; [apply (xacos_R (2 ^ 25) a); [now apply mod_b25 | lia | auto] |]. intros c (B & E). split; auto. apply B. Qed.
Theorem C74_domain : forall a, moderate25 a -> xR a < -1 \/ s2 < xR a -> xacos a = Panic.
Proof. intros a M H. unfold xacos. rewrite (C73_domain a M H). reflexivity. Qed.
Theorem C74_panic_refuted : xacos bad_asin = Panic. Proof. unfold xacos. destruct C73_panic_refuted as (_ & _ & ->). reflexivity. Qed.
Definition h_asin : f192 := mkX 8030247216807296835423936967768794488 281474976710528.
Lemma h_asin_ok : xasin (mkX 0 (EXPC - 128)) = Ok h_asin. Proof. vm_compute. reflexivity. Qed.
Lemma h_acos_ok : xacos (mkX 0 (EXPC - 128)) = Ok (mkX 8030247217134190949677169232757139989 281474976710529). Proof. unfold xacos. rewrite h_asin_ok. cbn [bind]. rewrite fsub_eq. vm_compute. reflexivity. Qed.
Example C74_case : returns (xacos (mkX 0 (EXPC - 128))) (fun c => Rabs (xR c - PI / 3) <= ep 35).
Proof.
  destruct s2_c as (_ & _ & S2). eapply returns_weaken; [apply ok_not_panic; [| apply C74_acos_partial; [apply h_m | rewrite h_R; lra]]; rewrite h_acos_ok; reflexivity |]. intros c (_ & E). rewrite h_R in E. replace (acos (/ 2)) with (PI / 3) in E. 2: { pose proof PI_RGT_0. assert (Q : acos (cos (PI / 3)) = PI / 3) by (apply acos_cos; lra). rewrite cos_PI3 in Q. rewrite <- Q. f_equal. lra. }
  rewrite (Rabs_pos_eq (/ 2)) in E by lra. replace ((/ 2) ^ 33) with (ep 33) in E by (unfold ep; rewrite pow_inv; reflexivity). rewrite (ep_S 33), (ep_S 34) in E. assert (ep 114 <= ep 40) by (apply ep_le; lia). pose proof (ep_pos 114). assert (ep 124 <= ep 40) by (apply ep_le; lia). rewrite (ep_S 35), (ep_S 36), (ep_S 37), (ep_S 38), (ep_S 39) in E. rewrite (ep_S 35), (ep_S 36), (ep_S 37), (ep_S 38), (ep_S 39). lra.
Qed.

(** ** C75 atan *)
(** the argument of the series: |x|, or its reciprocal above 1 *)
Definition folded (x : R) : R := if Rle_dec (Rabs x) 1 then Rabs x else / Rabs x.
(** no partial sum r - r^3/3 + ... with an even number of terms is within a relative 2^-110 of a power of two *)
Definition away (r : R) : Prop := forall n E, (1 <= n <= 8)%nat -> ep 110 * powerRZ 2 E < Rabs (atan_rsum r (2 * n) - powerRZ 2 E).
Lemma away_clear r : away r -> tclear r. Proof. intros H n Hn (E & HE). specialize (H n E Hn). lra. Qed.
(** Missing: arguments whose partial sums come that close to a power of two; the code fails for one of them below. *)
Theorem C75_atan_partial : forall a, moderate25 a -> Rabs (xR a) <= s2 \/ 142 / 100 <= Rabs (xR a) -> away (folded (xR a)) ->
  returns (xatan a) (fun c => xwf c /\ Rabs (xR c - atan (xR a)) <= folded (xR a) ^ 33 / 33 + ep 113 * (if Rle_dec (Rabs (xR a)) 1 then Rabs (xR a) else 1)).
Proof.
  intros a M H C. eapply returns_weaken; [apply (xatan_R (2 ^ 25) a); [now apply mod_b25 | lia | auto | now apply away_clear] |]. intros c [B E]. split; [apply B |]. unfold folded. destruct (Rle_dec (Rabs (xR a)) 1); auto.
Qed.
(** a plain condition: the folded argument is not in the upper 2^-20 part below a power of two nor less than 1.3 times above it *)
Lemma even_bd r n : 0 <= r <= 71 / 100 -> (1 <= n)%nat -> 78 / 100 * r <= atan_rsum r (2 * n) <= r.
Proof.
  intros H Hn. pose proof (atan_rem_pos (2 * n) r ltac:(lra)) as A. pose proof (atan_rem_pos 1 r ltac:(lra)) as B. assert (P1 : (-1) ^ (2 * n) = 1) by (rewrite pow_mult; replace ((-1) ^ 2) with 1 by ring; apply pow1). rewrite P1 in A. unfold atan_rsum in B. cbn [rsum pow Nat.mul Nat.add] in B. replace (INR 1) with 1 in B by reflexivity. replace (INR 3) with 3 in B by (cbn; lra).
  assert (r2 : r * r <= 71 / 100 * (71 / 100)) by (apply Rmult_le_compat; lra). assert (r3 : r * (r * r) <= r * (71 / 100 * (71 / 100))) by (apply Rmult_le_compat_l; lra).
  assert (T : r ^ (2 * (2 * n) + 1) / INR (2 * (2 * n) + 1) <= 51 / 1000 * r). { assert (I : 5 <= INR (2 * (2 * n) + 1)) by (replace 5 with (INR 5) by (cbn; lra); apply le_INR; lia). assert (J : 0 < / INR (2 * (2 * n) + 1) <= / 5) by (split; [apply Rinv_0_lt_compat; lra | apply Rinv_le_contravar; lra]). assert (Q : 0 <= r ^ (2 * (2 * n) + 1) <= 255 / 1000 * r). { split; [apply pow_le; lra |]. replace (2 * (2 * n) + 1)%nat with (4 + (2 * (2 * n - 2) + 1))%nat by lia. rewrite pow_add. assert (0 <= r ^ 4 <= 255 / 1000). { split; [apply pow_le; lra |]. replace (r ^ 4) with (r * r * (r * r)) by ring. apply (Rle_trans _ (71 / 100 * (71 / 100) * (71 / 100 * (71 / 100)))); [apply Rmult_le_compat; nra | lra]. } assert (0 <= r ^ (2 * (2 * n - 2) + 1) <= r). { split; [apply pow_le; lra |]. rewrite pow_add, pow_1. assert (r ^ (2 * (2 * n - 2)) <= 1) by (rewrite <- (pow1 (2 * (2 * n - 2))); apply pow_incr; lra). assert (0 <= r ^ (2 * (2 * n - 2))) by (apply pow_le; lra). nra. } apply Rmult_le_compat; tauto. }
    unfold Rdiv. apply (Rle_trans _ (255 / 1000 * r * / 5)); [apply Rmult_le_compat; tauto || lra | lra]. }
  lra.
Qed.
Lemma plain_away r E : 0 <= r <= 71 / 100 -> 13 / 10 * powerRZ 2 E <= r <= (1 - ep 20) * powerRZ 2 (E + 1) -> away r.
Proof.
  intros H [L U] n F Hn. pose proof (even_bd r n H ltac:(lia)) as B. set (S := atan_rsum r (2 * n)) in *. assert (e : ep 110 <= ep 21) by (apply ep_le; lia). rewrite (ep_S 20) in U. assert (e2 : ep 21 <= / 1000000) by (unfold ep; cbn; lra). pose proof (ep_pos 21). pose proof (p2_pos E). pose proof (p2_pos F) as PF. destruct (Z_le_gt_dec F E) as [C | C].
  - assert (powerRZ 2 F <= powerRZ 2 E) by (apply p2_le; auto). assert (ep 110 * powerRZ 2 F <= / 1000000 * powerRZ 2 F) by (apply Rmult_le_compat_r; lra). rewrite Rabs_pos_eq by lra. lra.
  - assert (powerRZ 2 (E + 1) <= powerRZ 2 F) by (apply p2_le; lia). assert (ep 110 * powerRZ 2 F <= ep 21 * powerRZ 2 F) by (apply Rmult_le_compat_r; lra). assert ((1 - 2 * ep 21) * powerRZ 2 (E + 1) <= (1 - 2 * ep 21) * powerRZ 2 F) by (apply Rmult_le_compat_l; lra). assert (0 < ep 21 * powerRZ 2 F) by (apply Rmult_lt_0_compat; lra). rewrite Rabs_left1 by lra. lra.
Qed.
Theorem C75_plain : forall a E, moderate25 a -> Rabs (xR a) <= s2 \/ 142 / 100 <= Rabs (xR a) -> 13 / 10 * powerRZ 2 E <= folded (xR a) <= (1 - ep 20) * powerRZ 2 (E + 1) ->
  returns (xatan a) (fun c => xwf c /\ Rabs (xR c - atan (xR a)) <= folded (xR a) ^ 33 / 33 + ep 113 * (if Rle_dec (Rabs (xR a)) 1 then Rabs (xR a) else 1)).
Proof.
  intros a E M H C. apply C75_atan_partial; auto. apply (plain_away _ E); auto. destruct s2_c as (_ & _ & S2). unfold folded. pose proof (Rabs_pos (xR a)). destruct (Rle_dec (Rabs (xR a)) 1); [lra |]. split; [apply Rlt_le, Rinv_0_lt_compat; lra |]. apply (Rle_trans _ (/ (142 / 100))); [apply Rinv_le_contravar; lra | lra].
Qed.
(** between 1/sqrt 2 and 1.414 the function is not written and panics *)
Theorem C75_domain : forall a, moderate25 a -> s2 < Rabs (xR a) <= 1414 / 1000 -> xatan a = Panic.
Proof.
  intros a M H. pose proof (mod_b25 a M) as B. assert (W := proj1 M). unfold xatan. destruct (sgn_R a W) as [SN SP]. destruct (neg_b _ a B) as [Bn Vn]; [lia |]. destruct s2_c as (Bs & _ & S2). set (r0 := if xis_neg a then xneg a else a). assert (Vr : xR r0 = Rabs (xR a)). { unfold r0. destruct (xis_neg a); [rewrite Vn, Rabs_left1 | rewrite Rabs_pos_eq]; auto. } assert (Br : xb (2 ^ 25) r0) by (unfold r0; destruct (xis_neg a); auto). set (A := Rabs (xR a)) in *.
  assert (W1 : xb 200 xONE) by (split; [split; cbn; lia | right; vm_compute; discriminate]). destruct (xgt r0 xONE) eqn:G.
  - assert (N0 : xnull r0 = false). { destruct (xnull r0) eqn:N; auto. apply null_R in N. lra. } apply gt_R in G; [| apply Br | apply W1]. rewrite one_R in G. destruct (divR 200 (2 ^ 25) xONE r0 W1 Br N0) as (x & -> & Bx & L1 & L2 & L3); [lia | lia | lia |]. cbn [bind].
    assert (IA : 7072 / 10000 <= 1 / A). { unfold Rdiv. rewrite Rmult_1_l. apply (Rle_trans _ (/ (1414 / 1000))); [lra | apply Rinv_le_contravar; lra]. } rewrite one_R, Vr in *. rewrite (Rabs_pos_eq (1 / A)) in * by lra. assert (0 <= xR x) by nra. rewrite (Rabs_pos_eq (xR x)) in * by lra. replace (xgt x xONE_OVER_SQRT_2) with true; [reflexivity |]. symmetry. apply gt_R; [apply Bx | apply Bs | fold s2; lra].
  - cbn [bind]. replace (xgt r0 xONE_OVER_SQRT_2) with true; [reflexivity |]. symmetry. apply gt_R; [apply Br | apply Bs | fold s2; lra].
Qed.
Definition unres {A} (d : A) (m : res A) : A := match m with Ok a => a | _ => d end.
Lemma for_ext {A} n (f g : Z -> A -> res A) : (forall i s, f i s = g i s) -> forall i s, for_ n i f s = for_ n i g s.
Proof. intros H. induction n; intros; cbn [for_]; auto. rewrite H. destruct (g i s); cbn [bind]; auto. Qed.
(** [xatan] with the sums of [XFast], equal on all arguments and quick on closed ones *)
Definition fatan_step (x_sqr : f192) (i : Z) (s : f192 * f192 * Z) : res (f192 * f192 * Z) :=
  let '(result, curr_x, coeff) := s in
  let* q := xdiv_i32 curr_x coeff in
  let* result := fsub result q in
  let* coeff := sadd 32 coeff 2 in
  let* curr_x := xmul curr_x x_sqr in
  let* q := xdiv_i32 curr_x coeff in
  let* result := fadd result q in
  let* coeff := sadd 32 coeff 2 in
  let* curr_x := xmul curr_x x_sqr in
  Ok (result, curr_x, coeff).
Lemma fbind {A B} (m : res A) (f g : A -> res B) : (forall a, f a = g a) -> bind m f = bind m g. Proof. intros H. destruct m; cbn [bind]; auto. Qed.
Lemma fatan_step_eq u i s : xatan_step u i s = fatan_step u i s.
Proof. destruct s as [[r c] k]. unfold xatan_step, fatan_step. apply fbind. intros q. rewrite fsub_eq. do 4 (apply fbind; intros ?). rewrite fadd_eq. reflexivity. Qed.
(** a partial sum just below 1/2 is rounded up to it by a carry that also flips the sign: the arc tangent of 0.5463 comes out as -0.24998 *)
Definition bad_atan : f192 := mkX (185907544365277892905823596491592105679 - 2 ^ 127) (EXPC - 128).
Definition ba_sqr : f192 := Eval vm_compute in unres xZERO (xmul bad_atan bad_atan).
Definition ba_cub : f192 := Eval vm_compute in unres xZERO (xmul ba_sqr bad_atan).
Definition ba_state : f192 * f192 * Z := Eval vm_compute in unres (xZERO, xZERO, 0%Z) (for_ 7 0 (fatan_step ba_sqr) (bad_atan, ba_cub, 3%Z)).
Definition ba_last : f192 := Eval vm_compute in unres xZERO (xdiv_i32 (snd (fst ba_state)) (snd ba_state)).
Lemma ba_q : xmul bad_atan bad_atan = Ok ba_sqr. Proof. vm_compute. reflexivity. Qed.
Lemma ba_c : xmul ba_sqr bad_atan = Ok ba_cub. Proof. vm_compute. reflexivity. Qed.
Lemma ba_loop : for_ 7 0 (fatan_step ba_sqr) (bad_atan, ba_cub, 3%Z) = Ok ba_state. Proof. vm_compute. reflexivity. Qed.
Lemma ba_div : xdiv_i32 (snd (fst ba_state)) (snd ba_state) = Ok ba_last. Proof. vm_compute. reflexivity. Qed.
Lemma ba_sub : fsub (fst (fst ba_state)) ba_last = Ok (mkX 340250205689103178326301886125662382507 281474976710526). Proof. vm_compute. reflexivity. Qed.
Theorem C75_carry_refuted : moderate25 bad_atan /\ 54 / 100 < xR bad_atan < 55 / 100 /\ 4 / 10 < atan (xR bad_atan) /\ exists c, xatan bad_atan = Ok c /\ xR c < - (24 / 100).
Proof.
  assert (B : 54 / 100 < xR bad_atan < 55 / 100). { unfold xR. replace (54 / 100) with (Q2R (54 # 100)) by (unfold Q2R; cbn; field). replace (55 / 100) with (Q2R (55 # 100)) by (unfold Q2R; cbn; field). split; apply Qlt_Rlt; vm_compute; reflexivity. }
  splits; try apply B.
  - split; [split; cbn; lia | right; vm_compute; discriminate].
  - pose proof (atan_bd (xR bad_atan)). lra.
  - exists (mkX 340250205689103178326301886125662382507 281474976710526). split.
    { unfold xatan. change (xis_neg bad_atan) with false. cbn iota. change (xgt bad_atan xONE) with false. cbn iota. cbn [bind]. change (xgt bad_atan xONE_OVER_SQRT_2) with false. cbn iota. rewrite ba_q. cbn [bind]. rewrite ba_c. cbn [bind]. rewrite (for_ext 7 _ _ (fatan_step_eq ba_sqr)), ba_loop. rewrite (surjective_pairing ba_state), (surjective_pairing (fst ba_state)). cbn [bind]. rewrite ba_div. cbn [bind]. rewrite fsub_eq, ba_sub. reflexivity. }
    unfold xR. replace (- (24 / 100)) with (Q2R (- (24 # 100))) by (unfold Q2R; cbn; field). apply Qlt_Rlt. vm_compute. reflexivity.
Qed.
(** atan(0.75) would panic; 0.375 and 1/0.375 are covered *)
Example C75_case : returns (xatan (mkX (2 ^ 126) (EXPC - 129))) (fun c => Rabs (xR c - atan (3 / 8)) <= ep 40) /\ returns (xatan (mkX (2 ^ 125) (EXPC - 126))) (fun c => Rabs (xR c - atan (5 / 2)) <= ep 40).
Proof.
  assert (V : xR (mkX (2 ^ 126) (EXPC - 129)) = 3 / 8). { unfold xR. replace (3 / 8) with (Q2R (3 # 8)) by (unfold Q2R; cbn; field). apply Qeq_eqR. vm_compute. reflexivity. } assert (V2 : xR (mkX (2 ^ 125) (EXPC - 126)) = 5 / 2). { unfold xR. replace (5 / 2) with (Q2R (5 # 2)) by (unfold Q2R; cbn; field). apply Qeq_eqR. vm_compute. reflexivity. }
  destruct s2_c as (_ & _ & S2). assert (F : folded (3 / 8) = 3 / 8). { unfold folded. rewrite Rabs_pos_eq by lra. destruct (Rle_dec (3 / 8) 1); lra. } assert (F2 : folded (5 / 2) = 2 / 5). { unfold folded. rewrite Rabs_pos_eq by lra. destruct (Rle_dec (5 / 2) 1); lra. }
  assert (P1 : powerRZ 2 (-2) = / 4) by (change (-2)%Z with (- Z.of_nat 2)%Z; rewrite p2_opp; unfold ep; cbn [pow]; lra). assert (P2 : powerRZ 2 (-2 + 1) = / 2) by (change (-2 + 1)%Z with (- Z.of_nat 1)%Z; rewrite p2_opp; unfold ep; cbn [pow]; lra). assert (e20 : ep 20 <= / 1000000) by (unfold ep; cbn; lra). assert (e41 : ep 113 <= ep 45) by (apply ep_le; lia). assert (e45 : ep 40 = 32 * ep 45) by (rewrite (ep_S 40), (ep_S 41), (ep_S 42), (ep_S 43), (ep_S 44); ring). pose proof (ep_pos 113). assert (N : (3 / 8) ^ 33 / 33 <= ep 45 /\ (2 / 5) ^ 33 / 33 <= 2 * ep 45) by (unfold ep; cbn [pow]; lra).
  split.
  - eapply returns_weaken; [apply (C75_plain _ (-2)); [split; [split; cbn; lia | right; vm_compute; discriminate] | left; rewrite V, Rabs_pos_eq; lra | rewrite V, F, P1, P2; lra] |]. intros c [_ E]. rewrite V, F in E. destruct (Rle_dec (Rabs (3 / 8)) 1); rewrite ?(Rabs_pos_eq (3 / 8)) in E by lra; lra.
  - eapply returns_weaken; [apply (C75_plain _ (-2)); [split; [split; cbn; lia | right; vm_compute; discriminate] | right; rewrite V2, Rabs_pos_eq; lra | rewrite V2, F2, P1, P2; lra] |]. intros c [_ E]. rewrite V2, F2 in E. destruct (Rle_dec (Rabs (5 / 2)) 1); rewrite ?(Rabs_pos_eq (5 / 2)) in E by lra; lra.
Qed.
Print Assumptions C73_asin_partial.
Print Assumptions C73_domain.
Print Assumptions C73_panic_refuted.
Print Assumptions C73_minus_one_refuted.
Print Assumptions C74_acos_partial.
Print Assumptions C75_atan_partial.
Print Assumptions C75_plain.
Print Assumptions C75_domain.
Print Assumptions C75_carry_refuted.
