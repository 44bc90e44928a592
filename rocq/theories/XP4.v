(** F192: division. *)
From Coq Require Import ZArith QArith Qabs Lqa Lia Bool List.
From Verif Require Import Base UBig UStr USpec UAddSub UEq BBig BSpec BEq RBig RSpec REq RIeee FSpec RIeeeP XNum XSpec XP1 XP2 XP3.
Import ListNotations.
Local Open Scope Z_scope.

(** ** the 256th power *)
Definition sq (q : Q) : Q := (q * q)%Q.
Definition pw (q : Q) : Q := sq (sq (sq (sq (sq (sq (sq (sq q))))))).
Lemma sq_wd p q : (p == q)%Q -> (sq p == sq q)%Q. Proof. unfold sq. intros ->. reflexivity. Qed.
Lemma pw_wd p q : (p == q)%Q -> (pw p == pw q)%Q. Proof. intros. unfold pw. do 8 apply sq_wd. auto. Qed.
Lemma sq_mul p q : (sq (p * q) == sq p * sq q)%Q. Proof. unfold sq. ring. Qed.
Lemma sq_mul' p q r : (p == q * r)%Q -> (sq p == sq q * sq r)%Q. Proof. intros H. rewrite (sq_wd _ _ H). apply sq_mul. Qed.
Lemma pw_mul p q : (pw (p * q) == pw p * pw q)%Q. Proof. unfold pw. do 8 apply sq_mul'. reflexivity. Qed.
Lemma sq_two' q k : (q == two k)%Q -> (sq q == two (2 * k))%Q.
Proof. intros H. rewrite (sq_wd _ _ H). unfold sq. rewrite <- two_plus. replace (k + k) with (2 * k) by ring. reflexivity. Qed.
Lemma pw_two k : (pw (two k) == two (256 * k))%Q.
Proof.
  unfold pw. replace (256 * k) with (2 * (2 * (2 * (2 * (2 * (2 * (2 * (2 * k)))))))) by ring. do 8 apply sq_two'. reflexivity.
Qed.
Lemma sq_le p q : (0 <= p)%Q -> (p <= q)%Q -> (sq p <= sq q)%Q. Proof. unfold sq. intros. nra. Qed.
Lemma sq_nonneg p : (0 <= sq p)%Q. Proof. unfold sq. nra. Qed.
Lemma pw_le p q : (0 <= p)%Q -> (p <= q)%Q -> (pw p <= pw q)%Q.
Proof. intros. unfold pw. do 7 (apply sq_le; [apply sq_nonneg |]). apply sq_le; auto. Qed.
Lemma pw_lt_inv p q : (0 <= q)%Q -> (pw p < pw q)%Q -> (p < q)%Q.
Proof. intros Hq H. apply Qnot_le_lt. intros L. pose proof (pw_le q p Hq L). lra. Qed.

(** lower and upper bounds of the 256th power of [y / 2^16], as a significand of 17 bits in units of 2^-16 and a power of two *)
Definition lsq (p : Z * Z) : Z * Z := let z := fst p * fst p / 2 ^ 16 in if 2 ^ 17 <=? z then (z / 2, 2 * snd p + 1) else (z, 2 * snd p).
Definition usq (p : Z * Z) : Z * Z := let z := fst p * fst p / 2 ^ 16 + 1 in if 2 ^ 17 <=? z then (z / 2 + 1, 2 * snd p + 1) else (z, 2 * snd p).
Definition lpw (y : Z) : Z * Z := lsq (lsq (lsq (lsq (lsq (lsq (lsq (lsq (y, 0)))))))).
Definition upw (y : Z) : Z * Z := usq (usq (usq (usq (usq (usq (usq (usq (y, 0)))))))).
Definition fx (y : Z) : Q := (inject_Z y * two (- 16))%Q.
Definition fk (p : Z * Z) : Q := (fx (fst p) * two (snd p))%Q.
(** 2^a is at most the lower bound; the upper bound is at most 2^a *)
Definition lchk1 (p : Z * Z) (a : Z) : bool := (2 ^ 16 <=? fst p) && (a <=? snd p).
Notation lchk y a := (lchk1 (lpw y) a).
Definition uchk1 (p : Z * Z) (a : Z) : bool := if fst p <=? 2 ^ 17 then snd p + 1 <=? a else (fst p <=? 2 ^ 18) && (snd p + 2 <=? a).
Notation uchk y a := (uchk1 (upw y) a).
Lemma fx_sq y : (sq (fx y) == inject_Z (y * y) * two (- 32))%Q.
Proof. unfold sq, fx. rewrite inject_Z_mult. change (two (- 32)) with (two (- 16) * two (- 16))%Q. ring. Qed.
Lemma fx_up y : (fx y == inject_Z (y * 2 ^ 16) * two (- 32))%Q.
Proof. unfold fx. rewrite <- tz_shift by lia. reflexivity. Qed.
Lemma fx_le y z : y <= z -> (fx y <= fx z)%Q. Proof. intros. now apply tz_le. Qed.
Lemma fx_nonneg y : 0 <= y -> (0 <= fx y)%Q.
Proof. intros. unfold fx. apply Qmult_le_0_compat; [change 0%Q with (inject_Z 0); rewrite <- Zle_Qle; lia | apply Qlt_le_weak, two_pos]. Qed.
Lemma fx_half y : (fx (2 * y) == fx y * two 1)%Q.
Proof. unfold fx. rewrite inject_Z_mult. change (two 1) with (inject_Z 2). ring. Qed.
Lemma fk_sq p : (sq (fk p) == sq (fx (fst p)) * two (2 * snd p))%Q.
Proof. unfold fk. rewrite sq_mul. unfold sq at 2. rewrite <- two_plus. replace (snd p + snd p) with (2 * snd p) by ring. reflexivity. Qed.
Lemma lsq_ok p q : 0 <= fst p -> (fk p <= q)%Q -> 0 <= fst (lsq p) /\ (fk (lsq p) <= sq q)%Q.
Proof.
  intros Hy H. assert (P0 : (0 <= fk p)%Q) by (unfold fk; apply Qmult_le_0_compat; [now apply fx_nonneg | apply Qlt_le_weak, two_pos]).
  pose proof (sq_le _ _ P0 H) as K. rewrite fk_sq in K. unfold lsq. destruct p as [y k]. cbn [fst snd] in *. set (z := y * y / 2 ^ 16). assert (Z0 : 0 <= z) by (apply Z.div_pos; nia).
  assert (A : (fx z <= sq (fx y))%Q). { rewrite fx_sq, fx_up. apply tz_le. unfold z. rewrite Z.mul_comm. apply Z.mul_div_le. lia. }
  pose proof (two_pos (2 * k)) as T. destruct (2 ^ 17 <=? z); cbn [fst snd].
  - split; [apply Z.div_pos; lia |]. eapply Qle_trans; [| exact K]. unfold fk. cbn [fst snd]. replace (2 * k + 1) with (1 + 2 * k) by ring. rewrite two_plus, Qmult_assoc. apply Qmult_le_r; [exact T |]. rewrite <- fx_half. eapply Qle_trans; [| exact A]. apply fx_le. apply Z.mul_div_le. lia.
  - split; [exact Z0 |]. eapply Qle_trans; [| exact K]. unfold fk. cbn [fst snd]. apply Qmult_le_r; [exact T | exact A].
Qed.
Lemma usq_ok p q : (0 <= q)%Q -> (q <= fk p)%Q -> (sq q <= fk (usq p))%Q.
Proof.
  intros Hq H. pose proof (sq_le _ _ Hq H) as K. rewrite fk_sq in K. eapply Qle_trans; [exact K |]. unfold usq. destruct p as [y k]. cbn [fst snd] in *. set (z := y * y / 2 ^ 16 + 1).
  assert (A : (sq (fx y) <= fx z)%Q). { rewrite fx_sq, fx_up. apply tz_le. unfold z. pose proof (Z.div_mod (y * y) (2 ^ 16) ltac:(lia)). pose proof (Z.mod_pos_bound (y * y) (2 ^ 16) ltac:(lia)). lia. }
  pose proof (two_pos (2 * k)) as T. destruct (2 ^ 17 <=? z); unfold fk; cbn [fst snd].
  - replace (2 * k + 1) with (1 + 2 * k) by ring. rewrite two_plus, Qmult_assoc. apply Qmult_le_r; [exact T |]. rewrite <- fx_half. eapply Qle_trans; [exact A |]. apply fx_le. pose proof (Z.div_mod z 2 ltac:(lia)). pose proof (Z.mod_pos_bound z 2 ltac:(lia)). lia.
  - apply Qmult_le_r; [exact T | exact A].
Qed.
Lemma fk_0 y : (fk (y, 0%Z) == fx y)%Q.
Proof. unfold fk. cbn [fst snd]. change (two 0) with 1%Q. ring. Qed.
Lemma lstep p q : 0 <= fst p /\ (fk p <= q)%Q -> 0 <= fst (lsq p) /\ (fk (lsq p) <= sq q)%Q.
Proof. intros [H1 H2]. now apply lsq_ok. Qed.
Lemma lpw_le y q : 0 <= y -> (fx y <= q)%Q -> (fk (lpw y) <= pw q)%Q.
Proof.
  intros Hy H. rewrite <- fk_0 in H. unfold lpw, pw. assert (A := lstep (y, 0) q (conj Hy H)). do 7 apply lstep in A. exact (proj2 A).
Qed.
Lemma upw_le y q : (0 <= q)%Q -> (q <= fx y)%Q -> (pw q <= fk (upw y))%Q.
Proof. intros Hq H. rewrite <- fk_0 in H. unfold upw, pw. do 7 (apply usq_ok; [apply sq_nonneg |]). now apply usq_ok. Qed.
Lemma fk_ge p a : lchk1 p a = true -> (two a <= fk p)%Q.
Proof.
  intros C. apply andb_prop in C. destruct C as [C1 C2]. apply Z.leb_le in C1, C2. unfold fk. apply Qle_trans with (two (snd p)); [now apply two_le |]. pose proof (two_pos (snd p)) as T.
  assert (1 <= fx (fst p))%Q. { apply Qle_trans with (fx (2 ^ 16)); [vm_compute; discriminate | now apply fx_le]. } nra.
Qed.
Lemma fk_le p a : uchk1 p a = true -> (fk p <= two a)%Q.
Proof.
  intros C. unfold uchk1 in C. destruct (fst p <=? 2 ^ 17) eqn:C1.
  - apply Z.leb_le in C1, C. unfold fk. apply Qle_trans with (two (1 + snd p)); [| apply two_le; lia]. rewrite two_plus. apply Qmult_le_r; [apply two_pos |]. apply Qle_trans with (fx (2 ^ 17)); [now apply fx_le | vm_compute; discriminate].
  - apply andb_prop in C. destruct C as [C2 C3]. apply Z.leb_le in C2, C3. unfold fk. apply Qle_trans with (two (2 + snd p)); [| apply two_le; lia]. rewrite two_plus. apply Qmult_le_r; [apply two_pos |]. apply Qle_trans with (fx (2 ^ 18)); [now apply fx_le | vm_compute; discriminate].
Qed.
Lemma lpw_ok y q a : 0 <= y -> (fx y <= q)%Q -> lchk y a = true -> (two a <= pw q)%Q.
Proof. intros Hy H C.  exact (Qle_trans _ _ _ (fk_ge (lpw y) a C) (lpw_le y q Hy H)). Qed.
Lemma upw_ok y q a : (0 <= q)%Q -> (q <= fx y)%Q -> uchk y a = true -> (pw q <= two a)%Q.
Proof. intros Hy H C.  exact (Qle_trans _ _ _ (upw_le y q Hy H) (fk_le (upw y) a C)). Qed.

(** ** the tables: every entry, checked by computation *)
Definition chkL (j : Z) : bool :=
  match xinterp LOG_TABLE j with
  | Ok v => (0 <=? v / 32) && (v / 32 <=? 2 ^ 24) && lchk ((2048 + j) * 32) (v / 32 / 2 ^ 16 - 2) && uchk ((2049 + j) * 32) (v / 32 / 2 ^ 16 + 3)
  | _ => false
  end.
Definition chkP (j : Z) : bool :=
  match xinterp POW_TABLE j with
  | Ok v => (2 ^ 24 <=? v / 32) && (v / 32 <? 2 ^ 25) && lchk (v / 32 / 2 ^ 8) (j / 8 - 1) && uchk (v / 32 / 2 ^ 8 + 1) (j / 8 + 2)
  | _ => false
  end.
Lemma forallb_range (p : Z -> bool) z : forallb p (map Z.of_nat (seq 0 (Z.to_nat z))) = true -> forall j, 0 <= j < z -> p j = true.
Proof.
  intros H j Hj. rewrite forallb_forall in H. apply H. apply in_map_iff. exists (Z.to_nat j). split; [lia |]. apply in_seq. lia.
Qed.
Lemma chkL_all j : 0 <= j < 2048 -> chkL j = true.
Proof. intros. apply (forallb_range chkL 2048); [vm_compute; reflexivity | lia]. Qed.
Lemma chkP_all j : 0 <= j < 2048 -> chkP j = true.
Proof. intros. apply (forallb_range chkP 2048); [vm_compute; reflexivity | lia]. Qed.
Lemma log_entry j : 0 <= j < 2048 -> exists v, xinterp LOG_TABLE j = Ok v /\ 0 <= v / 32 <= 2 ^ 24 /\
  (two (v / 32 / 2 ^ 16 - 2 + 2816) <= pw (inject_Z (2048 + j)) /\ pw (inject_Z (2049 + j)) <= two (v / 32 / 2 ^ 16 + 3 + 2816))%Q.
Proof.
  intros H. pose proof (chkL_all j H) as C. unfold chkL in C. destruct (xinterp LOG_TABLE j) as [v | |]; try discriminate. exists v.
  rewrite !andb_true_iff, !Z.leb_le in C. destruct C as [[[C1 C2] C3] C4]. split; [reflexivity |]. split; [auto |].
  assert (0 <= v / 32 / 2 ^ 16) by (apply Z.div_pos; lia).
  assert (F : forall z, (inject_Z z == fx (z * 32) * two 11)%Q) by (intros z; unfold fx; rewrite inject_Z_mult; change (two (- 16)) with (1 # 65536)%Q; change (two 11) with 2048%Q; change (inject_Z 32) with 32%Q; field).
  assert (T := two_pos 2816). rewrite !(pw_wd _ _ (F _)), !pw_mul, !pw_two. change (256 * 11) with 2816. rewrite !(two_plus _ 2816). split; apply Qmult_le_r; auto.
  - apply (lpw_ok ((2048 + j) * 32)); [lia | apply Qle_refl | exact C3].
  - apply (upw_ok ((2049 + j) * 32)); [apply fx_nonneg; lia | apply Qle_refl | exact C4].
Qed.
Lemma pow_entry j : 0 <= j < 2048 -> exists v, xinterp POW_TABLE j = Ok v /\ 2 ^ 24 <= v / 32 < 2 ^ 25 /\
  (two (j / 8 - 1 + 6144) <= pw (inject_Z (v / 32)) /\ pw (inject_Z (v / 32)) <= two (j / 8 + 2 + 6144))%Q.
Proof.
  intros H. pose proof (chkP_all j H) as C. unfold chkP in C. destruct (xinterp POW_TABLE j) as [v | |]; try discriminate. exists v.
  rewrite !andb_true_iff, !Z.leb_le, Z.ltb_lt in C. destruct C as [[[C1 C2] C3] C4]. split; [reflexivity |]. split; [auto |].
  assert (0 <= j / 8) by (apply Z.div_pos; lia). set (r := v / 32) in *. pose proof (Z.div_mod r (2 ^ 8) ltac:(lia)) as DM. pose proof (Z.mod_pos_bound r (2 ^ 8) ltac:(lia)) as MB.
  assert (F : (inject_Z r == inject_Z r * two (- 24) * two 24)%Q) by (change (two (- 24)) with (/ (two 24))%Q; field; apply two_nz).
  assert (G : forall z, (fx z == inject_Z (z * 2 ^ 8) * two (- 24))%Q) by (intros z; unfold fx; rewrite <- tz_shift by lia; reflexivity).
  assert (T := two_pos 6144). assert (E : (pw (inject_Z r) == pw (inject_Z r * two (- 24)) * two 6144)%Q) by (rewrite (pw_wd _ _ F), (pw_mul (inject_Z r * two (- 24)) (two 24)), (pw_two 24); reflexivity).
  rewrite E. rewrite !(two_plus _ 6144). split; apply Qmult_le_r; auto.
  - apply (lpw_ok (r / 2 ^ 8)); [apply Z.div_pos; lia | rewrite G; apply tz_le; lia | exact C3].
  - apply (upw_ok (r / 2 ^ 8 + 1)); [apply Qmult_le_0_compat; [change 0%Q with (inject_Z 0); rewrite <- Zle_Qle; lia | apply Qlt_le_weak, two_pos] | rewrite G; apply tz_le; lia | exact C4].
Qed.

(** ** the approximate logarithm and power: right to a few 256ths *)
Lemma div_2_16 e L : 0 <= L -> (e * 2 ^ 24 + L) / 2 ^ 16 = e * 2 ^ 8 + L / 2 ^ 16.
Proof. intros. replace (e * 2 ^ 24 + L) with (L + (e * 2 ^ 8) * 2 ^ 16) by ring. rewrite Z.div_add by lia. ring. Qed.
Lemma log2_ok s m e : sigr m -> expr e -> Z.abs (e - EXPC) < 2 ^ 36 ->
  exists l, xfast_log2 (xof s m e) = Ok l /\ Z.abs l < 2 ^ 60 + 2 ^ 32 /\ (two (l / 2 ^ 16 - 2) <= pw (xq m e) /\ pw (xq m e) <= two (l / 2 ^ 16 + 3))%Q.
Proof.
  intros Hm He B. unfold xfast_log2. rewrite xei_ok by (split; [now apply xof_wf | cbn [xe xof]; unfold EXPC in B; lia]). cbn [bind].
  change (xe (xof s m e)) with e. unfold sadd at 1. rewrite sres_ok by (change (64 - 1) with 63; lia). cbn [bind].
  unfold xof. cbn [xd]. rewrite xlow_of by auto.
  assert (Hj : 0 <= (m - SIGNM) / 2 ^ 116 < 2048).
  { unfold sigr in Hm. split; [apply Z.div_pos; lia |]. apply Z.div_lt_upper_bound; [lia |]. change (2 ^ 116 * 2048) with SIGNM. lia. }
  pose proof (Z.div_mod (m - SIGNM) (2 ^ 116) ltac:(lia)) as DM. pose proof (Z.mod_pos_bound (m - SIGNM) (2 ^ 116) ltac:(lia)) as MB. set (j := (m - SIGNM) / 2 ^ 116) in *.
  destruct (log_entry j Hj) as (v & -> & V1 & V2 & V3). cbn [bind]. set (L := v / 32) in *.
  rewrite casts_small by (change (64 - 1) with 63; lia). unfold sadd. rewrite sres_ok by (change (64 - 1) with 63; lia).
  eexists. split; [reflexivity |]. split; [lia |]. rewrite div_2_16 by lia.
  assert (LU : 0 <= L / 2 ^ 16) by (apply Z.div_pos; lia). set (u := L / 2 ^ 16) in *.
  assert (S116 : SIGNM = 2048 * 2 ^ 116) by reflexivity.
  assert (T := two_pos (e - EXPC + 116)).
  assert (Sc : forall z, (inject_Z (z * 2 ^ 116) * two (e - EXPC) == inject_Z z * two (e - EXPC + 116))%Q) by (intros z; rewrite <- tz_shift by lia; reflexivity).
  assert (Pw : forall z, (pw (inject_Z (z * 2 ^ 116) * two (e - EXPC)) == pw (inject_Z z) * two (256 * (e - EXPC + 116)))%Q) by (intros z; rewrite (pw_wd _ _ (Sc z)), pw_mul, pw_two; reflexivity).
  assert (T2 := two_pos (256 * (e - EXPC + 116))). split.
  - apply Qle_trans with (pw (inject_Z ((2048 + j) * 2 ^ 116) * two (e - EXPC))).
    + rewrite Pw. replace ((e - EXPC + 127) * 2 ^ 8 + u - 2) with (u - 2 + 2816 + 256 * (e - EXPC + 116)) by (change (2 ^ 8) with 256; ring). rewrite two_plus. apply Qmult_le_r; auto.
    + apply pw_le; [apply Qmult_le_0_compat; [change 0%Q with (inject_Z 0); rewrite <- Zle_Qle; lia | apply Qlt_le_weak, two_pos] |]. apply tz_le. lia.
  - apply Qle_trans with (pw (inject_Z ((2049 + j) * 2 ^ 116) * two (e - EXPC))).
    + apply pw_le; [apply Qlt_le_weak, xq_pos; auto |]. apply tz_le. lia.
    + rewrite Pw. replace ((e - EXPC + 127) * 2 ^ 8 + u + 3) with (u + 3 + 2816 + 256 * (e - EXPC + 116)) by (change (2 ^ 8) with 256; ring). rewrite two_plus. apply Qmult_le_r; auto.
Qed.
Lemma pow2_ok n : Z.abs n < 2 ^ 62 -> exists m, sigr m /\ xfast_pow2 n = Ok (xof false m (n / 2 ^ 24 + EXPC - 127)) /\
  (two (n / 2 ^ 16 - 1) <= pw (xq m (n / 2 ^ 24 + EXPC - 127)) /\ pw (xq m (n / 2 ^ 24 + EXPC - 127)) <= two (n / 2 ^ 16 + 2))%Q.
Proof.
  intros Hn. pose proof (Z.div_mod n (2 ^ 24) ltac:(lia)) as DM. pose proof (Z.mod_pos_bound n (2 ^ 24) ltac:(lia)) as MB. set (e := n / 2 ^ 24) in *. set (d := n mod 2 ^ 24) in *.
  assert (He : Z.abs e <= 2 ^ 38) by lia.
  assert (Hj : 0 <= d / 2 ^ 13 < 2048) by (split; [apply Z.div_pos; lia | apply Z.div_lt_upper_bound; lia]).
  destruct (pow_entry (d / 2 ^ 13) Hj) as (v & V0 & V1 & V2 & V3).
  assert (Run : xfast_pow2 n = Ok (mkX (xlow (v / 32 * 2 ^ 103)) (e + EXPC - 127))).
  { unfold xfast_pow2. fold d e. assert (C : (if n <? 0 then (if d <? 0 then let* d0 := sadd 64 d 16777216 in let* e0 := ssub 64 e 1 in Ok (d0, e0) else Ok (d, e)) else Ok (d, e)) = Ok (d, e)).
    { destruct (n <? 0); auto. destruct (Z.ltb_spec d 0); [lia | auto]. }
    rewrite C. cbn [bind]. rewrite castw_small by lia. unfold xfast_pow2_worker. rewrite V0. cbn [bind].
    rewrite shlw_ok by (rewrite ?P128; change (2 * SIGNM) with (2 ^ 25 * 2 ^ 103); lia). cbn [bind].
    unfold sadd. rewrite sres_ok by (change (64 - 1) with 63; unfold EXPC; lia). cbn [bind]. unfold ssub. rewrite sres_ok by (change (64 - 1) with 63; unfold EXPC; lia). cbn [bind].
    rewrite castw_small by (unfold EXPC; lia). reflexivity. }
  assert (Sg : sigr (v / 32 * 2 ^ 103)) by (unfold sigr; change SIGNM with (2 ^ 24 * 2 ^ 103); lia).
  exists (v / 32 * 2 ^ 103). split; [auto |]. split; [rewrite Run, xlow_sig by auto; reflexivity |].
  assert (D16 : n / 2 ^ 16 = e * 2 ^ 8 + d / 2 ^ 13 / 8).
  { rewrite DM, Z.mul_comm. rewrite div_2_16 by lia. f_equal. rewrite Z.div_div by lia. reflexivity. }
  rewrite D16. set (u := d / 2 ^ 13 / 8) in *. assert (0 <= u) by (apply Z.div_pos; lia).
  assert (Sc : (xq (v / 32 * 2 ^ 103) (e + EXPC - 127) == inject_Z (v / 32) * two (e - 24))%Q).
  { unfold xq. rewrite <- tz_shift by lia. replace (e + EXPC - 127 - EXPC + 103) with (e - 24) by ring. reflexivity. }
  rewrite !(pw_wd _ _ Sc), !pw_mul, !pw_two. assert (T2 := two_pos (256 * (e - 24))).
  replace (e * 2 ^ 8 + u - 1) with (u - 1 + 6144 + 256 * (e - 24)) by (change (2 ^ 8) with 256; ring).
  replace (e * 2 ^ 8 + u + 2) with (u + 2 + 6144 + 256 * (e - 24)) by (change (2 ^ 8) with 256; ring).
  rewrite (two_plus (u - 1 + 6144)), (two_plus (u + 2 + 6144)). split; apply Qmult_le_r; auto.
Qed.
