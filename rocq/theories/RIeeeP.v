(** Floats: inspection, exact conversion to Ratio, rounding conversion back. *)
From Coq Require Import Qpower Lqa.
From Verif Require Import Base USpec SSpec UFacts UBig UFun UStr UEq BBig BSpec BEq RBig RSpec REq RShrink RStr RStrP RIeee FSpec.
Local Open Scope Z_scope.

(** ** powers of two in Q *)
Lemma two_plus a b : (two (a + b) == two a * two b)%Q.
Proof. unfold two. apply Qpower_plus. discriminate. Qed.
Lemma two_Z a : 0 <= a -> (two a == inject_Z (2 ^ a))%Q.
Proof. intros H. unfold two. change (2 # 1) with (inject_Z 2). symmetry. now apply Zpower_Qpower. Qed.
Lemma two_pos a : (0 < two a)%Q.
Proof.
  assert (P : forall b, 0 <= b -> (0 < two b)%Q).
  { intros b Hb. rewrite two_Z by assumption. change 0%Q with (inject_Z 0). rewrite <- Zlt_Qlt. apply Z.pow_pos_nonneg; lia. }
  destruct (Z_le_gt_dec 0 a); [auto |]. replace a with (- (- a)) by ring. unfold two. rewrite Qpower_opp. apply Qinv_lt_0_compat, (P (- a)). lia.
Qed.
Lemma two_nz a : ~ (two a == 0)%Q.
Proof. pose proof (two_pos a). lra. Qed.
Lemma two_opp a : (two (- a) == / two a)%Q.
Proof. apply (Qmult_inj_l _ _ (two a)); [apply two_nz |]. rewrite <- two_plus, Z.add_opp_diag_r, Qmult_inv_r; [reflexivity | apply two_nz]. Qed.
Lemma two_S a : (two (a + 1) == 2 * two a)%Q.
Proof. rewrite two_plus. change (two 1) with 2%Q. ring. Qed.
Lemma two_P a : (two (a - 1) == two a / 2)%Q.
Proof. replace (a - 1) with (a + - (1)) by ring. rewrite two_plus. change (two (- (1))) with (/ 2)%Q. reflexivity. Qed.
Lemma two_le a b : a <= b -> (two a <= two b)%Q.
Proof.
  intros H. replace b with (a + (b - a)) by ring. rewrite two_plus. pose proof (two_pos a).
  assert (1 <= two (b - a))%Q. { rewrite two_Z by lia. change 1%Q with (inject_Z 1). rewrite <- Zle_Qle. pose proof (Z.pow_pos_nonneg 2 (b - a)); lia. }
  nra.
Qed.
Lemma two_lt a b : a < b -> (two a < two b)%Q.
Proof. intros H. pose proof (two_le (a + 1) b ltac:(lia)). rewrite two_S in H0. pose proof (two_pos a). lra. Qed.
Lemma two_lt_inv a b : (two a < two b)%Q -> a < b.
Proof. intros H. destruct (Z_lt_le_dec a b); auto. pose proof (two_le b a ltac:(lia)). lra. Qed.
(** the binary exponent is determined *)
Lemma binade x e e' : (two e <= x < two (e + 1))%Q -> (two e' <= x < two (e' + 1))%Q -> e = e'.
Proof.
  intros [A1 A2] [B1 B2]. assert (e < e' + 1) by (apply two_lt_inv; lra). assert (e' < e + 1) by (apply two_lt_inv; lra). lia.
Qed.

(** ** the formats *)
Definition fok (F : fmt) : Prop := F = F32 \/ F = F64.
Lemma fok_facts F : fok F ->
  fw F = 2 * (fw F / 2) /\ 2 * (fbias F + 1) = 2 ^ ebits (fw F) (fm F) /\ fbias F = ebias (fw F) (fm F) /\ 23 <= fm F /\ fm F + 9 <= fw F /\ fw F <= 64 /\
  127 <= fbias F <= 1023 /\ fm F < fbias F /\ (fw F = 32 /\ fm F = 23 \/ fw F = 64 /\ fm F = 52) /\ ebits (fw F) (fm F) + fm F = fw F - 1 /\ 8 <= ebits (fw F) (fm F).
Proof. intros [-> | ->]; vm_compute; intuition congruence. Qed.

Section Fmt.
Variable F : fmt.
Hypothesis HF : fok F.
Let W := fw F. Let M := fm F. Let bias := fbias F. Let E := ebits W M.
Let Hb : 2 * (bias + 1) = 2 ^ E. Proof. apply (fok_facts F HF). Qed.
Let Hb' : bias = ebias W M. Proof. apply (fok_facts F HF). Qed.
Let HM : 23 <= M. Proof. apply (fok_facts F HF). Qed.
Let HW : M + 9 <= W. Proof. apply (fok_facts F HF). Qed.
Let HW' : W <= 64. Proof. apply (fok_facts F HF). Qed.
Let HB : 127 <= bias <= 1023. Proof. apply (fok_facts F HF). Qed.
Let HMB : M < bias. Proof. apply (fok_facts F HF). Qed.
Let HC : W = 32 /\ M = 23 \/ W = 64 /\ M = 52. Proof. apply (fok_facts F HF). Qed.
Let HE : E + M = W - 1. Proof. apply (fok_facts F HF). Qed.
Let HE8 : 8 <= E. Proof. apply (fok_facts F HF). Qed.

Lemma fields n : 0 <= n < 2 ^ W -> n = Z.b2z (fsign W n) * 2 ^ (W - 1) + fexpo W M n * 2 ^ M + ffrac M n /\
  0 <= fexpo W M n < 2 ^ E /\ 0 <= ffrac M n < 2 ^ M.
Proof.
  intros Hn. unfold fsign, fexpo, ffrac. fold E.
  assert (P1 : 0 < 2 ^ M) by (apply Z.pow_pos_nonneg; lia). assert (P2 : 0 < 2 ^ E) by (apply Z.pow_pos_nonneg; lia).
  assert (E1 : 2 ^ (W - 1) = 2 ^ E * 2 ^ M) by (rewrite <- Z.pow_add_r, HE by lia; reflexivity).
  assert (E2 : 2 ^ W = 2 * 2 ^ (W - 1)) by (rewrite <- Z.pow_succ_r by lia; f_equal; lia).
  pose proof (Z.mod_pos_bound n (2 ^ M) P1). pose proof (Z.mod_pos_bound (n / 2 ^ M) (2 ^ E) P2).
  pose proof (Z.div_mod n (2 ^ M) ltac:(lia)) as D1. pose proof (Z.div_mod (n / 2 ^ M) (2 ^ E) ltac:(lia)) as D2.
  set (q := n / 2 ^ M) in *. set (k := q / 2 ^ E) in *. 
  assert (K : k = if 2 ^ (W - 1) <=? n then 1 else 0).
  { rewrite E1 in *. generalize dependent (2 ^ E). generalize dependent (2 ^ M). intros. zb; nia. }
  split; [| split; assumption]. destruct (Z.leb_spec (2 ^ (W - 1)) n); cbn [Z.b2z]; rewrite K in D2; rewrite E1; nia.
Qed.
Lemma neg_bit n : 0 <= n < 2 ^ W -> ~ fzero W M n -> (2 ^ (W - 1) <? n) = fsign W n.
Proof.
  intros Hn Hz. unfold fsign. zb; auto; try lia. exfalso. apply Hz. assert (n = 2 ^ (W - 1)) as -> by lia.
  assert (E1 : 2 ^ (W - 1) = 2 ^ E * 2 ^ M) by (rewrite <- Z.pow_add_r, HE by lia; reflexivity).
  assert (P1 : 0 < 2 ^ M) by (apply Z.pow_pos_nonneg; lia). assert (P2 : 0 < 2 ^ E) by (apply Z.pow_pos_nonneg; lia).
  unfold fzero, fexpo, ffrac. fold E. rewrite E1, Z.div_mul, Z.mod_mul, Z.mod_same by lia. auto.
Qed.

(** ** inspection *)
Definition insp (n : Z) : rslt (bool * Z * Z) cerr :=
  if fexpo W M n =? 0 then
    if ffrac M n =? 0 then ROk (false, - 2 ^ 31, 0)
    else let k := M - Z.log2 (ffrac M n) in ROk (fsign W n, 1 - bias - k, ffrac M n * 2 ^ k - 2 ^ M)
  else if fexpo W M n =? 2 ^ E - 1 then
    if ffrac M n =? 0 then RErr (if fsign W n then NegInfinity else Infinity) else RErr NotANumber
  else ROk (fsign W n, fexpo W M n - bias, ffrac M n).
Lemma log2_frac f : 0 < f < 2 ^ M -> 0 <= Z.log2 f < M /\ 2 ^ M <= f * 2 ^ (M - Z.log2 f) < 2 ^ (M + 1).
Proof.
  intros Hf. pose proof (Z.log2_nonneg f). assert (Z.log2 f < M) by (apply Z.log2_lt_pow2; lia). split; [lia |].
  pose proof (Z.log2_spec f ltac:(lia)) as [L1 L2]. replace (2 ^ M) with (2 ^ Z.log2 f * 2 ^ (M - Z.log2 f)) by (rewrite <- Z.pow_add_r by lia; f_equal; lia).
  replace (2 ^ (M + 1)) with (2 ^ Z.succ (Z.log2 f) * 2 ^ (M - Z.log2 f)) by (rewrite <- Z.pow_add_r by lia; f_equal; lia).
  assert (0 < 2 ^ (M - Z.log2 f)) by (apply Z.pow_pos_nonneg; lia). nia.
Qed.
Lemma inspect_ok n : 0 <= n < 2 ^ W -> inspect_ieee754 F n = Ok (insp n).
Proof.
  intros Hn. destruct (fields n Hn) as (_ & HX & HR). pose proof (neg_bit n Hn) as NB.
  unfold inspect_ieee754, insp. fold W M bias. rewrite Hb. change ((n / 2 ^ M) mod 2 ^ E) with (fexpo W M n). change (n mod 2 ^ M) with (ffrac M n).
  set (x := fexpo W M n) in *. set (f := ffrac M n) in *.
  replace (x - bias =? - bias) with (x =? 0) by (zb; auto; lia). replace (x - bias =? bias + 1) with (x =? 2 ^ E - 1) by (zb; auto; lia).
  destruct (Z.eqb_spec x 0) as [X0 | X0].
  - unfold sadd. rewrite sres_ok by (change (2 ^ (32 - 1)) with 2147483648; lia). cbn [bind]. destruct (Z.eqb_spec f 0) as [F0 | F0]; [reflexivity |].
    destruct (Z.ltb_spec f (2 ^ M)); [| lia]. destruct (log2_frac f ltac:(lia)) as [L1 L2].
    assert (2 ^ (M + 1) <= 2 ^ W) by (apply Z.pow_le_mono_r; lia). assert (0 < 2 ^ M) by (apply Z.pow_pos_nonneg; lia).
    rewrite subw_ok by lia. cbn [bind]. rewrite shlw_ok by lia. cbn [bind]. unfold ssub.
    rewrite sres_ok by (change (2 ^ (32 - 1)) with 2147483648; lia). cbn [bind]. rewrite subw_ok by lia. cbn [bind].
    rewrite NB by (unfold fzero; lia). replace (x - bias + 1) with (1 - bias) by lia. reflexivity.
  - rewrite NB by (unfold fzero; lia). destruct (x =? 2 ^ E - 1); [| reflexivity]. destruct (f =? 0); [| reflexivity]. now destruct (fsign W n).
Qed.

(** ** Float to Ratio *)
Lemma bfrom_sw_ok z : 0 <= z < 2 ^ (M + 1) -> bfrom_sw F z = Ok (bof z).
Proof.
  intros Hz. unfold bfrom_sw. fold W. destruct HC as [[-> EM] | [-> EM]]; rewrite EM in Hz; cbn [Z.eqb Pos.eqb]; rewrite casts_small by lia.
  - apply Bfrom_i32. lia. - apply Bfrom_i64. lia.
Qed.
Lemma from_ok n : 0 <= n < 2 ^ W -> from_ieee754 F n =
  Ok (if fexpo W M n =? 2 ^ E - 1 then RErr (if ffrac M n =? 0 then if fsign W n then NegInfinity else Infinity else NotANumber) else ROk (rof (fvalue W M n))).
Proof.
  intros Hn. destruct (fields n Hn) as (_ & HX & HR). unfold from_ieee754. rewrite inspect_ok by assumption. unfold insp.
  assert (P2 : 2 ^ 8 <= 2 ^ E) by (apply Z.pow_le_mono_r; lia). change (2 ^ 8) with 256 in P2.
  assert (PM : 0 < 2 ^ M) by (apply Z.pow_pos_nonneg; lia).
  (* the common tail *)
  assert (T : forall (neg : bool) (e f : Z) (v : Q), - 2000 <= e <= 2000 -> 0 <= f < 2 ^ M -> (v == inject_Z (2 ^ M + f) * two (e - M))%Q ->
    (if e =? - 2 ^ 31 then Ok (ROk rzero : rslt rat cerr)
    else if fm F <=? e then
      let* m := addw (fw F) f (2 ^ fm F) in
      let* numer := bfrom_sw F m in
      let* sh := ssub 32 e (fm F) in
      let* numer := bmul_pow2_mut numer (castw 32 sh) in
      let numer := if neg then bopp_mut numer else numer in
      Ok (ROk (rfrom_bi numer))
    else
      let* m := addw (fw F) f (2 ^ fm F) in
      let* numer := bfrom_sw F m in
      let* sh := ssub 32 (fm F) e in
      let denom := bpow2 (castw 32 sh) in
      let numer := if neg then bopp_mut numer else numer in
      let* r := from_dn denom numer in
      Ok (ROk r)) = Ok (ROk (rof (if neg then (- v)%Q else v)))).
  { intros neg e f v He Hf V. fold W M. destruct (Z.eqb_spec e (- 2 ^ 31)); [lia |].
    assert (2 ^ (M + 1) = 2 * 2 ^ M) by (rewrite Z.pow_add_r by lia; lia). assert (2 ^ (M + 1) <= 2 ^ W) by (apply Z.pow_le_mono_r; lia).
    rewrite addw_ok by lia. cbn [bind]. rewrite bfrom_sw_ok by lia. cbn [bind].
    destruct (Z.leb_spec M e) as [L | L]; unfold ssub; rewrite sres_ok by (change (2 ^ (32 - 1)) with 2147483648; lia); cbn [bind]; unfold castw; rewrite Z.mod_small by lia.
    - rewrite Bmul_pow2_mut by lia. cbn [bind]. rewrite two_Z, <- inject_Z_mult in V by lia.
      destruct neg; rewrite ?Bopp_mut, Rfrom_bi; do 2 f_equal; apply rof_qeq; rewrite V, ?inject_Z_opp, (Z.add_comm f); reflexivity.
    - rewrite Bpow2 by lia. assert (0 < 2 ^ (M - e)) by (apply Z.pow_pos_nonneg; lia).
      replace (e - M) with (- (M - e)) in V by lia. rewrite two_opp, two_Z in V by lia.
      destruct neg; rewrite ?Bopp_mut, from_dn_ok by lia; cbn [bind]; do 2 f_equal; apply rof_qeq; rewrite V, ?inject_Z_opp, (Z.add_comm f); unfold Qdiv; ring. }
  unfold fvalue, fabs. set (x := fexpo W M n) in *. set (f := ffrac M n) in *. rewrite <- Hb'.
  destruct (Z.eqb_spec x 0) as [X0 | X0].
  - destruct (Z.eqb_spec x (2 ^ E - 1)); [lia |]. destruct (Z.eqb_spec f 0) as [F0 | F0].
    + cbn -[Z.pow rzero]. rewrite Z.eqb_refl. rewrite Rzero, F0. do 2 f_equal. apply rof_qeq. destruct (fsign W n); change (inject_Z 0) with 0%Q; ring.
    + destruct (log2_frac f ltac:(lia)) as [L1 L2]. assert (2 ^ (M + 1) = 2 * 2 ^ M) by (rewrite Z.pow_add_r by lia; lia).
      unfold rbind. cbn [bind]. apply T; [lia | lia |].
      replace (2 ^ M + (f * 2 ^ (M - Z.log2 f) - 2 ^ M)) with (f * 2 ^ (M - Z.log2 f)) by ring. rewrite inject_Z_mult, <- two_Z, <- Qmult_assoc, <- two_plus by lia.
      replace (M - Z.log2 f + (1 - bias - (M - Z.log2 f) - M)) with (1 - bias - M) by ring. reflexivity.
  - destruct (Z.eqb_spec x (2 ^ E - 1)).
    + destruct (f =? 0); reflexivity.
    + unfold rbind. cbn [bind]. apply T; [lia | lia | reflexivity].
Qed.

(** ** Ratio to float *)
Lemma approx_log x : ~ (x == 0)%Q -> let l := Z.log2 (Z.abs (qn x)) - Z.log2 (qd x) in (two (l - 1) < Qabs x /\ Qabs x < two (l + 1))%Q.
Proof.
  intros Hx l. assert (N : qn x <> 0). { pose proof (qn_zero x). intros E0. apply Hx. rewrite E0 in H. unfold Qeq. cbn. zb; try discriminate; lia. }
  assert (V : (Qabs x == inject_Z (Z.abs (qn x)) / inject_Z (qd x))%Q).
  { rewrite (qval x) at 1. unfold Qdiv. rewrite Qabs_Qmult, Qabs_Qinv. assert (A : forall z, Qabs (inject_Z z) = inject_Z (Z.abs z)) by reflexivity.
    rewrite !A. rewrite (Z.abs_eq (qd x)) by lia. reflexivity. }
  set (n := Z.abs (qn x)) in *. assert (Hn : 0 < n) by (unfold n; lia). set (d := qd x) in *. assert (Hd : 0 < d) by (unfold d; lia). clearbody n d.
  pose proof (Z.log2_nonneg n). pose proof (Z.log2_nonneg d).
  pose proof (Z.log2_spec n Hn) as [N1 N2]. pose proof (Z.log2_spec d Hd) as [D1 D2].
  rewrite Zle_Qle, <- two_Z in N1, D1 by lia. rewrite Zlt_Qlt, <- two_Z in N2, D2 by lia. rewrite <- Z.add_1_r in N2, D2. rewrite two_S in N2, D2.
  assert (TL : (two l * two (Z.log2 d) == two (Z.log2 n))%Q) by (rewrite <- two_plus; replace (l + Z.log2 d) with (Z.log2 n) by (unfold l; ring); reflexivity).
  assert (Hd' : (0 < inject_Z d)%Q) by (change 0%Q with (inject_Z 0); rewrite <- Zlt_Qlt; lia).
  pose proof (two_pos l). pose proof (two_pos (Z.log2 d)). pose proof (two_pos (Z.log2 n)).
  rewrite V, two_P, two_S. split.
  - apply Qlt_shift_div_l; [assumption |]. apply (Qmult_lt_l _ _ (two l)) in D2; [| assumption]. unfold Qdiv. change (/ 2)%Q with (1 # 2)%Q. lra.
  - apply Qlt_shift_div_r; [assumption |]. apply (Qmult_le_l _ _ (two l)) in D1; [| assumption]. lra.
Qed.

Definition norm_down := (fun (go : rat * Z -> res (rat * Z)) '(s, exp) =>
    if rgt_one s then let* s := rdiv_i32_mut s 2 in let* exp := sadd 32 exp 1 in go (s, exp)
    else Ok (s, exp)).
Definition norm_up := (fun (go : rat * Z -> res (rat * Z)) '(s, exp) =>
    if rlt_one s then let* s := rmul_i32_mut s 2 in let* exp := ssub 32 exp 1 in go (s, exp)
    else Ok (s, exp)).
Lemma norm_down_ok y e : (two (- (3)) < y < two 3)%Q -> Z.abs e < 2 ^ 31 - 10 ->
  returns (loopn 5 norm_down (rof y, e)) (fun '(s, e') => exists y', s = rof y' /\ (y' * two e' == y * two e)%Q /\ (two (- (3)) < y' <= 1)%Q /\ Z.abs (e' - e) <= 3).
Proof.
  intros Hy He.
  apply (loopn_spec_i norm_down
    (fun k '(s, e1) => exists y1, s = rof y1 /\ (y1 * two e1 == y * two e)%Q /\ (two (- (3)) < y1 < two k)%Q /\ e <= e1 /\ e1 + k = e + 3)
    (fun k _ '(s, e') => exists y', s = rof y' /\ (y' * two e' == y * two e)%Q /\ (two (- (3)) < y' <= 1)%Q /\ Z.abs (e' - e) <= 3) ) with (k := 3).
  - clear Hy. intros g k [s e1] (y1 & -> & V & Y1 & E1 & E2) Hk IH. unfold norm_down. rewrite Rgt_one. destruct (qltb_qlt 1 y1) as [G | G].
    + assert (1 <= k) by (destruct (Z.eq_dec k 0) as [-> | ?]; [change (two 0) with 1%Q in Y1; lra | lia]).
      rewrite Rdiv_i32_mut; [| unfold i32r; lia | lia]. cbn [bind]. unfold sadd. rewrite sres_ok by (change (2 ^ (32 - 1)) with 2147483648; lia). cbn [bind].
      refine (returns_weaken _ _ _ (IH (k - 1) (_, e1 + 1) _ _) (fun a H => H)).
      * exists (y1 / inject_Z 2)%Q. change (inject_Z 2) with 2%Q. split; [reflexivity |]. split; [rewrite two_S, <- V; field |].
        rewrite two_P. split; [| lia]. change (two (- (3))) with (1 # 8)%Q. change (inject_Z 2) with 2%Q. unfold Qdiv. change (/ 2)%Q with (1#2)%Q. split; lra.
      * lia.
    + apply returns_ok. exists y1. split; [reflexivity |]. split; [assumption |]. split; [lra | lia].
  - exists y. split; [reflexivity |]. split; [reflexivity |]. split; [assumption | lia].
  - lia.
Qed.
Lemma norm_up_ok y e : (two (- (3)) < y < 2)%Q -> Z.abs e < 2 ^ 31 - 10 ->
  returns (loopn 5 norm_up (rof y, e)) (fun '(s, e') => exists y', s = rof y' /\ (y' * two e' == y * two e)%Q /\ (1 <= y' < 2)%Q /\ Z.abs (e' - e) <= 3).
Proof.
  intros Hy He.
  apply (loopn_spec_i norm_up
    (fun k '(s, e1) => exists y1, s = rof y1 /\ (y1 * two e1 == y * two e)%Q /\ (two (- k) < y1 < 2)%Q /\ e1 <= e /\ e1 - k = e - 3)
    (fun k _ '(s, e') => exists y', s = rof y' /\ (y' * two e' == y * two e)%Q /\ (1 <= y' < 2)%Q /\ Z.abs (e' - e) <= 3) ) with (k := 3).
  - clear Hy. intros g k [s e1] (y1 & -> & V & Y1 & E1 & E2) Hk IH. unfold norm_up. rewrite Rlt_one. destruct (qltb_qlt y1 1) as [G | G].
    + assert (1 <= k) by (destruct (Z.eq_dec k 0) as [-> | ?]; [change (two (- 0)) with 1%Q in Y1; lra | lia]).
      rewrite Rmul_i32_mut by (unfold i32r; lia). cbn [bind]. unfold ssub. rewrite sres_ok by (change (2 ^ (32 - 1)) with 2147483648; lia). cbn [bind].
      refine (returns_weaken _ _ _ (IH (k - 1) (_, e1 - 1) _ _) (fun a H => H)).
      * exists (y1 * inject_Z 2)%Q. change (inject_Z 2) with 2%Q. split; [reflexivity |]. split; [rewrite two_P, <- V; field |].
        split; [| lia]. replace (- (k - 1)) with (- k + 1) by ring. rewrite two_S. change (inject_Z 2) with 2%Q. split; lra.
      * lia.
    + apply returns_ok. exists y1. split; [reflexivity |]. split; [assumption |]. split; [lra | lia].
  - exists y. split; [reflexivity |]. split; [reflexivity |]. split; [assumption | lia].
  - lia.
Qed.

(** the rounded mantissa, and what becomes of it *)
Definition rnd (y : Q) : Z :=
  let t := ((y - 1) * inject_Z (2 ^ M))%Q in qtrunc t + (if qltb (1 # 2) (t - inject_Z (qtrunc t)) then 1 else 0).
Definition fin (neg : bool) (e R : Z) : rslt Z cerr :=
  if e <? 1 - bias then
    let g := (R + 2 ^ M) * 16 in
    let g := if e <? - bias then g / 2 ^ Z.min (- bias - e) (W - 1) else g in
    let fr := if 15 <? g mod 32 then g / 32 + 1 else g / 32 in
    if fr =? 0 then ROk 0 else ROk (Z.lor (Z.lor (Z.b2z neg * 2 ^ (W - 1)) 0) fr)
  else if 2 * bias + 1 <? e + bias then RErr NotInRange
  else ROk (Z.lor (Z.lor (Z.b2z neg * 2 ^ (W - 1)) ((e + bias) * 2 ^ M)) R).
Lemma qtrunc_bounds t : (0 <= t)%Q -> (inject_Z (qtrunc t) <= t < inject_Z (qtrunc t) + 1)%Q /\ 0 <= qtrunc t.
Proof.
  intros Ht. unfold qtrunc. assert (0 <= Qnum t) by (unfold Qle in Ht; cbn in Ht; lia). rewrite Z.quot_div_nonneg by lia.
  pose proof (Z.div_mod (Qnum t) (QDen t) ltac:(lia)) as D. pose proof (Z.mod_pos_bound (Qnum t) (QDen t) ltac:(lia)) as Bd. pose proof (Z.div_pos (Qnum t) (QDen t) ltac:(lia) ltac:(lia)).
  generalize dependent (Qnum t / QDen t). generalize dependent (Qnum t mod QDen t). intros r Br q D Hq.
  unfold Qle, Qlt, Qplus, inject_Z. cbn [Qnum Qden]. split; [split |]; nia.
Qed.
Lemma rnd_ok y : (1 <= y < 2)%Q -> 0 <= rnd y <= 2 ^ M /\ (Qabs (inject_Z (rnd y) - (y - 1) * inject_Z (2 ^ M)) <= 1 # 2)%Q /\
  (rnd y = 2 ^ M -> (inject_Z (2 ^ M) - (1 # 2) < (y - 1) * inject_Z (2 ^ M))%Q).
Proof.
  intros Hy. unfold rnd. assert (PM : 0 < 2 ^ M) by (apply Z.pow_pos_nonneg; lia). assert (PQ : (0 < inject_Z (2 ^ M))%Q) by (change 0%Q with (inject_Z 0); rewrite <- Zlt_Qlt; lia).
  set (t := ((y - 1) * inject_Z (2 ^ M))%Q). assert (Ht : (0 <= t < inject_Z (2 ^ M))%Q) by (unfold t; split; nra).
  destruct (qtrunc_bounds t ltac:(lra)) as [[B1 B2] B3]. assert (B4 : qtrunc t < 2 ^ M) by (rewrite Zlt_Qlt; lra). clearbody t.
  destruct (qltb_qlt (1 # 2) (t - inject_Z (qtrunc t))) as [G | G].
  - split; [lia |]. split; [rewrite inject_Z_plus; change (inject_Z 1) with 1%Q; apply Qabs_Qle_condition; split; lra |].
    intros EQ. assert (EQ' : (inject_Z (2 ^ M) == inject_Z (qtrunc t) + 1)%Q) by (rewrite <- EQ, inject_Z_plus; reflexivity). lra.
  - rewrite Z.add_0_r. split; [lia |]. split; [apply Qabs_Qle_condition; split; lra |]. lia.
Qed.
Lemma rnd_exact y z : (1 <= y < 2)%Q -> ((y - 1) * inject_Z (2 ^ M) == inject_Z z)%Q -> rnd y = z.
Proof.
  intros Hy V. unfold rnd. assert (0 < inject_Z (2 ^ M))%Q by (change 0%Q with (inject_Z 0); rewrite <- Zlt_Qlt; apply Z.pow_pos_nonneg; lia).
  assert (T0 : (0 <= (y - 1) * inject_Z (2 ^ M))%Q) by nra. set (t := ((y - 1) * inject_Z (2 ^ M))%Q) in *. clearbody t.
  destruct (qtrunc_bounds t T0) as [[B1 B2] _]. assert (T : qtrunc t = z).
  { assert (C1 : (inject_Z (qtrunc t) <= inject_Z z)%Q) by lra. assert (C2 : (inject_Z z < inject_Z (qtrunc t) + inject_Z 1)%Q) by (change (inject_Z 1) with 1%Q; lra).
    rewrite <- inject_Z_plus, <- Zlt_Qlt in C2. rewrite <- Zle_Qle in C1. lia. }
  rewrite T. destruct (qltb_qlt (1 # 2) (t - inject_Z z)); [lra | lia].
Qed.

Lemma rmul_mant_ok q : rmul_mant F (rof q) = Ok (rof (q * inject_Z (2 ^ M))).
Proof.
  unfold rmul_mant. fold W M. destruct HC as [[-> EM] | [-> EM]]; rewrite EM; cbn [Z.eqb Pos.eqb].
  - apply Rmul_i32. unfold i32r. lia.
  - rewrite Bfrom_i64 by lia. cbn [bind]. apply Rmul_bi.
Qed.
Lemma bto_w_ok z : 0 <= z <= 2 ^ M -> bto_w F (bof z) = Ok z.
Proof.
  intros Hz. unfold bto_w. fold W. destruct HC as [[-> EM] | [-> EM]]; rewrite EM in Hz; cbn [Z.eqb Pos.eqb].
  - rewrite Bto_i32. unfold in_s. change (2 ^ (32 - 1)) with 2147483648. change (2 ^ 23) with 8388608 in Hz. zb; try lia. cbn [andb unwrap bind]. unfold castw. rewrite Z.mod_small by lia. reflexivity.
  - rewrite Bto_i64. unfold in_s. change (2 ^ (64 - 1)) with 9223372036854775808. change (2 ^ 52) with 4503599627370496 in Hz. zb; try lia. cbn [andb unwrap bind]. unfold castw. rewrite Z.mod_small by lia. reflexivity.
Qed.
(** the part after normalisation *)
Lemma tail_ok neg e y : (1 <= y < 2)%Q -> Z.abs e < 2 ^ 31 - 2000 ->
  (let* m := rsub_i32 (rof y) 1 in
  let* m := rmul_mant F m in
  let* '(frac, frac_rem) := rtruncate_and_frac m in
  let* half := from_dn_i32 2 1 in
  let* up := rgt frac_rem half in
  let* frac := if (up : bool) then badd_i32_mut frac 1 else Ok frac in
  let* frac := bto_w F frac in
  let* '(exp, frac, done) :=
    if e <? 1 - fbias F then
      let* frac := addw (fw F) frac (2 ^ fm F) in
      let* frac := mulw (fw F) frac 16 in
      let* '(exp, frac) :=
        if e <? - fbias F then
          let* sh := ssub 32 (- fbias F) e in
          let* frac := shrw (fw F) frac (Z.min sh (fw F - 1)) in
          Ok (- fbias F, frac)
        else Ok (e, frac) in
      let* frac := if 15 <? frac mod 32 then addw (fw F) (frac / 32) 1 else Ok (frac / 32) in
      Ok (exp, frac, frac =? 0)
    else Ok (e, frac, false) in
  if (done : bool) then Ok (ROk 0) else
  let* exp := sadd 32 exp (fbias F) in
  if (exp <? 0) || (2 * fbias F + 1 <? exp) then Ok (RErr NotInRange) else
  let* h := shlw (fw F) (Z.b2z neg) (fw F - 1) in
  let* x := shlw (fw F) exp (fm F) in
  Ok (ROk (Z.lor (Z.lor h x) frac))) = Ok (fin neg e (rnd y)).
Proof.
  intros Hy He. destruct (rnd_ok y Hy) as (R1 & _ & _). fold W M bias.
  rewrite Rsub_i32 by (unfold i32r; lia). cbn [bind]. rewrite rmul_mant_ok. cbn [bind]. rewrite Rtruncate_and_frac. cbn [bind].
  rewrite from_dn_i32_ok by (unfold i32r; lia). cbn [bind]. rewrite Rgt. cbn [bind].
  assert (RE : rnd y = let t := ((y - inject_Z 1) * inject_Z (2 ^ M))%Q in qtrunc t + (if qltb (inject_Z 1 / inject_Z 2) (t - inject_Z (qtrunc t)) then 1 else 0)) by reflexivity.
  cbv zeta in RE. set (t := ((y - inject_Z 1) * inject_Z (2 ^ M))%Q) in *. clearbody t.
  match goal with |- bind ?m _ = _ => assert (ST : m = Ok (bof (rnd y))) end.
  { rewrite RE. destruct (qltb _ _); [apply Badd_i32_mut; unfold i32r; lia | now rewrite Z.add_0_r]. }
  rewrite ST. cbn [bind]. clear ST RE. rewrite bto_w_ok by assumption. cbn [bind]. set (R := rnd y) in *. clearbody R. clear t Hy y.
  assert (PM : 0 < 2 ^ M) by (apply Z.pow_pos_nonneg; lia). assert (E6 : 2 ^ (M + 6) = 64 * 2 ^ M) by (rewrite Z.pow_add_r by lia; lia).
  assert (E7 : 2 ^ (M + 6) <= 2 ^ W) by (apply Z.pow_le_mono_r; lia). assert (E8 : 2 ^ (W - 1) + 2 ^ (W - 1) = 2 ^ W) by (rewrite Z.add_diag, <- Z.pow_succ_r by lia; f_equal; lia).
  assert (HH : shlw W (Z.b2z neg) (W - 1) = Ok (Z.b2z neg * 2 ^ (W - 1))).
  { rewrite shlw_ok; [reflexivity | lia |]. destruct neg; cbn [Z.b2z]; lia. }
  assert (HX : forall x, 0 <= x <= 2 * bias + 1 -> shlw W x M = Ok (x * 2 ^ M)).
  { intros x Hx. rewrite shlw_ok; [reflexivity | lia |]. assert (E9 : 2 ^ (W - 1) = 2 ^ E * 2 ^ M) by (rewrite <- Z.pow_add_r, HE by lia; reflexivity). nia. }
  unfold fin. destruct (Z.ltb_spec e (1 - bias)) as [S | S].
  - rewrite addw_ok by lia. cbn [bind]. rewrite mulw_ok by lia. cbn [bind].
    set (g := (R + 2 ^ M) * 16) in *. set (g2 := if e <? - bias then g / 2 ^ Z.min (- bias - e) (W - 1) else g).
    match goal with |- bind ?m _ = _ => assert (ST : m = Ok (- bias, (if 15 <? g2 mod 32 then g2 / 32 + 1 else g2 / 32), (if 15 <? g2 mod 32 then g2 / 32 + 1 else g2 / 32) =? 0)) end.
    { assert (G2 : 0 <= g2 <= g /\ (if e <? - bias then let* sh := ssub 32 (- bias) e in let* frac := shrw W g (Z.min sh (W - 1)) in Ok (- bias, frac) else Ok (e, g)) = Ok (- bias, g2)).
      { unfold g2. destruct (Z.ltb_spec e (- bias)).
        - assert (0 < 2 ^ Z.min (- bias - e) (W - 1)) by (apply Z.pow_pos_nonneg; lia). split.
          + split; [apply Z.div_pos; lia | apply Z.div_le_upper_bound; [lia | nia]].
          + unfold ssub. rewrite sres_ok by (change (2 ^ (32 - 1)) with 2147483648; lia). cbn [bind]. rewrite shrw_ok by lia. reflexivity.
        - split; [lia |]. do 2 f_equal. lia. }
      destruct G2 as [G2 ->]. cbn [bind]. assert (0 <= g2 / 32 <= g2) by (split; [apply Z.div_pos; lia | apply Z.div_le_upper_bound; lia]).
      destruct (15 <? g2 mod 32); [rewrite addw_ok by lia |]; reflexivity. }
    rewrite ST. cbn [bind]. set (fr := if 15 <? g2 mod 32 then g2 / 32 + 1 else g2 / 32). destruct (fr =? 0); [reflexivity |].
    unfold sadd. rewrite sres_ok by (change (2 ^ (32 - 1)) with 2147483648; lia). cbn [bind]. rewrite Z.add_opp_diag_l. destruct (Z.ltb_spec (2 * bias + 1) 0); [lia |]. cbn [orb Z.ltb Z.compare].
    rewrite HH. cbn [bind]. rewrite HX by lia. reflexivity.
  - cbn [bind]. unfold sadd. rewrite sres_ok by (change (2 ^ (32 - 1)) with 2147483648; lia). cbn [bind]. destruct (Z.ltb_spec (e + bias) 0); [lia |]. cbn [orb].
    destruct (Z.ltb_spec (2 * bias + 1) (e + bias)); [reflexivity |]. rewrite HH. cbn [bind]. rewrite HX by lia. reflexivity.
Qed.

Definition small (x : Q) : Prop := Z.log2 (Z.abs (qn x)) < 2 ^ 30 /\ Z.log2 (qd x) < 2 ^ 30.
Lemma len_small z : 0 < z -> Z.log2 z < 2 ^ 30 -> Z.of_nat (length (uof z)) < 2 ^ 58.
Proof.
  intros Hz Hl. pose proof (Z.log2_nonneg z). pose proof (Z.log2_spec z Hz) as [_ L]. rewrite <- Z.add_1_r in L. set (k := Z.log2 z + 1) in *. assert (0 <= k <= 2 ^ 30) by (unfold k; lia). clearbody k.
  pose proof (len_uof_log z k ltac:(lia) ltac:(lia)). assert (k / 32 <= k) by (apply Z.div_le_upper_bound; lia). lia.
Qed.
Definition alog (x : Q) : Z := Z.log2 (Z.abs (qn x)) - Z.log2 (qd x).
Lemma to_ok x : ~ (x == 0)%Q -> small x ->
  exists e y, (1 <= y < 2)%Q /\ (y * two e == Qabs x)%Q /\
  to_ieee754 F (rof x) = Ok (if bias + 1 <? alog x then RErr NotInRange else fin (qltb x 0) e (rnd y)).
Proof.
  intros Hx [S1 S2]. assert (N : qn x <> 0). { pose proof (qn_zero x). intros E0. apply Hx. rewrite E0 in H. unfold Qeq. cbn. zb; try discriminate; lia. }
  pose proof (approx_log x Hx) as AL. cbv zeta in AL. fold (alog x) in AL.
  pose proof (Z.log2_nonneg (Z.abs (qn x))). pose proof (Z.log2_nonneg (qd x)).
  pose proof (len_small (Z.abs (qn x)) ltac:(lia) S1) as LL1. pose proof (len_small (Z.abs (qd x)) ltac:(lia) ltac:(rewrite Z.abs_eq by lia; exact S2)) as LL2.
  assert (HA : - 2 ^ 30 < alog x < 2 ^ 30) by (unfold alog; lia).
  unfold to_ieee754. rewrite Ris_zero. destruct (qeqb_qeq x 0) as [Z0 | _]; [contradiction |]. rewrite Ris_neg, rnum_rof, rden_rof, !Blog2 by assumption. cbn [bind].
  rewrite (Z.abs_eq (qd x)) by lia. rewrite Bsub. cbn [bind]. fold (alog x). fold bias. rewrite Bgt_i32 by (unfold i32r; lia). cbn [bind].
  assert (SX : (if qltb x 0 then ropp_mut (rof x) else rof x) = rof (Qabs x)).
  { destruct (qltb_qlt x 0); rewrite ?Ropp_mut; apply rof_qeq; symmetry; [apply Qabs_neg | apply Qabs_pos]; lra. }
  rewrite SX. set (neg := qltb x 0) in *. clearbody neg. set (v := Qabs x) in *. clearbody v. set (l := alog x) in *. clearbody l. clear S1 S2 LL1 LL2 SX Hx N. 
  rewrite Bto_i32. unfold in_s. change (2 ^ (32 - 1)) with 2147483648. destruct (Z.leb_spec (- (2147483648)) l); [| lia]. destruct (Z.ltb_spec l 2147483648); [| lia]. cbn [andb unwrap bind].
  (* scaling *)
  match goal with |- context [if l <? -2 then ?p else ?q] => assert (SC : exists y e, (if l <? -2 then p else q) = Ok (rof y, e) /\ (y * two e == v)%Q /\ (two (- (3)) < y < two 3)%Q /\ Z.abs e < 2 ^ 30) end.
  { rewrite two_P, two_S in AL. pose proof (two_pos l). destruct (Z.ltb_spec l (-2)); [| destruct (Z.ltb_spec 2 l)].
    - rewrite sabs_ok by (change (2 ^ (32 - 1)) with 2147483648; lia). cbn [bind]. rewrite Bexp2 by lia. rewrite Rmul_bi. cbn [bind]. unfold sadd. rewrite sres_ok by (change (2 ^ (32 - 1)) with 2147483648; lia). cbn [bind].
      exists (v * inject_Z (2 ^ Z.abs l))%Q, (0 + l). split; [reflexivity |]. rewrite <- two_Z by lia. replace (Z.abs l) with (- l) by lia. 
      assert (TT : (two (- l) * two l == 1)%Q) by (rewrite <- two_plus, Z.add_opp_diag_l; reflexivity). split; [rewrite Z.add_0_l, <- Qmult_assoc, TT; ring |].
      pose proof (two_pos (- l)). change (two (- (3))) with (1 # 8)%Q. change (two 3) with 8%Q. split; [| lia].
      destruct AL as [A1 A2]. apply (Qmult_lt_r _ _ (two (- l))) in A1; [| assumption]. apply (Qmult_lt_r _ _ (two (- l))) in A2; [| assumption]. unfold Qdiv in A1. change (/ 2)%Q with (1 # 2)%Q in A1. split; lra.
    - rewrite Bexp2 by lia. assert (0 < 2 ^ l) by (apply Z.pow_pos_nonneg; lia). rewrite Rdiv_bi by lia. cbn [bind]. unfold sadd. rewrite sres_ok by (change (2 ^ (32 - 1)) with 2147483648; lia). cbn [bind].
      exists (v / inject_Z (2 ^ l))%Q, (0 + l). split; [reflexivity |]. rewrite <- two_Z by lia. split; [rewrite Z.add_0_l; field; apply two_nz |].
      change (two (- (3))) with (1 # 8)%Q. change (two 3) with 8%Q. split; [| lia]. unfold Qdiv in AL. change (/ 2)%Q with (1 # 2)%Q in AL. split; [apply Qlt_shift_div_l; [assumption | lra] | apply Qlt_shift_div_r; [assumption | lra]].
    - exists v, 0. split; [reflexivity |]. split; [change (two 0) with 1%Q; ring |]. split; [| lia]. rewrite <- two_P, <- two_S in AL.
      pose proof (two_le (- (3)) (l - 1) ltac:(lia)). pose proof (two_le (l + 1) 3 ltac:(lia)). lra. }
  destruct SC as (y & e & SC & Ve & By & Be).
  destruct (norm_down_ok y e By ltac:(lia)) as ([s1 e1] & D1 & y1 & -> & V1 & Y1 & E1).
  destruct (norm_up_ok y1 e1 ltac:(lra) ltac:(lia)) as ([s2 e2] & D2 & y2 & -> & V2 & Y2 & E2).
  exists e2, y2. split; [assumption |]. split; [rewrite V2, V1; exact Ve |].
  destruct (bias + 1 <? l); [reflexivity |].
  rewrite SC. cbn [bind]. fold norm_down. rewrite D1. cbn [bind]. fold norm_up. rewrite D2. cbn [bind].
  apply tail_ok; [assumption | lia].
Qed.

(** ** the bits produced *)
Lemma lor_add k h f : 0 <= k -> 0 <= f < 2 ^ k -> Z.lor (h * 2 ^ k) f = h * 2 ^ k + f.
Proof.
  intros Hk Hf. assert (L : Z.land (h * 2 ^ k) f = 0).
  { apply Z.bits_inj'. intros i Hi. rewrite Z.land_spec, Z.bits_0. destruct (Z_lt_le_dec i k).
    - rewrite Z.mul_pow2_bits_low by lia. reflexivity.
    - rewrite <- (Z.mod_small f (2 ^ k)) by lia. rewrite Z.mod_pow2_bits_high by lia. apply andb_false_r. }
  rewrite <- Z.lxor_lor by assumption. symmetry. now apply Z.add_nocarry_lxor.
Qed.
Definition enc (neg : bool) (x f : Z) : Z := Z.b2z neg * 2 ^ (W - 1) + x * 2 ^ M + f.
Lemma enc_ok neg x f : 0 <= x < 2 ^ E -> 0 <= f < 2 ^ M ->
  0 <= enc neg x f < 2 ^ W /\ fsign W (enc neg x f) = neg /\ fexpo W M (enc neg x f) = x /\ ffrac M (enc neg x f) = f.
Proof.
  intros Hx Hf. unfold fsign, fexpo, ffrac. fold E. assert (PM : 0 < 2 ^ M) by (apply Z.pow_pos_nonneg; lia). assert (PE : 0 < 2 ^ E) by (apply Z.pow_pos_nonneg; lia).
  assert (E1 : 2 ^ (W - 1) = 2 ^ E * 2 ^ M) by (rewrite <- Z.pow_add_r, HE by lia; reflexivity).
  assert (E2 : 2 ^ W = 2 * 2 ^ (W - 1)) by (rewrite <- Z.pow_succ_r by lia; f_equal; lia).
  assert (En : enc neg x f = (Z.b2z neg * 2 ^ E + x) * 2 ^ M + f) by (unfold enc; rewrite E1; ring).
  assert (X1 : x * 2 ^ M + f < 2 ^ (W - 1)) by (rewrite E1; nia).
  split; [unfold enc; destruct neg; cbn [Z.b2z]; nia |]. split; [unfold enc; destruct neg; cbn [Z.b2z]; zb; auto; nia |].
  rewrite En. split.
  - rewrite Z.div_add_l, (Z.div_small f), Z.add_0_r, Z.add_comm, Z.mod_add by lia. apply Z.mod_small. lia.
  - rewrite Z.add_comm, Z.mod_add by lia. apply Z.mod_small. lia.
Qed.
Lemma enc_value neg x f : 0 <= x < 2 ^ E -> 0 <= f < 2 ^ M -> fvalue W M (enc neg x f) =
  let a := if x =? 0 then (inject_Z f * two (1 - bias - M))%Q else (inject_Z (2 ^ M + f) * two (x - bias - M))%Q in if neg then (- a)%Q else a.
Proof. intros Hx Hf. destruct (enc_ok neg x f Hx Hf) as (_ & A1 & A2 & A3). unfold fvalue, fabs. rewrite A1, A2, A3, <- Hb'. reflexivity. Qed.
Lemma lor_enc neg x f : 0 <= x < 2 ^ E -> 0 <= f < 2 ^ M -> Z.lor (Z.lor (Z.b2z neg * 2 ^ (W - 1)) (x * 2 ^ M)) f = enc neg x f.
Proof.
  intros Hx Hf. assert (E1 : 2 ^ (W - 1) = 2 ^ E * 2 ^ M) by (rewrite <- Z.pow_add_r, HE by lia; reflexivity). assert (PM : 0 < 2 ^ M) by (apply Z.pow_pos_nonneg; lia).
  rewrite (lor_add (W - 1)) by (rewrite ?E1; nia). unfold enc. rewrite E1. replace (Z.b2z neg * (2 ^ E * 2 ^ M) + x * 2 ^ M) with ((Z.b2z neg * 2 ^ E + x) * 2 ^ M) by ring.
  apply lor_add; lia.
Qed.
(** the carry out of the mantissa: right when the biased exponent is even, lost when it is odd *)
Lemma lor_carry_even neg x : 0 <= x -> x + 1 < 2 ^ E -> Z.even x = true -> Z.lor (Z.lor (Z.b2z neg * 2 ^ (W - 1)) (x * 2 ^ M)) (2 ^ M) = enc neg (x + 1) 0.
Proof.
  intros Hx Hx2 Ev. assert (E1 : 2 ^ (W - 1) = 2 ^ E * 2 ^ M) by (rewrite <- Z.pow_add_r, HE by lia; reflexivity). assert (PM : 0 < 2 ^ M) by (apply Z.pow_pos_nonneg; lia).
  rewrite (lor_add (W - 1)) by (rewrite ?E1; nia). apply Z.even_spec in Ev as [k ->]. assert (E2 : 2 ^ E = 2 * 2 ^ (E - 1)) by (rewrite <- Z.pow_succ_r by lia; f_equal; lia).
  assert (E3 : 2 ^ (M + 1) = 2 * 2 ^ M) by (rewrite Z.pow_add_r by lia; lia).
  replace (Z.b2z neg * 2 ^ (W - 1) + 2 * k * 2 ^ M) with ((Z.b2z neg * 2 ^ (E - 1) + k) * 2 ^ (M + 1)) by (rewrite E1, E2, E3; ring).
  rewrite lor_add by lia. unfold enc. rewrite E1, E2, E3. ring.
Qed.
Lemma lor_carry_odd neg x : 0 <= x < 2 ^ E -> Z.odd x = true -> Z.lor (Z.lor (Z.b2z neg * 2 ^ (W - 1)) (x * 2 ^ M)) (2 ^ M) = enc neg x 0.
Proof.
  intros Hx Od. assert (E1 : 2 ^ (W - 1) = 2 ^ E * 2 ^ M) by (rewrite <- Z.pow_add_r, HE by lia; reflexivity). assert (PM : 0 < 2 ^ M) by (apply Z.pow_pos_nonneg; lia).
  rewrite (lor_add (W - 1)) by (rewrite ?E1; nia). apply Z.odd_spec in Od as [k ->]. assert (E2 : 2 ^ E = 2 * 2 ^ (E - 1)) by (rewrite <- Z.pow_succ_r by lia; f_equal; lia).
  assert (E3 : 2 ^ (M + 1) = 2 * 2 ^ M) by (rewrite Z.pow_add_r by lia; lia).
  replace (Z.b2z neg * 2 ^ (W - 1) + (2 * k + 1) * 2 ^ M) with ((Z.b2z neg * 2 ^ (E - 1) + k) * 2 ^ (M + 1) + 2 ^ M) by (rewrite E1, E2, E3; ring).
  rewrite <- lor_add by lia. rewrite <- Z.lor_assoc, Z.lor_diag, lor_add by lia. unfold enc. rewrite E1, E2, E3. ring.
Qed.

(** subnormal results *)
Lemma fin_sub neg e y : (1 <= y < 2)%Q -> e < 1 - bias -> exists fr, fin neg e (rnd y) = ROk (if fr =? 0 then 0 else enc neg 0 fr) /\ 0 <= fr <= 2 ^ M /\
  (Qabs (inject_Z fr - y * two (e + bias - 1 + M)) <= 3 # 4)%Q.
Proof.
  intros Hy He. destruct (rnd_ok y Hy) as (R1 & R2 & _). apply Qabs_Qle_condition in R2. set (R := rnd y) in *. clearbody R.
  assert (PM : 0 < 2 ^ M) by (apply Z.pow_pos_nonneg; lia). set (G := (R + 2 ^ M) * 16). set (dd := - bias - e). set (d := Z.min dd (W - 1)).
  assert (Hd : 0 <= d) by (unfold d, dd; lia). set (g := G / 2 ^ d). assert (Pd : 0 < 2 ^ d) by (apply Z.pow_pos_nonneg; lia).
  pose proof (Z.div_mod G (2 ^ d) ltac:(lia)) as DM. fold g in DM. pose proof (Z.mod_pos_bound G (2 ^ d) Pd) as BM.
  assert (G0 : 0 <= g) by (apply Z.div_pos; unfold G; lia).
  set (fr := (g + 16) / 32). assert (FR : (if 15 <? g mod 32 then g / 32 + 1 else g / 32) = fr).
  { unfold fr. pose proof (Z.div_mod g 32 ltac:(lia)). pose proof (Z.mod_pos_bound g 32 ltac:(lia)). destruct (Z.ltb_spec 15 (g mod 32)).
    - apply Z.div_unique with (g mod 32 - 16); lia. - apply Z.div_unique with (g mod 32 + 16); lia. }
  assert (B32 : 32 * fr <= g + 16 < 32 * fr + 32) by (unfold fr; pose proof (Z.div_mod (g + 16) 32 ltac:(lia)); pose proof (Z.mod_pos_bound (g + 16) 32 ltac:(lia)); lia).
  exists fr. split; [| split].
  - unfold fin. destruct (Z.ltb_spec e (1 - bias)); [| lia]. fold G. replace (if e <? - bias then G / 2 ^ Z.min (- bias - e) (W - 1) else G) with g.
    2: { unfold g. destruct (Z.ltb_spec e (- bias)); [reflexivity |]. replace d with 0 by (unfold d, dd; lia). change (2 ^ 0) with 1. apply Z.div_1_r. }
    cbv zeta. rewrite FR. destruct (fr =? 0); [reflexivity |]. f_equal. replace 0 with (0 * 2 ^ M) by ring.
    assert (fr <= 2 ^ M). { assert (g <= 32 * 2 ^ M) by (unfold G in *; nia). lia. }
    destruct (Z.eq_dec fr (2 ^ M)) as [EF | NF].
    + assert (2 ^ 8 <= 2 ^ E) by (apply Z.pow_le_mono_r; lia). rewrite EF, lor_carry_even by (try reflexivity; lia). unfold enc. ring.
    + apply lor_enc; [| lia]. split; [lia | apply Z.pow_pos_nonneg; lia].
  - assert (g <= 32 * 2 ^ M) by (unfold G in *; nia). lia.
  - assert (EY : (y * two (e + bias - 1 + M) * (2 * two dd) == y * inject_Z (2 ^ M))%Q).
    { rewrite <- two_S, <- Qmult_assoc, <- two_plus. replace (e + bias - 1 + M + (dd + 1)) with M by (unfold dd; ring). rewrite two_Z by lia. reflexivity. }
    set (t := (y * two (e + bias - 1 + M))%Q) in *. apply Qabs_Qle_condition.
    assert (PMQ : (0 < inject_Z (2 ^ M))%Q) by (change 0%Q with (inject_Z 0); rewrite <- Zlt_Qlt; lia).
    assert (Pdd := two_pos dd).
    destruct (Z_le_gt_dec dd (W - 1)) as [C | C].
    + assert (ED : d = dd) by (unfold d; lia). clearbody d. subst d. assert (HT : (two dd == inject_Z (2 ^ dd))%Q) by (apply two_Z; lia).
      assert (T1 : (1 <= two dd)%Q) by (rewrite HT; change 1%Q with (inject_Z 1); rewrite <- Zle_Qle; lia).
      assert (G1 : (two dd * inject_Z g <= 16 * (inject_Z R + inject_Z (2 ^ M)))%Q).
      { assert (Z1 : 2 ^ dd * g <= 16 * (R + 2 ^ M)) by (unfold G in DM; lia). rewrite Zle_Qle, !inject_Z_mult, inject_Z_plus in Z1. rewrite HT. exact Z1. }
      assert (G2 : (16 * (inject_Z R + inject_Z (2 ^ M)) < two dd * (inject_Z g + 1))%Q).
      { assert (Z1 : 16 * (R + 2 ^ M) < 2 ^ dd * (g + 1)) by (unfold G in DM; lia). rewrite Zlt_Qlt, !inject_Z_mult, !inject_Z_plus in Z1. rewrite HT. exact Z1. }
      assert (F1 : (32 * inject_Z fr <= inject_Z g + 16)%Q). { assert (Z1 : 32 * fr <= g + 16) by lia. rewrite Zle_Qle, !inject_Z_mult, !inject_Z_plus in Z1. exact Z1. }
      assert (F2 : (inject_Z g + 16 + 1 <= 32 * inject_Z fr + 32)%Q). { assert (Z1 : g + 16 + 1 <= 32 * fr + 32) by lia. rewrite Zle_Qle, !inject_Z_plus, !inject_Z_mult in Z1. exact Z1. }
      assert (G3 : (inject_Z g <= 32 * t + 8)%Q).
      { apply (Qmult_le_l _ _ (two dd)); [assumption |]. clear F1 F2 G2. lra. }
      assert (G4 : (32 * t - 8 < inject_Z g + 1)%Q).
      { apply (Qmult_lt_l _ _ (two dd)); [assumption |]. clear F1 F2 G1. lra. }
      split; lra.
    + assert (ED : d = W - 1) by (unfold d; lia). assert (g = 0).
      { assert (2 ^ (M + 6) <= 2 ^ d) by (apply Z.pow_le_mono_r; lia). rewrite Z.pow_add_r in H by lia. change (2 ^ 6) with 64 in H. unfold g. apply Z.div_small. unfold G. lia. }
      assert (fr = 0) by lia. rewrite H0. change (inject_Z 0) with 0%Q.
      assert (T1 : (two (M + 9) <= two dd)%Q) by (apply two_le; lia). rewrite two_plus, two_Z in T1 by lia. change (two 9) with 512%Q in T1.
      assert (P : (0 < t)%Q) by (unfold t; pose proof (two_pos (e + bias - 1 + M)); nra).
      assert (t <= 3 # 4)%Q; [| lra]. destruct (Qlt_le_dec (3 # 4) t) as [Big |]; [| assumption]. exfalso.
      assert (X1 : ((3 # 4) * (2 * two dd) < t * (2 * two dd))%Q) by (apply Qmult_lt_r; [lra | assumption]).
      assert (X2 : (y * inject_Z (2 ^ M) < 2 * inject_Z (2 ^ M))%Q) by (apply Qmult_lt_r; [assumption | lra]). lra.
Qed.
Lemma sub_value neg fr : 0 <= fr <= 2 ^ M -> let n := if fr =? 0 then 0 else enc neg 0 fr in 0 <= n < 2 ^ W /\ ffinite W M n /\
  (fvalue W M n == (if neg then - (1) else 1) * (inject_Z fr * two (1 - bias - M)))%Q.
Proof.
  intros Hf n. assert (PM : 0 < 2 ^ M) by (apply Z.pow_pos_nonneg; lia). assert (PE : 2 ^ 8 <= 2 ^ E) by (apply Z.pow_le_mono_r; lia). change (2 ^ 8) with 256 in PE.
  unfold ffinite. fold E. subst n. destruct (Z.eq_dec fr 0) as [-> | N0]; [| destruct (Z.eqb_spec fr 0); [contradiction |]].
  - assert (E0 : (if 0 =? 0 then 0 else enc neg 0 0) = enc false 0 0) by (unfold enc; cbn [Z.eqb Z.b2z]; ring). rewrite E0. destruct (enc_ok false 0 0 ltac:(lia) ltac:(lia)) as (A0 & A1 & A2 & A3). split; [assumption |]. rewrite A2. split; [lia |].
    rewrite enc_value by lia. cbn [Z.eqb]. change (inject_Z 0) with 0%Q. destruct neg; ring.
  - destruct (Z.eq_dec fr (2 ^ M)) as [-> | N1].
    + replace (enc neg 0 (2 ^ M)) with (enc neg 1 0) by (unfold enc; ring). destruct (enc_ok neg 1 0 ltac:(lia) ltac:(lia)) as (A0 & A1 & A2 & A3). split; [assumption |]. rewrite A2. split; [lia |].
      rewrite enc_value by lia. cbn [Z.eqb]. rewrite Z.add_0_r. destruct neg; ring.
    + destruct (enc_ok neg 0 fr ltac:(lia) ltac:(lia)) as (A0 & A1 & A2 & A3). split; [assumption |]. rewrite A2. split; [lia |].
      rewrite enc_value by lia. cbn [Z.eqb]. destruct neg; ring.
Qed.

(** ** assembling *)
Lemma sgn_diff x a : (Qabs ((if qltb x 0 then - (1) else 1) * a - x) == Qabs (a - Qabs x))%Q.
Proof.
  destruct (qltb_qlt x 0).
  - rewrite (Qabs_neg x) by lra. rewrite <- Qabs_opp. apply Qabs_wd. ring.
  - rewrite (Qabs_pos x) by lra. apply Qabs_wd. ring.
Qed.
Lemma norm_value neg x f : 0 < x < 2 ^ E - 1 -> 0 <= f < 2 ^ M -> 0 <= enc neg x f < 2 ^ W /\ ffinite W M (enc neg x f) /\
  (fvalue W M (enc neg x f) == (if neg then - (1) else 1) * (inject_Z (2 ^ M + f) * two (x - bias - M)))%Q.
Proof.
  intros Hx Hf. destruct (enc_ok neg x f ltac:(lia) ltac:(lia)) as (A0 & A1 & A2 & A3). unfold ffinite. fold E. rewrite A2. split; [assumption |]. split; [lia |].
  rewrite enc_value by lia. destruct (Z.eqb_spec x 0); [lia |]. cbv zeta. destruct neg; ring.
Qed.
Lemma scaled_diff R y e : (Qabs (inject_Z R - (y - 1) * inject_Z (2 ^ M)) <= 1 # 2)%Q ->
  (Qabs (inject_Z (2 ^ M + R) * two (e - M) - y * two e) <= (1 # 2) * two (e - M))%Q.
Proof.
  intros H. assert (T : (two e == inject_Z (2 ^ M) * two (e - M))%Q). { rewrite <- two_Z, <- two_plus by lia. replace (M + (e - M)) with e by ring. reflexivity. }
  assert (EQ : (inject_Z (2 ^ M + R) * two (e - M) - y * two e == (inject_Z R - (y - 1) * inject_Z (2 ^ M)) * two (e - M))%Q) by (rewrite inject_Z_plus, T; ring).
  rewrite EQ, Qabs_Qmult, (Qabs_pos (two (e - M))) by (pose proof (two_pos (e - M)); lra). apply Qmult_le_compat_r; [assumption |]. pose proof (two_pos (e - M)); lra.
Qed.
Lemma alog_le x e : ~ (x == 0)%Q -> (Qabs x < two (e + 1))%Q -> alog x <= e + 1.
Proof. intros Hx Hl. destruct (approx_log x Hx) as [A _]. fold (alog x) in A. assert (alog x - 1 < e + 1) by (apply two_lt_inv; lra). lia. Qed.
Lemma alog_ge x e : ~ (x == 0)%Q -> (two e <= Qabs x)%Q -> e <= alog x.
Proof. intros Hx Hl. destruct (approx_log x Hx) as [_ A]. fold (alog x) in A. assert (e < alog x + 1) by (apply two_lt_inv; lra). lia. Qed.
Lemma to_split x e : ~ (x == 0)%Q -> small x -> (two e <= Qabs x < two (e + 1))%Q ->
  exists y, (1 <= y < 2)%Q /\ (y * two e == Qabs x)%Q /\ to_ieee754 F (rof x) = Ok (if bias + 1 <? alog x then RErr NotInRange else fin (qltb x 0) e (rnd y)).
Proof.
  intros Hx Hs He. destruct (to_ok x Hx Hs) as (e0 & y & Hy & V & T). assert (e0 = e).
  { apply (binade (Qabs x)); [| assumption]. rewrite <- V, two_S. pose proof (two_pos e0). split; nra. }
  subst e0. exists y. auto.
Qed.
Definition top (x : Q) (e : Z) : Prop := (two (e + 1) - (1 # 2) * two (e - M) < Qabs x)%Q.
Lemma carry_top x e y : (y * two e == Qabs x)%Q -> (1 <= y < 2)%Q -> ~ top x e -> rnd y < 2 ^ M.
Proof.
  intros V Hy NT. destruct (rnd_ok y Hy) as (R1 & _ & R3). assert (rnd y <> 2 ^ M); [| lia]. intros ER. apply NT. specialize (R3 ER). unfold top. rewrite <- V, two_S.
  assert (T : (two e == inject_Z (2 ^ M) * two (e - M))%Q). { rewrite <- two_Z, <- two_plus by lia. replace (M + (e - M)) with e by ring. reflexivity. }
  apply (Qmult_lt_r _ _ (two (e - M))) in R3; [| apply two_pos]. rewrite T. lra.
Qed.
Lemma top_carry x e y : (y * two e == Qabs x)%Q -> (1 <= y < 2)%Q -> top x e -> rnd y = 2 ^ M.
Proof.
  intros V Hy TP. unfold top in TP. rewrite <- V, two_S in TP.
  assert (T : (two e == inject_Z (2 ^ M) * two (e - M))%Q). { rewrite <- two_Z, <- two_plus by lia. replace (M + (e - M)) with e by ring. reflexivity. }
  assert (TB : (inject_Z (2 ^ M) - (1 # 2) < (y - 1) * inject_Z (2 ^ M))%Q). { apply (Qmult_lt_r _ _ (two (e - M))); [apply two_pos |]. rewrite T in TP. lra. }
  assert (PM : 0 < 2 ^ M) by (apply Z.pow_pos_nonneg; lia). assert (PQ : (0 < inject_Z (2 ^ M))%Q) by (change 0%Q with (inject_Z 0); rewrite <- Zlt_Qlt; lia).
  unfold rnd. set (t := ((y - 1) * inject_Z (2 ^ M))%Q) in *. assert (Ht : (0 <= t < inject_Z (2 ^ M))%Q) by (unfold t; split; nra). clearbody t.
  destruct (qtrunc_bounds t ltac:(lra)) as [[B1 B2] B3]. assert (QT : qtrunc t = 2 ^ M - 1).
  { assert (C1 : qtrunc t < 2 ^ M) by (rewrite Zlt_Qlt; lra). assert (C2 : 2 ^ M - 1 <= qtrunc t); [| lia]. assert (C3 : 2 ^ M < qtrunc t + 2) by (rewrite Zlt_Qlt, inject_Z_plus; change (inject_Z 2) with 2%Q; lra). lia. }
  rewrite QT. assert (EQ : (inject_Z (2 ^ M - 1) == inject_Z (2 ^ M) - 1)%Q) by (unfold Z.sub; rewrite inject_Z_plus; reflexivity).
  destruct (qltb_qlt (1 # 2) (t - inject_Z (2 ^ M - 1))) as [G | G]; [lia |]. rewrite EQ in G. lra.
Qed.
Lemma to_near x e : ~ (x == 0)%Q -> small x -> (two e <= Qabs x < two (e + 1))%Q -> e <= bias ->
  (~ top x e \/ (Z.even (e + bias) = true /\ e < bias) \/ e < 1 - bias) ->
  exists n, to_ieee754 F (rof x) = Ok (ROk n) /\ 0 <= n < 2 ^ W /\ ffinite W M n /\ (Qabs (fvalue W M n - x) <= (if 1 - bias <=? e then 1 # 2 else 3 # 4) * fulp W M e)%Q.
Proof.
  intros Hx Hs He Hle Hc. destruct (to_split x e Hx Hs He) as (y & Hy & V & T). pose proof (alog_le x e Hx (proj2 He)).
  destruct (Z.ltb_spec (bias + 1) (alog x)); [lia |]. unfold fulp. rewrite <- Hb'.
  destruct (Z_lt_le_dec e (1 - bias)) as [S | S].
  - destruct (fin_sub (qltb x 0) e y Hy S) as (fr & FE & FB & FD). rewrite FE in T. destruct (sub_value (qltb x 0) fr FB) as (N1 & N2 & N3).
    exists (if fr =? 0 then 0 else enc (qltb x 0) 0 fr). split; [exact T |]. split; [exact N1 |]. split; [exact N2 |].
    rewrite N3, sgn_diff, <- V. destruct (Z.leb_spec (1 - bias) e); [lia |]. rewrite Z.max_r by lia.
    assert (TT : (two e == two (e + bias - 1 + M) * two (1 - bias - M))%Q) by (rewrite <- two_plus; replace (e + bias - 1 + M + (1 - bias - M)) with e by ring; reflexivity).
    assert (EQ : (inject_Z fr * two (1 - bias - M) - y * two e == (inject_Z fr - y * two (e + bias - 1 + M)) * two (1 - bias - M))%Q) by (rewrite TT; ring).
    rewrite EQ, Qabs_Qmult, (Qabs_pos (two (1 - bias - M))) by (pose proof (two_pos (1 - bias - M)); lra). apply Qmult_le_compat_r; [assumption |]. pose proof (two_pos (1 - bias - M)); lra.
  - destruct (rnd_ok y Hy) as (R1 & R2 & R3). rewrite Z.max_l by lia. destruct (Z.leb_spec (1 - bias) e); [| lia]. unfold fin in T. destruct (Z.ltb_spec e (1 - bias)); [lia |]. destruct (Z.ltb_spec (2 * bias + 1) (e + bias)); [lia |].
    assert (PM : 0 < 2 ^ M) by (apply Z.pow_pos_nonneg; lia). destruct (Z.eq_dec (rnd y) (2 ^ M)) as [RC | RN].
    + destruct Hc as [NT | [[Ev Lt] | ?]]; [pose proof (carry_top x e y V Hy NT); lia | | lia]. rewrite RC, lor_carry_even in T by (auto; lia).
      destruct (norm_value (qltb x 0) (e + bias + 1) 0 ltac:(lia) ltac:(lia)) as (N1 & N2 & N3). eexists. split; [exact T |]. split; [exact N1 |]. split; [exact N2 |].
      rewrite N3, sgn_diff, <- V. replace (e + bias + 1 - bias - M) with (e - M + 1) by ring. rewrite Z.add_0_r, two_S.
      assert (EQ : (inject_Z (2 ^ M) * (2 * two (e - M)) == inject_Z (2 ^ M + rnd y) * two (e - M))%Q) by (rewrite RC, inject_Z_plus; ring). rewrite EQ. apply scaled_diff. exact R2.
    + rewrite lor_enc in T by lia. destruct (norm_value (qltb x 0) (e + bias) (rnd y) ltac:(lia) ltac:(lia)) as (N1 & N2 & N3). eexists. split; [exact T |]. split; [exact N1 |]. split; [exact N2 |].
      rewrite N3, sgn_diff, <- V. replace (e + bias - bias - M) with (e - M) by ring. apply scaled_diff. exact R2.
Qed.
Lemma to_over x e : ~ (x == 0)%Q -> small x -> (two e <= Qabs x < two (e + 1))%Q -> bias + 2 <= e -> to_ieee754 F (rof x) = Ok (RErr NotInRange).
Proof.
  intros Hx Hs He Hl. destruct (to_split x e Hx Hs He) as (y & Hy & V & T). pose proof (alog_ge x e Hx (proj1 He)). destruct (Z.ltb_spec (bias + 1) (alog x)); [exact T | lia].
Qed.
Lemma to_lost x e : ~ (x == 0)%Q -> small x -> (two e <= Qabs x < two (e + 1))%Q -> 1 - bias <= e < bias -> Z.odd (e + bias) = true -> top x e ->
  exists n, to_ieee754 F (rof x) = Ok (ROk n) /\ ffinite W M n /\ (Qabs (fvalue W M n) == two e)%Q.
Proof.
  intros Hx Hs He Hl Od Tp. destruct (to_split x e Hx Hs He) as (y & Hy & V & T). pose proof (alog_le x e Hx (proj2 He)). destruct (Z.ltb_spec (bias + 1) (alog x)); [lia |].
  rewrite (top_carry x e y V Hy Tp) in T. unfold fin in T. destruct (Z.ltb_spec e (1 - bias)); [lia |]. destruct (Z.ltb_spec (2 * bias + 1) (e + bias)); [lia |].
  rewrite lor_carry_odd in T by (auto; lia). assert (PM : 0 < 2 ^ M) by (apply Z.pow_pos_nonneg; lia).
  destruct (norm_value (qltb x 0) (e + bias) 0 ltac:(lia) ltac:(lia)) as (N1 & N2 & N3). eexists. split; [exact T |]. split; [exact N2 |].
  rewrite N3, Z.add_0_r, <- two_Z, <- two_plus by lia. replace (M + (e + bias - bias - M)) with e by ring. pose proof (two_pos e).
  destruct (qltb x 0); [rewrite Qabs_neg by lra | rewrite Qabs_pos by lra]; ring.
Qed.
(** beyond the largest finite value: an infinity or NaN pattern, never a finite float *)
Lemma to_nonfinite x e n : ~ (x == 0)%Q -> small x -> (two e <= Qabs x < two (e + 1))%Q -> bias < e \/ (e = bias /\ top x e) -> to_ieee754 F (rof x) = Ok (ROk n) -> ~ ffinite W M n.
Proof.
  intros Hx Hs He Hc T'. destruct (to_split x e Hx Hs He) as (y & Hy & V & T). rewrite T in T'. clear T. destruct (bias + 1 <? alog x); [discriminate |].
  unfold fin in T'. destruct (Z.ltb_spec e (1 - bias)); [lia |]. destruct (Z.ltb_spec (2 * bias + 1) (e + bias)); [discriminate |]. injection T' as <-.
  assert (PM : 0 < 2 ^ M) by (apply Z.pow_pos_nonneg; lia). destruct (rnd_ok y Hy) as (R1 & _ & _). unfold ffinite. fold E.
  destruct Hc as [Lt | [-> Tp]].
  - assert (e = bias + 1) by lia. subst e. assert (RR : exists f, 0 <= f < 2 ^ M /\ Z.lor (Z.lor (Z.b2z (qltb x 0) * 2 ^ (W - 1)) ((bias + 1 + bias) * 2 ^ M)) (rnd y) = enc (qltb x 0) (bias + 1 + bias) f).
    { destruct (Z.eq_dec (rnd y) (2 ^ M)) as [RC | RN].
      - exists 0. split; [lia |]. rewrite RC. apply lor_carry_odd; [lia |]. replace (bias + 1 + bias) with (1 + 2 * bias) by ring. rewrite Z.odd_add_mul_2. reflexivity.
      - exists (rnd y). split; [lia |]. apply lor_enc; lia. }
    destruct RR as (f & Hf & ->). destruct (enc_ok (qltb x 0) (bias + 1 + bias) f ltac:(lia) Hf) as (_ & _ & A & _). rewrite A. lia.
  - rewrite (top_carry x bias y V Hy Tp). rewrite lor_carry_even; [| lia | lia | rewrite Z.add_diag; apply Z.even_spec; now exists bias].
    destruct (enc_ok (qltb x 0) (bias + bias + 1) 0 ltac:(lia) ltac:(lia)) as (_ & _ & A & _). rewrite A. lia.
Qed.

(** ** round trip *)
Lemma fvalue_small n : 0 <= n < 2 ^ W -> ffinite W M n -> small (fvalue W M n).
Proof.
  intros Hn Hf. destruct (fields n Hn) as (_ & HX & HR). assert (PM : 0 < 2 ^ M) by (apply Z.pow_pos_nonneg; lia).
  assert (G : forall s a k, - 3000 <= k <= 3000 -> 0 <= a < 2 ^ (M + 1) -> (fvalue W M n == s * (inject_Z a * two k))%Q -> s = 1%Q \/ s = (- (1))%Q -> small (fvalue W M n)).
  { intros s a k Hk Ha V Hs. set (q := fvalue W M n) in *. clearbody q.
    assert (CR : exists N D, 0 < D /\ (q == inject_Z N / inject_Z D)%Q /\ Z.abs N < 2 ^ (M + 1 + 3000) /\ D <= 2 ^ 3000).
    { assert (P30 : 0 < 2 ^ 3000) by (apply Z.pow_pos_nonneg; lia). rewrite (Z.pow_add_r 2 (M + 1) 3000) by lia. exists ((if qeqb s 1 then 1 else - 1) * (a * 2 ^ Z.max k 0)), (2 ^ Z.max (- k) 0).
      assert (0 < 2 ^ Z.max k 0) by (apply Z.pow_pos_nonneg; lia). assert (0 < 2 ^ Z.max (- k) 0) by (apply Z.pow_pos_nonneg; lia).
      assert (2 ^ Z.max k 0 <= 2 ^ 3000) by (apply Z.pow_le_mono_r; lia). assert (2 ^ Z.max (- k) 0 <= 2 ^ 3000) by (apply Z.pow_le_mono_r; lia).
      split; [assumption |]. split.
      - rewrite V, !inject_Z_mult, <- !two_Z by lia. assert (TK : (two k * two (Z.max (- k) 0) == two (Z.max k 0))%Q) by (rewrite <- two_plus; replace (k + Z.max (- k) 0) with (Z.max k 0) by lia; reflexivity).
        rewrite <- TK. destruct Hs as [-> | ->]; [change (inject_Z (if qeqb 1 1 then 1 else - 1)) with 1%Q | change (inject_Z (if qeqb (- (1)) 1 then 1 else - 1)) with (- (1))%Q]; field; apply two_nz.
      - split; [| assumption]. rewrite !Z.abs_mul. rewrite (Z.abs_eq a), (Z.abs_eq (2 ^ Z.max k 0)) by lia. replace (Z.abs (if qeqb s 1 then 1 else - 1)) with 1 by (destruct (qeqb s 1); reflexivity). nia. }
    destruct CR as (N & D & HD & VQ & BN & BD). assert (Qnum q * D = N * QDen q).
    { apply qcross; [assumption |]. rewrite VQ. rewrite (Qmake_Qdiv N), Z2Pos.id by assumption. reflexivity. }
    destruct (red_small q N D HD H) as [R1 R2]. split.
    - destruct (Z.eq_dec (qn q) 0) as [-> | NZ]; [reflexivity |]. assert (Z.log2 (Z.abs (qn q)) < M + 1 + 3000) by (apply Z.log2_lt_pow2; lia). lia.
    - assert (Z.log2 (qd q) <= 3000) by (rewrite <- (Z.log2_pow2 3000) by lia; apply Z.log2_le_mono; lia). lia. }
  assert (2 ^ (M + 1) = 2 * 2 ^ M) by (rewrite Z.pow_add_r by lia; lia).
  unfold fvalue, fabs in *. destruct (Z.eqb_spec (fexpo W M n) 0).
  - destruct (fsign W n); [apply (G (- (1))%Q (ffrac M n) (1 - ebias W M - M)) | apply (G 1%Q (ffrac M n) (1 - ebias W M - M))]; auto; try lia; ring.
  - destruct (fsign W n); [apply (G (- (1))%Q (2 ^ M + ffrac M n) (fexpo W M n - ebias W M - M)) | apply (G 1%Q (2 ^ M + ffrac M n) (fexpo W M n - ebias W M - M))]; auto; try lia; ring.
Qed.
Lemma fabs_pos n : 0 <= n < 2 ^ W -> ~ fzero W M n -> (0 < fabs W M n)%Q.
Proof.
  intros Hn Hz. destruct (fields n Hn) as (_ & HX & HR). unfold fabs, fzero in *. assert (PM : 0 < 2 ^ M) by (apply Z.pow_pos_nonneg; lia).
  assert (P : forall a k, 0 < a -> (0 < inject_Z a * two k)%Q). { intros a k Ha. pose proof (two_pos k). assert (0 < inject_Z a)%Q by (change 0%Q with (inject_Z 0); rewrite <- Zlt_Qlt; lia). nra. }
  destruct (Z.eqb_spec (fexpo W M n) 0); apply P; lia.
Qed.
Lemma round_trip n : 0 <= n < 2 ^ W -> ffinite W M n -> to_ieee754 F (rof (fvalue W M n)) = Ok (ROk (if fexpo W M n + ffrac M n =? 0 then 0 else n)).
Proof.
  intros Hn Hf. destruct (fields n Hn) as (HN & HX & HR). assert (PM : 0 < 2 ^ M) by (apply Z.pow_pos_nonneg; lia). assert (PE : 2 ^ 8 <= 2 ^ E) by (apply Z.pow_le_mono_r; lia). change (2 ^ 8) with 256 in PE.
  destruct (Z.eqb_spec (fexpo W M n + ffrac M n) 0) as [Z0 | NZ].
  - assert (V0 : (fvalue W M n == 0)%Q). { unfold fvalue, fabs. replace (fexpo W M n) with 0 by lia. replace (ffrac M n) with 0 by lia. cbn [Z.eqb]. change (inject_Z 0) with 0%Q. destruct (fsign W n); ring. }
    rewrite (rof_qeq _ _ V0). reflexivity.
  - assert (FZ : ~ fzero W M n) by (unfold fzero; lia). pose proof (fabs_pos n Hn FZ) as AP. pose proof (fvalue_small n Hn Hf) as Sm.
    assert (QA : (Qabs (fvalue W M n) == fabs W M n)%Q). { unfold fvalue. destruct (fsign W n); [rewrite Qabs_opp |]; apply Qabs_pos; lra. }
    assert (NZ' : ~ (fvalue W M n == 0)%Q). { unfold fvalue. destruct (fsign W n); lra. }
    assert (NG : qltb (fvalue W M n) 0 = fsign W n). { unfold fvalue. destruct (fsign W n); [apply qltb_lt; lra | apply qltb_false; lra]. }
    assert (EX : exists e y, (1 <= y < 2)%Q /\ (y * two e == fabs W M n)%Q /\ e <= bias /\ fin (fsign W n) e (rnd y) = ROk n).
    { unfold fabs. rewrite <- Hb'. set (x := fexpo W M n) in *. set (f := ffrac M n) in *. unfold ffinite in Hf. fold E x in Hf. destruct (Z.eqb_spec x 0) as [X0 | X0].
      - destruct (log2_frac f ltac:(lia)) as [L1 L2]. set (k := Z.log2 f) in *. set (c := f * 2 ^ (M - k)) in *. assert (E1 : 2 ^ (M + 1) = 2 * 2 ^ M) by (rewrite Z.pow_add_r by lia; lia).
        assert (PQ : (0 < inject_Z (2 ^ M))%Q) by (change 0%Q with (inject_Z 0); rewrite <- Zlt_Qlt; lia).
        exists (1 - bias - (M - k)), (inject_Z c / inject_Z (2 ^ M))%Q.
        assert (Y : (1 <= inject_Z c / inject_Z (2 ^ M) < 2)%Q).
        { split; [apply Qle_shift_div_l | apply Qlt_shift_div_r]; try assumption; [rewrite Qmult_1_l, <- Zle_Qle; lia |]. change 2%Q with (inject_Z 2). rewrite <- inject_Z_mult, <- Zlt_Qlt. lia. }
        split; [assumption |]. split; [| split; [lia |]].
        + unfold c. rewrite inject_Z_mult, <- !two_Z by lia.
          assert (TK : (two (1 - bias - M) == two (1 - bias - (M - k)) * two (M - k) / two M)%Q). { rewrite <- two_plus. replace (1 - bias - (M - k) + (M - k)) with (1 - bias - M + M) by ring. rewrite two_plus. field. apply two_nz. }
          rewrite TK. field. apply two_nz.
        + rewrite (rnd_exact _ (c - 2 ^ M) Y). 2: { unfold Z.sub. rewrite inject_Z_plus, inject_Z_opp. field. lra. }
          unfold fin. destruct (Z.ltb_spec (1 - bias - (M - k)) (1 - bias)); [| lia].
          replace (c - 2 ^ M + 2 ^ M) with c by ring. set (d := M - k - 1).
          assert (GE : (if 1 - bias - (M - k) <? - bias then c * 16 / 2 ^ Z.min (- bias - (1 - bias - (M - k))) (W - 1) else c * 16) = f * 32).
          { assert (CE : c * 16 = f * 32 * 2 ^ d). { unfold c. replace (M - k) with (d + 1) by (unfold d; ring). rewrite Z.pow_add_r by (unfold d; lia). ring. }
            assert (0 < 2 ^ d) by (apply Z.pow_pos_nonneg; unfold d; lia).
            destruct (Z.ltb_spec (1 - bias - (M - k)) (- bias)).
            - replace (Z.min (- bias - (1 - bias - (M - k))) (W - 1)) with d by (unfold d; lia). rewrite CE. apply Z.div_mul. lia.
            - rewrite CE. replace d with 0 by (unfold d; lia). change (2 ^ 0) with 1. ring. }
          rewrite GE. cbv zeta. rewrite Z.mod_mul, Z.div_mul by lia. cbn [Z.ltb Z.compare]. destruct (Z.eqb_spec f 0); [lia |]. f_equal.
          change 0 with (0 * 2 ^ M). rewrite lor_enc by lia. unfold enc. lia.
      - assert (PQ : (0 < inject_Z (2 ^ M))%Q) by (change 0%Q with (inject_Z 0); rewrite <- Zlt_Qlt; lia).
        exists (x - bias), (inject_Z (2 ^ M + f) / inject_Z (2 ^ M))%Q.
        assert (Y : (1 <= inject_Z (2 ^ M + f) / inject_Z (2 ^ M) < 2)%Q).
        { split; [apply Qle_shift_div_l | apply Qlt_shift_div_r]; try assumption; [rewrite Qmult_1_l, <- Zle_Qle; lia |]. change 2%Q with (inject_Z 2). rewrite <- inject_Z_mult, <- Zlt_Qlt. lia. }
        split; [assumption |]. split; [| split; [lia |]].
        + assert (TK : (two (x - bias) == two (x - bias - M) * inject_Z (2 ^ M))%Q). { rewrite <- two_Z, <- two_plus by lia. replace (x - bias - M + M) with (x - bias) by ring. reflexivity. }
          rewrite TK. field. lra.
        + rewrite (rnd_exact _ f Y). 2: { rewrite inject_Z_plus. field. lra. }
          unfold fin. destruct (Z.ltb_spec (x - bias) (1 - bias)); [lia |]. destruct (Z.ltb_spec (2 * bias + 1) (x - bias + bias)); [lia |]. f_equal.
          replace (x - bias + bias) with x by ring. rewrite lor_enc by lia. unfold enc. lia. }
    destruct EX as (e & y & Hy & V & Le & FE).
    assert (BI : (two e <= Qabs (fvalue W M n) < two (e + 1))%Q). { rewrite QA, <- V, two_S. pose proof (two_pos e). split; nra. }
    destruct (to_ok _ NZ' Sm) as (e0 & y0 & Hy0 & V0 & T0). rewrite QA in V0. assert (e0 = e). { apply (binade (fabs W M n)); [| rewrite QA in BI; exact BI]. rewrite <- V0, two_S. pose proof (two_pos e0). split; nra. }
    subst e0. pose proof (alog_le _ e NZ' (proj2 BI)). destruct (Z.ltb_spec (bias + 1) (alog (fvalue W M n))); [lia |]. rewrite T0, NG, <- FE. do 2 f_equal.
    assert (EY : (y0 == y)%Q) by (apply (Qmult_inj_r _ _ (two e)); [apply two_nz | rewrite V0, V; reflexivity]).
    unfold rnd. assert (EQ : ((y0 - 1) * inject_Z (2 ^ M) == (y - 1) * inject_Z (2 ^ M))%Q) by (rewrite EY; reflexivity).
    set (t0 := ((y0 - 1) * inject_Z (2 ^ M))%Q) in *. set (t := ((y - 1) * inject_Z (2 ^ M))%Q) in *. assert (QT : qtrunc t0 = qtrunc t) by (rewrite <- !qtrunc_red; now rewrite (Qred_complete _ _ EQ)).
    rewrite QT, EQ. reflexivity.
Qed.
End Fmt.
