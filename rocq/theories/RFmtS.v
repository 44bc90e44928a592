(** Approximate texts of rationals: small and medium numbers. *)
From Coq Require Import Zquot Qpower Qfield.
From Verif Require Import Base USpec SSpec UFacts UBig UFun UStr UStrP UEq UPow UPrime USci ULog BBig BSpec BEq RBig RSpec REq RShrink RStr RStrP RIeee RIter RIterL XFun RFmt RFmtP RFmtT RFmtQ RFmtR.
Local Open Scope Z_scope.

Lemma ta_cancel_spec p k d : p = 2 \/ p = 5 -> 0 < d -> 0 <= k < 2 ^ 62 -> Z.of_nat (length (uof d)) < 4294967296 ->
  exists d' k', loopn 64 (ta_cancel p) (bof d, k) = Ok (bof d', k') /\ 0 <= k' <= k /\ 0 < d' /\ d = p ^ (k - k') * d' /\ (k' = 0 \/ ~ (p | d')).
Proof.
  intros Hp Hd Hk HL.
  enough (returns (loopn 64 (ta_cancel p) (bof d, k)) (fun r => exists d' k', r = (bof d', k') /\ 0 <= k' <= k /\ 0 < d' /\ d = p ^ (k - k') * d' /\ (k' = 0 \/ ~ (p | d'))))
    as (r & E & d' & k' & -> & H) by (exists d', k'; auto).
  apply (loopn_spec (ta_cancel p)
    (fun s => exists d' k', s = (bof d', k') /\ 0 <= k' <= k /\ 0 < d' <= d /\ d = p ^ (k - k') * d')
    (fun _ r => exists d' k', r = (bof d', k') /\ 0 <= k' <= k /\ 0 < d' /\ d = p ^ (k - k') * d' /\ (k' = 0 \/ ~ (p | d'))) (fun s => snd s)).
  - intros g s (d' & k' & -> & H1 & H2 & H3) IH. unfold ta_cancel. destruct (Z.ltb_spec 0 k') as [C | C].
    2: { apply returns_ok. exists d', k'. splits; auto; try lia. }
    pose proof (len_uof_mono d' d ltac:(lia)) as L.
    assert (R : (if p =? 2 then brem_pow2 (bof d') 2 else brem_i32 (bof d') p) = Ok (bof (Z.rem d' p))).
    { destruct Hp as [-> | ->]; cbn [Z.eqb Pos.eqb].
      - exact (Brem_pow2 d' 1 ltac:(lia)).
      - apply Brem_i32; [unfold i32r; lia | lia |]. rewrite Z.abs_eq by lia. change B with 4294967296. lia. }
    rewrite R. cbn [bind]. rewrite Bis_zero. destruct (Z.eqb_spec (Z.rem d' p) 0) as [E | E].
    + apply Z.rem_divide in E; [| lia]. destruct E as [c Hc]. rewrite Bdiv_i32_mut by (unfold i32r; lia). cbn [bind].
      unfold ssub. rewrite s64 by lia. cbn [bind]. rewrite Hc, Z.quot_mul by lia. apply IH.
      * exists c, (k' - 1). split; [reflexivity |]. split; [lia |]. split; [nia |]. replace (k - (k' - 1)) with (k - k' + 1) by lia.
        rewrite Z.pow_add_r, Z.pow_1_r by lia. rewrite H3, Hc. ring.
      * cbn [snd]. lia.
    + apply returns_ok. exists d', k'. splits; auto; try lia. right. intros D. apply E. apply Z.rem_divide; [lia | auto].
  - exists d, k. splits; auto; try lia. rewrite Z.sub_diag. ring.
  - cbn [snd]. change (2 ^ Z.of_nat 64) with 18446744073709551616. lia.
Qed.
Lemma qtrunc_frac N D q : 0 < D -> 0 <= N -> (q == inject_Z N / inject_Z D)%Q -> qtrunc q = N / D.
Proof.
  intros HD HN E. assert (C : Qnum q * D = N * QDen q).
  { apply qcross; auto. rewrite E, Qmake_Qdiv, Z2Pos.id by lia. reflexivity. }
  assert (0 <= Qnum q) by nia. unfold qtrunc. rewrite Z.quot_div_nonneg by lia.
  rewrite <- (Z.div_mul_cancel_r (Qnum q) (QDen q) D) by lia. rewrite C. rewrite (Z.mul_comm (QDen q) D). now rewrite Z.div_mul_cancel_r by lia.
Qed.
(** the scaled operand of convert.rs:356-373 *)
Lemma ta_scale x k : 0 <= k < 10000 -> small_rat x ->
  (let* '(d, pow2) := loopn 64 (ta_cancel 2) (rden (rof (Qabs x)), k) in
   let* '(d, pow5) := loopn 64 (ta_cancel 5) (d, k) in
   let* five := bfrom_i32 5 in
   let* p5 := bpow_u32 five (castw 32 pow5) in
   let* f := bmul (bexp2 (castw 64 pow2)) p5 in
   let* n := bmul_mut (rnum (rof (Qabs x))) f in
   let* e := ssub 64 (-1) k in
   Ok (mkR d n, e)) = Ok (rof (Qabs x * inject_Z (10 ^ k)), -1 - k).
Proof.
  intros Hk Hs. pose proof (qval (Qabs x)) as Ax.
  assert (LX : Z.of_nat (length (uof (qd (Qabs x)))) < 4294967296).
  { destruct Hs as [Ln Ls]. pose proof (rof_den_pos x) as D1. change (QDen (Qred x)) with (qd x) in D1.
    destruct (small_le (Z.abs (qn x)) (qd x) (Qabs x) D1 (qabs_val x)) as [_ L]; auto; [now rewrite Z.abs_involutive |].
    change (2 ^ 27) with 134217728 in L. lia. }
  set (X := Qabs x) in *. clearbody X. pose proof (rof_gcd X) as G. pose proof (rof_den_pos X) as Dp. change (QDen (Qred X)) with (qd X) in *. change (Qnum (Qred X)) with (qn X) in *.
  rewrite rden_rof, rnum_rof. set (n := qn X) in *. set (d := qd X) in *.
  destruct (ta_cancel_spec 2 k d ltac:(auto) Dp ltac:(lia) LX) as (d1 & k2 & E1 & K2 & P1 & F1 & N2). rewrite E1. cbn [bind].
  assert (P : 0 < 2 ^ (k - k2)) by (apply Z.pow_pos_nonneg; lia).
  assert (LX1 : Z.of_nat (length (uof d1)) < 4294967296). { eapply Z.le_lt_trans; [| exact LX]. apply Nat2Z.inj_le, len_uof_mono. split; [lia |]. rewrite F1. clear - P P1. nia. }
  destruct (ta_cancel_spec 5 k d1 ltac:(auto) P1 ltac:(lia) LX1) as (d2 & k5 & E2 & K5 & P2 & F2 & N5). rewrite E2. cbn [bind].
  rewrite Bfrom_i32 by lia. cbn [bind]. rewrite !castw_id by lia. rewrite Bpow by lia. cbn [bind]. rewrite Bexp2 by lia. rewrite Bmul. cbn [bind]. rewrite Bmul_mut. cbn [bind].
  unfold ssub. rewrite s64 by lia. cbn [bind]. do 2 f_equal. apply rof_eq; auto.
  - apply Znumtheory.Zgcd_1_rel_prime. apply Znumtheory.rel_prime_sym, Znumtheory.rel_prime_mult; [| apply Znumtheory.rel_prime_mult].
    + apply Znumtheory.rel_prime_div with d; [apply Znumtheory.rel_prime_sym; now apply Znumtheory.Zgcd_1_rel_prime |].
      exists (2 ^ (k - k2) * 5 ^ (k - k5)). rewrite F1, F2. ring.
    + destruct N2 as [-> | N2]; [rewrite Z.pow_0_r; apply Znumtheory.rel_prime_sym, Znumtheory.rel_prime_1 |].
      apply Zpow_facts.rel_prime_Zpower_r; [lia |]. apply not_div_rel; [apply Znumtheory.prime_2 |]. intros C. apply N2. rewrite F2. now apply Z.divide_mul_r.
    + destruct N5 as [-> | N5]; [rewrite Z.pow_0_r; apply Znumtheory.rel_prime_sym, Znumtheory.rel_prime_1 |].
      apply Zpow_facts.rel_prime_Zpower_r; [lia |]. apply not_div_rel; auto. apply prime_5.
  - apply qcross; auto. rewrite Qmake_Qdiv, Z2Pos.id by lia. eapply Qeq_trans; [apply Qmult_comp; [exact Ax | apply Qeq_refl] |]. fold n d.
    assert (T : 10 ^ k * d2 = 2 ^ k2 * 5 ^ k5 * d).
    { rewrite F1, F2. replace (10 ^ k) with (2 ^ k * 5 ^ k) by (rewrite <- Z.pow_mul_l; reflexivity).
      replace (2 ^ k) with (2 ^ (k - k2) * 2 ^ k2) by (rewrite <- Z.pow_add_r by lia; f_equal; lia).
      replace (5 ^ k) with (5 ^ (k - k5) * 5 ^ k5) by (rewrite <- Z.pow_add_r by lia; f_equal; lia). ring. }
    setoid_replace (inject_Z (n * (2 ^ k2 * 5 ^ k5)))%Q with (inject_Z n * (inject_Z (10 ^ k * d2) / inject_Z d))%Q.
    + rewrite inject_Z_mult. field. split; apply INJ0; lia.
    + rewrite T, !inject_Z_mult. field. apply INJ0; lia.
Qed.

Lemma ta_small_ok x M a : ~ (x == 0)%Q -> small_rat x -> (6 <= M)%nat -> -9990 <= a < - (Z.of_nat M - 3) ->
  Z.abs (qn x) * 10 ^ (- a) <= 2 * qd x -> qd x < 2 * Z.abs (qn x) * 10 ^ (- a + 1) ->
  let neg := qltb x 0 in
  exists ds e q j, ta_small (rof x) (sg neg) M a = Ok (sg neg ++ mant ds ++ 101 :: fmt_sint e) /\ Forall digit ds /\ ds <> [] /\
    rread (sg neg ++ mant ds ++ 101 :: fmt_sint e) = Some q /\ trunc_to q x j /\ (inject_Z 10 ^ e <= Qabs x)%Q /\ (Qabs x < inject_Z 10 ^ (e + 1))%Q /\
    let M' := Nat.max M (elen e + 3) in
    (slen neg + length (mant ds) + elen e <= M')%nat /\ j <= e + 1 - Z.min (if a <? -6 then 8 else 2) (Z.of_nat M' - Z.of_nat (slen neg) - Z.of_nat (elen e) - 1).
Proof.
  intros Hx Hs HM Ha A1 A2 neg. pose proof (rof_den_pos x) as Dp. change (QDen (Qred x)) with (qd x) in Dp.
  pose proof (qn_nz x Hx) as Nz. pose proof (qabs_val x) as Av. set (n := Z.abs (qn x)) in *. set (d := qd x) in *.
  assert (Hn0 : 0 < n) by (unfold n; lia).
  set (p := if a <? -6 then - a else 0). assert (Hp : 0 <= p < 10000) by (unfold p; destruct (Z.ltb_spec a (-6)); lia).
  set (v := n * 10 ^ (p + 9) / d).
  assert (V : 50 <= v < 10000000000 /\ (a < -6 -> 50000000 <= v)).
  { assert (F' : 10 ^ (- a + 1) = 10 ^ (- a) * 10) by (rewrite Z.pow_add_r by lia; reflexivity). assert (P : 0 < 10 ^ (- a)) by (apply Z.pow_pos_nonneg; lia).
    unfold v, p. rewrite F' in A2. destruct (Z.ltb_spec a (-6)) as [C | C].
    - rewrite Z.pow_add_r by lia. change (10 ^ 9) with 1000000000. set (T := 10 ^ (- a)) in *. clearbody T n d.
      assert (50000000 <= n * (T * 1000000000) / d) by (apply Z.div_le_lower_bound; lia).
      split; [split; [lia |] | intros; lia]. apply Z.div_lt_upper_bound; lia.
    - change (10 ^ (0 + 9)) with 1000000000. assert (TB : 10000 <= 10 ^ (- a) <= 1000000).
      { change 10000 with (10 ^ 4). change 1000000 with (10 ^ 6). split; apply Z.pow_le_mono_r; lia. }
      set (T := 10 ^ (- a)) in *. clearbody T n d. split; [| lia]. split; [apply Z.div_le_lower_bound; nia | apply Z.div_lt_upper_bound; nia]. }
  set (s := - (p + 9)). destruct (flq_up n d (p + 9) v Dp ltac:(lia) eq_refl) as [F1 F2]. fold s in F1, F2. rewrite <- Av in F1, F2.
  set (D := Z.of_nat (length (zdigits 10 v))) in *.
  assert (DB : 1 < D <= 10) by (apply zdigits_len_bounds; lia).
  assert (D8 : a < -6 -> 8 <= D). { intros C. assert (7 < D <= 10); [| lia]. apply zdigits_len_bounds; lia. }
  set (e := s + D - 1).
  assert (ME : ta_small (rof x) (sg neg) M a =
    let* digits := dotted (rev (pop0 (popn (Nat.max M (elen e + 3)) (rev (zdigits 10 v)) (length (zdigits 10 v) + slen neg + elen e + 1)))) in
    Ok (sg neg ++ digits ++ 101 :: fmt_sint e)).
  { unfold ta_small. rewrite REq.Rabs.
    assert (G : (if a <? -6 then
      let* pow10 := sneg 64 a in
      let* '(d, pow2) := loopn 64 (ta_cancel 2) (rden (rof (Qabs x)), pow10) in
      let* '(d, pow5) := loopn 64 (ta_cancel 5) (d, pow10) in
      let* five := bfrom_i32 5 in
      let* p5 := bpow_u32 five (castw 32 pow5) in
      let* f := bmul (bexp2 (castw 64 pow2)) p5 in
      let* n := bmul_mut (rnum (rof (Qabs x))) f in
      let* e := ssub 64 (-1) pow10 in
      Ok (mkR d n, e)
    else Ok (rof (Qabs x), -1)) = Ok (rof (Qabs x * inject_Z (10 ^ p)), -1 - p)).
    { unfold p. destruct (Z.ltb_spec a (-6)) as [C | C].
      - unfold sneg. rewrite s64 by lia. cbn [bind]. apply ta_scale; auto; lia.
      - do 2 f_equal. apply rof_qeq. change (inject_Z (10 ^ 0)) with 1%Q. ring. }
    rewrite G. cbn [bind]. clear G. rewrite Rmul_i32 by (unfold i32r; lia). cbn [bind]. rewrite Rtruncate_bi. cbn [bind].
    assert (Tv : qtrunc (Qabs x * inject_Z (10 ^ p) * inject_Z 1000000000) = v).
    { unfold v. apply qtrunc_frac; auto. { apply Z.mul_nonneg_nonneg; [lia | apply Z.pow_nonneg; lia]. }
      rewrite Av, Z.pow_add_r by lia. change (10 ^ 9) with 1000000000. rewrite !inject_Z_mult. field. apply INJ0; lia. }
    rewrite Tv. unfold ssub. rewrite s64 by lia. cbn [bind]. replace (-1 - p - 9) with (s - 1) by (unfold s; lia).
    clear Tv A1 A2. clearbody v. assert (Lu : Z.of_nat (length (uof v)) < 4294967296). { apply (len10 v 10); lia. }
    rewrite bdigs_loop by (unfold s; fold D; lia). cbn [bind]. fold D. replace (s - 1 + D) with e by (unfold e; lia). reflexivity. }
  rewrite ME. clear ME. set (M' := Nat.max M (elen e + 3)). set (el := elen e) in *.
  assert (SL : (slen neg <= 1)%nat) by (unfold sg; destruct neg; cbn; lia). set (sl := slen neg) in *.
  rewrite popn_spec by (rewrite rev_length; lia).
  set (c := (length (zdigits 10 v) + sl + el + 1 - M')%nat).
  assert (Dn : D = Z.of_nat (length (zdigits 10 v))) by reflexivity.
  clear A1 A2. clearbody v D. assert (HC : (c < length (zdigits 10 v))%nat) by (unfold c, M'; lia).
  rewrite skipn_rev. set (kept := firstn (length (zdigits 10 v) - c) (zdigits 10 v)).
  assert (LK : length kept = (length (zdigits 10 v) - c)%nat) by (unfold kept; rewrite firstn_length; lia).
  destruct (pop0_spec (rev kept)) as (t & T1 & T2 & T3). set (ds := rev (pop0 (rev kept))).
  assert (EK : kept = ds ++ rev t). { unfold ds. rewrite <- rev_app_distr, <- T1, rev_involutive. reflexivity. }
  assert (Ecut : zdigits 10 v = ds ++ rev t ++ skipn (length (zdigits 10 v) - c) (zdigits 10 v)).
  { rewrite app_assoc, <- EK. unfold kept. now rewrite firstn_skipn. }
  assert (N0 : ds <> []).
  { intros C0. rewrite C0 in EK. cbn [app] in EK. destruct (rev t) as [| z zs] eqn:Er. { rewrite EK in LK. cbn [length] in LK. lia. }
    assert (z = 0). { apply Forall_rev in T2. rewrite Er in T2. now inversion T2. } subst z.
    rewrite C0 in Ecut. cbn [app] in Ecut. destruct (zdigits_hd 10 v _ ltac:(lia) ltac:(lia) Ecut). lia. }
  pose proof (zdigits_digits 10 v ltac:(lia) ltac:(lia)) as Hd. rewrite Ecut in Hd. apply Forall_app in Hd as [Hd _].
  rewrite dotted_mant by auto. cbn [bind].
  destruct (sci_text x neg v s ds (rev t) _ e ltac:(lia) (neg_iff x) F1 F2 Ecut ltac:(apply Forall_rev; auto) N0 ltac:(unfold e; rewrite Dn; reflexivity) ltac:(unfold e, s; lia)) as (q & R & T & U1 & U2).
  eexists ds, e, q, _. split; [reflexivity |]. split; [assumption |]. split; [assumption |]. split; [exact R |]. split; [exact T |].
  split; [assumption |]. split; [assumption |]. cbv zeta. fold el sl M'. rewrite skipn_length. split.
  - assert (length ds <= length kept)%nat by (rewrite EK, app_length; lia). rewrite mant_len by auto. destruct (Nat.eqb_spec (length ds) 1); unfold c, M' in *; lia.
  - unfold e. destruct (Z.ltb_spec a (-6)) as [C | C]; [specialize (D8 C) |]; unfold c, M' in *; lia.
Qed.

Lemma ta_frac_ok D m : 0 < D -> forall N f ds0, 0 <= N < D -> (f == inject_Z N / inject_Z D)%Q ->
  exists ds, ta_frac m (rof f) ds0 = Ok (ds0 ++ ds) /\ length ds = m /\ Forall digit ds /\ zval 10 0 ds = N * 10 ^ Z.of_nat m / D.
Proof.
  intros HD. induction m as [| m IH]; intros N f ds0 HN Hf.
  - exists []. cbn [ta_frac length zval]. rewrite app_nil_r. splits; auto. change (10 ^ Z.of_nat 0) with 1. now rewrite Z.mul_1_r, Z.div_small.
  - cbn [ta_frac]. rewrite Rmul_i32_mut by (unfold i32r; lia). cbn [bind]. rewrite Rtruncate_bi. cbn [bind].
    assert (F1 : (f * inject_Z 10 == inject_Z (10 * N) / inject_Z D)%Q) by (rewrite Hf, inject_Z_mult; field; apply INJ0; lia).
    rewrite (qtrunc_frac (10 * N) D) by (auto; lia).
    assert (B0 : 0 <= 10 * N / D < 10) by (split; [apply Z.div_pos; lia | apply Z.div_lt_upper_bound; lia]).
    rewrite unwrap_i32 by lia. cbn [bind]. rewrite Rfrac_mut. cbn [bind]. rewrite (qtrunc_frac (10 * N) D) by (auto; lia).
    pose proof (Z.div_mod (10 * N) D ltac:(lia)) as E. pose proof (Z.mod_pos_bound (10 * N) D HD) as M. set (c := 10 * N / D) in *. set (r := (10 * N) mod D) in *.
    destruct (IH r (f * inject_Z 10 - inject_Z c)%Q (ds0 ++ [c]) M) as (ds & E1 & E2 & E3 & E4).
    { rewrite F1, E. rewrite inject_Z_plus, inject_Z_mult. field. apply INJ0; lia. }
    exists (c :: ds). rewrite E1, <- app_assoc. cbn [app length zval]. split; [reflexivity |]. split; [lia |]. split; [constructor; auto |].
    rewrite zval_lin, E4, E2, pow_S. replace (N * (10 ^ Z.of_nat m * 10)) with (10 * N * 10 ^ Z.of_nat m) by ring. rewrite E.
    replace ((D * c + r) * 10 ^ Z.of_nat m) with (r * 10 ^ Z.of_nat m + (c * 10 ^ Z.of_nat m) * D) by ring. rewrite Z.div_add by lia. ring.
Qed.

(** the fractional part, with its point, unless it is empty *)
Definition frac_text (ds : list Z) : list Z := match ds with [] => [] | _ => 46 :: map dchar ds end.
Lemma ta_mid_ok x M : small_rat x -> (6 <= M)%nat -> Z.abs (qn x) < 2 * qd x * 10 ^ (Z.of_nat M - 2) ->
  let neg := qltb x 0 in let I := fmt_uint 10 (Z.abs (qn x) / qd x) in let f := (M - (length I + 1 + slen neg))%nat in
  exists t q ds, ta_mid (rof x) (sg neg) M = Ok t /\ rread t = Some q /\ trunc_to q x (- Z.of_nat f) /\ (length t <= M)%nat /\
    t = sg neg ++ I ++ frac_text ds /\ Forall digit ds /\ (ds = [] \/ last ds 0 <> 0).
Proof.
  intros Hs HM HB neg I f. pose proof (rof_den_pos x) as Dp. change (QDen (Qred x)) with (qd x) in Dp. pose proof (qabs_val x) as Av.
  destruct Hs as [Ln _]. set (n := Z.abs (qn x)) in *. set (d := qd x) in *. assert (N0 : 0 <= n) by (unfold n; lia).
  assert (LI : Z.of_nat (length (uof (n / d))) < 4294967296).
  { assert (n / d <= n) by (apply Z.div_le_upper_bound; nia). assert (0 <= n / d) by (apply Z.div_pos; lia).
    pose proof (len_uof_mono (n / d) n ltac:(lia)). change (2 ^ 27) with 134217728 in Ln. lia. }
  pose proof (Z.div_mod n d ltac:(lia)) as E. pose proof (Z.mod_pos_bound n d Dp) as Rb. set (b := n / d) in *. set (r := n mod d) in *.
  assert (B0 : 0 <= b) by (apply Z.div_pos; lia).
  destruct (ta_frac_ok d f Dp r (Qabs x - inject_Z (qtrunc (Qabs x)))%Q [] Rb) as (all & F1 & F2 & F3 & F4).
  { rewrite (qtrunc_frac n d (Qabs x)) by auto. fold b. rewrite Av, E. rewrite inject_Z_plus, inject_Z_mult. field. apply INJ0; lia. }
  destruct (pop0_spec (rev all)) as (t & T1 & T2 & T3). set (ds := rev (pop0 (rev all))).
  assert (EK : all = ds ++ rev t). { unfold ds. rewrite <- rev_app_distr, <- T1, rev_involutive. reflexivity. }
  assert (Hd : Forall digit ds) by (rewrite EK in F3; apply Forall_app in F3; exact (proj1 F3)).
  assert (Ed0 : rev (pop0 (rev all)) = ds) by reflexivity.
  assert (LZ : ds = [] \/ last ds 0 <> 0). { destruct T3 as [T3 | T3]; [left; unfold ds; now rewrite T3 | right; unfold ds; now rewrite last_rev_hd]. }
  clearbody ds.
  assert (ME : ta_mid (rof x) (sg neg) M = Ok (sg neg ++ I ++ frac_text ds)).
  { unfold ta_mid. rewrite Rtruncate_bi. cbn [bind]. rewrite Babs, abs_qtrunc. fold n d b.
    assert (S1 : bto_string_dec (bof b) = Ok I).
    { unfold bto_string_dec, bsign. rewrite Bmag, Bneg, Z.abs_eq by lia. destruct (Z.ltb_spec b 0); [lia |]. rewrite Eto_string_dec by auto. reflexivity. }
    rewrite S1. cbn [bind]. rewrite REq.Rabs, Rfrac. cbn [bind]. fold f. rewrite F1. cbn [bind app]. rewrite Ed0.
    destruct ds as [| z ds'] eqn:Eds; cbn [length Nat.ltb Nat.leb frac_text]; [now rewrite app_nil_r |].
    rewrite concat_digits by auto. reflexivity. }
  pose proof (dchars_dec ds Hd) as _.
  set (W := zval 10 0 ds * 10 ^ Z.of_nat (length t)).
  assert (HW : b * 10 ^ Z.of_nat f + W = n * 10 ^ Z.of_nat f / d).
  { unfold W. rewrite EK, zval_app, zval_lin, (zval_zeros 10 (rev t)), rev_length, Z.add_0_r in F4 by (apply Forall_rev; auto). rewrite F4.
    rewrite E at 1. replace ((d * b + r) * 10 ^ Z.of_nat f) with (r * 10 ^ Z.of_nat f + (b * 10 ^ Z.of_nat f) * d) by ring. rewrite Z.div_add by lia. ring. }
  assert (PF : 0 < 10 ^ Z.of_nat f) by (apply Z.pow_pos_nonneg; lia).
  destruct (flq_up n d (Z.of_nat f) _ Dp ltac:(lia) HW) as [G1 G2]. rewrite <- Av in G1, G2.
  assert (W0 : 0 <= W) by (unfold W; apply Z.mul_nonneg_nonneg; [apply zval_bounds; auto; lia | apply Z.pow_nonneg; lia]).
  assert (LEN : (length (sg neg ++ I ++ frac_text ds) <= M)%nat).
  { assert (LA : (length ds <= f)%nat) by (rewrite <- F2, EK, app_length; lia).
    assert (LIM : (length I <= M - 1)%nat).
    { unfold I, fmt_uint. rewrite map_length. destruct (Z.eq_dec b 0) as [-> | NZ]; [cbn; lia |].
      assert (0 < Z.of_nat (length (zdigits 10 b)) <= Z.of_nat M - 1); [| lia]. apply zdigits_len_bounds; try lia. split; [change (10 ^ 0) with 1; lia |].
      replace (Z.of_nat M - 1) with (Z.of_nat M - 2 + 1) by lia. rewrite Z.pow_add_r by lia. change (10 ^ 1) with 10.
      assert (0 < 10 ^ (Z.of_nat M - 2)) by (apply Z.pow_pos_nonneg; lia). set (T := 10 ^ (Z.of_nat M - 2)) in *. clear - HB E Dp H Rb B0. nia. }
    assert (SL : (slen neg <= 1)%nat) by (unfold sg; destruct neg; cbn; lia).
    rewrite !app_length. unfold f in LA. destruct ds as [| z ds']; cbn [length frac_text] in *; rewrite ?map_length; cbn [length]; lia. }
  assert (EL : Z.of_nat f = Z.of_nat (length ds) + Z.of_nat (length t)) by (rewrite <- F2, EK, app_length, rev_length; lia).
  assert (VQ : exists q, rread (sg neg ++ I ++ frac_text ds) = Some q /\
     (q == qsg neg * (inject_Z (b * 10 ^ Z.of_nat f + W) * inject_Z 10 ^ (- Z.of_nat f)))%Q).
  { assert (NZ : ~ (inject_Z (10 ^ Z.of_nat f) == 0)%Q) by (apply INJ0; lia).
    assert (CS : ds = [] \/ frac_text ds = 46 :: map dchar ds) by (destruct ds; auto). destruct CS as [-> | ->].
    - cbn [frac_text]. rewrite app_nil_r. unfold I. rewrite rread_int by auto. eexists. split; [reflexivity |]. unfold W. cbn [zval]. rewrite Z.mul_0_l, Z.add_0_r.
      rewrite Qpower_opp, (qpow_Z (Z.of_nat f)), inject_Z_mult by lia. destruct neg; cbn [qsg]; rewrite ?inject_Z_opp; field; auto.
    - destruct (rread_fixed neg b ds B0 Hd) as (q & R & V). exists q. split; [exact R |]. rewrite V.
      rewrite Qpower_opp, (qpow_Z (Z.of_nat f)) by lia. unfold W. rewrite inject_Z_plus, !inject_Z_mult.
      assert (P1 : 0 < 10 ^ Z.of_nat (length ds)) by (apply Z.pow_pos_nonneg; lia). assert (P2 : 0 < 10 ^ Z.of_nat (length t)) by (apply Z.pow_pos_nonneg; lia).
      rewrite EL, Z.pow_add_r, inject_Z_mult by lia. field. split; apply INJ0; lia. }
  destruct VQ as (q & R & V). exists (sg neg ++ I ++ frac_text ds), q, ds. split; [exact ME |]. split; [exact R |]. split; [| splits; auto].
  apply (trunc_intro neg (b * 10 ^ Z.of_nat f + W)); auto; [| apply neg_iff]. clear - B0 W0 PF. assert (0 <= b * 10 ^ Z.of_nat f) by (apply Z.mul_nonneg_nonneg; lia). lia.
Qed.

(** ** all together *)
Lemma pow_q_le (a b : Z) : 0 <= a -> (inject_Z 10 ^ a == inject_Z (10 ^ a))%Q. Proof. intros. now apply qpow_Z. Qed.
Lemma pow10_le_inv a b : (inject_Z 10 ^ a <= inject_Z 10 ^ b)%Q -> a <= b.
Proof.
  intros H. destruct (Z_le_gt_dec a b) as [| G]; auto. exfalso. apply Qle_not_lt in H. apply H.
  replace a with (b + (a - b)) by lia. rewrite pow10_add, (qpow_Z (a - b)) by lia. pose proof (pow10_pos b) as P.
  assert (T : 10 <= 10 ^ (a - b)). { change 10 with (10 ^ 1) at 1. apply Z.pow_le_mono_r; lia. }
  assert (T2 : (1 < inject_Z (10 ^ (a - b)))%Q) by (apply (inj_lt 1); lia).
  rewrite <- (Qmult_1_r (inject_Z 10 ^ b)) at 1. apply Qmult_lt_l; auto.
Qed.
Lemma pow10_lt_inv a b : (inject_Z 10 ^ a < inject_Z 10 ^ b)%Q -> a < b.
Proof.
  intros H. destruct (Z_lt_le_dec a b) as [| G]; auto. exfalso. apply Qlt_not_le in H. apply H.
  replace a with (b + (a - b)) by lia. rewrite pow10_add, (qpow_Z (a - b)) by lia. pose proof (pow10_pos b) as P.
  assert (T : 1 <= 10 ^ (a - b)). { assert (0 < 10 ^ (a - b)) by (apply Z.pow_pos_nonneg; lia). lia. }
  assert (T2 : (1 <= inject_Z (10 ^ (a - b)))%Q) by (apply (inj_le 1); lia).
  rewrite <- (Qmult_1_r (inject_Z 10 ^ b)) at 1. apply Qmult_le_l; auto.
Qed.
(** the estimate as inequalities between rationals *)
Lemma est_q x : ~ (x == 0)%Q -> small_rat x -> exists l a, log2_diff (rof x) = Ok (bof l) /\ log10_i64 (bof l) = Ok a /\
  - 1310720000 < a < 1310720000 /\ Z.abs l < 2 ^ 64 /\
  (0 <= l -> 0 <= a /\ qd x * 10 ^ a <= 2 * Z.abs (qn x) /\ Z.abs (qn x) < 2 * qd x * 10 ^ (a + 1) /\
     (inject_Z 10 ^ a <= 2 * Qabs x)%Q /\ (Qabs x < 2 * inject_Z 10 ^ (a + 1))%Q) /\
  (l < 0 -> a <= 0 /\ Z.abs (qn x) * 10 ^ (- a) <= 2 * qd x /\ qd x < 2 * Z.abs (qn x) * 10 ^ (- a + 1) /\
     (Qabs x <= 2 * inject_Z 10 ^ a)%Q /\ (inject_Z 10 ^ (a - 1) < 2 * Qabs x)%Q).
Proof.
  intros Hx Hs. destruct (est x Hx Hs) as (l & a & E1 & E2 & Ra & Rl & A). cbn zeta in A. destruct A as [A1 A2].
  exists l, a. split; [exact E1 |]. split; [exact E2 |]. split; [exact Ra |]. split; [exact Rl |].
  pose proof (rof_den_pos x) as Dp. change (QDen (Qred x)) with (qd x) in Dp. pose proof (qabs_val x) as Av. pose proof (qn_nz x Hx) as Nz.
  assert (N0 : 0 < Z.abs (qn x)) by lia. set (n := Z.abs (qn x)) in *. set (d := qd x) in *. assert (D0 : (0 < inject_Z d)%Q) by (apply (inj_lt 0); lia). clear E1 E2 Nz.
  assert (L1 : forall z c, z * d <= c * n -> (inject_Z z <= inject_Z c * Qabs x)%Q).
  { intros z c H. rewrite Av. setoid_replace (inject_Z c * (inject_Z n / inject_Z d))%Q with (inject_Z (c * n) / inject_Z d)%Q by (rewrite inject_Z_mult; field; apply INJ0; lia).
    apply Qle_shift_div_l; auto. rewrite <- inject_Z_mult. now apply inj_le. }
  assert (L2 : forall z c, z * d < c * n -> (inject_Z z < inject_Z c * Qabs x)%Q).
  { intros z c H. rewrite Av. setoid_replace (inject_Z c * (inject_Z n / inject_Z d))%Q with (inject_Z (c * n) / inject_Z d)%Q by (rewrite inject_Z_mult; field; apply INJ0; lia).
    apply Qlt_shift_div_l; auto. rewrite <- inject_Z_mult. now apply inj_lt. }
  split; intros Hl.
  - destruct (A1 Hl) as (B0 & B1 & B2). splits; auto.
    + rewrite qpow_Z by auto. apply (L1 _ 2). lia.
    + rewrite qpow_Z by lia. rewrite Av. apply Qlt_shift_div_r; auto. change (2%Q) with (inject_Z 2). rewrite <- !inject_Z_mult. apply inj_lt. lia.
  - destruct (A2 Hl) as (B0 & B1 & B2). assert (P : 0 < 10 ^ (- a)) by (apply Z.pow_pos_nonneg; lia). splits; auto.
    + replace a with (- (- a)) at 1 by lia. rewrite Qpower_opp, (qpow_Z (- a)) by lia. apply Qle_shift_div_l; [apply (inj_lt 0); auto |].
      rewrite Av. setoid_replace (inject_Z n / inject_Z d * inject_Z (10 ^ (- a)))%Q with (inject_Z (n * 10 ^ (- a)) / inject_Z d)%Q by (rewrite inject_Z_mult; field; apply INJ0; lia).
      apply Qle_shift_div_r; auto. change (2%Q) with (inject_Z 2). rewrite <- inject_Z_mult. now apply inj_le.
    + replace (a - 1) with (- (- a + 1)) by lia. rewrite Qpower_opp, (qpow_Z (- a + 1)) by lia. assert (P1 : 0 < 10 ^ (- a + 1)) by (apply Z.pow_pos_nonneg; lia).
      rewrite <- (Qmult_1_l (/ _)). apply Qlt_shift_div_r; [apply (inj_lt 0); auto |].
      setoid_replace (2 * Qabs x * inject_Z (10 ^ (- a + 1)))%Q with (inject_Z (2 * 10 ^ (- a + 1)) * Qabs x)%Q by (rewrite inject_Z_mult; change (inject_Z 2) with 2%Q; ring).
      apply (L2 1). lia.
Qed.
