(** Approximate texts of rationals: [to_approx_string]. *)
From Coq Require Import Zquot Qpower Qfield.
From Verif Require Import Base USpec SSpec UFacts UBig UFun UStr UStrP UEq UPow UPrime USci ULog BBig BSpec BEq RBig RSpec REq RShrink RStr RStrP RIeee RIter RIterL XFun RFmt RFmtP RFmtT RFmtQ.
Local Open Scope Z_scope.

(** ** loops *)
Lemma cut_loop b e0 : 0 <= b -> 0 <= e0 -> e0 + Z.log2 b < 2 ^ 62 ->
  exists k, 0 <= k /\ loopn (ufuel (bmag (bof b))) ta_cut (bof b, e0) = Ok (bof (b / 10 ^ k), e0 + k) /\ b / 10 ^ k <= 1000000000 /\ (k = 0 \/ 100000000 <= b / 10 ^ k).
Proof.
  intros Hb He HL.
  enough (returns (loopn (ufuel (bmag (bof b))) ta_cut (bof b, e0)) (fun r => exists k, 0 <= k /\ r = (bof (b / 10 ^ k), e0 + k) /\ b / 10 ^ k <= 1000000000 /\ (k = 0 \/ 100000000 <= b / 10 ^ k)))
    as (r & E & k & K0 & -> & K1 & K2) by (exists k; auto).
  apply (loopn_spec ta_cut
    (fun s => exists k, 0 <= k /\ s = (bof (b / 10 ^ k), e0 + k) /\ (k = 0 \/ 100000000 <= b / 10 ^ k) /\ e0 + k + Z.log2 (b / 10 ^ k) < 2 ^ 62)
    (fun _ r => exists k, 0 <= k /\ r = (bof (b / 10 ^ k), e0 + k) /\ b / 10 ^ k <= 1000000000 /\ (k = 0 \/ 100000000 <= b / 10 ^ k))
    (fun s => Z.abs (bval (fst s)))).
  - intros g s (k & K0 & -> & K2 & K3) IH. unfold ta_cut. assert (P : 0 < 10 ^ k) by (apply Z.pow_pos_nonneg; lia).
    assert (V0 : 0 <= b / 10 ^ k) by (apply Z.div_pos; lia). set (v := b / 10 ^ k) in *.
    assert (C : (if (1 <? blen (bof v))%nat then Ok true else bgt_i32 (bof v) 1000000000) = Ok (1000000000 <? v)).
    { rewrite blen_bof, Bgt_i32 by (unfold i32r; lia). rewrite Z.abs_eq by lia. destruct (Nat.ltb_spec 1 (length (uof v))) as [D | D]; auto. f_equal. symmetry.
      apply Z.ltb_lt. destruct (Z_lt_le_dec v 4294967296) as [F | F]; [| lia]. apply (nlimbs_iff v 1) in F; lia. }
    rewrite C. cbn [bind]. destruct (Z.ltb_spec 1000000000 v) as [D | D].
    + rewrite Bdiv_i32_mut by (unfold i32r; lia). cbn [bind]. pose proof (Z.log2_nonneg v). unfold sadd. rewrite s64 by lia. cbn [bind].
      rewrite Z.quot_div_nonneg by lia.
      assert (Ev : v / 10 = b / 10 ^ (k + 1)). { unfold v. rewrite Z.div_div by lia. rewrite Z.pow_add_r by lia. reflexivity. }
      apply IH.
      * exists (k + 1). split; [lia |]. rewrite <- Ev. split; [f_equal; lia |]. assert (100000000 <= v / 10) by (apply Z.div_le_lower_bound; lia). split; [right; lia |].
        assert (Z.log2 (v / 10) <= Z.log2 (v / 2)) by (apply Z.log2_le_mono; apply Z.div_le_compat_l; lia).
        assert (Z.log2 (v / 2) = Z.log2 v - 1). { pose proof (Z.log2_shiftr v 1 ltac:(lia)) as S. rewrite Z.shiftr_div_pow2 in S by lia. change (2 ^ 1) with 2 in S. assert (1 <= Z.log2 v) by (apply Z.log2_le_pow2; lia). lia. }
        lia.
      * cbn [fst]. rewrite !bof_val. rewrite !Z.abs_eq by (try apply Z.div_pos; lia). split; [apply Z.div_pos; lia | apply Z.div_lt; lia].
    + apply returns_ok. exists k. auto.
  - exists 0. rewrite Z.add_0_r, Z.pow_0_r, Z.div_1_r. auto with zarith.
  - cbn [fst]. rewrite bof_val, Z.abs_eq, Bmag, Z.abs_eq by lia. pose proof (ufuel_lt b b ltac:(lia)). lia.
Qed.
Lemma zdigits_step m : 1 <= m -> zdigits 10 m = (if m / 10 =? 0 then [] else zdigits 10 (m / 10)) ++ [m mod 10].
Proof.
  intros H. rewrite (zdigits_eq 10 m) by lia. destruct (Z.ltb_spec m 10).
  - rewrite Z.div_small, Z.mod_small by lia. reflexivity.
  - destruct (Z.eqb_spec (m / 10) 0) as [E | E]; [| reflexivity]. apply Z.div_small_iff in E; lia.
Qed.
Lemma digs_loop v e : 1 <= v < 2147483648 -> - 2 ^ 62 <= e < 2 ^ 62 ->
  loopn 32 ta_digs (v, [], e) = Ok (zdigits 10 v, e + Z.of_nat (length (zdigits 10 v))).
Proof.
  intros Hv He.
  enough (returns (loopn 32 ta_digs (v, [], e)) (fun r => r = (zdigits 10 v, e + Z.of_nat (length (zdigits 10 v))))) as (r & -> & ->) by reflexivity.
  apply (loopn_spec ta_digs
    (fun s => let '(m, ds, e') := s in 0 <= m /\ e' = e + Z.of_nat (length ds) /\ (length ds <= length (zdigits 10 v))%nat /\ zdigits 10 v = (if m =? 0 then [] else zdigits 10 m) ++ ds)
    (fun _ r => r = (zdigits 10 v, e + Z.of_nat (length (zdigits 10 v)))) (fun s => fst (fst s))).
  - intros g ((m, ds), e') (H1 & H2 & H3 & H4) IH. unfold ta_digs. destruct (Z.ltb_spec 0 m) as [C | C].
    + assert (LZ : Z.of_nat (length (zdigits 10 v)) <= 10). { apply (zdigits_len_bounds v 0 10); lia. }
      unfold sadd. rewrite s64 by lia. cbn [bind]. rewrite Z.quot_div_nonneg, Z.rem_mod_nonneg by lia. destruct (Z.eqb_spec m 0); [lia |].
      rewrite (zdigits_step m) in H4 by lia. rewrite <- app_assoc in H4. cbn [app] in H4. apply IH.
      * splits; auto; [apply Z.div_pos; lia | cbn [length]; lia |]. rewrite H4, app_length. cbn [length]. lia.
      * cbn [fst]. split; [apply Z.div_pos; lia | apply Z.div_lt; lia].
    + apply returns_ok. destruct (Z.eqb_spec m 0); [| lia]. cbn [app] in H4. rewrite H4, H2. reflexivity.
  - cbn [length]. destruct (Z.eqb_spec v 0); [lia |]. rewrite app_nil_r. splits; auto; lia.
  - cbn [fst]. change (2 ^ Z.of_nat 32) with 4294967296. lia.
Qed.
Lemma bdigs_loop v e : 1 <= v -> - 2 ^ 62 <= e < 2 ^ 62 -> Z.of_nat (length (zdigits 10 v)) < 2 ^ 31 -> Z.of_nat (length (uof v)) < 4294967296 ->
  loopn (ufuel (bmag (bof v))) ta_bdigs (bof v, [], e) = Ok (zdigits 10 v, e + Z.of_nat (length (zdigits 10 v))).
Proof.
  intros Hv He HD HL.
  enough (returns (loopn (ufuel (bmag (bof v))) ta_bdigs (bof v, [], e)) (fun r => r = (zdigits 10 v, e + Z.of_nat (length (zdigits 10 v))))) as (r & -> & ->) by reflexivity.
  apply (loopn_spec ta_bdigs
    (fun s => exists m ds, s = (bof m, ds, e + Z.of_nat (length ds)) /\ 0 <= m <= v /\ (length ds <= length (zdigits 10 v))%nat /\ zdigits 10 v = (if m =? 0 then [] else zdigits 10 m) ++ ds)
    (fun _ r => r = (zdigits 10 v, e + Z.of_nat (length (zdigits 10 v)))) (fun s => Z.abs (bval (fst (fst s))))).
  - intros g s (m & ds & -> & H1 & H3 & H4) IH. unfold ta_bdigs. rewrite Bgt_i32 by (unfold i32r; lia). cbn [bind]. destruct (Z.ltb_spec 0 m) as [C | C].
    + pose proof (len_uof_mono m v ltac:(lia)). rewrite Brem_i32 by (unfold i32r; rewrite ?(Z.abs_eq m) by lia; lia). cbn [bind].
      rewrite Z.rem_mod_nonneg by lia. pose proof (Z.mod_pos_bound m 10 ltac:(lia)). rewrite unwrap_i32 by lia. cbn [bind].
      rewrite Bdiv_i32_mut by (unfold i32r; lia). cbn [bind]. rewrite Z.quot_div_nonneg by lia.
      unfold sadd. rewrite s64 by lia. cbn [bind]. destruct (Z.eqb_spec m 0); [lia |].
      rewrite (zdigits_step m) in H4 by lia. rewrite <- app_assoc in H4. cbn [app] in H4.
      assert (m / 10 < m) by (apply Z.div_lt; lia). assert (0 <= m / 10) by (apply Z.div_pos; lia). apply IH.
      * exists (m / 10), (m mod 10 :: ds). split; [replace (e + Z.of_nat (length ds) + 1) with (e + Z.of_nat (length (m mod 10 :: ds))) by (cbn [length]; lia); reflexivity |]. split; [lia |]. split; auto. rewrite H4, app_length. cbn [length]. lia.
      * cbn [fst]. rewrite !bof_val. lia.
    + apply returns_ok. destruct (Z.eqb_spec m 0); [| lia]. cbn [app] in H4. rewrite H4. reflexivity.
  - exists v, []. cbn [length]. destruct (Z.eqb_spec v 0); [lia |]. rewrite app_nil_r. splits; auto; try lia. f_equal. lia.
  - cbn [fst]. rewrite bof_val, Z.abs_eq, Bmag, Z.abs_eq by lia. pose proof (ufuel_lt v v ltac:(lia)). lia.
Qed.

(** ** dropping digits *)
Lemma Forall_firstn {A} (P : A -> Prop) k l : Forall P l -> Forall P (firstn k l).
Proof. intros H. rewrite <- (firstn_skipn k l) in H. now apply Forall_app in H. Qed.
Lemma pop1_spec rd : rd <> [] -> exists t, rd = t ++ pop1 rd /\ Forall (fun d => d = 0) t /\ pop1 rd <> [].
Proof.
  induction rd as [| d t IH]; intros H; [congruence |]. destruct t as [| d' t].
  - exists []. cbn. splits; auto.
  - change (pop1 (d :: d' :: t)) with (if d =? 0 then pop1 (d' :: t) else d :: d' :: t). destruct (Z.eqb_spec d 0) as [-> | N].
    + destruct (IH ltac:(discriminate)) as (u & E & F & G). exists (0 :: u). splits; auto. cbn [app]. now rewrite <- E.
    + exists []. splits; auto; discriminate.
Qed.
Lemma pop0_spec rd : exists t, rd = t ++ pop0 rd /\ Forall (fun d => d = 0) t /\ (pop0 rd = [] \/ hd 0 (pop0 rd) <> 0).
Proof.
  induction rd as [| d t IH]. { exists []. cbn. auto. }
  cbn [pop0]. destruct (Z.eqb_spec d 0) as [-> | N].
  - destruct IH as (u & E & F & G). exists (0 :: u). splits; auto. cbn [app]. now rewrite <- E.
  - exists []. splits; auto.
Qed.
Lemma popn_spec M : forall rd c, (length rd <= c)%nat -> popn M rd c = skipn (c - M) rd.
Proof.
  induction rd as [| d t IH]; intros c H. { cbn. now rewrite skipn_nil. }
  cbn [popn]. destruct (Nat.ltb_spec M c).
  - cbn [length] in H. rewrite IH by lia. replace (c - M)%nat with (S (c - 1 - M)) by lia. reflexivity.
  - now replace (c - M)%nat with 0%nat by lia.
Qed.
Lemma drop_cut ds k : Forall digit ds -> (2 <= k)%nat -> (k < length (mant ds))%nat -> drop_dot (firstn k (mant ds)) = mant (firstn (k - 1) ds).
Proof.
  intros Hd Hk HL. destruct ds as [| d [| d' t]]; [cbn in HL; lia | cbn in HL; lia |].
  change (mant (d :: d' :: t)) with (dchar d :: 46 :: map dchar (d' :: t)) in *. cbn [length] in HL. rewrite map_length in HL. cbn [length] in HL.
  destruct k as [| [| k]]; [lia | lia |]. cbn [firstn]. rewrite firstn_map. replace (S (S k) - 1)%nat with (S k) by lia. cbn [firstn].
  destruct k as [| k].
  - reflexivity.
  - cbn [firstn]. set (u := d' :: firstn k t). change (mant (d :: u)) with (dchar d :: 46 :: map dchar u).
    assert (Hu : Forall digit u). { inversion Hd as [| ? ? _ H]; subst. inversion H; subst. constructor; auto. apply Forall_firstn. auto. }
    unfold drop_dot. assert (L : last (dchar d :: 46 :: map dchar u) 0 = last (map dchar u) 0) by reflexivity. rewrite L.
    assert (last (map dchar u) 0 <> 46).
    { assert (In (last (map dchar u) 0) (map dchar u)). { destruct (exists_last (l := map dchar u)) as (a & z & E); [discriminate |]. rewrite E, last_last. apply in_elt. }
      apply digits_chars in H; auto. lia. }
    destruct (Z.eqb_spec (last (map dchar u) 0) 46); [lia | reflexivity].
Qed.

Lemma abs_qtrunc x : Z.abs (qtrunc x) = Z.abs (qn x) / qd x.
Proof.
  rewrite <- qtrunc_red. rewrite <- Z.quot_abs by lia. rewrite (Z.abs_eq (qd x)) by lia. apply Z.quot_div_nonneg; lia.
Qed.
Lemma scale_bound n d a s v : 0 < d -> 0 < n -> 0 <= a -> 0 <= s -> n < 2 * d * 10 ^ (a + 1) -> v = n / (d * 10 ^ s) -> 5000 <= v /\ (s = 0 \/ 100000000 <= v) -> s <= a + 1.
Proof.
  intros Dp Hn0 Ha Hs A2 Ev [V0 _]. rewrite Ev in V0. destruct (Z_le_gt_dec s (a + 1)) as [| G]; auto. exfalso.
  assert (Q : 0 < 10 ^ (a + 1)) by (apply Z.pow_pos_nonneg; lia).
  assert (R : 10 <= 10 ^ (s - (a + 1))) by (change 10 with (10 ^ 1) at 1; apply Z.pow_le_mono_r; lia).
  assert (E : 10 ^ s = 10 ^ (a + 1) * 10 ^ (s - (a + 1))) by (rewrite <- Z.pow_add_r by lia; f_equal; lia).
  rewrite Z.div_small in V0; [lia |]. split; [lia |]. rewrite E. clear - A2 Q R Dp. set (u := 10 ^ (a + 1)) in *. set (w := 10 ^ (s - (a + 1))) in *. clearbody u w.
  assert (u * 2 <= u * w) by nia. assert (d * (u * 2) <= d * (u * w)) by (apply Z.mul_le_mono_nonneg_l; lia). lia.
Qed.
(** the length of the exponent part *)
Notation elen e := (length (101 :: fmt_sint e)).
Notation slen neg := (length (sg neg)).

Lemma ta_large_ok x M a : ~ (x == 0)%Q -> (6 <= M)%nat -> Z.of_nat M - 3 < a <= 9990 ->
  qd x * 10 ^ a <= 2 * Z.abs (qn x) -> Z.abs (qn x) < 2 * qd x * 10 ^ (a + 1) ->
  let neg := qltb x 0 in
  exists ds e q j, ta_large (rof x) (sg neg) M a = Ok (sg neg ++ mant ds ++ 101 :: fmt_sint e) /\ Forall digit ds /\ ds <> [] /\
    rread (sg neg ++ mant ds ++ 101 :: fmt_sint e) = Some q /\ trunc_to q x j /\ (inject_Z 10 ^ e <= Qabs x)%Q /\ (Qabs x < inject_Z 10 ^ (e + 1))%Q /\ 0 <= e /\
    let M' := Nat.max M (elen e + 3) in
    (slen neg + length (mant ds) + elen e <= M')%nat /\ j <= Z.max 0 (e + 1 - Z.min 9 (Z.of_nat M' - Z.of_nat (elen e) - Z.of_nat (slen neg) - 1)).
Proof.
  intros Hx HM Ha A1 A2 neg. pose proof (rof_den_pos x) as Dp. change (QDen (Qred x)) with (qd x) in Dp.
  pose proof (qn_nz x Hx) as Nz. pose proof (qabs_val x) as Av. set (n := Z.abs (qn x)) in *. set (d := qd x) in *.
  assert (Hn0 : 0 < n) by (unfold n; lia).
  set (s0 := if 15 <? a then a - 10 else 0). assert (S0 : 0 <= s0) by (unfold s0; destruct (Z.ltb_spec 15 a); lia).
  set (b1 := n / (d * 10 ^ s0)). assert (P0 : 0 < 10 ^ s0) by (apply Z.pow_pos_nonneg; lia).
  assert (DP0 : 0 < d * 10 ^ s0) by (apply Z.mul_pos_pos; lia).
  assert (B1 : 0 <= b1) by (apply Z.div_pos; lia).
  assert (BL : 5000 <= b1 /\ (15 < a -> 5000000000 <= b1)).
  { unfold b1, s0. destruct (Z.ltb_spec 15 a) as [C | C].
    - assert (F : 10 ^ a = 10 ^ (a - 10) * 10000000000) by (replace a with (a - 10 + 10) at 1 by lia; rewrite Z.pow_add_r by lia; reflexivity).
      assert (Q : 5000000000 <= n / (d * 10 ^ (a - 10))); [| split; [| intros]; lia].
      assert (0 < 10 ^ (a - 10)) by (apply Z.pow_pos_nonneg; lia).
      apply Z.div_le_lower_bound; [apply Z.mul_pos_pos; lia |]. rewrite F in A1. clear - A1. lia.
    - split; [| lia]. rewrite Z.pow_0_r, Z.mul_1_r. apply Z.div_le_lower_bound; [lia |].
      assert (F : 10000 <= 10 ^ a). { change 10000 with (10 ^ 4). apply Z.pow_le_mono_r; lia. }
      clear - A1 F Dp. nia. }
  assert (LB : Z.log2 b1 <= 4 * (a + 1) + 1).
  { apply Z.le_trans with (Z.log2 (2 ^ (4 * (a + 1) + 1))); [| rewrite Z.log2_pow2 by lia; lia]. apply Z.log2_le_mono.
    rewrite Z.pow_add_r by lia. change (2 ^ 1) with 2. pose proof (pow10_lt (a + 1) ltac:(lia)) as P.
    unfold b1. apply Z.div_le_upper_bound; [lia |]. assert (0 < 10 ^ (a + 1)) by (apply Z.pow_pos_nonneg; lia). 
    set (T := 2 ^ (4 * (a + 1))) in *. set (U := 10 ^ (a + 1)) in *. set (W := 10 ^ s0) in *. clearbody T U W.
    assert (2 * d * U <= 2 * d * T) by (apply Z.mul_le_mono_nonneg_l; lia). clear - A2 H0 P0 Dp P H. assert (d * T <= d * W * T) by nia. lia. }
  destruct (cut_loop b1 s0 B1 S0) as (k & K0 & KL & K1 & K2). { clear - LB Ha S0. unfold s0. destruct (Z.ltb_spec 15 a); lia. }
  set (s := s0 + k) in *. set (v := b1 / 10 ^ k) in *. assert (Pk : 0 < 10 ^ k) by (apply Z.pow_pos_nonneg; lia).
  assert (Ev : v = n / (d * 10 ^ s)). { unfold v, b1, s. rewrite Z.div_div by lia. rewrite Z.pow_add_r by lia. f_equal. ring. }
  assert (V0 : 5000 <= v /\ (s = 0 \/ 100000000 <= v)).
  { destruct K2 as [-> | K2]; [| split; [lia | now right]]. unfold v in *. rewrite Z.pow_0_r, Z.div_1_r in *. split; [lia |].
    unfold s, s0. destruct (Z.ltb_spec 15 a); [destruct BL as [_ BL]; specialize (BL H); lia | left; lia]. }
  assert (SB : 0 <= s <= a + 1).
  { assert (Sn : 0 <= s) by (apply Z.add_nonneg_nonneg; assumption). split; [exact Sn |]. apply (scale_bound n d a s v); try assumption. clear - Ha HM. lia. }
  destruct (flq_dn n d s v Dp ltac:(lia) Ev) as [F1 F2]. rewrite <- Av in F1, F2.
    assert (G : (if 15 <? a then
      let* k := subw (castw 32 a) 10 in
      let* ten := bfrom_i32 10 in
      let* p := bpow_u32 ten k in
      let* bi := bdiv_mut (bof (n / d)) p in
      let* e := ssub 64 a 10 in
      Ok (bi, e)
      else Ok (bof (n / d), 0)) = Ok (bof b1, s0)).
    { unfold b1, s0. destruct (Z.ltb_spec 15 a) as [C | C].
      - rewrite castw_id by lia. unfold subw. destruct (Z.leb_spec 10 a); [| lia]. cbn [bind]. rewrite Bfrom_i32 by lia. cbn [bind]. rewrite Bpow by lia. cbn [bind].
        assert (0 < 10 ^ (a - 10)) by (apply Z.pow_pos_nonneg; lia).
        rewrite Bdiv_mut by lia. cbn [bind]. unfold ssub. rewrite s64 by lia. cbn [bind]. rewrite Z.quot_div_nonneg by (try apply Z.div_pos; lia). now rewrite Z.div_div by lia.
      - now rewrite Z.pow_0_r, Z.mul_1_r. }
  clear LB A1 A2 Pk P0 DP0 Ev BL K2. clear Av. clearbody s0 b1. clearbody v s.
  set (D := Z.of_nat (length (zdigits 10 v))) in *.
  assert (DB : 3 < D <= 10) by (apply zdigits_len_bounds; lia).
  assert (D9 : s = 0 \/ 9 <= D). { destruct V0 as [_ [V | V]]; [now left | right]. assert (8 < D <= 10); [| lia]. apply zdigits_len_bounds; lia. }
  set (e := s + D - 1). pose proof (zdigits_digits 10 v ltac:(lia) ltac:(lia)) as Hd.
  destruct (pop1_spec (rev (zdigits 10 v))) as (t & T1 & T2 & T3).
  { intros C. apply (f_equal (@length Z)) in C. rewrite rev_length in C. cbn [length] in C. lia. }
  set (ds0 := rev (pop1 (rev (zdigits 10 v)))).
  assert (E0 : zdigits 10 v = ds0 ++ rev t). { unfold ds0. rewrite <- rev_app_distr, <- T1, rev_involutive. reflexivity. }
  assert (N0 : ds0 <> []). { unfold ds0. intros C. apply T3. rewrite <- (rev_involutive (pop1 _)), C. reflexivity. }
  rewrite E0 in Hd. apply Forall_app in Hd as [Hd _].
  assert (ME : ta_large (rof x) (sg neg) M a = 
     let* digits := if (Nat.max M (elen e + 3) <? length (mant ds0) + elen e + slen neg)%nat then
      let* k := subn (Nat.max M (elen e + 3)) (elen e) in
      let* k := subn k (slen neg) in
      let* digits := sget (mant ds0) k in
      Ok (drop_dot digits)
    else Ok (mant ds0) in Ok (sg neg ++ digits ++ 101 :: fmt_sint e)).
  { unfold ta_large. rewrite Rtruncate_bi. cbn [bind]. rewrite Babs_mut, abs_qtrunc. fold n d.
    rewrite G. cbn [bind]. rewrite KL. cbn [bind]. rewrite unwrap_i32 by lia. cbn [bind]. rewrite digs_loop by lia. cbn [bind]. fold D.
    unfold ssub. rewrite s64 by lia. cbn [bind]. fold e. fold ds0. rewrite dotted_mant by auto. cbn [bind]. reflexivity. }
  rewrite ME. clear ME. set (M' := Nat.max M (elen e + 3)). set (el := elen e) in *.
  assert (SL : (slen neg <= 1)%nat) by (unfold sg; destruct neg; cbn; lia). set (sl := slen neg) in *.
  destruct (Nat.ltb_spec M' (length (mant ds0) + el + sl)) as [C | C].
  - unfold subn. destruct (Nat.leb_spec el M'); [| lia]. cbn [bind]. destruct (Nat.leb_spec sl (M' - el)); [| lia]. cbn [bind].
    set (kk := (M' - el - sl)%nat). unfold sget. destruct (Nat.leb_spec kk (length (mant ds0))); [| unfold kk in *; lia]. cbn [bind].
    assert (K3 : (2 <= kk)%nat) by (unfold kk; lia).
    rewrite drop_cut by (auto; unfold kk in *; lia).
    assert (HL : (2 <= length ds0)%nat). { rewrite mant_len in C by auto. destruct (Nat.eqb_spec (length ds0) 1); [exfalso; unfold kk in *; lia |]. destruct ds0; [congruence | cbn [length] in *; lia]. }
    assert (Hk1 : (kk - 1 < length ds0)%nat). { rewrite mant_len in C by auto. destruct (Nat.eqb_spec (length ds0) 1); unfold kk in *; lia. }
    assert (Ecut : zdigits 10 v = firstn (kk - 1) ds0 ++ [] ++ (skipn (kk - 1) ds0 ++ rev t)).
    { cbn [app]. rewrite app_assoc, firstn_skipn. exact E0. }
    assert (L1 : length (firstn (kk - 1) ds0) = (kk - 1)%nat) by (rewrite firstn_length; lia).
    assert (N1 : firstn (kk - 1) ds0 <> []). { intros C0. rewrite C0 in L1. cbn [length] in L1. lia. }
    destruct (sci_text x neg v s (firstn (kk - 1) ds0) [] (skipn (kk - 1) ds0 ++ rev t) e ltac:(lia) (neg_iff x) F1 F2 Ecut ltac:(constructor) N1 eq_refl ltac:(unfold e; lia)) as (q & R & T & U1 & U2).
    exists (firstn (kk - 1) ds0), e, q, (s + Z.of_nat (length (skipn (kk - 1) ds0 ++ rev t))).
    splits; try assumption; try reflexivity.
    + apply Forall_firstn; auto.
    + unfold e; lia.
    + rewrite mant_len, L1 by auto. destruct (Nat.eqb_spec (kk - 1) 1); unfold kk in *; lia.
    + apply (f_equal (@length Z)) in Ecut. rewrite app_length, L1 in Ecut. cbn [app] in Ecut. fold el sl M'. unfold e, D. unfold kk in *. lia.
  - cbn [bind].
    assert (Ecut : zdigits 10 v = ds0 ++ rev t ++ []) by (rewrite app_nil_r; exact E0).
    destruct (sci_text x neg v s ds0 (rev t) [] e ltac:(lia) (neg_iff x) F1 F2 Ecut ltac:(apply Forall_rev; auto) N0 eq_refl ltac:(unfold e; lia)) as (q & R & T & U1 & U2).
    exists ds0, e, q, (s + Z.of_nat (length (@nil Z))).
    splits; try assumption; try reflexivity; try (unfold e; cbn [length]; lia). lia.
Qed.
