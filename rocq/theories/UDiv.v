(** Division and remainder of UBigInt. *)
From Verif Require Import Base USpec UFacts UBig UAddSub UMul.
Ltac Zify.zify_post_hook ::= Z.div_mod_to_equations.

Notation W64 := 18446744073709551616 (only parsing).

Lemma recn_unfold {A C} (F : (A -> res C) -> A -> res C) n : forall bot a, exists g, recn n F bot a = F g a.
Proof. induction n; intros bot a; cbn [recn]; eauto. Qed.
Lemma loopn_unfold {A C} (F : (A -> res C) -> A -> res C) n a : exists g, loopn n F a = F g a.
Proof. apply recn_unfold. Qed.

(** ** div_u32 *)
Lemma div_u32_go_spec o ra : 0 < o < B -> forall c, limbs ra -> 0 <= c < o ->
  returns (div_u32_go ra o (c * B)) (fun rq => limbs rq /\ length rq = length ra /\
    uval (rev rq) = (c * BB (length ra) + uval (rev ra)) / o).
Proof.
  intros Ho. induction ra as [| x ra IH]; intros c Ha Hc; cbn [div_u32_go].
  - apply returns_ok. cbn [length rev uval]. splits; auto. rewrite BB_0. symmetry. apply Z.div_small; lia.
  - apply limbs_cons in Ha as [Hx Ha].
    assert (Hcb : 0 <= c * B) by lia.
    rewrite addw_ok by (change (2 ^ 64) with W64; lia). cbn [bind].
    rewrite divw_ok by lia. cbn [bind]. rewrite remw_ok by lia. cbn [bind].
    pose proof (Z.mod_pos_bound (x + c * B) o ltac:(lia)) as Hm.
    rewrite shlw_ok by (try (change (2 ^ 64) with W64); try (change (2 ^ 32) with B); lia). cbn [bind].
    change (2 ^ 32) with B.
    eapply returns_bind. { apply (IH ((x + c * B) mod o)); auto. }
    intros rq (I1 & I2 & I3). apply returns_ok.
    assert (Hq : 0 <= (x + c * B) / o < B).
    { split; [apply Z.div_pos; lia |]. apply Z.div_lt_upper_bound; [lia |]. 
      assert (c * B <= (o - 1) * B) by (apply Z.mul_le_mono_nonneg_r; lia). lia. }
    rewrite castw_small by exact Hq.
    cbn [length rev]. rewrite !uval_app, !rev_length, I2, I3. cbn [uval].
    splits; auto. { constructor; auto. }
    rewrite BB_S. pose proof (BB_pos (length ra)).
    set (q := (x + c * B) / o) in *. set (r := (x + c * B) mod o) in *.
    replace (c * (B * BB (length ra)) + (uval (rev ra) + BB (length ra) * (x + 4294967296 * 0)))
      with (BB (length ra) * (x + c * B) + uval (rev ra)) by ring.
    pose proof (Z.div_mod (x + c * B) o ltac:(lia)) as E. fold q r in E.
    rewrite E. replace (BB (length ra) * (o * q + r) + uval (rev ra))
      with (r * BB (length ra) + uval (rev ra) + (BB (length ra) * q) * o) by ring.
    rewrite Z.div_add by lia. ring.
Qed.
Lemma udiv_u32_mut_spec a o : uwf a -> 0 < o < B ->
  returns (udiv_u32_mut a o) (fun r => uwf r /\ uval r = uval a / o).
Proof.
  intros Ha Ho. unfold udiv_u32_mut. change 0 with (0 * B) at 1. eapply returns_bind.
  { apply div_u32_go_spec; auto. - apply limbs_rev, uwf_limbs; auto. - lia. }
  intros rq (I1 & I2 & I3). rewrite rev_length in *. rewrite rev_involutive in I3. apply returns_ok.
  pose proof (uwf_len a Ha).
  destruct (remove_suffix_0_spec (rev rq)) as (J1 & J2 & _); auto using limbs_rev.
  { intros E. apply (f_equal (@length Z)) in E. rewrite rev_length in E. cbn in E. lia. }
  split; auto. rewrite J2, I3. f_equal; lia.
Qed.
Lemma udiv_u32_mut_zero a : uwf a -> udiv_u32_mut a 0 = Panic.
Proof.
  intros Ha. unfold udiv_u32_mut. pose proof (uwf_len a Ha).
  destruct (rev a) as [| x t] eqn:E.
  { apply (f_equal (@length Z)) in E. rewrite rev_length in E. cbn in E. lia. }
  cbn [div_u32_go]. assert (limbs (x :: t)) as Hl by (rewrite <- E; apply limbs_rev, uwf_limbs; auto).
  apply limbs_cons in Hl as [Hx _].
  rewrite addw_ok by (change (2 ^ 64) with W64; lia). reflexivity.
Qed.

(** ** the quotient estimate *)
Lemma v64_3 q2 q1 : 0 <= q2 < W64 -> 0 < q1 < W64 ->
  returns (v64_to_v32 [q2; 0; q1]) (fun r => uwf r /\ uval r = q2 + W64 * q1).
Proof.
  intros H2 H1. unfold v64_to_v32. cbn [v64_sweep].
  rewrite addw_ok by (change (2 ^ 64) with W64; lia). cbn [bind].
  rewrite addw_ok by (change (2 ^ 64) with W64; lia). cbn [bind].
  rewrite addw_ok by (change (2 ^ 64) with W64; lia). cbn [bind].
  destruct (Z.leb_spec B (q1 + (0 + (q2 + 0) / B) / B)); cbn [bind]; apply returns_ok.
  - match goal with |- uwf (map _ ?l) /\ _ => assert (Hl : limbs l) by (repeat constructor; lia) end.
    rewrite map_castw by auto. split.
    + split; [discriminate | split; [exact Hl |]]. right. cbn [last]. lia.
    + cbn [uval]. lia.
  - match goal with |- uwf (map _ ?l) /\ _ => assert (Hl : limbs l) by (repeat constructor; lia) end.
    rewrite map_castw by auto. split.
    + split; [discriminate | split; [exact Hl |]]. right. cbn [last]. lia.
    + cbn [uval]. lia.
Qed.

Lemma div_approx_spec d0 d1 d2 d3 d4 dv : limbs [d0; d1; d2; d3; d4] -> 0 < d4 -> B <= dv < W64 ->
  returns (div_approx [d0; d1; d2; d3; d4] dv) (fun r => uwf r /\ uval r = uval [d0; d1; d2; d3; d4] / dv).
Proof.
  intros Hl H4 Hdv.
  apply limbs_cons in Hl as [D0 Hl]. apply limbs_cons in Hl as [D1 Hl]. apply limbs_cons in Hl as [D2 Hl].
  apply limbs_cons in Hl as [D3 Hl]. apply limbs_cons in Hl as [D4 _].
  unfold div_approx, getv. cbn [nth_error bind].
  change (2 ^ 128) with 340282366920938463463374607431768211456 in *.
  rewrite shlw_ok by (change (2 ^ 128) with 340282366920938463463374607431768211456; change (2 ^ 64) with W64; lia).
  cbn [bind].
  rewrite shlw_ok by (change (2 ^ 128) with 340282366920938463463374607431768211456; change (2 ^ 32) with B; lia).
  cbn [bind]. change (2 ^ 64) with W64. change (2 ^ 32) with B.
  rewrite addw_ok by (change (2 ^ 128) with 340282366920938463463374607431768211456; lia). cbn [bind].
  rewrite addw_ok by (change (2 ^ 128) with 340282366920938463463374607431768211456; lia). cbn [bind].
  rewrite divw_ok by lia. cbn [bind]. rewrite remw_ok by lia. cbn [bind].
  set (t := d4 * W64 + d3 * B + d2).
  assert (Ht : W64 <= t < W64 * B) by (unfold t; lia).
  pose proof (Z.mod_pos_bound t dv ltac:(lia)) as Hm.
  pose proof (Z.div_mod t dv ltac:(lia)) as Et.
  set (r := t mod dv) in *. set (q1 := t / dv) in *.
  assert (Hq1 : 0 < q1 < W64).
  { split.
    - unfold q1. apply Z.div_str_pos. lia.
    - unfold q1. apply Z.div_lt_upper_bound; [lia |].
      assert (B * W64 <= dv * W64) by (apply Z.mul_le_mono_nonneg_r; lia). lia. }
  rewrite shlw_ok by (change (2 ^ 128) with 340282366920938463463374607431768211456; change (2 ^ 64) with W64; lia).
  cbn [bind].
  rewrite shlw_ok by (change (2 ^ 128) with 340282366920938463463374607431768211456; change (2 ^ 32) with B; lia).
  cbn [bind]. change (2 ^ 64) with W64. change (2 ^ 32) with B.
  rewrite addw_ok by (change (2 ^ 128) with 340282366920938463463374607431768211456; lia). cbn [bind].
  rewrite addw_ok by (change (2 ^ 128) with 340282366920938463463374607431768211456; lia). cbn [bind].
  rewrite divw_ok by lia. cbn [bind].
  set (u := r * W64 + (d1 * B + d0)).
  assert (Hu : 0 <= u < dv * W64).
  { unfold u. assert (r * W64 <= (dv - 1) * W64) by (apply Z.mul_le_mono_nonneg_r; lia). lia. }
  assert (Hq2 : 0 <= u / dv < W64).
  { split; [apply Z.div_pos; lia | apply Z.div_lt_upper_bound; lia]. }
  rewrite !castw_small by (change (2 ^ 64) with W64; lia).
  eapply returns_weaken. { apply v64_3; lia. }
  intros s (Sw & Sv). split; auto. rewrite Sv. cbn [uval].
  replace (d0 + B * (d1 + B * (d2 + B * (d3 + B * (d4 + B * 0))))) with (u + (W64 * q1) * dv).
  - rewrite Z.div_add by lia. reflexivity.
  - unfold u. transitivity (W64 * t + d1 * B + d0); [| unfold t; ring]. rewrite Et. ring.
Qed.

Lemma nth_error_last (l : list Z) x : nth_error (l ++ [x]) (length l) = Some x.
Proof. rewrite nth_error_app2, Nat.sub_diag by lia. reflexivity. Qed.

(** the two leading limbs bracket the number *)
Lemma top2_spec a : uwf a -> (2 <= length a)%nat ->
  exists o, top2 a = Ok o /\ B <= o < W64 /\
    o * BB (length a - 2) <= uval a < (o + 1) * BB (length a - 2).
Proof.
  intros Ha Hl. pose proof Ha as (Hne & Hlm & Hc).
  destruct (exists_last Hne) as (a' & h & ->). rewrite app_length in Hl. cbn [length] in Hl.
  assert (Hne' : a' <> []) by (destruct a'; [cbn in Hl; lia | discriminate]).
  destruct (exists_last Hne') as (a'' & l & ->).
  apply limbs_app in Hlm as [Hlm Hh]. apply limbs_app in Hlm as [Hlm Hll].
  apply limbs_cons in Hh as [Hh _]. apply limbs_cons in Hll as [Hll _].
  exists (h * B + l). unfold top2, subn, getv.
  rewrite !app_length. cbn [length].
  destruct (Nat.leb_spec 1 (length a'' + 1 + 1)); [| lia]. cbn [bind].
  destruct (Nat.leb_spec 2 (length a'' + 1 + 1)); [| lia]. cbn [bind].
  replace (length a'' + 1 + 1 - 1)%nat with (length (a'' ++ [l])) by (rewrite app_length; cbn; lia).
  rewrite nth_error_last. cbn [bind].
  replace (length a'' + 1 + 1 - 2)%nat with (length a'') by lia.
  rewrite <- app_assoc. cbn [app].
  rewrite nth_error_app2, Nat.sub_diag by lia. cbn [nth_error bind].
  rewrite shlw_ok by (change (2 ^ 64) with W64; change (2 ^ 32) with B; lia). cbn [bind]. change (2 ^ 32) with B.
  rewrite addw_ok by (change (2 ^ 64) with W64; lia).
  assert (Hhp : 0 < h).
  { destruct Hc as [Hc | Hc]; [rewrite !app_length in Hc; cbn in Hc; lia |].
    rewrite last_last in Hc. lia. }
  split; [reflexivity |]. split; [lia |].
  rewrite uval_app. cbn [uval]. pose proof (uval_bound a'' Hlm).
  set (n := length a'') in *. set (p := BB n) in *. replace (p * (l + B * (h + B * 0))) with ((h * B + l) * p) by ring. lia.
Qed.

Lemma top5_spec a : uwf a -> (5 <= length a)%nat ->
  exists d0 d1 d2 d3 d4, skipn (length a - 5) a = [d0; d1; d2; d3; d4] /\ limbs [d0; d1; d2; d3; d4] /\ 0 < d4 /\
    uval [d0; d1; d2; d3; d4] * BB (length a - 5) <= uval a < (uval [d0; d1; d2; d3; d4] + 1) * BB (length a - 5).
Proof.
  intros Ha Hl. pose proof (uwf_skipn (length a - 5) a Ha ltac:(lia)) as Hs.
  pose proof (uval_firstn_skipn (length a - 5) a) as Ev.
  pose proof (skipn_length (length a - 5) a) as El.
  assert (Ef : length (firstn (length a - 5) a) = (length a - 5)%nat) by (rewrite firstn_length; lia).
  rewrite Ef in Ev.
  pose proof (uval_bound _ (limbs_firstn (length a - 5) a (uwf_limbs a Ha))) as Hb. rewrite Ef in Hb.
  destruct (skipn (length a - 5) a) as [| d0 [| d1 [| d2 [| d3 [| d4 [| d5 t]]]]]]; cbn [length] in El; try lia.
  exists d0, d1, d2, d3, d4. split; auto. split; [apply uwf_limbs; auto |]. split.
  - pose proof (uwf_last_pos _ Hs) as H. cbn [last] in H. apply H.
    pose proof (uwf_lower _ Hs ltac:(cbn; lia)). pose proof (BB_pos (length [d0; d1; d2; d3; d4] - 1)). lia.
  - set (T := uval [d0; d1; d2; d3; d4]) in *. set (p := BB (length a - 5)) in *. lia.
Qed.

Lemma mul_lt_compat a b c d : 0 <= a -> a * b <= c -> 0 < d -> 0 <= b -> a * (b * d) <= c * d.
Proof. intros. rewrite Z.mul_assoc. apply Z.mul_le_mono_nonneg_r; lia. Qed.

(** quotient recombination: q0 + (a - b q0)/b = a/b *)
Lemma div_recombine a b q0 : 0 < b -> q0 + (a - b * q0) / b = a / b.
Proof. intros. replace (a - b * q0) with (a + (- q0) * b) by ring. rewrite Z.div_add by lia. lia. Qed.

(** one Newton-like step: subtracting approx*b from a and dividing the rest *)
Lemma div_step (g : ubig * ubig -> res ubig) a b approx P (Q : ubig -> Prop) :
  uwf a -> uwf b -> uwf approx -> 0 < uval b -> uwf P -> uval P = uval b * uval approx ->
  0 < uval approx -> uval b * uval approx <= uval a ->
  (forall a', uwf a' -> uval a' < uval a -> returns (g (a', b)) (fun r => uwf r /\ uval r = uval a' / uval b)) ->
  (forall r, uwf r -> uval r = uval a / uval b -> Q r) ->
  returns (let* d := usub a P in let* q := g (d, b) in uadd approx q) Q.
Proof.
  intros Ha Hb Hap Hbp HP EP Happ Hle Hg HQ.
  eapply returns_bind. { apply usub_spec; auto. lia. }
  intros d (Dw & Dv).
  assert (0 < uval b * uval approx) by (apply Z.mul_pos_pos; auto).
  eapply returns_bind. { apply Hg; auto. lia. }
  intros q (Qw & Qv).
  eapply returns_weaken. { apply uadd_spec; auto. }
  intros r (Rw & Rv). apply HQ; auto. rewrite Rv, Qv, Dv, EP. apply div_recombine; auto.
Qed.

Lemma subn_ok a b : (b <= a)%nat -> subn a b = Ok (a - b)%nat.
Proof. intros. unfold subn. destruct (Nat.leb_spec b a); [reflexivity | lia]. Qed.

Lemma udiv_body_spec g a b : uwf a -> uwf b -> 0 < uval b ->
  (forall a', uwf a' -> uval a' < uval a -> returns (g (a', b)) (fun r => uwf r /\ uval r = uval a' / uval b)) ->
  returns (udiv_body g (a, b)) (fun r => uwf r /\ uval r = uval a / uval b).
Proof.
  intros Ha Hb Hbp Hg. unfold udiv_body.
  pose proof (uwf_len a Ha) as La. pose proof (uwf_len b Hb) as Lb.
  pose proof (uwf_nonneg a Ha) as Na.
  destruct (Nat.ltb_spec (length a) (length b)) as [Hab | Hab].
  { apply returns_ok. split; [apply uwf_single; lia |]. cbn [uval uzero]. symmetry.
    apply Z.div_small. split; auto. apply len_lt_val; auto. }
  destruct (Nat.ltb_spec (length a) 5) as [L5 | L5]; cbn [andb].
  { destruct (Nat.ltb_spec (length b) 5) as [L5b | L5b]; [| lia].
    pose proof (uwf_upper a Ha). pose proof (uwf_upper b Hb).
    pose proof (BB_mono (length a) 4 ltac:(lia)). pose proof (BB_mono (length b) 4 ltac:(lia)).
    change (BB 4) with (2 ^ 128) in *.
    rewrite !uto_u128_opt_spec by auto.
    destruct (Z.ltb_spec (uval a) (2 ^ 128)); [| lia]. destruct (Z.ltb_spec (uval b) (2 ^ 128)); [| lia].
    cbn [expect bind]. rewrite divw_ok by lia. cbn [bind]. apply returns_ok.
    assert (0 <= uval a / uval b) by (apply Z.div_pos; lia).
    assert (uval a / uval b <= uval a) by (apply Z.div_le_upper_bound; [lia |]; nia).
    rewrite ufrom_u128_spec by lia. split; [now apply uof_wf | now apply uof_uval]. }
  destruct (Nat.eqb_spec (length b) 1) as [E1 | E1].
  { destruct (uwf_one_limb b Hb ltac:(lia)) as (y & -> & Hy). cbn [getv nth_error bind].
    unfold getv; cbn [nth_error bind]. cbn [uval] in Hbp.
    eapply returns_weaken. { apply udiv_u32_mut_spec; auto. lia. }
    intros r (Rw & Rv). split; auto. rewrite Rv. cbn [uval]. f_equal. lia. }
  destruct (Nat.ltb_spec (length b) (length a)) as [Hba | Hba].
  - (* la > lb *)
    destruct (top2_spec b Hb ltac:(lia)) as (o & -> & Ho & Hob1 & Hob2). cbn [bind].
    rewrite subn_ok by lia. cbn [bind].
    destruct (top5_spec a Ha ltac:(lia)) as (d0 & d1 & d2 & d3 & d4 & -> & Hd & Hd4 & HT1 & HT2).
    set (T := uval [d0; d1; d2; d3; d4]) in *.
    assert (HT : W64 * W64 <= T).
    { unfold T. apply limbs_cons in Hd as [? Hd]. apply limbs_cons in Hd as [? Hd]. apply limbs_cons in Hd as [? Hd].
      apply limbs_cons in Hd as [? Hd]. cbn [uval]. lia. }
    assert (HA1 : returns (if o =? 2 ^ 64 - 1 then Ok (skipn 2 [d0; d1; d2; d3; d4])
        else let* o1 := addw 64 o 1 in div_approx [d0; d1; d2; d3; d4] o1)
        (fun r => uwf r /\ uval r = T / (o + 1))).
    { destruct (Z.eqb_spec o (2 ^ 64 - 1)) as [Eo | Eo].
      - apply returns_ok. cbn [skipn]. split.
        + split; [discriminate | split].
          * apply limbs_cons in Hd as [? Hd]. apply limbs_cons in Hd as [? Hd]. exact Hd.
          * right. cbn [last]. lia.
        + change (2 ^ 64 - 1) with 18446744073709551615 in Eo. rewrite Eo.
          change (18446744073709551615 + 1) with W64. unfold T. 
          apply limbs_cons in Hd as [? Hd]. apply limbs_cons in Hd as [? Hd]. cbn [uval].
          set (w := d2 + B * (d3 + B * (d4 + B * 0))).
          replace (d0 + B * (d1 + B * w)) with (d0 + B * d1 + w * W64) by ring.
          rewrite Z.div_add by lia. rewrite (Z.div_small (d0 + B * d1)) by lia. lia.
      - change (2 ^ 64 - 1) with 18446744073709551615 in Eo.
        rewrite addw_ok by (change (2 ^ 64) with W64; lia). cbn [bind].
        apply div_approx_spec; auto. lia. }
    destruct HA1 as (approx1 & EA & A1w & A1v). rewrite EA. cbn [bind]. clear EA.
    assert (HA1lo : W64 <= uval approx1).
    { rewrite A1v. apply Z.div_le_lower_bound; [lia |].
      assert ((o + 1) * W64 <= W64 * W64) by (apply Z.mul_le_mono_nonneg_r; lia). lia. }
    assert (HA1hi : (o + 1) * uval approx1 <= T).
    { rewrite A1v. apply Z.mul_div_le. lia. }
    pose proof (BB_pos (length b - 2)) as Pb. pose proof (BB_pos (length a - 5)) as Pa.
    destruct (Nat.ltb_spec (length a - length b) 3) as [L3 | L3].
    + rewrite subn_ok by lia. cbn [bind].
      set (sh := (3 + length b - length a)%nat).
      destruct (ushift_right_spec approx1 sh A1w) as [Apw Apv].
      set (approx := ushift_right approx1 sh) in *. clearbody approx.
      pose proof (BB_pos sh) as Psh.
      assert (Hsh2 : BB sh <= W64).
      { change W64 with (BB 2). apply BB_mono. unfold sh. lia. }
      assert (Happ : 0 < uval approx).
      { rewrite Apv. apply Z.div_str_pos. lia. }
      assert (Hle : uval b * uval approx <= uval a).
      { assert (X1 : BB sh * uval approx <= uval approx1) by (rewrite Apv; apply Z.mul_div_le; lia).
        assert (X2 : uval b * (BB sh * uval approx) <= uval b * uval approx1)
          by (apply Z.mul_le_mono_nonneg_l; lia).
        assert (X3 : uval b * uval approx1 <= (o + 1) * BB (length b - 2) * uval approx1)
          by (apply Z.mul_le_mono_nonneg_r; lia).
        assert (X4 : BB (length b - 2) * ((o + 1) * uval approx1) <= BB (length b - 2) * T)
          by (apply Z.mul_le_mono_nonneg_l; lia).
        assert (X5 : BB (length b - 2) = BB (length a - 5) * BB sh).
        { rewrite <- BB_add. f_equal. unfold sh. lia. }
        assert (X6 : T * BB (length a - 5) * BB sh <= uval a * BB sh)
          by (apply Z.mul_le_mono_nonneg_r; lia).
        apply (Z.mul_le_mono_pos_r _ _ (BB sh)); auto.
        rewrite X5 in *. lia. }
      eapply returns_bind. { apply (umul_spec b approx); auto. }
      intros P (Pw & Pv).
      apply div_step; auto.
    + set (sh := (length a - length b - 3)%nat).
      pose proof (BB_pos sh) as Psh.
      assert (Esplit : BB (length b - 2) * BB sh = BB (length a - 5)).
      { rewrite <- BB_add. f_equal. unfold sh. lia. }
      (* any estimate q with (o+1) q <= T is usable after shifting *)
      assert (Hgen : forall q, 0 <= q -> (o + 1) * q <= T -> uval b * (q * BB sh) <= uval a).
      { intros q Hq HqT.
        assert (X1 : uval b * (q * BB sh) <= (o + 1) * BB (length b - 2) * (q * BB sh))
          by (apply Z.mul_le_mono_nonneg_r; [apply Z.mul_nonneg_nonneg; lia | lia]).
        assert (X2 : (o + 1) * q * BB (length a - 5) <= T * BB (length a - 5))
          by (apply Z.mul_le_mono_nonneg_r; lia).
        rewrite <- Esplit in X2 at 1. lia. }
      destruct (Nat.eqb_spec (length b) 2) as [E2 | E2].
      * rewrite subn_ok by lia. fold sh. cbn [bind].
        destruct (ushift_left_spec approx1 sh A1w) as [Apw Apv].
        eapply returns_bind. { apply (umul_spec b approx1); auto. }
        intros P (Pw & Pv). destruct (ushift_left_spec P sh Pw) as [PSw PSv].
        apply div_step; auto.
        -- rewrite PSv, Pv, Apv. ring.
        -- rewrite Apv. apply Z.mul_pos_pos; lia.
        -- rewrite Apv. apply Hgen; lia.
      * eapply returns_bind. { apply div_approx_spec; auto. }
        intros approx2 (A2w & A2v). fold T in A2v.
        rewrite ueq_spec by auto. destruct (Z.eqb_spec (uval approx2) (uval approx1)) as [E12 | E12].
        -- rewrite subn_ok by lia. fold sh. cbn [bind].
           destruct (ushift_left_spec approx2 sh A2w) as [Apw Apv].
           eapply returns_bind. { apply (umul_spec b approx2); auto. }
           intros P (Pw & Pv). destruct (ushift_left_spec P sh Pw) as [PSw PSv].
           rewrite E12 in *.
           apply div_step; auto.
           ++ rewrite PSv, Pv, Apv. ring.
           ++ rewrite Apv. apply Z.mul_pos_pos; lia.
           ++ rewrite Apv. apply Hgen; lia.
        -- rewrite (subn_ok (length b) 3) by lia. cbn [bind].
           destruct (nth_error b (length b - 3)) as [b3 |] eqn:Eb3.
           2:{ apply nth_error_None in Eb3. lia. }
           pose proof (limbs_nth _ _ _ (uwf_limbs b Hb) Eb3) as Hb3.
           unfold getv. rewrite Eb3. cbn [bind].
           rewrite shrw_ok by lia. cbn [bind]. change (2 ^ 24) with 16777216.
           rewrite addw_ok by (change (2 ^ 64) with W64; lia). cbn [bind].
           rewrite castw_small by (change (2 ^ 32) with B; lia).
           set (ratio := b3 / 16777216 + 1).
           assert (Hr : 1 <= ratio <= 256) by (unfold ratio; lia). clearbody ratio.
           eapply returns_bind. { apply umul_u32_mut_spec; auto. lia. }
           intros m1 (M1w & M1v). rewrite subw_ok by lia. cbn [bind].
           eapply returns_bind. { apply umul_u32_mut_spec; auto. lia. }
           intros m2 (M2w & M2v).
           eapply returns_bind. { apply (uadd_spec m1 m2); auto. }
           intros ms (Msw & Msv).
           eapply returns_bind. { apply (udiv_u32_mut_spec ms 256); auto. lia. }
           intros approx3 (A3w & A3v).
           assert (H12 : uval approx1 <= uval approx2).
           { rewrite A1v, A2v. apply Z.div_le_compat_l; lia. }
           assert (HA3 : uval approx1 <= uval approx3 <= uval approx2).
           { rewrite A3v, Msv, M1v, M2v.
             assert (Hw : 0 <= (uval approx2 - uval approx1) * (256 - ratio) <= (uval approx2 - uval approx1) * 256).
             { split; [apply Z.mul_nonneg_nonneg; lia | apply Z.mul_le_mono_nonneg_l; lia]. }
             split.
             - apply Z.div_le_lower_bound; lia.
             - apply Z.div_le_upper_bound; lia. }
           assert (HA2hi : o * uval approx2 <= T) by (rewrite A2v; apply Z.mul_div_le; lia).
           rewrite subn_ok by lia. fold sh. cbn [bind].
           destruct (ushift_left_spec approx3 sh A3w) as [Apw Apv].
           eapply returns_bind. { apply (umul_spec b approx3); auto. }
           intros P (Pw & Pv). destruct (ushift_left_spec P sh Pw) as [TMw TMv].
           set (tmp := ushift_left P sh) in *. set (approx := ushift_left approx3 sh) in *.
           clearbody tmp approx.
           assert (ETM : uval tmp = uval b * uval approx) by (rewrite TMv, Pv, Apv; ring).
           assert (Hpos : 0 < uval approx) by (rewrite Apv; apply Z.mul_pos_pos; lia).
           rewrite ugeq_spec by auto. destruct (Z.leb_spec (uval tmp) (uval a)) as [Hge | Hlt].
           ++ apply div_step; auto. lia.
           ++ (* tmp < 2a *)
              assert (Htmp : uval tmp < 2 * uval a).
              { assert (Y1 : uval b * uval approx <= (o + 1) * BB (length b - 2) * uval approx)
                  by (apply Z.mul_le_mono_nonneg_r; lia).
                rewrite Apv in Y1.
                assert (Y2 : (o + 1) * uval approx3 <= T + T).
                { assert ((o + 1) * uval approx3 <= (o + 1) * uval approx2) by (apply Z.mul_le_mono_nonneg_l; lia).
                  assert (uval approx2 <= T).
                  { rewrite A2v. apply Z.div_le_upper_bound; [lia |]. 
                    assert (1 * T <= o * T) by (apply Z.mul_le_mono_nonneg_r; lia). lia. }
                  lia. }
                assert (Y2' : (o + 1) * uval approx3 < T + T).
                { assert (uval approx2 < T).
                  { rewrite A2v. apply Z.div_lt; lia. }
                  assert ((o + 1) * uval approx3 <= (o + 1) * uval approx2) by (apply Z.mul_le_mono_nonneg_l; lia).
                  lia. }
                assert (Y3 : (o + 1) * uval approx3 * BB (length a - 5) < (T + T) * BB (length a - 5))
                  by (apply Z.mul_lt_mono_pos_r; lia).
                rewrite <- Esplit in Y3 at 1. rewrite ETM, Apv. lia. }
              eapply returns_bind. { apply (usub_spec tmp a); auto. lia. }
              intros d (Dw & Dv).
              eapply returns_bind. { apply Hg; auto. lia. }
              intros t2 (T2w & T2v).
              pose proof (Z.div_mod (uval d) (uval b) ltac:(lia)) as Ed.
              pose proof (Z.mod_pos_bound (uval d) (uval b) Hbp) as Hmod. rewrite <- T2v in Ed.
              assert (Hle2 : uval t2 <= uval approx).
              { apply (Z.mul_le_mono_pos_l _ _ (uval b)); auto. lia. }
              eapply returns_bind. { apply (usub_spec approx t2); auto. }
              intros ap4 (A4w & A4v).
              eapply returns_bind. { apply (umul_spec ap4 b); auto. }
              intros p4 (P4w & P4v). rewrite uleq_spec by auto.
              assert (E4 : uval a = uval b * uval ap4 - uval d mod uval b).
              { rewrite A4v. rewrite Z.mul_sub_distr_l. lia. }
              destruct (Z.leb_spec (uval p4) (uval a)) as [H4 | H4].
              ** apply returns_ok. split; auto. rewrite P4v in H4.
                 assert (uval d mod uval b = 0) by lia.
                 apply (Z.div_unique _ _ _ 0); lia.
              ** assert (0 < uval ap4).
                 { apply (Z.mul_pos_cancel_l (uval b)); lia. }
                 eapply returns_weaken. { apply (usub_u32_mut_spec ap4 1); auto; lia. }
                 intros r (Rw & Rv). split; auto.
                 rewrite P4v in H4.
                 apply (Z.div_unique _ _ _ (uval b - uval d mod uval b)); [lia |]. rewrite Rv.
                 rewrite Z.mul_sub_distr_l. lia.
  - (* equal lengths *)
    assert (El : length a = length b) by lia.
    destruct (top2_spec a Ha ltac:(lia)) as (sa & -> & Hsa & Hsa1 & Hsa2). cbn [bind].
    destruct (top2_spec b Hb ltac:(lia)) as (oa & -> & Hoa & Hoa1 & Hoa2). cbn [bind].
    rewrite El in *. pose proof (BB_pos (length b - 2)) as Pb. set (p := BB (length b - 2)) in *.
    destruct (Z.ltb_spec sa oa) as [H1 | H1].
    { apply returns_ok. split; [apply uwf_single; lia |]. cbn [uval uzero]. symmetry. apply Z.div_small.
      assert ((sa + 1) * p <= oa * p) by (apply Z.mul_le_mono_nonneg_r; lia). lia. }
    destruct (Z.ltb_spec oa sa) as [H2 | H2].
    + rewrite addw_ok by (change (2 ^ 64) with W64; lia). cbn [bind]. rewrite divw_ok by lia. cbn [bind].
      assert (Hq1 : 0 < sa / (oa + 1)) by (apply Z.div_str_pos; lia).
      assert (Hq2 : sa / (oa + 1) < W64).
      { apply Z.div_lt_upper_bound; [lia |]. assert (1 * W64 <= (oa + 1) * W64) by (apply Z.mul_le_mono_nonneg_r; lia). lia. }
      rewrite ufrom_u64_spec by (change (2 ^ 64) with W64; lia).
      pose proof (uof_wf (sa / (oa + 1)) ltac:(lia)) as Apw.
      pose proof (uof_uval (sa / (oa + 1)) ltac:(lia)) as Apv.
      set (approx := uof (sa / (oa + 1))) in *. clearbody approx.
      eapply returns_bind. { apply (umul_spec b approx); auto. }
      intros P (Pw & Pv). apply div_step; auto; [lia |].
      assert (X0 : (oa + 1) * uval approx <= sa) by (rewrite Apv; apply Z.mul_div_le; lia).
      assert (X1 : uval b * uval approx <= (oa + 1) * p * uval approx) by (apply Z.mul_le_mono_nonneg_r; lia).
      assert (X2 : (oa + 1) * uval approx * p <= sa * p) by (apply Z.mul_le_mono_nonneg_r; lia).
      lia.
    + assert (sa = oa) by lia. subst sa. rewrite ugt_spec by auto.
      destruct (Z.ltb_spec (uval a) (uval b)) as [H3 | H3].
      * apply returns_ok. split; [apply uwf_single; lia |]. cbn [uval uzero]. symmetry. apply Z.div_small. lia.
      * apply returns_ok. split; [apply uwf_single; lia |]. cbn [uval uone].
        apply (Z.div_unique _ _ _ (uval a - uval b)); [| lia].
        assert (1 * p <= oa * p) by (apply Z.mul_le_mono_nonneg_r; lia). lia.
Qed.

Lemma udiv_spec a b : uwf a -> uwf b -> 0 < uval b ->
  returns (udiv a b) (fun r => uwf r /\ uval r = uval a / uval b).
Proof.
  intros Ha Hb Hbp. unfold udiv.
  apply (loopn_spec udiv_body (fun ab => uwf (fst ab) /\ snd ab = b)
           (fun ab r => uwf r /\ uval r = uval (fst ab) / uval b) (fun ab => uval (fst ab))).
  - intros g [a' b'] (Ha' & Hb') Hg. cbn [fst snd] in *. subst b'. apply udiv_body_spec; auto.
    intros a'' Ha'' Hlt. pose proof (uwf_nonneg a'' Ha''). apply (Hg (a'', b)); cbn [fst snd]; auto.
  - cbn; auto.
  - cbn [fst]. split; [now apply uwf_nonneg |]. pose proof (uwf_upper a Ha). rewrite BB_pow2 in H.
    eapply Z.lt_le_trans; [exact H |]. apply Z.pow_le_mono_r; lia.
Qed.
Lemma udiv_zero a b : uwf a -> uwf b -> uval b = 0 -> udiv a b = Panic.
Proof.
  intros Ha Hb H0. unfold udiv. match goal with |- loopn ?n ?F ?x = _ => destruct (loopn_unfold F n x) as [g ->] end.
  assert (b = [0]) as ->.
  { apply uval_inj; auto. apply uwf_single; lia. }
  pose proof (uwf_len a Ha). unfold udiv_body. cbn [length].
  destruct (Nat.ltb_spec (length a) 1); [lia |].
  destruct (Nat.ltb_spec (length a) 5); cbn [andb].
  - rewrite uto_u128_opt_spec by auto. pose proof (uwf_upper a Ha).
    pose proof (BB_mono (length a) 4 ltac:(lia)). change (BB 4) with (2 ^ 128) in *.
    destruct (Z.ltb_spec (uval a) (2 ^ 128)); [| lia]. reflexivity.
  - cbn. apply udiv_u32_mut_zero; auto.
Qed.

(** ** rem *)
Lemma urem_spec a b : uwf a -> uwf b -> 0 < uval b ->
  returns (urem a b) (fun r => uwf r /\ uval r = uval a mod uval b).
Proof.
  intros Ha Hb Hbp. unfold urem. eapply returns_bind. { apply (udiv_spec a b); auto. }
  intros q (Qw & Qv). eapply returns_bind. { apply (umul_spec q b); auto. }
  intros s (Sw & Sv). pose proof (Z.div_mod (uval a) (uval b) ltac:(lia)) as E.
  pose proof (Z.mod_pos_bound (uval a) (uval b) Hbp). rewrite <- Qv in E.
  eapply returns_weaken. { apply (usub_spec a s); auto. lia. }
  intros r (Rw & Rv). split; auto. lia.
Qed.
Lemma urem_zero a b : uwf a -> uwf b -> uval b = 0 -> urem a b = Panic.
Proof. intros. unfold urem. rewrite udiv_zero; auto. Qed.

(** rem_u32: u64 accumulation overflows only beyond 2^32 limbs *)
Lemma rem_u32_go_spec o a : 0 < o < B -> forall cp res0, limbs a -> 0 <= cp <= o -> 0 <= res0 ->
  res0 + B * Z.of_nat (length a) < W64 ->
  returns (rem_u32_go a o (B mod o) cp res0) (fun r => 0 <= r /\ r mod o = (res0 + cp * uval a) mod o).
Proof.
  intros Ho. induction a as [| d a IH]; intros cp res0 Ha Hcp Hr Hlen; cbn [rem_u32_go].
  - apply returns_ok. cbn [uval]. split; auto. f_equal. lia.
  - apply limbs_cons in Ha as [Hd Ha]. cbn [length] in Hlen.
    rewrite remw_ok by lia. cbn [bind].
    pose proof (Z.mod_pos_bound d o ltac:(lia)) as Hdm.
    pose proof (Z.mod_pos_bound B o ltac:(lia)) as Hum.
    assert (M1 : 0 <= d mod o * cp <= 4294967295 * 4294967295) by (apply mul_bound; lia).
    rewrite mulw_ok by (change (2 ^ 64) with W64; lia). cbn [bind]. rewrite remw_ok by lia. cbn [bind].
    pose proof (Z.mod_pos_bound (d mod o * cp) o ltac:(lia)) as Hpm.
    rewrite addw_ok by (change (2 ^ 64) with W64; lia). cbn [bind].
    assert (M2 : 0 <= cp * (B mod o) <= 4294967295 * 4294967295) by (apply mul_bound; lia).
    rewrite mulw_ok by (change (2 ^ 64) with W64; lia). cbn [bind]. rewrite remw_ok by lia. cbn [bind].
    pose proof (Z.mod_pos_bound (cp * (B mod o)) o ltac:(lia)) as Hcm.
    eapply returns_weaken. { apply IH; auto; lia. }
    cbn beta. intros r (R1 & R2). split; auto. rewrite R2. cbn [uval].
    rewrite !(Z.mod_eq (_ * _) o), (Z.mod_eq d o), (Z.mod_eq B o) by lia.
    set (x1 := d / o). set (x2 := (d - o * x1) * cp / o). set (x3 := B / o). set (x4 := cp * (B - o * x3) / o).
    replace (res0 + ((d - o * x1) * cp - o * x2) + (cp * (B - o * x3) - o * x4) * uval a)
      with (res0 + cp * (d + B * uval a) + (- (x1 * cp + x2 + (cp * x3 + x4) * uval a)) * o) by ring.
    apply Z.mod_add. lia.
Qed.
Lemma urem_u32_spec a o : uwf a -> 0 < o < B -> Z.of_nat (length a) < B ->
  returns (urem_u32 a o) (fun r => uwf r /\ uval r = uval a mod o).
Proof.
  intros Ha Ho Hlen. unfold urem_u32. rewrite remw_ok by lia. cbn [bind].
  eapply returns_bind. { apply rem_u32_go_spec; auto using uwf_limbs; lia. }
  intros r (R1 & R2). rewrite remw_ok by lia. cbn [bind]. apply returns_ok.
  rewrite R2. replace (0 + 1 * uval a) with (uval a) by ring.
  pose proof (Z.mod_pos_bound (uval a) o ltac:(lia)).
  rewrite castw_small by (change (2 ^ 32) with B; lia).
  unfold ufrom_u32. split; [apply uwf_single; lia | cbn [uval]; lia].
Qed.
Lemma urem_u32_zero a : urem_u32 a 0 = Panic.
Proof. reflexivity. Qed.
Lemma urem_pow2_spec a k : uwf a -> 0 <= k < 32 ->
  returns (urem_pow2 a (2 ^ k)) (fun r => uwf r /\ uval r = uval a mod 2 ^ k).
Proof.
  intros Ha Hk. pose proof Ha as (Hne & Hl & _). destruct a as [| x t]; [congruence |].
  apply limbs_cons in Hl as [Hx Ht]. unfold urem_pow2, head0, getv. cbn [nth_error bind].
  assert (Hp : 0 < 2 ^ k) by (apply Z.pow_pos_nonneg; lia).
  rewrite remw_ok by lia. cbn [bind]. apply returns_ok. unfold ufrom_u32.
  pose proof (Z.mod_pos_bound x (2 ^ k) Hp). assert (x mod 2 ^ k <= x) by (apply Z.mod_le; lia).
  split; [apply uwf_single; lia |]. cbn [uval].
  assert (E : B = 2 ^ k * 2 ^ (32 - k)) by (rewrite <- Z.pow_add_r by lia; change B with (2 ^ 32); f_equal; lia).
  rewrite E. replace (x + 2 ^ k * 2 ^ (32 - k) * uval t) with (x + (2 ^ (32 - k) * uval t) * 2 ^ k) by ring.
  rewrite Z.mod_add by lia. lia.
Qed.

Lemma uabs_diff_spec a b : uwf a -> uwf b ->
  returns (uabs_diff a b) (fun r => uwf r /\ uval r = Z.abs (uval a - uval b)).
Proof.
  intros Ha Hb. unfold uabs_diff. rewrite ugeq_spec by auto. destruct (Z.leb_spec (uval b) (uval a)).
  - eapply returns_weaken. { apply usub_spec; auto. } intros r (? & ?); split; auto; lia.
  - eapply returns_weaken. { apply usub_spec; auto. lia. } intros r (? & ?); split; auto; lia.
Qed.
Lemma uabs_diff_u32_spec a o : uwf a -> 0 <= o < B ->
  returns (uabs_diff_u32 a o) (fun r => uwf r /\ uval r = Z.abs (uval a - o)).
Proof.
  intros Ha Ho. unfold uabs_diff_u32. rewrite ugeq_u32_spec by auto. cbn [bind].
  destruct (Z.leb_spec o (uval a)).
  - eapply returns_weaken. { apply usub_u32_mut_spec; auto. } intros r (? & ?); split; auto; lia.
  - rewrite uto_u32_opt_spec by auto. pose proof (uwf_nonneg a Ha).
    destruct (Z.ltb_spec (uval a) B); [| lia]. cbn [expect bind]. rewrite subw_ok by lia. cbn [bind].
    apply returns_ok. unfold ufrom_u32. split; [apply uwf_single; lia | cbn [uval]; lia].
Qed.
