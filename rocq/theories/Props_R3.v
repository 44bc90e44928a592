(** Property theorems for the float conversions of Ratio: C30, C31, C32.
    [F] is one of the two formats of the model; [FSpec] gives the meaning of bit patterns. *)
From Coq Require Import Lqa.
From Verif Require Import Base USpec SSpec UEq UStr BBig BSpec BEq RBig RSpec REq RStrP RIeee FSpec RIeeeP.
Local Open Scope Z_scope.

(** ** C30 floats to Ratio *)
Theorem C30_from_float : forall F n, F = F32 \/ F = F64 -> 0 <= n < 2 ^ fw F ->
  (ffinite (fw F) (fm F) n -> returns (from_ieee754 F n) (fun o => exists r, o = ROk r /\ rwf r /\ (rval r == fvalue (fw F) (fm F) n)%Q)) /\
  (~ ffinite (fw F) (fm F) n -> from_ieee754 F n = Ok (RErr (if ffrac (fm F) n =? 0 then if fsign (fw F) n then NegInfinity else Infinity else NotANumber))).
Proof.
  intros F n HF Hn. rewrite (from_ok F HF n Hn). unfold ffinite. destruct (Z.eqb_spec (fexpo (fw F) (fm F) n) (2 ^ ebits (fw F) (fm F) - 1)).
  - split; [contradiction | reflexivity].
  - split; [| contradiction]. intros _. apply returns_ok. exists (rof (fvalue (fw F) (fm F) n)). split; [reflexivity |]. split; [apply rof_wf | apply rof_val].
Qed.
Theorem C30_inspect : forall F n, F = F32 \/ F = F64 -> 0 <= n < 2 ^ fw F ->
  (fzero (fw F) (fm F) n -> inspect_ieee754 F n = Ok (ROk (false, - 2 ^ 31, 0))) /\
  (~ ffinite (fw F) (fm F) n -> inspect_ieee754 F n = Ok (RErr (if ffrac (fm F) n =? 0 then if fsign (fw F) n then NegInfinity else Infinity else NotANumber))) /\
  (ffinite (fw F) (fm F) n -> ~ fzero (fw F) (fm F) n -> exists e f, inspect_ieee754 F n = Ok (ROk (fsign (fw F) n, e, f)) /\ 0 <= f < 2 ^ fm F /\
     (fabs (fw F) (fm F) n == (1 + inject_Z f / inject_Z (2 ^ fm F)) * two e)%Q).
Proof.
  intros F n HF Hn. rewrite (inspect_ok F HF n Hn). unfold insp, ffinite, fzero, fabs. destruct (fok_facts F HF) as (_ & Hb & Hb' & HM & _ & _ & HB & _ & _ & _ & H8). 
  destruct (fields F HF n Hn) as (_ & HX & HR). rewrite <- Hb'. set (m := fm F) in *. set (w := fw F) in *. set (x := fexpo w m n) in *. set (f := ffrac m n) in *.
  assert (2 ^ 8 <= 2 ^ ebits w m) by (apply Z.pow_le_mono_r; lia). assert (PM : 0 < 2 ^ m) by (apply Z.pow_pos_nonneg; lia).
  assert (PQ : (0 < inject_Z (2 ^ m))%Q) by (change 0%Q with (inject_Z 0); rewrite <- Zlt_Qlt; lia).
  destruct (Z.eqb_spec x 0) as [X0 | X0].
  - split; [intros [_ F0]; rewrite F0; reflexivity |]. split; [intros H0; exfalso; lia |]. intros _ NZ. destruct (Z.eqb_spec f 0); [lia |]. destruct (log2_frac F HF f ltac:(fold m; lia)) as [L1 L2]. fold m in L1, L2.
    assert (2 ^ (m + 1) = 2 * 2 ^ m) by (rewrite Z.pow_add_r by lia; lia).
    eexists _, _. split; [reflexivity |]. split; [lia |]. replace (f * 2 ^ (m - Z.log2 f) - 2 ^ m) with (f * 2 ^ (m - Z.log2 f) + - 2 ^ m) by ring. rewrite inject_Z_plus, inject_Z_opp, inject_Z_mult, <- !two_Z by lia.
    replace (1 - fbias F - m) with (1 - fbias F - (m - Z.log2 f) + (- m + (m - Z.log2 f))) by ring. rewrite (two_plus (1 - fbias F - (m - Z.log2 f))), (two_plus (- m)), two_opp. field. apply two_nz.
  - split; [intros [H0 _]; contradiction |]. destruct (Z.eqb_spec x (2 ^ ebits w m - 1)).
    + split; [| contradiction]. intros _. destruct (f =? 0); reflexivity.
    + split; [contradiction |]. intros _ _. eexists _, _. split; [reflexivity |]. split; [lia |]. rewrite inject_Z_plus, <- !two_Z by lia.
      replace (x - fbias F - m) with (x - fbias F + - m) by ring. rewrite two_plus, two_opp. field. apply two_nz.
Qed.
(** patterns meeting the hypotheses: 1.5, the least subnormal, -infinity, a NaN *)
Example C30_cases : ffinite 32 23 1069547520 /\ (fvalue 32 23 1069547520 == 3 # 2)%Q /\ ffinite 32 23 1 /\ (fvalue 32 23 1 == 1 # (2 ^ 149))%Q /\ ~ ffinite 32 23 4286578688 /\
  (exists r, from_ieee754 F32 1069547520 = Ok (ROk r) /\ rval r = 3 # 2) /\ from_ieee754 F32 4286578688 = Ok (RErr NegInfinity) /\ from_ieee754 F64 9218868437227405313 = Ok (RErr NotANumber).
Proof.
  repeat split; try (vm_compute; (reflexivity || discriminate)).
  - vm_compute. intros H. apply H. reflexivity.
  - eexists. vm_compute. split; reflexivity.
Qed.

(** ** C31 Ratio to floats *)
(** [x] lies closer to the next power of two than to the last float below it *)
Definition rounds_up_to_binade (m : Z) (x : Q) (e : Z) : Prop := (two (e + 1) - (1 # 2) * two (e - m) < Qabs x)%Q.
(** Full claim: the result is adjacent to the exact value for every x in range, an error out of range.
    Missing: the values for which the two refutations below apply, and numerators or denominators of 2^30 bits or more.
    On the rest the result is a nearest float (half a unit) when x is normal, and within 3/4 of a unit when subnormal. *)
Theorem C31_to_float_partial : forall F r e, F = F32 \/ F = F64 -> rwf r -> ~ (rval r == 0)%Q ->
  Z.log2 (Z.abs (bval (rnum r))) < 2 ^ 30 -> Z.log2 (bval (rden r)) < 2 ^ 30 ->
  (two e <= Qabs (rval r) < two (e + 1))%Q -> e <= ebias (fw F) (fm F) ->
  (e < 1 - ebias (fw F) (fm F) \/ ~ rounds_up_to_binade (fm F) (rval r) e \/ (Z.even (e + ebias (fw F) (fm F)) = true /\ e < ebias (fw F) (fm F))) ->
  returns (to_ieee754 F r) (fun o => exists n, o = ROk n /\ 0 <= n < 2 ^ fw F /\ ffinite (fw F) (fm F) n /\
    (Qabs (fvalue (fw F) (fm F) n - rval r) <= (if 1 - ebias (fw F) (fm F) <=? e then 1 # 2 else 3 # 4) * fulp (fw F) (fm F) e)%Q).
Proof.
  intros F r e HF Hr Nz S1 S2 He Hle Hc. destruct (fok_facts F HF) as (_ & _ & Hb' & _). rewrite <- Hb' in *.
  pose proof (rof_rval r Hr) as E. set (x := rval r) in *. clearbody x. subst r. rewrite rnum_rof, bof_val in S1. rewrite rden_rof, bof_val in S2.
  destruct (to_near F HF x e Nz (conj S1 S2) He Hle) as (n & T & N).
  { unfold top. destruct Hc as [? | [? | ?]]; [right; right; lia | left; assumption | right; left; assumption]. }
  rewrite T. apply returns_ok. exists n. auto.
Qed.
Theorem C31_zero : forall F r, rwf r -> (rval r == 0)%Q -> to_ieee754 F r = Ok (ROk 0).
Proof. intros F r Hr V. rewrite <- (rof_rval r Hr), (rof_qeq _ _ V). reflexivity. Qed.
(** out of range (above twice the overflow threshold) *)
Theorem C31_overflow_is_error_partial : forall F r e, F = F32 \/ F = F64 -> rwf r ->
  Z.log2 (Z.abs (bval (rnum r))) < 2 ^ 30 -> Z.log2 (bval (rden r)) < 2 ^ 30 ->
  (two e <= Qabs (rval r) < two (e + 1))%Q -> ebias (fw F) (fm F) + 2 <= e -> to_ieee754 F r = Ok (RErr NotInRange).
Proof.
  intros F r e HF Hr S1 S2 He Hle. destruct (fok_facts F HF) as (_ & _ & Hb' & _). rewrite <- Hb' in *.
  assert (Nz : ~ (rval r == 0)%Q). { intros V. rewrite V in He. pose proof (two_pos e). change (Qabs 0) with 0%Q in He. lra. }
  pose proof (rof_rval r Hr) as E. set (x := rval r) in *. clearbody x. subst r. rewrite rnum_rof, bof_val in S1. rewrite rden_rof, bof_val in S2.
  exact (to_over F HF x e Nz (conj S1 S2) He Hle).
Qed.
(** The carry out of the mantissa is or-ed into an odd exponent field and disappears: every x that rounds up to 2^(e+1)
    with e + bias odd becomes 2^e, half its value. *)
Theorem C31_lost_carry_refuted : forall F r e, F = F32 \/ F = F64 -> rwf r -> ~ (rval r == 0)%Q ->
  Z.log2 (Z.abs (bval (rnum r))) < 2 ^ 30 -> Z.log2 (bval (rden r)) < 2 ^ 30 ->
  (two e <= Qabs (rval r) < two (e + 1))%Q -> 1 - ebias (fw F) (fm F) <= e < ebias (fw F) (fm F) ->
  Z.odd (e + ebias (fw F) (fm F)) = true -> rounds_up_to_binade (fm F) (rval r) e ->
  returns (to_ieee754 F r) (fun o => exists n, o = ROk n /\ ffinite (fw F) (fm F) n /\ (Qabs (fvalue (fw F) (fm F) n) == two e)%Q).
Proof.
  intros F r e HF Hr Nz S1 S2 He Hle Od Tp. destruct (fok_facts F HF) as (_ & _ & Hb' & _). rewrite <- Hb' in *.
  pose proof (rof_rval r Hr) as E. set (x := rval r) in *. clearbody x. subst r. rewrite rnum_rof, bof_val in S1. rewrite rden_rof, bof_val in S2.
  destruct (to_lost F HF x e Nz (conj S1 S2) He Hle Od Tp) as (n & T & N). rewrite T. apply returns_ok. exists n. auto.
Qed.
(** Above the largest float the code may return a pattern, but then it is an infinity or a NaN ... *)
Theorem C31_beyond_range_never_finite : forall F r e n, F = F32 \/ F = F64 -> rwf r ->
  Z.log2 (Z.abs (bval (rnum r))) < 2 ^ 30 -> Z.log2 (bval (rden r)) < 2 ^ 30 ->
  (two e <= Qabs (rval r) < two (e + 1))%Q -> ebias (fw F) (fm F) < e \/ (e = ebias (fw F) (fm F) /\ rounds_up_to_binade (fm F) (rval r) e) ->
  to_ieee754 F r = Ok (ROk n) -> ~ ffinite (fw F) (fm F) n.
Proof.
  intros F r e n HF Hr S1 S2 He Hle. destruct (fok_facts F HF) as (_ & _ & Hb' & _). rewrite <- Hb' in *.
  assert (Nz : ~ (rval r == 0)%Q). { intros V. rewrite V in He. pose proof (two_pos e). change (Qabs 0) with 0%Q in He. lra. }
  pose proof (rof_rval r Hr) as E. set (x := rval r) in *. clearbody x. subst r. rewrite rnum_rof, bof_val in S1. rewrite rden_rof, bof_val in S2.
  exact (to_nonfinite F HF x e n Nz (conj S1 S2) He Hle).
Qed.
(** ... which does happen: 2^128 gives the f32 infinity, 3*2^127 an f32 NaN, 2^1024 the f64 infinity *)
Theorem C31_infinity_refuted :
  to_ieee754 F32 (rof (inject_Z (2 ^ 128))) = Ok (ROk 2139095040) /\ ~ ffinite 32 23 2139095040 /\
  to_ieee754 F32 (rof (inject_Z (3 * 2 ^ 127))) = Ok (ROk 2143289344) /\ ffrac 23 2143289344 <> 0 /\ ~ ffinite 32 23 2143289344 /\
  to_ieee754 F64 (rof (inject_Z (2 ^ 1024))) = Ok (ROk 9218868437227405312) /\ ~ ffinite 64 52 9218868437227405312.
Proof. repeat split; try (vm_compute; reflexivity); try (vm_compute; discriminate); intros H; apply H; vm_compute; reflexivity. Qed.
(** cases: 1/3 is rounded to nearest; 2 - 2^-25 loses its carry (result 1.0); 4 - 2^-24 keeps it (4.0); a third of the least subnormal gives 0 *)
Example C31_cases :
  to_ieee754 F32 (rof (1 # 3)) = Ok (ROk 1051372203) /\ (fvalue 32 23 1051372203 == 11184811 # 33554432)%Q /\
  to_ieee754 F32 (rof (2 - (1 # 2 ^ 25))) = Ok (ROk 1065353216) /\ (fvalue 32 23 1065353216 == 1)%Q /\ Z.odd (0 + ebias 32 23) = true /\
  to_ieee754 F32 (rof (4 - (1 # 2 ^ 24))) = Ok (ROk 1082130432) /\ (fvalue 32 23 1082130432 == 4)%Q /\
  to_ieee754 F32 (rof (- (1 # 3 * 2 ^ 149))) = Ok (ROk 0) /\ to_ieee754 F32 (rof (inject_Z (2 ^ 131))) = Ok (RErr NotInRange).
Proof. repeat split; vm_compute; reflexivity. Qed.
Example C31_hyps : (two 0 <= Qabs (2 - (1 # 2 ^ 25)) < two 1)%Q /\ rounds_up_to_binade 23 (2 - (1 # 2 ^ 25)) 0 /\ (two (-2) <= Qabs (1 # 3) < two (-1))%Q /\ ~ rounds_up_to_binade 23 (1 # 3) (-2).
Proof. repeat split; try (vm_compute; (reflexivity || discriminate)). Qed.

(** ** C32 float -> Ratio -> float *)
Theorem C32_round_trip : forall F n, F = F32 \/ F = F64 -> 0 <= n < 2 ^ fw F -> ffinite (fw F) (fm F) n ->
  exists r, from_ieee754 F n = Ok (ROk r) /\ (~ fzero (fw F) (fm F) n -> to_ieee754 F r = Ok (ROk n)) /\ (fzero (fw F) (fm F) n -> to_ieee754 F r = Ok (ROk 0)).
Proof.
  intros F n HF Hn Hf. exists (rof (fvalue (fw F) (fm F) n)). split.
  - rewrite (from_ok F HF n Hn). unfold ffinite in Hf. destruct (Z.eqb_spec (fexpo (fw F) (fm F) n) (2 ^ ebits (fw F) (fm F) - 1)); [contradiction | reflexivity].
  - rewrite (round_trip F HF n Hn Hf). destruct (fields F HF n Hn) as (_ & HX & HR). unfold fzero. destruct (Z.eqb_spec (fexpo (fw F) (fm F) n + ffrac (fm F) n) 0); split; intros; auto; lia.
Qed.
Example C32_cases : ffinite 64 52 4607182418800017409 /\ ~ fzero 64 52 4607182418800017409 /\ fzero 64 52 (2 ^ 63) /\ ffinite 64 52 1.
Proof. repeat split; try (vm_compute; (reflexivity || discriminate)). intros [H _]. vm_compute in H. discriminate. Qed.

Print Assumptions C30_from_float.
Print Assumptions C30_inspect.
Print Assumptions C31_to_float_partial.
Print Assumptions C31_zero.
Print Assumptions C31_overflow_is_error_partial.
Print Assumptions C31_lost_carry_refuted.
Print Assumptions C31_beyond_range_never_finite.
Print Assumptions C31_infinity_refuted.
Print Assumptions C32_round_trip.
