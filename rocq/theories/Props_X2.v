(** Properties C48, C50 and C51: conversions and rounding of the type F192. *)
From Coq Require Import ZArith QArith Qabs Lqa Lia Bool List.
From Verif Require Import Base UBig UStr USpec UAddSub UEq BBig BSpec BEq RBig RSpec REq RIeee FSpec RIeeeP XNum XSpec XP1 XP2 XP3 XP7 XP8 XP9.
Local Open Scope Z_scope.

Lemma not_lowest' a : a <> mkX (2 ^ 127) 0 -> xlowest a = false.
Proof. intros H. destruct (xlowest a) eqn:E; auto. exfalso. apply H. now apply lowest_eq. Qed.

(** ** C48 integers *)
(** [pmin p <= n < pmax p]: n is in the range of the machine type p *)
Theorem C48_from_int_partial : forall p n, pmin p <= n < pmax p -> n <> - 2 ^ 127 -> returns (xfrom_prim p n) (fun c => xwf c /\ (xval c == inject_Z n)%Q).
Proof. exact xfrom_prim_ok. Qed.
Theorem C48_from_int_refuted : pmin I128 <= - 2 ^ 127 < pmax I128 /\ xfrom_prim I128 (- 2 ^ 127) = Panic.
Proof. split; [cbn; lia | reflexivity]. Qed.
Definition unsigned_prim (p : prim) : bool := match p with U8 | U16 | U32 | U64 | Usize | U128 => true | _ => false end.
Lemma prim_in_ok p z : prim_in p z = if (pmin p <=? z) && (z <? pmax p) then ROk z else RErr TryFromIntError.
Proof. destruct p; unfold prim_in, prim_u, prim_s, in_s, pmin, pmax; try reflexivity; cbn; destruct (_ <=? _); auto. Qed.
Theorem C48_to_unsigned_partial : forall p a, unsigned_prim p = true -> xwf a -> xsign a = false -> xnull a = false -> - 127 <= xpow a <= 0 ->
  exists z, trunc_to (xval a) z /\ xtry_into p a = Ok (if z <? pmax p then ROk z else RErr NotInRange).
Proof.
  intros p a Hp W S N P. destruct (xto_u128_pos a W S N P) as (r & E & z & -> & [Z1 Z2] & T & _). exists z. split; auto.
  unfold xtry_into. replace (match p with U8 | U16 | U32 | U64 | Usize | U128 => xto_u128 a | _ => xto_i128 a end) with (xto_u128 a) by (destruct p; auto; discriminate).
  rewrite E. cbn [rbind bind]. rewrite prim_in_ok. replace (pmin p) with 0 by (destruct p; auto; discriminate). rewrite (proj2 (Z.leb_le 0 z)) by auto. cbn [andb]. destruct (_ <? _); reflexivity.
Qed.
Theorem C48_to_signed_partial : forall p a, unsigned_prim p = false -> xwf a -> xnull a = false -> - 127 <= xpow a < 0 ->
  exists z, trunc_to (xval a) z /\ xtry_into p a = Ok (if (pmin p <=? z) && (z <? pmax p) then ROk z else RErr NotInRange).
Proof.
  intros p a Hp W N P. assert (K : returns (xto_i128 a) (fun r => exists z, r = ROk z /\ trunc_to (xval a) z)) by (destruct (xsign a) eqn:S; [now apply xto_i128_neg | now apply xto_i128_pos]).
  destruct K as (r & E & z & -> & T). exists z. split; auto.
  unfold xtry_into. replace (match p with U8 | U16 | U32 | U64 | Usize | U128 => xto_u128 a | _ => xto_i128 a end) with (xto_i128 a) by (destruct p; auto; discriminate).
  rewrite E. cbn [rbind bind]. rewrite prim_in_ok. destruct (_ && _); reflexivity.
Qed.
Theorem C48_to_int_zero : forall p, xtry_into p xZERO = Ok (ROk 0).
Proof. destruct p; reflexivity. Qed.
Theorem C48_out_of_range : forall p a, xwf a -> (unsigned_prim p = true -> xsign a = true \/ 0 < xpow a -> xtry_into p a = Ok (RErr NotInRange)) /\ (unsigned_prim p = false -> 0 <= xpow a -> xtry_into p a = Ok (RErr NotInRange)).
Proof.
  intros p a W. split; intros Hp H; unfold xtry_into.
  - replace (match p with U8 | U16 | U32 | U64 | Usize | U128 => xto_u128 a | _ => xto_i128 a end) with (xto_u128 a) by (destruct p; auto; discriminate). destruct H; [rewrite xto_u128_neg by auto | rewrite xto_u128_big by auto]; reflexivity.
  - replace (match p with U8 | U16 | U32 | U64 | Usize | U128 => xto_u128 a | _ => xto_i128 a end) with (xto_i128 a) by (destruct p; auto; discriminate). rewrite xto_i128_big by auto. reflexivity.
Qed.
(** an integer goes there and back *)
Theorem C48_round_trip : forall p n, pmin p <= n < pmax p -> - 2 ^ 127 < n -> exists c, xfrom_prim p n = Ok c /\ xtry_into p c = Ok (ROk n).
Proof.
  intros p n R H. destruct (xfrom_prim_ok p n R ltac:(lia)) as (c & E & W & V). exists c. split; auto. destruct (Z.eq_dec n 0) as [-> | N0].
  { rewrite (xval_inj c xZERO); [apply C48_to_int_zero | auto | apply xwf_zero |]. rewrite V, xval_zero. reflexivity. }
  assert (Nn : xnull c = false). { destruct (xnull c) eqn:Nn; auto. rewrite (xnull_zero c Nn), xval_zero in V. change 0%Q with (inject_Z 0) in V. apply (proj1 (inject_Z_injective _ _)) in V. lia. }
  destruct (xmag_bin c W Nn) as [B1 B2]. assert (A := xabs_val c W). rewrite V in A. change (Qabs (inject_Z n)) with (inject_Z (Z.abs n)) in A. rewrite <- A in B1, B2.
  assert (P1 : - 127 <= xpow c). { destruct (Z_le_gt_dec (- 127) (xpow c)); auto. assert ((two (xpow c + 128) <= two 0)%Q) by (apply two_le; lia). change (two 0) with (inject_Z 1) in H0. assert ((inject_Z (Z.abs n) < inject_Z 1)%Q) by lra. rewrite <- Zlt_Qlt in H1. lia. }
  assert (P2 : forall k, Z.abs n < 2 ^ k -> 0 <= k -> xpow c + 127 < k). { intros k Hk K0. apply two_lt_inv. rewrite Zlt_Qlt in Hk. rewrite <- two_Z in Hk by auto. lra. }
  destruct (unsigned_prim p) eqn:Hp.
  - assert (0 < n) by (destruct p; try discriminate; unfold pmin, pmax in R; lia). assert (S : xsign c = false). { pose proof (xval_sign c W) as S. destruct (xsign c); auto. rewrite V in S. change 0%Q with (inject_Z 0) in S. rewrite <- Zlt_Qlt in S. lia. }
    destruct (C48_to_unsigned_partial p c Hp W S Nn) as (z & T & ->). { split; auto. assert (xpow c + 127 < 128); [| lia]. apply P2; [| lia]. destruct p; try discriminate; unfold pmin, pmax in R; lia. }
    rewrite (trunc_unique _ _ _ T V). rewrite (proj2 (Z.ltb_lt n (pmax p))) by lia. reflexivity.
  - destruct (C48_to_signed_partial p c Hp W Nn) as (z & T & ->). { split; auto. assert (xpow c + 127 < 127); [| lia]. apply P2; [| lia]. destruct p; try discriminate; unfold pmin, pmax in R; lia. }
    rewrite (trunc_unique _ _ _ T V). rewrite (proj2 (Z.ltb_lt n (pmax p))), (proj2 (Z.leb_le (pmin p) n)) by lia. reflexivity.
Qed.
(** every nonzero number below one panics; -2^127 is refused although it is in range *)
Theorem C48_fraction_refuted : forall a, xwf a -> xnull a = false -> a <> mkX (2 ^ 127) 0 -> (Qabs (xval a) < 1)%Q -> xto_i128 a = Panic /\ (xsign a = false -> xto_u128 a = Panic).
Proof.
  intros a W N L B. assert (P : xpow a < - 127). { rewrite xabs_val in B by auto. change 1%Q with (two 0) in B. pose proof (xpow_small a 0 W N B). lia. }
  split; [apply xto_i128_frac; auto using not_lowest' | intros; now apply xto_u128_frac].
Qed.
Theorem C48_min_refuted : exists a, xwf a /\ (xval a == - inject_Z (2 ^ 127))%Q /\ xto_i128 a = Ok (RErr NotInRange).
Proof. exists (mkX (2 ^ 127) EXPC). split; [split; cbn; lia |]. split; [unfold Qeq; vm_compute |]; reflexivity. Qed.
Example C48_case : xfrom_prim I32 (- 5) = Ok (mkX (2 ^ 127 + 2 ^ 125) (EXPC - 125)) /\ xtry_into I8 (mkX (2 ^ 127 + 2 ^ 125) (EXPC - 125)) = Ok (ROk (- 5)) /\ xtry_into U8 (mkX 0 (EXPC - 119)) = Ok (RErr NotInRange) /\ xtry_into U8 (mkX (2 ^ 127 - 1) (EXPC - 120)) = Ok (ROk 255) /\
  (xnull (mkX 0 (EXPC - 128)) = false /\ Qabs (xval (mkX 0 (EXPC - 128))) < 1)%Q.
Proof. splits; vm_compute; reflexivity. Qed.

(** ** C50 binary floats *)
Theorem C50_from_float : forall F n, F = F32 \/ F = F64 -> 0 <= n < 2 ^ fw F ->
  (ffinite (fw F) (fm F) n -> exists c, xtry_from_float F n = Ok (ROk c) /\ xwf c /\ (xval c == fvalue (fw F) (fm F) n)%Q) /\
  (~ ffinite (fw F) (fm F) n -> xtry_from_float F n = Ok (RErr (if ffrac (fm F) n =? 0 then if fsign (fw F) n then NegInfinity else Infinity else NotANumber))).
Proof.
  intros F n HF Hn. split; intros H; [| now apply xfrom_float_err]. destruct (xfrom_float_ok F HF n Hn H) as (r & E & c & -> & W & V). exists c. auto.
Qed.
(** Missing: subnormal floats and negative zero, refuted below. *)
Theorem C50_round_trip_partial : forall F n, F = F32 \/ F = F64 -> 0 <= n < 2 ^ fw F -> 0 < fexpo (fw F) (fm F) n < 2 ^ ebits (fw F) (fm F) - 1 -> exists c, xtry_from_float F n = Ok (ROk c) /\ xto_float F c = Ok n.
Proof. intros F n HF. exact (xfloat_round F HF n). Qed.
(** in the range of normal floats: nearest, ties away from zero, or an infinity at and above the point half way to the next power of two *)
Theorem C50_to_float_partial : forall F a, F = F32 \/ F = F64 -> xwf a -> xnull a = false -> 1 - ebias (fw F) (fm F) <= xpow a + 127 <= ebias (fw F) (fm F) ->
  returns (xto_float F a) (fun n => 0 <= n < 2 ^ fw F /\ fsign (fw F) n = xsign a /\
    ((ffinite (fw F) (fm F) n /\ (Qabs (fvalue (fw F) (fm F) n - xval a) <= (1 # 2) * two (xpow a + 127 - fm F))%Q /\ ((Qabs (fvalue (fw F) (fm F) n - xval a) == (1 # 2) * two (xpow a + 127 - fm F))%Q -> (Qabs (xval a) <= Qabs (fvalue (fw F) (fm F) n))%Q)) \/
     (~ ffinite (fw F) (fm F) n /\ ffrac (fm F) n = 0 /\ (two (ebias (fw F) (fm F) + 1) - (1 # 2) * two (ebias (fw F) (fm F) - fm F) <= Qabs (xval a))%Q))).
Proof. intros F a HF W N P. destruct HF as [-> | ->]; [apply (xto_float_near F32 (or_introl eq_refl)) | apply (xto_float_near F64 (or_intror eq_refl))]; auto. Qed.
Theorem C50_to_float_small : forall F a, F = F32 \/ F = F64 -> xwf a -> xe a < 2 ^ 63 - 2 ^ 20 -> xpow a + 128 < - ebias (fw F) (fm F) -> xto_float F a = Ok 0.
Proof. intros F a HF W X P. destruct HF as [-> | ->]; [apply (xto_float_under F32 (or_introl eq_refl)) | apply (xto_float_under F64 (or_intror eq_refl))]; auto. Qed.
Theorem C50_to_float_large_partial : forall F a, F = F32 \/ F = F64 -> xwf a -> xe a < 2 ^ 63 - 2 ^ 20 -> ebias (fw F) (fm F) + 1 < xpow a + 127 ->
  exists n, xto_float F a = Ok n /\ 0 <= n < 2 ^ fw F /\ ~ ffinite (fw F) (fm F) n /\ ffrac (fm F) n = 0 /\ fsign (fw F) n = xsign a.
Proof. intros F a HF W X P. destruct HF as [-> | ->]; [apply (xto_float_over F32 (or_introl eq_refl)) | apply (xto_float_over F64 (or_intror eq_refl))]; auto. Qed.
(** subnormals do not come back: 2^-1074 becomes 0, and 2^-1023 + 2^-1074 becomes 2^-1073; -0 becomes +0 *)
Theorem C50_subnormal_refuted : (exists c, xtry_from_float F64 1 = Ok (ROk c) /\ xto_float F64 c = Ok 0) /\ (exists c, xtry_from_float F64 (2 ^ 51 + 1) = Ok (ROk c) /\ xto_float F64 c = Ok 2) /\ (exists c, xtry_from_float F64 (2 ^ 63) = Ok (ROk c) /\ xto_float F64 c = Ok 0).
Proof. split; [| split]; (eexists; split; [vm_compute; reflexivity |]; vm_compute; reflexivity). Qed.
(** numbers just above the largest float become NaN instead of an infinity; 3 * 2^127 as f32 *)
Theorem C50_nan_refuted : exists a n, xwf a /\ (xval a == inject_Z (3 * 2 ^ 127))%Q /\ xto_float F32 a = Ok n /\ ~ ffinite 32 23 n /\ ffrac 23 n <> 0.
Proof. exists (mkX (2 ^ 126) (EXPC + 1)). eexists. split; [split; cbn; lia |]. split; [unfold Qeq; vm_compute; reflexivity |]. split; [vm_compute; reflexivity |]. split; [intros H; apply H; vm_compute; reflexivity | vm_compute; discriminate]. Qed.
(** exponents of 2^63 and more are read as negative *)
Theorem C50_huge_refuted : xto_float F64 xMAX = Ok 0.
Proof. vm_compute. reflexivity. Qed.
Example C50_case : xtry_from_float F64 4609434218613702656 = Ok (ROk (mkX (2 ^ 126) (EXPC - 127))) /\ xto_float F64 (mkX (2 ^ 126) (EXPC - 127)) = Ok 4609434218613702656 /\ xto_float F32 xPI = Ok 1078530011 /\
  0 < fexpo 64 52 4609434218613702656 < 2 ^ ebits 64 52 - 1.
Proof. splits; vm_compute; reflexivity. Qed.

(** ** C51 rounding to integers *)
Theorem C51_truncate_partial : forall a, xwf a -> xe a < 2 ^ 63 -> returns (xtruncate a) (fun c => xwf c /\ exists z, (xval c == inject_Z z)%Q /\ trunc_to (xval a) z).
Proof. intros a W X. eapply returns_weaken; [now apply xtruncate_ok |]. intros c (Wc & z & V & T & _). eauto. Qed.
Theorem C51_floor_partial : forall a, xwf a -> xe a < 2 ^ 63 -> returns (xfloor a) (fun c => xwf c /\ exists z, (xval c == inject_Z z)%Q /\ floor_to (xval a) z).
Proof. exact xfloor_ok. Qed.
Theorem C51_ceil_partial : forall a, xwf a -> xe a < 2 ^ 63 -> returns (xceil a) (fun c => xwf c /\ exists z, (xval c == inject_Z z)%Q /\ ceil_to (xval a) z).
Proof. exact xceil_ok. Qed.
Theorem C51_round_partial : forall a, xwf a -> xe a < 2 ^ 63 -> a <> mkX (2 ^ 127) 0 -> returns (xround a) (fun c => xwf c /\ exists z, (xval c == inject_Z z)%Q /\ round_to (xval a) z).
Proof. intros a W X L. apply xround_ok; auto using not_lowest'. Qed.
Theorem C51_frac_partial : forall a, xwf a -> xe a < 2 ^ 63 -> a <> mkX (2 ^ 127) 0 -> Z.abs (xpow a) < 2 ^ 32 \/ xnull a = true -> returns (xfrac a) (fun c => xwf c /\ exists z, (xval c == xval a - inject_Z z)%Q /\ trunc_to (xval a) z).
Proof. intros a W X L P. apply xfrac_ok; auto using not_lowest'. Qed.
(** exponents of 2^63 and more are read as negative: the largest number is truncated to zero, and 2^127 * 2^(2^63 - 2^48) panics *)
Theorem C51_huge_refuted : xtruncate xMAX = Ok xZERO /\ xtruncate (mkX 0 (2 ^ 63)) = Panic /\ xfrac (mkX (2 ^ 127) 0) = Ok xZERO.
Proof. splits; vm_compute; reflexivity. Qed.
Example C51_case : xtruncate (mkX (2 ^ 127 + 2 ^ 126) (EXPC - 127)) = Ok (mkX (2 ^ 127) (EXPC - 127)) /\ xfloor (mkX (2 ^ 127 + 2 ^ 126) (EXPC - 127)) = Ok (mkX (2 ^ 127) (EXPC - 126)) /\
  xround (mkX (2 ^ 127 + 2 ^ 126) (EXPC - 127)) = Ok (mkX (2 ^ 127) (EXPC - 126)) /\ xceil (mkX (2 ^ 126) (EXPC - 127)) = Ok (mkX 0 (EXPC - 126)) /\ xfrac (mkX (2 ^ 126) (EXPC - 127)) = Ok (mkX 0 (EXPC - 128)).
Proof. splits; vm_compute; reflexivity. Qed.

Print Assumptions C48_from_int_partial.
Print Assumptions C48_from_int_refuted.
Print Assumptions C48_to_unsigned_partial.
Print Assumptions C48_to_signed_partial.
Print Assumptions C48_to_int_zero.
Print Assumptions C48_out_of_range.
Print Assumptions C48_round_trip.
Print Assumptions C48_fraction_refuted.
Print Assumptions C48_min_refuted.
Print Assumptions C50_from_float.
Print Assumptions C50_round_trip_partial.
Print Assumptions C50_to_float_partial.
Print Assumptions C50_to_float_small.
Print Assumptions C50_to_float_large_partial.
Print Assumptions C50_subnormal_refuted.
Print Assumptions C50_nan_refuted.
Print Assumptions C50_huge_refuted.
Print Assumptions C51_truncate_partial.
Print Assumptions C51_floor_partial.
Print Assumptions C51_ceil_partial.
Print Assumptions C51_round_partial.
Print Assumptions C51_frac_partial.
Print Assumptions C51_huge_refuted.
