(** Property theorems for the approximate texts of Ratio: [to_scientific_notation], [to_approx_string], [to_string]. *)
From Coq Require Import Qpower.
From Coq Require Lqa.
From Verif Require Import Base USpec SSpec UFacts UBig UFun UStr UStrP UEq BBig BSpec BEq Props_B RBig RSpec REq RStr RStrP XFun RFmt RFmtP RFmtT RFmtQ RFmtR RFmtS RFmtU.
Local Open Scope Z_scope.

(** both parts of the fraction have fewer than 2^27 limbs *)
Definition printable (r : rat) : Prop := rwf r /\ Z.of_nat (length (bmag (rnum r))) < 2 ^ 27 /\ Z.of_nat (length (bmag (rden r))) < 2 ^ 27.
Lemma printable_small r : printable r -> r = rof (rval r) /\ small_rat (rval r).
Proof.
  intros (W & L1 & L2). pose proof (rof_rval r W) as E. split; [auto |]. rewrite <- E in L1, L2. unfold small_rat. 
  pose proof (rof_den_pos (rval r)) as Dp. unfold rof in L1, L2. cbn [rnum rden bmag bof] in L1, L2.
  change (Z.of_nat (length (uof (Z.abs (QDen (Qred (rval r)))))) < 2 ^ 27) in L2. rewrite Z.abs_eq in L2 by lia. split; assumption.
Qed.
(** digits with a point behind the first one, when there are more *)
Definition mantissa (ds : list Z) : list Z :=
  match ds with d :: (_ :: _) as t => (48 + d) :: 46 :: map (fun d => 48 + d) t | _ => map (fun d => 48 + d) ds end.
Lemma mantissa_eq ds : Forall digit ds -> mant ds = mantissa ds.
Proof.
  assert (E : forall d, digit d -> dchar d = 48 + d). { intros d H. unfold digit in H. unfold dchar. destruct (Z.ltb_spec d 10); lia. }
  intros F. assert (M : forall l, Forall digit l -> map dchar l = map (fun d => 48 + d) l). { intros l H. apply map_ext_in. intros a Ha. apply E. revert a Ha. now apply Forall_forall. }
  destruct ds as [| d [| d' t]]; cbn [mant mantissa]; auto.
  - inversion F; subst. cbn. now rewrite E.
  - inversion F; subst. now rewrite E, M.
Qed.

(** ** C68 to_scientific_notation: sign, at most [max] digits with no superfluous zero, the exponent of the leading digit; the text
    denotes the number cut toward zero behind 16 to 19 digits, or [max] if that is less.  When both parts have more than 4 limbs the
    number is first approximated to within 2^-96. *)
Theorem C68_scientific : forall r max, printable r -> ~ (rval r == 0)%Q -> (1 <= max)%nat ->
  exists y ds e ex t q j, rto_scientific_notation r max = Ok t /\
    t = (if qltb (rval r) 0 then [45] else []) ++ mantissa ds ++ 101 :: ex /\ snumeral 10 [] e ex /\
    Forall (fun d => 0 <= d < 10) ds /\ (1 <= length ds <= max)%nat /\ (length ds = 1%nat \/ last ds 0 <> 0) /\
    rread t = Some q /\ trunc_to q y j /\ (inject_Z 10 ^ e <= Qabs y)%Q /\ (Qabs y < inject_Z 10 ^ (e + 1))%Q /\
    e + 1 - Z.min (Z.of_nat max) 19 <= j <= e + 1 - Z.min (Z.of_nat max) 16 /\
    (Qabs (y - rval r) * inject_Z (2 ^ 96) <= Qabs (rval r))%Q /\
    (Z.abs (bval (rnum r)) < 2 ^ 128 \/ bval (rden r) < 2 ^ 128 -> (y == rval r)%Q).
Proof.
  intros r max P Hx Hm. destruct (printable_small r P) as [E S].
  destruct (sci_ok_rat (rval r) max Hx S Hm) as (y & ds & e & q & j & T1 & T2 & T3 & T4 & T5 & T6 & T7 & T8 & T10). rewrite <- E in T1.
  exists y, ds, e, (fmt_sint e), (sg (qltb (rval r) 0) ++ mant ds ++ 101 :: fmt_sint e), q, j.
  split; [exact T1 |]. split; [unfold sg; now rewrite mantissa_eq by auto |]. split; [apply fmt_sint_numeral |]. split; [exact T2 |].
  split; [exact T3 |]. split; [exact T4 |]. split; [exact T5 |]. split; [exact T6 |]. split; [exact T7 |]. split; [exact T8 |]. split; [exact (proj1 T10) |].
  split; [exact (proj1 (proj2 T10)) |]. rewrite E at 1 2. unfold rof. cbn [rnum rden]. rewrite !bof_val. exact (proj2 (proj2 T10)).
Qed.

Theorem C68_zero_refuted : forall max, rto_scientific_notation (rof 0) max = Ok [48; 101; 45; 49; 55].
Proof. exact sci_rat_zero. Qed.

(** ** C69 to_approx_string: the number cut toward zero.  At most [max max_len 6] characters, or as many as the exponent needs *)
Theorem C69_approx : forall r max_len, printable r -> ~ (rval r == 0)%Q -> Z.of_nat max_len < 2 ^ 63 ->
  (2 * inject_Z 10 ^ (- 9991) < Qabs (rval r))%Q -> (2 * Qabs (rval r) < inject_Z 10 ^ 9991)%Q ->
  let M := Nat.max max_len 6 in let m := Z.of_nat M - 2 in
  exists t q j, rto_approx_string r max_len = Ok t /\ rread t = Some q /\ trunc_to q (rval r) j /\ (exists d u, t = (if qltb (rval r) 0 then [45] else []) ++ d :: u /\ 48 <= d <= 57) /\
    (fixed_style (rval r) M t j \/ sci_style (rval r) M t j) /\
    ((2 * inject_Z 10 ^ (- m) < Qabs (rval r))%Q -> (2 * Qabs (rval r) < inject_Z 10 ^ m)%Q -> fixed_style (rval r) M t j) /\
    ((2 * inject_Z 10 ^ m <= Qabs (rval r))%Q \/ (2 * Qabs (rval r) <= inject_Z 10 ^ (- m))%Q -> sci_style (rval r) M t j).
Proof.
  intros r max_len P Hx HL R1 R2. destruct (printable_small r P) as [E S].
  destruct (approx_ok (rval r) max_len Hx S HL R1 R2) as (t & q & j & T1 & T2 & T3 & [_ TS] & _ & T4). rewrite <- E in T1. exists t, q, j. cbn zeta in T4. auto.
Qed.
(** [to_string] and [Display]: 12 characters *)
Theorem C69_to_string : forall r, printable r -> (2 * inject_Z 10 ^ (- 10) < Qabs (rval r))%Q -> (2 * Qabs (rval r) < inject_Z 10 ^ 10)%Q ->
  exists t q j, rto_string r = Ok t /\ (length t <= 12)%nat /\ ~ In 101 t /\ rread t = Some q /\ trunc_to q (rval r) j /\ j <= 0 /\
    forall k, 1 <= k -> (Qabs (rval r) < inject_Z 10 ^ k)%Q -> j <= k - (if qltb (rval r) 0 then 10 else 11).
Proof.
  intros r P R1 R2.
  assert (Hx : ~ (rval r == 0)%Q). { intros C. rewrite C in R1. revert R1. apply Qle_not_lt. discriminate. }
  destruct (C69_approx r 12 P Hx ltac:(reflexivity)) as (t & q & j & T1 & T2 & T3 & _ & _ & T4 & _).
  { eapply Qle_lt_trans; [| exact R1]. apply Qmult_le_l; [reflexivity |]. apply pow10_le. lia. }
  { eapply Qlt_le_trans; [exact R2 |]. apply pow10_le. lia. }
  destruct (T4 R1 R2) as (F1 & F2 & F3 & F4). exists t, q, j. change (Nat.max 12 6) with 12%nat in *. splits; auto.
  intros k Hk Lk. specialize (F4 k Hk Lk). destruct (qltb (rval r) 0); lia.
Qed.
Theorem C69_zero : forall max_len, Z.of_nat max_len < 2 ^ 63 -> rto_approx_string (rof 0) max_len = Ok [48].
Proof. exact approx_zero. Qed.

(** reading the text back gives the number it denotes *)
Lemma early_us_no s : (forall c, In c s -> c <> 95) -> early_us s = false.
Proof.
  induction s as [| c t IH]; intros H; cbn [early_us]; auto. destruct (Z.eqb_spec c 95) as [C | C]; [exfalso; apply (H c); [left | ]; auto |].
  destruct ((c =? 45) || (c =? 48) || (c =? 46)); auto. apply IH. intros; apply H. now right.
Qed.
Theorem C69_reads_back : forall r max_len, printable r -> ~ (rval r == 0)%Q -> Z.of_nat max_len < 2 ^ 31 ->
  (2 * inject_Z 10 ^ (- 9991) < Qabs (rval r))%Q -> (2 * Qabs (rval r) < inject_Z 10 ^ 9991)%Q ->
  exists t s, rto_approx_string r max_len = Ok t /\ rfrom_string t = Ok (ROk s) /\ rwf s /\
    (0 <= rval s * rval r)%Q /\ (Qabs (rval s) <= Qabs (rval r))%Q /\ rread t <> None.
Proof.
  intros r max_len P Hx HL R1 R2. destruct (printable_small r P) as [E S].
  assert (HL' : Z.of_nat max_len < 2 ^ 63) by lia.
  destruct (approx_ok (rval r) max_len Hx S HL' R1 R2) as (t & q & j & T1 & T2 & T3 & [T4 _] & TL & T5 & _). rewrite <- E in T1.
  assert (Hc : forall c, In c t -> tchar c) by (apply Forall_forall; exact T4).
  assert (LT : Z.of_nat (length t) < 2 ^ 32 /\ forall a b, cut is_e t = Some (a, b) -> bread b <> Some (- 2 ^ 31)).
  { destruct T5 as [(F1 & F2 & _) | (m & ex & e & F1 & F2 & F3 & F4 & F5 & F6 & _)].
    - split; [lia |]. rewrite cut_none; [discriminate |]. intros c H. pose proof (Hc c H) as K. unfold tchar in K. unfold is_e. assert (c <> 101) by (intros ->; auto). lia.
    - assert (Be : - 9992 < e < 9991) by (now apply (exp_range 9991 (rval r))).
      split; [lia |]. intros a b EC. rewrite F1, cut_app in EC; [| reflexivity |].
      + injection EC as <- <-. rewrite (bread_snumeral10 e ex F3). intros K. injection K as K. lia.
      + intros c H. assert (In c t) as H' by (rewrite F1; apply in_or_app; auto). pose proof (Hc c H') as K. unfold tchar in K. unfold is_e. assert (c <> 101) by (intros ->; auto). lia. }
  destruct LT as [LT CE].
  pose proof (Rfrom_string t LT) as RF. unfold decided in RF. rewrite T2 in RF. 
  exists t, (rof q). split; [exact T1 |]. split. { apply RF; auto. apply early_us_no. intros c H. pose proof (Hc c H) as K. unfold tchar in K. lia. }
  split; [apply rof_wf |]. rewrite rof_val. destruct T3 as (K1 & K2 & _). splits; auto. rewrite T2. discriminate.
Qed.

(** a number other than zero may print as zero: -0.0005 with six characters *)
Theorem C69_nonzero_refuted : exists r, printable r /\ ~ (rval r == 0)%Q /\ rto_approx_string r 6 = Ok [45; 48].
Proof. exists (rof (-5 # 10000)). split; [split; [apply rof_wf | vm_compute; auto] |]. split; [discriminate |]. vm_compute; reflexivity. Qed.
(** the text may be longer than asked for: 10^100 * 1.25 with six characters is 1.2e100 *)
Theorem C69_length_refuted : exists r t, printable r /\ rto_approx_string r 6 = Ok t /\ length t = 7%nat.
Proof.
  exists (rof (inject_Z (125 * 10 ^ 98))), [49; 46; 50; 101; 49; 48; 48]. split; [split; [apply rof_wf | vm_compute; auto] |]. split; [| reflexivity]. vm_compute; reflexivity.
Qed.
(** 1/3 is 0.3333333333, and 3.3333e-1 with five digits *)
Example C69_ex : rto_string (rof (1 # 3)) = Ok [48; 46; 51; 51; 51; 51; 51; 51; 51; 51; 51; 51] /\
  rto_scientific_notation (rof (1 # 3)) 5 = Ok [51; 46; 51; 51; 51; 51; 101; 45; 49].
Proof. split; vm_compute; reflexivity. Qed.
Example C69_hypotheses_met : let r := rof (-22 # 7) in printable r /\ ~ (rval r == 0)%Q /\ (2 * inject_Z 10 ^ (- 10) < Qabs (rval r))%Q /\ (2 * Qabs (rval r) < inject_Z 10 ^ 10)%Q /\
  (2 * inject_Z 10 ^ (- 9991) < Qabs (rval r))%Q /\ (2 * Qabs (rval r) < inject_Z 10 ^ 9991)%Q.
Proof.
  cbv zeta. rewrite rof_val. split; [split; [apply rof_wf | vm_compute; auto] |]. split; [discriminate |].
  assert (A : (2 * inject_Z 10 ^ (- 10) < Qabs (-22 # 7))%Q) by reflexivity. assert (B : (2 * Qabs (-22 # 7) < inject_Z 10 ^ 10)%Q) by reflexivity. splits; auto.
Qed.

Print Assumptions C68_scientific.
Print Assumptions C68_zero_refuted.
Print Assumptions C69_approx.
Print Assumptions C69_to_string.
Print Assumptions C69_zero.
Print Assumptions C69_reads_back.
Print Assumptions C69_nonzero_refuted.
Print Assumptions C69_length_refuted.
