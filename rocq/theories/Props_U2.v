(** Property theorems for UBigInt text conversion and functions: C09, C10, C14-C18, C56. *)
From Verif Require Import Base USpec UFacts UBig UAddSub UMul UDiv UEq UFun UPow USqrt UPrime SSpec UStr UStrP ULog USci.
From Coq Require Import Znumtheory Sorted.

Local Notation W32 := 4294967296 (only parsing).

Lemma on_uof (P : list Z -> Prop) : (forall n, 0 <= n -> P (uof n)) -> forall a, uwf a -> P a.
Proof. intros H a Ha. rewrite <- (uof_of_wf a Ha). apply H. now apply uwf_nonneg. Qed.

(** ** C09 printing.  [numeral b n s]: [s] is the base-b numeral of n without superfluous leading zero *)
Theorem C09_print_dec : forall a, uwf a -> Z.of_nat (length a) < W32 ->
  returns (uto_string_dec a) (fun s => numeral 10 (uval a) s).
Proof.
  apply (on_uof (fun a => _ -> returns (uto_string_dec a) (fun s => numeral 10 (uval a) s))). intros n Hn HL.
  rewrite Eto_string_dec by auto. apply returns_ok. rewrite uof_uval by auto. apply fmt_numeral; lia.
Qed.
Theorem C09_print_radix : forall a p, uwf a ->
  returns (uto_string_hex a p) (fun s => exists d, s = (if p then [48; 120] else []) ++ d /\ numeral 16 (uval a) d) /\
  returns (uto_string_oct a p) (fun s => exists d, s = (if p then [48; 111] else []) ++ d /\ numeral 8 (uval a) d) /\
  returns (uto_string_bin a p) (fun s => exists d, s = (if p then [48; 98] else []) ++ d /\ numeral 2 (uval a) d).
Proof.
  intros a p. revert a. apply (on_uof (fun a => returns _ (fun s => exists d, _ /\ numeral 16 (uval a) d) /\
    returns _ (fun s => exists d, _ /\ numeral 8 (uval a) d) /\ returns _ (fun s => exists d, _ /\ numeral 2 (uval a) d))). intros n Hn.
  rewrite uof_uval, Eto_string_hex, Eto_string_oct, Eto_string_bin by auto.
  splits; apply returns_ok; eexists; (split; [reflexivity |]); apply fmt_numeral; lia.
Qed.
(** the numeral is unique, so the printed text is fully determined *)
Theorem C09_round_trip_dec : forall a, uwf a -> Z.of_nat (length a) < W32 ->
  returns (uto_string_dec a) (fun s => ufrom_string s = Ok (ROk a)).
Proof.
  intros a Ha HL. eapply returns_weaken; [apply C09_print_dec; auto |]. intros s Hs.
  pose proof (Efrom_string s) as R. rewrite (uread_dec _ _ Hs) in R. cbn [reads] in R. rewrite R. now rewrite uof_of_wf.
Qed.
Theorem C09_round_trip_radix : forall a, uwf a ->
  returns (uto_string_hex a true) (fun s => ufrom_string s = Ok (ROk a)) /\
  returns (uto_string_oct a true) (fun s => ufrom_string s = Ok (ROk a)) /\
  returns (uto_string_bin a true) (fun s => ufrom_string s = Ok (ROk a)).
Proof.
  intros a Ha. destruct (C09_print_radix a true Ha) as (H1 & H2 & H3).
  assert (K : forall p b d, prefix_base p = Some b -> numeral b (uval a) d -> ufrom_string ([48; p] ++ d) = Ok (ROk a)).
  { intros p b d Hp Hd. pose proof (Efrom_string ([48; p] ++ d)) as R. cbn [app] in *. rewrite (uread_prefix _ _ _ _ Hp Hd) in R.
    cbn [reads] in R. rewrite R. now rewrite uof_of_wf. }
  splits; (eapply returns_weaken; [eassumption |]); cbn; intros s (d & -> & Hd); eapply K; try eassumption; reflexivity.
Qed.
Example C09_ex : uto_string_dec [0; 0; 1] = Ok [49; 56; 52; 52; 54; 55; 52; 52; 48; 55; 51; 55; 48; 57; 53; 53; 49; 54; 49; 54] /\
  uto_string_hex [255; 1] true = Ok [48; 120; 49; 48; 48; 48; 48; 48; 48; 102; 102] /\ uto_string_oct [8] false = Ok [49; 48] /\
  uto_string_bin [5] true = Ok [48; 98; 49; 48; 49] /\ uto_string_dec [0] = Ok [48].
Proof. splits; vm_compute; reflexivity. Qed.

(** ** C10 parsing.  [uread] (SSpec.v) says which strings denote which number *)
Theorem C10_from_string_decides : forall s,
  match uread s with
  | Some v => 0 <= v -> returns (ufrom_string s) (fun r => exists a, r = ROk a /\ uwf a /\ uval a = v)
  | None => exists e, ufrom_string s = Ok (RErr e) /\ (e = NoData \/ exists c, e = InvalidChar c /\ In c s)
  end.
Proof.
  intros s. pose proof (Efrom_string s) as R. unfold reads in R. destruct (uread s); auto.
  intros Hz. rewrite R. apply returns_ok. exists (uof z). splits; auto using uof_wf, uof_uval.
Qed.
Lemma dvalue_nonneg b s : forall acc v, 0 <= acc -> 0 <= b -> dvalue b acc s = Some v -> 0 <= v.
Proof.
  induction s as [| c t IH]; cbn [dvalue]; intros acc v Ha Hb H; [inversion H; lia |].
  destruct (bdig b c) as [d |] eqn:E; [| discriminate]. pose proof (bdig_range _ _ _ E). eapply IH; [| | eassumption]; nia.
Qed.
Theorem C10_value_nonneg : forall s v, uread s = Some v -> 0 <= v.
Proof.
  intros s v. destruct s as [| c t]; [discriminate |]. destruct (Z.eq_dec c 95) as [-> | N]; [discriminate |].
  rewrite uread_cons by auto. destruct (Z.eqb_spec c 48).
  - destruct (no_us t) as [| p rest]; [intros H; inversion H; lia |]. unfold prefix_base.
    destruct ((p =? 120) || (p =? 88)); [| destruct ((p =? 98) || (p =? 66)); [| destruct ((p =? 111) || (p =? 79)); [| discriminate]]];
    (destruct rest; [discriminate |]; intros H; eapply dvalue_nonneg; [| | eassumption]; lia).
  - intros H. eapply dvalue_nonneg; [| | eassumption]; lia.
Qed.
Theorem C10_from_string_total : forall s, exists r, ufrom_string s = Ok r.
Proof.
  intros s. pose proof (Efrom_string s) as R. unfold reads in R. destruct (uread s); [eauto |]. destruct R as (e & -> & _). eauto.
Qed.
Theorem C10_empty_rejected : ufrom_string [] = Ok (RErr NoData).
Proof. reflexivity. Qed.
Lemma dvalue_foreign b c s : bdig b c = None -> In c s -> forall acc, dvalue b acc s = None.
Proof.
  intros Hc. induction s as [| x t IH]; cbn [dvalue In]; [tauto |]. intros [-> | H] acc; [now rewrite Hc |].
  destruct (bdig b x); auto.
Qed.
Theorem C10_foreign_character_rejected : forall s c, In c s -> cdig c = None -> c <> 95 -> prefix_base c = None ->
  exists e, ufrom_string s = Ok (RErr e).
Proof.
  intros s c Hin Hc N Hp. enough (uread s = None) as E.
  { pose proof (Efrom_string s) as R. rewrite E in R. destruct R as (e & -> & _). eauto. }
  assert (Hb : forall b, bdig b c = None) by (intros; unfold bdig; now rewrite Hc).
  assert (Hus : forall t, In c t -> In c (no_us t)).
  { intros t Ht. unfold no_us. apply filter_In. split; auto. destruct (Z.eqb_spec c 95); [contradiction | reflexivity]. }
  destruct s as [| x t]; [destruct Hin |]. destruct (Z.eq_dec x 95) as [-> | Nx]; [reflexivity |].
  rewrite uread_cons by auto. destruct (Z.eqb_spec x 48) as [-> | N48].
  - destruct Hin as [<- | Hin]; [discriminate |]. apply Hus in Hin. destruct (no_us t) as [| p rest]; [destruct Hin |].
    destruct Hin as [-> | Hin]; [now rewrite Hp |]. destruct (prefix_base p); auto. destruct rest; auto.
    eapply dvalue_foreign; eauto.
  - eapply dvalue_foreign; [apply Hb |]. destruct Hin as [-> | Hin]; [left; auto | right; auto].
Qed.
(** the documented grammar: decimal *)
Definition dec_or_us (c : Z) : Prop := c = 95 \/ 48 <= c <= 57.
Lemma dvalue_accepts b s : Forall (fun c => exists d, bdig b c = Some d) s -> forall acc, exists v, dvalue b acc s = Some v.
Proof. induction 1 as [| c s [d E] Hs IH]; intros acc; cbn [dvalue]; [eauto |]. rewrite E. apply IH. Qed.
Theorem C10_decimal_grammar_accepted : forall c t, 49 <= c <= 57 -> Forall dec_or_us t ->
  exists v, ufrom_string (c :: t) = Ok (ROk (uof v)) /\ dvalue 10 0 (c :: no_us t) = Some v.
Proof.
  intros c t Hc Ht. assert (exists v, uread (c :: t) = Some v /\ dvalue 10 0 (c :: no_us t) = Some v) as (v & E1 & E2).
  { rewrite uread_cons by lia. destruct (Z.eqb_spec c 48); [lia |].
    destruct (dvalue_accepts 10 (c :: no_us t)) with (acc := 0) as [v E]; [| eauto].
    assert (K : forall x, 48 <= x <= 57 -> exists d, bdig 10 x = Some d).
    { intros x Hx. exists (x - 48). unfold bdig, cdig. replace ((48 <=? x) && (x <=? 57)) with true by lia.
      replace (x - 48 <? 10) with true by lia. reflexivity. }
    constructor; [apply K; lia |]. unfold no_us. apply Forall_forall. intros x Hx. apply filter_In in Hx as [Hx Hn].
    rewrite Forall_forall in Ht. destruct (Ht x Hx) as [-> | Hr]; [discriminate | auto]. }
  exists v. split; auto. pose proof (Efrom_string (c :: t)) as R. rewrite E1 in R. exact R.
Qed.
(** prefixed notation with at least one digit *)
Theorem C10_prefixed_grammar_partial : forall p b t, prefix_base p = Some b ->
  Forall (fun c => c = 95 \/ exists d, bdig b c = Some d) t -> no_us t <> [] ->
  exists v, ufrom_string (48 :: p :: t) = Ok (ROk (uof v)) /\ dvalue b 0 (no_us t) = Some v.
Proof.
  intros p b t Hp Ht Hn. destruct (dvalue_accepts b (no_us t)) with (acc := 0) as [v E].
  { unfold no_us. apply Forall_forall. intros x Hx. apply filter_In in Hx as [Hx Hc]. rewrite Forall_forall in Ht.
    destruct (Ht x Hx) as [-> | H]; [discriminate | auto]. }
  exists v. split; auto. pose proof (Efrom_string (48 :: p :: t)) as R. rewrite uread_cons in R by lia. cbn [Z.eqb] in R.
  assert (p <> 95) by (intros ->; discriminate). cbn [no_us filter] in R. destruct (Z.eqb_spec p 95); [contradiction |].
  cbn [negb] in R. fold (no_us t) in R. rewrite Hp in R. change (48 =? 48) with true in R. cbn iota in R.
  destruct (no_us t) as [| x l]; [congruence |]. rewrite E in R. exact R.
Qed.
(** the documented grammar [('0x' | '0X') ([0-9a-fA-F] | '_')+] also derives "0x_", which is rejected *)
Theorem C10_documented_grammar_refuted : ufrom_string [48; 120; 95] = Ok (RErr NoData).
Proof. reflexivity. Qed.
Example C10_ex : ufrom_string [49; 95; 48; 48] = Ok (ROk [100]) /\ ufrom_string [48; 120; 70; 102] = Ok (ROk [255]) /\
  ufrom_string [48; 49] = Ok (RErr (InvalidChar 49)) /\ ufrom_string [49; 97] = Ok (RErr (InvalidChar 97)).
Proof. splits; vm_compute; reflexivity. Qed.

(** ** C14 integer square root *)
(** [top64 n] are the leading two limbs of n (n itself below 2^64).  Full claim: every n.  Missing: numbers whose two
    leading limbs are at least 18428729675200069632 (about 0.1 percent of the range); some of those panic. *)
Theorem C14_sqrt_partial : forall a, uwf a -> top64 (uval a) < 18428729675200069632 ->
  returns (usqrt a) (fun r => uwf r /\ uval r * uval r <= uval a < (uval r + 1) * (uval r + 1)).
Proof.
  apply (on_uof (fun a => _ -> returns (usqrt a) (fun r => uwf r /\ uval r * uval r <= uval a < (uval r + 1) * (uval r + 1)))).
  intros n Hn. rewrite uof_uval by auto. intros HT. rewrite Esqrt by auto. apply returns_ok.
  pose proof (Z.sqrt_nonneg n). rewrite uof_uval by auto. split; [now apply uof_wf |]. pose proof (Z.sqrt_spec n Hn) as K. cbv zeta in K. unfold Z.succ in K. exact K.
Qed.
Theorem C14_sqrt_refuted : forall k, uwf (repeat 0 k ++ [4294967295; 4294967295]) /\ usqrt (repeat 0 k ++ [4294967295; 4294967295]) = Panic.
Proof.
  intros k. split; [| apply sqrt_big_panic]. split; [intros C; apply app_eq_nil in C as [_ C]; discriminate |]. split.
  - apply Forall_app. split; [| repeat constructor; lia]. apply Forall_forall. intros x Hx. apply repeat_spec in Hx. lia.
  - right. change [4294967295; 4294967295] with ([4294967295] ++ [4294967295]). rewrite app_assoc, last_last. lia.
Qed.
Example C14_ex : usqrt [0; 0; 2] = Ok [1779033703; 1] /\ usqrt [99] = Ok [9] /\ top64 (2 ^ 65) < 18428729675200069632.
Proof. splits; vm_compute; reflexivity. Qed.

(** ** C15 logarithms *)
Theorem C15_log2 : forall a, uwf a -> Z.of_nat (length a) < 2 ^ 58 ->
  returns (ulog2 a) (fun r => uwf r /\ (uval a = 0 -> uval r = 0) /\ (0 < uval a -> 2 ^ uval r <= uval a < 2 ^ (uval r + 1))).
Proof.
  apply (on_uof (fun a => _ -> returns (ulog2 a) (fun r => uwf r /\ (uval a = 0 -> uval r = 0) /\ (0 < uval a -> 2 ^ uval r <= uval a < 2 ^ (uval r + 1))))).
  intros n Hn HL. rewrite Elog2 by auto. apply returns_ok. pose proof (Z.log2_nonneg n). rewrite !uof_uval by auto.
  splits; [now apply uof_wf | intros ->; reflexivity |]. intros Hp. apply Z.log2_spec. lia.
Qed.
(** the result r satisfies  r <= 2^32 log2 n < r + 1 + 2^-121: it is a lower bound and at most one unit low *)
Theorem C15_log2_accurate : forall a, uwf a -> 0 < uval a -> Z.of_nat (length a) < 2 ^ 27 ->
  returns (ulog2_accurate a) (fun r => uwf r /\ 2 ^ uval r <= uval a ^ (2 ^ 32) /\
    uval a ^ (2 ^ 32) * 2 ^ 160 < 2 ^ (uval r + 1) * (2 ^ 160 + 2 ^ 38)).
Proof.
  intros a Ha H0 HL. destruct (Elog2_accurate (uval a) ltac:(lia)) as (r & E & R0 & R1 & R2); [now rewrite uof_of_wf |].
  rewrite uof_of_wf in E by auto. rewrite E. apply returns_ok. rewrite uof_uval by auto. splits; auto. now apply uof_wf.
Qed.
Theorem C15_log2_accurate_zero : ulog2_accurate [0] = Ok [0].
Proof. exact Elog2_accurate_0. Qed.
Example C15_ex : ulog2 [0; 0; 5] = Ok [66] /\ ulog2_accurate [8] = Ok [0; 3].
Proof. splits; vm_compute; reflexivity. Qed.

(** ** C16 factorial and fibonacci, against their recurrences *)
Fixpoint fact_spec (n : nat) : Z := match n with O => 1 | S m => Z.of_nat n * fact_spec m end.
Fixpoint fib_pair (n : nat) : Z * Z := match n with O => (0, 1) | S m => let (x, y) := fib_pair m in (y, x + y) end.
Theorem C16_factorial : forall n, 0 <= n < 2 ^ 32 ->
  returns (ufactorial n) (fun r => uwf r /\ uval r = fact_spec (Z.to_nat n)).
Proof.
  intros n Hn. rewrite Efactorial by auto. apply returns_ok.
  assert (E : forall k, zfact k = fact_spec k) by (induction k; cbn [zfact fact_spec]; auto; now rewrite IHk).
  assert (P : forall k, 0 <= zfact k) by (induction k; cbn [zfact]; [lia | apply Z.mul_nonneg_nonneg; lia]).
  unfold zf. rewrite uof_uval, E by auto. split; auto. now apply uof_wf.
Qed.
Theorem C16_fibonacci : forall n, 0 <= n < 2 ^ 32 ->
  returns (ufibonacci n) (fun r => uwf r /\ uval r = fst (fib_pair (Z.to_nat n))).
Proof.
  intros n Hn. rewrite Efibonacci by auto. apply returns_ok.
  assert (E : forall k, fib_pair k = (zfibn k, zfibn (S k))).
  { induction k as [| k IH]; [reflexivity |]. cbn [fib_pair]. rewrite IH. rewrite zfibn_SS. f_equal. lia. }
  assert (P : forall k, 0 <= zfibn k /\ 0 <= zfibn (S k)).
  { induction k as [| k [I1 I2]]; [cbn; lia |]. split; auto. rewrite zfibn_SS. lia. }
  unfold zfib. rewrite uof_uval by apply P. split; [apply uof_wf, P |]. now rewrite E.
Qed.
Example C16_ex : ufactorial 25 = Ok [2076180480; 1637855376; 840864] /\ ufibonacci 100 = Ok [3314859971; 870020775; 19].
Proof. splits; vm_compute; reflexivity. Qed.

(** ** C17 primality *)
Theorem C17_is_prime_partial : forall a, uwf a -> top64 (uval a) < 18428729675200069632 -> Z.of_nat (length a) < W32 ->
  exists b, uis_prime a = Ok b /\ (b = true <-> prime (uval a)).
Proof.
  apply (on_uof (fun a => _ -> _ -> exists b, uis_prime a = Ok b /\ (b = true <-> prime (uval a)))).
  intros n Hn. rewrite uof_uval by auto. intros HT HL. apply Eis_prime; auto.
Qed.
(** missing above: the argument range on which [sqrt] fails; 2^64-1 panics there *)
Theorem C17_is_prime_refuted : uis_prime [4294967295; 4294967295] = Panic.
Proof. exact (is_prime_panic 0). Qed.
Example C17_ex : uis_prime [65521] = Ok true /\ uis_prime [0; 1] = Ok false /\ uis_prime [1] = Ok false /\ uis_prime [65535] = Ok false.
Proof. splits; vm_compute; reflexivity. Qed.

(** ** C18 factorisation *)
Theorem C18_prime_factorial_partial : forall a, uwf a -> 0 < uval a -> Z.of_nat (length a) < W32 ->
  (forall m, (m | uval a) -> 4294967295 * 4294967295 <= m -> exists d, 2 <= d < 4294967295 /\ (d | m)) ->
  exists l, uprime_factorial a = Ok (map uof l) /\ fold_right Z.mul 1 l = uval a /\ StronglySorted Z.le l /\
    (2 <= uval a -> Forall prime l) /\ (uval a = 1 -> l = [1]).
Proof.
  intros a Ha Hp HL HR. destruct (Epf (uval a)) as (l & E & H); try (rewrite ?uof_of_wf; auto; lia).
  { intros (m & M1 & M2 & M3). destruct (HR m M1 M2) as (d & D1 & D2). exact (M3 d D1 D2). }
  rewrite uof_of_wf in E by auto. exists l. split; auto.
Qed.
Theorem C18_prime_factorial_zero : uprime_factorial [0] = Ok [[0]].
Proof. exact Epf_zero. Qed.
(** missing above: numbers with a cofactor of at least (2^32-1)^2 free of divisors below 2^32-1; all of them panic *)
Theorem C18_prime_factorial_refuted : forall a m, uwf a -> 0 < uval a -> Z.of_nat (length a) < W32 ->
  (m | uval a) -> 4294967295 * 4294967295 <= m -> (forall d, 2 <= d < 4294967295 -> ~ (d | m)) ->
  uprime_factorial a = Panic.
Proof.
  intros a m Ha Hp HL M1 M2 M3. rewrite <- (uof_of_wf a Ha). apply Epf_panic; rewrite ?uof_of_wf; auto; [lia |].
  exists m. splits; auto.
Qed.
(** a concrete such number: the square of the prime 2^32 + 15 *)
Fixpoint trial (n : Z) (k : nat) (d : Z) : bool :=
  match k with O => true | S k' => negb (n mod d =? 0) && trial n k' (d + 2) end.
Lemma trial_nodiv n k : n mod 2 = 1 -> forall d, 3 <= d -> d mod 2 = 1 -> nodiv n d -> trial n k d = true -> nodiv n (d + 2 * Z.of_nat k).
Proof.
  intros Hn. induction k as [| k IH]; intros d Hd Ho H T; cbn [trial] in T.
  - now replace (d + 2 * Z.of_nat 0) with d by lia.
  - apply andb_true_iff in T as [T1 T2]. apply negb_true_iff, Z.eqb_neq in T1.
    replace (d + 2 * Z.of_nat (S k)) with (d + 2 + 2 * Z.of_nat k) by lia. apply IH; auto; try lia.
    apply nodiv_odd_step; auto. rewrite <- mod_eq0_dvd by lia. auto.
Qed.
Lemma prime_p : prime 4294967311.
Proof.
  apply (prime_of_nodiv _ 65537); [lia | lia | | lia].
  change 65537 with (3 + 2 * Z.of_nat (Z.to_nat 32767)). apply trial_nodiv; [reflexivity | lia | reflexivity | apply nodiv_odd; reflexivity |].
  vm_compute. reflexivity.
Qed.
Theorem C18_prime_factorial_refuted_ex : uprime_factorial [225; 30; 1] = Panic /\ uval [225; 30; 1] = 4294967311 * 4294967311.
Proof.
  split; [| reflexivity]. apply (C18_prime_factorial_refuted _ (4294967311 * 4294967311)).
  - split; [discriminate |]. split; [repeat constructor; lia | right; discriminate].
  - cbn; lia.
  - cbn; lia.
  - exists 1. reflexivity.
  - lia.
  - intros d Hd D. pose proof prime_p as P.
    assert (G : rel_prime d 4294967311).
    { apply rel_prime_sym, prime_rel_prime; auto. intros C. apply Z.divide_pos_le in C; lia. }
    apply Gauss in D; auto. destruct (prime_divisors _ P _ D) as [E | [E | [E | E]]]; lia.
Qed.
Example C18_ex : uprime_factorial [3960] = Ok [[2]; [2]; [2]; [3]; [3]; [5]; [11]] /\ uprime_factorial [1] = Ok [[1]].
Proof. splits; vm_compute; reflexivity. Qed.

(** ** C56 scientific notation *)
(** [sci_value ds e]: the digits read as d.ddd times 10^e, scaled to an integer by 10^(e+1-length) *)
Definition dec_value (ds : list Z) : Z := fold_left (fun v d => v * 10 + d) ds 0.
Lemma zval_fold ds : forall acc, zval 10 acc ds = fold_left (fun v d => v * 10 + d) ds acc.
Proof. induction ds; intros; cbn; auto. Qed.
(** the text is d[.ddd]e<exp>: digits [ds] (leading one non-zero, no trailing zero, at most [max] of them) and the
    exponent e = floor(log10 n); the digits are the leading digits of n, truncated: the first min(max, 11) agree with n *)
Theorem C56_scientific_notation : forall a max, uwf a -> 0 < uval a -> (1 <= max)%nat -> Z.of_nat (length a) < 2 ^ 58 ->
  exists ds e x y,
    uto_scientific_notation a max = Ok (x ++ [101] ++ y) /\
    x = (match ds with [] => [] | [d] => [48 + d] | d :: t => (48 + d) :: 46 :: map (fun d => 48 + d) t end) /\
    numeral 10 e y /\ Forall (fun d => 0 <= d < 10) ds /\ hd 0 ds <> 0 /\ (1 <= length ds <= max)%nat /\
    (length ds = 1%nat \/ last ds 0 <> 0) /\ 10 ^ e <= uval a < 10 ^ (e + 1) /\ 0 <= e /\ Z.of_nat (length ds) <= e + 1 /\
    (let v := dec_value ds * 10 ^ (e + 1 - Z.of_nat (length ds)) in
     v <= uval a < v + 10 ^ Z.max 0 (e + 1 - Z.of_nat (Nat.min max 11))).
Proof.
  intros a max Ha Hp Hm HL. destruct (Esci_parts (uval a) max) as (ds & e & E & H); try (rewrite ?uof_of_wf; auto; lia).
  rewrite uof_of_wf in E by auto. destruct H as (H1 & H2 & H3 & H4 & H5 & H6 & H7 & H8).
  assert (HR : sci_render ds = match ds with [] => [] | [d] => [48 + d] | d :: t => (48 + d) :: 46 :: map (fun d => 48 + d) t end).
  { assert (F1 : forall d, 0 <= d < 10 -> fmt_uint 10 d = [48 + d]).
    { intros d Hd. unfold fmt_uint. rewrite zdigits_eq by lia. destruct (Z.ltb_spec d 10); [| lia]. cbn [map]. unfold dchar.
      destruct (Z.ltb_spec d 10); [| lia]. reflexivity. }
    assert (F2 : forall l, Forall (fun d => 0 <= d < 10) l -> concat (map (fmt_uint 10) l) = map (fun d => 48 + d) l).
    { induction 1 as [| d l Hd Hl IH]; cbn [map concat]; auto. rewrite F1, IH by auto. reflexivity. }
    destruct ds as [| d t]; [cbn in H3; lia |]. inversion H1; subst. destruct t as [| d2 t]; cbn [sci_render]; rewrite F1 by auto; auto.
    rewrite F2 by auto. reflexivity. }
  exists ds, e, (sci_render ds), (fmt_uint 10 e). unfold uto_scientific_notation. rewrite E. cbn [bind].
  unfold dec_value. rewrite <- zval_fold. cbv zeta in H8 |- *. splits; auto; try lia; apply fmt_numeral; lia.
Qed.
Theorem C56_scientific_notation_zero : forall max, uto_scientific_notation [0] max = Ok [48; 101; 48].
Proof. exact Esci_0. Qed.
Example C56_ex : uto_scientific_notation [0; 0; 0; 1] 6 = Ok [55; 46; 57; 50; 50; 56; 49; 101; 50; 56] /\ uto_scientific_notation [1000] 6 = Ok [49; 101; 51].
Proof. splits; vm_compute; reflexivity. Qed.

Print Assumptions C09_print_dec.
Print Assumptions C09_print_radix.
Print Assumptions C09_round_trip_dec.
Print Assumptions C09_round_trip_radix.
Print Assumptions C10_from_string_decides.
Print Assumptions C10_value_nonneg.
Print Assumptions C10_from_string_total.
Print Assumptions C10_empty_rejected.
Print Assumptions C10_foreign_character_rejected.
Print Assumptions C10_decimal_grammar_accepted.
Print Assumptions C10_prefixed_grammar_partial.
Print Assumptions C10_documented_grammar_refuted.
Print Assumptions C14_sqrt_partial.
Print Assumptions C14_sqrt_refuted.
Print Assumptions C15_log2.
Print Assumptions C15_log2_accurate.
Print Assumptions C15_log2_accurate_zero.
Print Assumptions C16_factorial.
Print Assumptions C16_fibonacci.
Print Assumptions C17_is_prime_partial.
Print Assumptions C17_is_prime_refuted.
Print Assumptions C18_prime_factorial_partial.
Print Assumptions C18_prime_factorial_zero.
Print Assumptions C18_prime_factorial_refuted.
Print Assumptions C18_prime_factorial_refuted_ex.
Print Assumptions C56_scientific_notation.
Print Assumptions C56_scientific_notation_zero.
