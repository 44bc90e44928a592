(** Property theorems for the number-theoretic and textual functions of BigInt that forward to the magnitude: C80. *)
From Verif Require Import Base USpec UFacts UBig UAddSub UMul UDiv UEq UFun UPow USqrt UPrime SSpec UStr UStrP ULog UMisc USci Props_U2 BBig BSpec BEq.
From Coq Require Import Znumtheory Sorted.

Lemma bwf_mag a : bwf a -> uwf (bmag a) /\ uval (bmag a) = Z.abs (bval a).
Proof.
  intros H. rewrite <- (bof_bval a H). rewrite Bmag, bof_val. split; [apply uof_wf; lia | apply uof_uval; lia].
Qed.
Lemma bwf_sign a : bwf a -> bneg a = (bval a <? 0).
Proof. intros H. rewrite <- (bof_bval a H) at 1. apply Bneg. Qed.

(** ** C80 primality and factorisation look at the magnitude only *)
Theorem C80_is_prime_partial : forall a, bwf a -> top64 (Z.abs (bval a)) < 18428729675200069632 -> Z.of_nat (length (bmag a)) < 2 ^ 32 ->
  exists b, bis_prime a = Ok b /\ (b = true <-> prime (Z.abs (bval a))).
Proof.
  intros a Ha HT HL. destruct (bwf_mag a Ha) as (Hw & Hv). unfold bis_prime. rewrite <- Hv. apply C17_is_prime_partial; auto. now rewrite Hv.
Qed.
(** hence -p counts as a prime whenever p is one *)
Theorem C80_negated_prime : forall p, prime p -> p < 2 ^ 32 ->
  exists a, bwf a /\ bval a = - p /\ bis_prime a = Ok true.
Proof.
  intros p Hp Hl. pose proof (prime_ge_2 p Hp). exists (bof (- p)). split; [apply bof_wf |]. split; [apply bof_val |].
  destruct (C80_is_prime_partial (bof (- p)) (bof_wf _)) as (b & E & Hb).
  - rewrite bof_val. replace (Z.abs (- p)) with p by lia. unfold top64.
    assert (1 <= BB (length (uof p) - 2)) by (pose proof (BB_pos (length (uof p) - 2)); lia).
    assert (p / BB (length (uof p) - 2) <= p) by (apply Z.div_le_upper_bound; nia). lia.
  - rewrite Bmag. replace (Z.abs (- p)) with p by lia.
    assert (length (uof p) <= 1)%nat by (apply nlimbs_iff; try lia; exact Hl). lia.
  - rewrite bof_val in Hb. rewrite E. f_equal. apply Hb. now replace (Z.abs (- p)) with p by lia.
Qed.
Theorem C80_is_prime_refuted : bis_prime (mkB [4294967295; 4294967295] false) = Panic /\ bis_prime (mkB [4294967295; 4294967295] true) = Panic.
Proof. split; exact C17_is_prime_refuted. Qed.
Example C80_is_prime_ex : bis_prime (mkB [7] true) = Ok true /\ bis_prime (mkB [7] false) = Ok true /\ bis_prime (mkB [9] true) = Ok false /\
  bis_prime (mkB [1] true) = Ok false.
Proof. splits; vm_compute; reflexivity. Qed.

(** the factors are non-negative, ascending, prime, and multiply to |a|; the same inputs fail as for UBigInt *)
Theorem C80_prime_factorial_partial : forall a, bwf a -> bval a <> 0 -> Z.of_nat (length (bmag a)) < 2 ^ 32 ->
  (forall m, (m | bval a) -> 4294967295 * 4294967295 <= m -> exists d, 2 <= d < 4294967295 /\ (d | m)) ->
  exists l, bprime_factorial a = Ok l /\ Forall bwf l /\ fold_right Z.mul 1 (map bval l) = Z.abs (bval a) /\
    StronglySorted Z.le (map bval l) /\ (2 <= Z.abs (bval a) -> Forall prime (map bval l)) /\ (Z.abs (bval a) = 1 -> map bval l = [1]).
Proof.
  intros a Ha H0 HL HR. destruct (bwf_mag a Ha) as (Hw & Hv).
  destruct (C18_prime_factorial_partial (bmag a) Hw) as (l & E & P & S & Q & O); auto; try lia.
  { intros m M. apply HR. rewrite Hv in M. apply (proj1 (Z.divide_abs_r _ _)). exact M. }
  assert (Hl : Forall (fun z => 0 <= z) l).
  { destruct (Z.eq_dec (uval (bmag a)) 1) as [e | e]; [rewrite (O e); repeat constructor; lia |].
    assert (2 <= uval (bmag a)) by lia. eapply Forall_impl; [| apply Q; auto]. intros z Hz. pose proof (prime_ge_2 z Hz). lia. }
  exists (map bof l). unfold bprime_factorial. rewrite E. cbn [bind]. rewrite map_map.
  assert (EM : map (fun x => from_ubi (uof x) false) l = map bof l).
  { apply map_ext_in. intros z Hz. rewrite Forall_forall in Hl. specialize (Hl z Hz). unfold from_ubi.
    unfold bof. rewrite Z.abs_eq by auto. destruct (Z.ltb_spec z 0); [lia | reflexivity]. }
  assert (EV : map bval (map bof l) = l).
  { rewrite map_map. rewrite <- (map_id l) at 2. apply map_ext. intros z. apply bof_val. }
  rewrite EM, EV, <- Hv. splits; auto.
  apply Forall_forall. intros b Hb. apply in_map_iff in Hb as (z & <- & _). apply bof_wf.
Qed.
Theorem C80_prime_factorial_refuted : forall a m, bwf a -> bval a <> 0 -> Z.of_nat (length (bmag a)) < 2 ^ 32 ->
  (m | bval a) -> 4294967295 * 4294967295 <= m -> (forall d, 2 <= d < 4294967295 -> ~ (d | m)) -> bprime_factorial a = Panic.
Proof.
  intros a m Ha H0 HL M1 M2 M3. destruct (bwf_mag a Ha) as (Hw & Hv). unfold bprime_factorial.
  rewrite (C18_prime_factorial_refuted (bmag a) m); auto; try lia. rewrite Hv. apply (proj2 (Z.divide_abs_r _ _)). exact M1.
Qed.
Example C80_prime_factorial_ex : bprime_factorial (mkB [360] true) = Ok (map (fun z => mkB [z] false) [2; 2; 2; 3; 3; 5]).
Proof. vm_compute. reflexivity. Qed.

(** ** C80 factorial and fibonacci *)
Theorem C80_factorial_fibonacci : forall n, 0 <= n < 2 ^ 32 ->
  returns (bfactorial n) (fun r => bwf r /\ bval r = fact_spec (Z.to_nat n)) /\
  returns (bfibonacci n) (fun r => bwf r /\ bval r = fst (fib_pair (Z.to_nat n))).
Proof.
  intros n Hn.
  assert (K : forall m v, returns m (fun r => uwf r /\ uval r = v) ->
    returns (let* x := m in Ok (from_ubi x false)) (fun r => bwf r /\ bval r = v)).
  { intros m v H. destruct H as (x & -> & H1 & H2). cbn [bind]. apply returns_ok.
    unfold from_ubi. split; [| unfold bval; cbn; lia]. split; cbn; [auto | discriminate]. }
  split; apply K; [apply C16_factorial | apply C16_fibonacci]; auto.
Qed.
Example C80_factorial_ex : bfactorial 5 = Ok (mkB [120] false) /\ bfibonacci 10 = Ok (mkB [55] false).
Proof. split; vm_compute; reflexivity. Qed.

(** ** C80 scientific notation: a sign exactly for negative numbers, then the notation of the magnitude *)
Theorem C80_scientific_notation : forall a max, bwf a -> bval a <> 0 -> (1 <= max)%nat -> Z.of_nat (length (bmag a)) < 2 ^ 58 ->
  exists ds e x y,
    bto_scientific_notation a max = Ok ((if bval a <? 0 then [45] else []) ++ x ++ [101] ++ y) /\
    x = (match ds with [] => [] | [d] => [48 + d] | d :: t => (48 + d) :: 46 :: map (fun d => 48 + d) t end) /\
    numeral 10 e y /\ Forall (fun d => 0 <= d < 10) ds /\ hd 0 ds <> 0 /\ (1 <= length ds <= max)%nat /\
    (length ds = 1%nat \/ last ds 0 <> 0) /\ 10 ^ e <= Z.abs (bval a) < 10 ^ (e + 1) /\ 0 <= e /\ Z.of_nat (length ds) <= e + 1 /\
    (let v := dec_value ds * 10 ^ (e + 1 - Z.of_nat (length ds)) in
     v <= Z.abs (bval a) < v + 10 ^ Z.max 0 (e + 1 - Z.of_nat (Nat.min max 11))).
Proof.
  intros a max Ha H0 Hm HL. destruct (bwf_mag a Ha) as (Hw & Hv).
  destruct (C56_scientific_notation (bmag a) max Hw) as (ds & e & x & y & E & H); auto; try lia.
  exists ds, e, x, y. unfold bto_scientific_notation, bsign. rewrite E, (bwf_sign a Ha), <- Hv. cbn [bind]. split; [reflexivity | exact H].
Qed.
Theorem C80_scientific_notation_zero : forall max, bto_scientific_notation (mkB [0] false) max = Ok [48; 101; 48].
Proof. intros max. unfold bto_scientific_notation. cbn [bmag]. rewrite C56_scientific_notation_zero. reflexivity. Qed.
Example C80_sci_ex : bto_scientific_notation (mkB [12345] true) 3 = Ok [45; 49; 46; 50; 51; 101; 52].
Proof. vm_compute. reflexivity. Qed.

Print Assumptions C80_is_prime_partial.
Print Assumptions C80_negated_prime.
Print Assumptions C80_is_prime_refuted.
Print Assumptions C80_prime_factorial_partial.
Print Assumptions C80_prime_factorial_refuted.
Print Assumptions C80_factorial_fibonacci.
Print Assumptions C80_scientific_notation.
Print Assumptions C80_scientific_notation_zero.
