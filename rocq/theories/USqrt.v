(** The integer square root. *)
From Verif Require Import Base USpec UFacts UBig UAddSub UMul UDiv UEq UFun UPow.

Notation W64 := 18446744073709551616 (only parsing).
(** below this bound (0xFFC0000000000000) the u64 square root cannot overflow *)
Notation KSQ := 18428729675200069632 (only parsing).

(** ** The initial estimate of sqrt_u64 *)
Definition sq_chk (i : Z) : bool :=
  let xl := i * 2 ^ 18 in
  let xh := xl + 2 ^ 18 - 1 in
  let s := 2 ^ 28 + xl / 2 - xh * xh / 2 ^ 31 in
  let r := 2 ^ 31 * (s * 379625062 / 2 ^ 28) / 2 ^ 28 in
  r * r + (2 ^ 28 + xh + 1) * 2 ^ 35 <? 2 ^ 33 * r.
Fixpoint chk_go (n : nat) (i : Z) : bool :=
  match n with O => true | S m => sq_chk i && chk_go m (i + 1) end.
Lemma chk_go_spec n : forall i, chk_go n i = true -> forall j, i <= j < i + Z.of_nat n -> sq_chk j = true.
Proof.
  induction n; intros i H j Hj; [lia |]. cbn [chk_go] in H. apply andb_true_iff in H as [H1 H2].
  destruct (Z.eq_dec j i) as [-> |]; auto. apply (IHn (i + 1)); auto; lia.
Qed.
Lemma chk_go_all : chk_go (Z.to_nat 1022) 0 = true.
Proof. vm_compute. reflexivity. Qed.
Lemma sq_chk_ok i : 0 <= i < 1022 -> sq_chk i = true.
Proof. intros. apply (chk_go_spec _ _ chk_go_all). lia. Qed.

Lemma sq_even_odd l : 0 <= l -> (l mod 2 = 0 /\ l = 2 * (l / 2)) \/ (l mod 2 = 1 /\ l = 2 * (l / 2) + 1).
Proof. intros. pose proof (Z.div_mod l 2 ltac:(lia)). pose proof (Z.mod_pos_bound l 2 ltac:(lia)). lia. Qed.

Lemma sq64_init_spec n : 0 < n < W64 ->
  returns (sq64_init n) (fun r => 1 <= r < 4294967296 /\ n < 4 * (r * r) /\ 8 * (r * r) <= 9 * n /\
    (n < KSQ -> r * r + n < 8589934592 * r)).
Proof.
  intros Hn. unfold sq64_init. set (l := Z.log2 n).
  pose proof (Z.log2_spec n ltac:(lia)) as [L1 L2]. fold l in L1, L2.
  assert (Hl0 : 0 <= l) by apply Z.log2_nonneg.
  assert (Hl : l < 64) by (apply Z.log2_lt_pow2; [lia |]; exact (proj2 Hn)).
  rewrite Z.pow_succ_r in L2 by lia.
  assert (Hfrac : exists frac, (if 28 <? l then shrw 64 n (l - 28) else shlw 64 n (28 - l)) = Ok frac /\
    268435456 <= frac < 536870912 /\ 2 ^ l * frac <= 268435456 * n /\ (l = 63 -> frac = n / 34359738368)).
  { destruct (Z.ltb_spec 28 l) as [H | H].
    - rewrite shrw_ok by lia. eexists; split; [reflexivity |].
      assert (Hp : 0 < 2 ^ (l - 28)) by (apply Z.pow_pos_nonneg; lia).
      assert (E : 2 ^ l = 2 ^ (l - 28) * 268435456).
      { change 268435456 with (2 ^ 28). rewrite <- Z.pow_add_r by lia. f_equal. lia. }
      rewrite E in *. splits.
      + apply Z.div_le_lower_bound; lia.
      + apply Z.div_lt_upper_bound; lia.
      + pose proof (Z.mul_div_le n (2 ^ (l - 28)) Hp). nia.
      + intros ->. reflexivity.
    - assert (Hp : 0 < 2 ^ (28 - l)) by (apply Z.pow_pos_nonneg; lia).
      assert (E : 2 ^ l * 2 ^ (28 - l) = 268435456).
      { rewrite <- Z.pow_add_r by lia. replace (l + (28 - l)) with 28 by lia. reflexivity. }
      assert (Hb : 268435456 <= n * 2 ^ (28 - l) < 536870912) by nia.
      rewrite shlw_ok by (try lia; change (2 ^ 64) with W64; lia).
      eexists; split; [reflexivity |]. splits; try lia. nia. }
  destruct Hfrac as (frac & -> & Hf & Hfn & Hf63). cbn [bind].
  change (2 ^ 28) with 268435456. rewrite subw_ok by lia. cbn [bind].
  set (x := frac - 268435456). assert (Hx : 0 <= x < 268435456) by (unfold x; lia).
  assert (Hxx : 0 <= x * x <= 268435455 * 268435455) by (apply mul_bound; lia).
  rewrite mulw_ok by (change (2 ^ 64) with W64; lia). cbn [bind].
  assert (Hx2 : 0 <= x / 2 <= x) by (split; [apply Z.div_pos | apply Z.div_le_upper_bound]; lia).
  rewrite addw_ok by (change (2 ^ 64) with W64; lia). cbn [bind].
  change (2 ^ 31) with 2147483648.
  assert (Hxx2 : 0 <= x * x / 2147483648) by (apply Z.div_pos; lia).
  assert (Hxx3 : 2147483648 * (x * x / 2147483648) <= x * x) by (apply Z.mul_div_le; lia).
  assert (Hxx4 : x * x < 2147483648 * (x * x / 2147483648) + 2147483648).
  { pose proof (Z.mod_pos_bound (x * x) 2147483648 ltac:(lia)). pose proof (Z.div_mod (x * x) 2147483648 ltac:(lia)). lia. }
  assert (Hx21 : 2 * (x / 2) <= x < 2 * (x / 2) + 2).
  { pose proof (Z.mod_pos_bound x 2 ltac:(lia)). pose proof (Z.div_mod x 2 ltac:(lia)). lia. }
  assert (Hx8 : 8 * (x * x / 2147483648) <= x).
  { assert (x * x <= 268435456 * x) by (apply Z.mul_le_mono_nonneg_r; lia). lia. }
  set (s := 268435456 + x / 2 - x * x / 2147483648).
  assert (Hs1 : 268435456 <= s).
  { unfold s. destruct (Z.eq_dec (x * x / 2147483648) 0); lia. }
  rewrite subw_ok by lia. fold s. cbn [bind].
  (* s <= 2^28 + x/2 and s <= 1.375 * 2^28 + 1 *)
  assert (Hs2 : 2 * s <= 536870912 + x) by (unfold s; lia).
  assert (Hs3 : s <= 369098753).
  { assert (0 <= (268435456 - x) * (805306368 - x)) by (apply Z.mul_nonneg_nonneg; lia).
    unfold s. lia. }
  assert (Hss : 8 * (s * s) <= 9 * (268435456 * frac)).
  { assert ((2 * s) * (2 * s) <= (536870912 + x) * (536870912 + x)) by (apply Z.mul_le_mono_nonneg; lia).
    replace frac with (268435456 + x) by (unfold x; lia). 
    assert (0 <= x * (268435456 - x)) by (apply Z.mul_nonneg_nonneg; lia). lia. }
  pose proof (sq_even_odd l Hl0) as Heo. set (h := l / 2) in *.
  assert (Hh : 0 <= h < 32) by lia.
  assert (Ph : 0 < 2 ^ h) by (apply Z.pow_pos_nonneg; lia).
  assert (Hone : shlw 64 1 h = Ok (2 ^ h)).
  { assert (2 ^ h <= 2 ^ 31) by (apply Z.pow_le_mono_r; lia).
    rewrite shlw_ok; [f_equal; lia | lia | change (2 ^ 64) with W64; lia]. }
  assert (Ph31 : 2 ^ h <= 2147483648) by (change 2147483648 with (2 ^ 31); apply Z.pow_le_mono_r; lia).
  assert (Epow : 2 ^ (2 * h) = 2 ^ h * 2 ^ h) by (rewrite <- Z.pow_add_r by lia; f_equal; lia).
  (* the (possibly) scaled s' *)
  assert (Hs' : exists s', (if l mod 2 =? 1 then let* s' := mulw 64 s 379625062 in Ok (s' / 268435456) else Ok s) = Ok s' /\
     268435456 <= s' < 536870912 /\ 2 ^ h * 2 ^ h * (s' * s') <= 2 ^ l * (s * s) /\ (l = 63 -> s' = s * 379625062 / 268435456)).
  { destruct Heo as [[Em El] | [Em El]]; rewrite Em; cbn [Z.eqb Pos.eqb].
    - eexists; split; [reflexivity |]. splits; try lia. rewrite El, Epow. lia.
    - rewrite mulw_ok by (change (2 ^ 64) with W64; lia). cbn [bind]. eexists; split; [reflexivity |].
      assert (D1 : 268435456 * (s * 379625062 / 268435456) <= s * 379625062) by (apply Z.mul_div_le; lia).
      assert (D2 : 268435456 <= s * 379625062 / 268435456) by (apply Z.div_le_lower_bound; lia).
      set (s' := s * 379625062 / 268435456) in *.
      splits; auto; try lia.
      assert (E2 : 2 ^ l = 2 * (2 ^ h * 2 ^ h)) by (rewrite El, Z.pow_add_r by lia; rewrite Epow; lia).
      rewrite E2. assert (s' * s' <= 2 * (s * s)).
      { assert ((268435456 * s') * (268435456 * s') <= (s * 379625062) * (s * 379625062)) by (apply Z.mul_le_mono_nonneg; lia).
        assert (0 <= s * s) by (apply Z.square_nonneg). lia. }
      assert (0 < 2 ^ h * 2 ^ h) by (apply Z.mul_pos_pos; lia). 
      replace (2 * (2 ^ h * 2 ^ h) * (s * s)) with (2 ^ h * 2 ^ h * (2 * (s * s))) by ring.
      apply Z.mul_le_mono_nonneg_l; lia. }
  destruct Hs' as (s' & -> & Hs'1 & Hs'2 & Hs'63). cbn [bind].
  rewrite Hone. cbn [bind].
  assert (Hd : 0 <= 2 ^ h * s' <= 2147483648 * 536870912) by (apply mul_bound; lia).
  rewrite mulw_ok by (change (2 ^ 64) with W64; lia). cbn [bind]. apply returns_ok.
  set (r := 2 ^ h * s' / 268435456).
  assert (R1 : 268435456 * r <= 2 ^ h * s') by (apply Z.mul_div_le; lia).
  assert (R2 : 2 ^ h <= r).
  { unfold r. apply Z.div_le_lower_bound; [lia |]. rewrite Z.mul_comm. apply Z.mul_le_mono_nonneg_l; lia. }
  assert (R3 : 8 * (r * r) <= 9 * n).
  { assert (T1 : (268435456 * r) * (268435456 * r) <= (2 ^ h * s') * (2 ^ h * s')) by (apply Z.mul_le_mono_nonneg; lia).
    assert (T2 : 2 ^ l * (8 * (s * s)) <= 2 ^ l * (9 * (268435456 * frac))).
    { apply Z.mul_le_mono_nonneg_l; [apply Z.pow_nonneg; lia | auto]. }
    lia. }
  assert (R4 : n < 4 * (r * r)).
  { assert (2 ^ h * 2 ^ h <= r * r) by (apply Z.mul_le_mono_nonneg; lia).
    destruct Heo as [[Em El] | [Em El]].
    - rewrite El, Epow in L2. lia.
    - rewrite El, Z.pow_add_r, Epow in L2 by lia. lia. }
  assert (R5 : r < 4294967296).
  { destruct (Z.eq_dec l 63) as [E63 | N63].
    - assert (h = 31) by lia. rewrite (Hs'63 E63) in *. rewrite H in *. change (2 ^ 31) with 2147483648 in *.
      assert (268435456 * (s * 379625062 / 268435456) <= s * 379625062) by (apply Z.mul_div_le; lia). lia.
    - assert (2 ^ l <= 2 ^ 62) by (apply Z.pow_le_mono_r; lia). change (2 ^ 62) with 4611686018427387904 in *.
      apply Z.nle_gt. intros C. assert (4294967296 * 4294967296 <= r * r) by (apply Z.mul_le_mono_nonneg; lia). lia. }
  splits; auto; try lia.
  intros HK. destruct (Z.eq_dec l 63) as [E63 | N63].
  - assert (h = 31) by lia.
    set (i := x / 262144).
    assert (Hi1 : 262144 * i <= x < 262144 * i + 262144).
    { unfold i. pose proof (Z.mod_pos_bound x 262144 ltac:(lia)). pose proof (Z.div_mod x 262144 ltac:(lia)). lia. }
    specialize (Hf63 E63).
    assert (Hnf : 34359738368 * frac <= n < 34359738368 * frac + 34359738368).
    { rewrite Hf63. pose proof (Z.mod_pos_bound n 34359738368 ltac:(lia)). pose proof (Z.div_mod n 34359738368 ltac:(lia)). lia. }
    assert (Hi2 : 0 <= i < 1022) by (unfold x in *; lia).
    pose proof (sq_chk_ok i Hi2) as C. unfold sq_chk in C. apply Z.ltb_lt in C.
    change (2 ^ 18) with 262144 in C. change (2 ^ 28) with 268435456 in C. change (2 ^ 31) with 2147483648 in C.
    change (2 ^ 35) with 34359738368 in C. change (2 ^ 33) with 8589934592 in C.
    set (xl := i * 262144) in *. set (xh := xl + 262144 - 1) in *.
    set (sl := 268435456 + xl / 2 - xh * xh / 2147483648) in *.
    assert (Hsl : sl <= s).
    { unfold sl, s. assert (xl / 2 <= x / 2) by (apply Z.div_le_mono; unfold xl; lia).
      assert (x * x / 2147483648 <= xh * xh / 2147483648).
      { apply Z.div_le_mono; [lia |]. apply Z.mul_le_mono_nonneg; unfold xh, xl; lia. }
      lia. }
    set (rl := 2147483648 * (sl * 379625062 / 268435456) / 268435456) in *.
    assert (Hrl : rl <= r).
    { unfold rl, r. rewrite (Hs'63 E63), H. change (2 ^ 31) with 2147483648. apply Z.div_le_mono; [lia |].
      apply Z.mul_le_mono_nonneg_l; [lia |]. apply Z.div_le_mono; [lia |]. apply Z.mul_le_mono_nonneg_r; lia. }
    assert (n <= (268435456 + xh + 1) * 34359738368) by (unfold xh, xl, x in *; lia).
    assert (0 <= (r - rl) * (8589934592 - r - rl)) by (apply Z.mul_nonneg_nonneg; lia).
    lia.
  - assert (2 ^ l <= 2 ^ 62) by (apply Z.pow_le_mono_r; lia). change (2 ^ 62) with 4611686018427387904 in *.
    destruct (Z.eq_dec l 62) as [E62 | N62].
    + assert (h = 31) by lia. rewrite H0 in R2. change (2 ^ 31) with 2147483648 in R2.
      assert (4294967296 * 2147483648 <= 4294967296 * r) by lia.
      assert (r < 3221225472 + 100).
      { apply Z.nle_gt. intros C. assert (3221225572 * 3221225572 <= r * r) by (apply Z.mul_le_mono_nonneg; lia). lia. }
      assert (r * r <= 3221225572 * r) by (apply Z.mul_le_mono_nonneg_r; lia). lia.
    + assert (2 ^ l <= 2 ^ 61) by (apply Z.pow_le_mono_r; lia). change (2 ^ 61) with 2305843009213693952 in *.
      (* n < 2^62, n < 4 r^2 so n <= 2 sqrt n r <= 2^32 r *)
      assert (n <= 4294967296 * r).
      { apply Z.nlt_ge. intros C.
        assert ((4294967296 * r) * (4294967296 * r) <= n * n) by (apply Z.mul_le_mono_nonneg; lia).
        assert (n * n <= n * (4 * (r * r))) by (apply Z.mul_le_mono_nonneg_l; lia).
        assert (n * (4 * (r * r)) <= 4611686018427387903 * (4 * (r * r))) by (apply Z.mul_le_mono_nonneg_r; lia).
        assert (0 < r * r) by (apply Z.mul_pos_pos; lia). lia. }
      assert (r * r < 4294967296 * r) by (apply Z.mul_lt_mono_pos_r; lia). lia.
Qed.

(** ** The correction loops *)
Section Corr.
Variable n s : Z.
Hypothesis Hn : 0 < n.
Hypothesis Hs : 0 <= s.
Hypothesis Hs1 : s * s <= n.
Hypothesis Hs2 : n < (s + 1) * (s + 1).
Lemma sq_le_s r : 0 <= r -> r * r <= n -> r <= s.
Proof. intros. apply Z.nlt_ge. intros C. assert ((s + 1) * (s + 1) <= r * r) by (apply Z.mul_le_mono_nonneg; lia). lia. Qed.
Lemma sq_gt_s r : 0 <= r -> n < r * r -> s < r.
Proof. intros. apply Z.nle_gt. intros C. assert (r * r <= s * s) by (apply Z.mul_le_mono_nonneg; lia). lia. Qed.

Lemma sq64_up_spec div r : 1 <= div -> s + div < 4294967296 -> 0 <= r < 4294967296 ->
  returns (loopn 64 (sq64_up n div) r) (fun r' => 0 <= r' < 4294967296 /\ n <= r' * r').
Proof.
  intros Hd Hsd Hr.
  apply (loopn_spec (sq64_up n div) (fun r => 0 <= r < 4294967296) (fun _ r' => 0 <= r' < 4294967296 /\ n <= r' * r')
    (fun r => 4294967296 - r)); auto.
  - clear r Hr. intros g r Hr IH. unfold sq64_up.
    assert (0 <= r * r <= 4294967295 * 4294967295) by (apply mul_bound; lia).
    rewrite mulw_ok by (change (2 ^ 64) with W64; lia). cbn [bind].
    destruct (Z.ltb_spec (r * r) n).
    + pose proof (sq_le_s r ltac:(lia) ltac:(lia)).
      rewrite addw_ok by (change (2 ^ 64) with W64; lia). cbn [bind]. apply IH; lia.
    + apply returns_ok. lia.
  - change (2 ^ Z.of_nat 64) with W64. lia.
Qed.
Lemma sq64_down_spec div r : 1 <= div -> div <= s + 1 -> 0 <= r < 4294967296 -> n <= r * r ->
  returns (loopn 64 (sq64_down n div) r) (fun r' => 0 <= r' /\ r' <= s /\ (div = 1 -> r' = s)).
Proof.
  intros Hd Hsd Hr Hrn.
  apply (loopn_spec (sq64_down n div) (fun r => 0 <= r < 4294967296 /\ (div = 1 -> s <= r))
    (fun _ r' => 0 <= r' /\ r' <= s /\ (div = 1 -> r' = s)) (fun r => r)); auto.
  - clear r Hr Hrn. intros g r (Hr & Hr2) IH. unfold sq64_down.
    assert (0 <= r * r <= 4294967295 * 4294967295) by (apply mul_bound; lia).
    rewrite mulw_ok by (change (2 ^ 64) with W64; lia). cbn [bind].
    destruct (Z.ltb_spec n (r * r)).
    + pose proof (sq_gt_s r ltac:(lia) ltac:(lia)).
      rewrite subw_ok by lia. cbn [bind]. apply IH; lia.
    + pose proof (sq_le_s r ltac:(lia) ltac:(lia)). apply returns_ok. lia.
  - split; auto. intros. apply Z.nlt_ge. intros C. assert ((r + 1) * (r + 1) <= s * s) by (apply Z.mul_le_mono_nonneg; lia). lia.
  - change (2 ^ Z.of_nat 64) with W64. lia.
Qed.
Lemma sq64_loop_spec r div : 1 <= div < W64 -> s + div < 4294967296 -> div / 4 <= s + 1 -> 0 <= r < 4294967296 ->
  returns (loopn 64 (sq64_loop n) (r, div)) (fun r' => r' = s).
Proof.
  intros Hd Hsd Hd4 Hr.
  apply (loopn_spec (sq64_loop n) (fun p => 1 <= snd p /\ s + snd p < 4294967296 /\ snd p / 4 <= s + 1 /\ 0 <= fst p < 4294967296)
    (fun _ r' => r' = s) snd); auto.
  - clear r div Hr Hd Hsd Hd4. intros g [r div] (Hd & Hsd & Hd4 & Hr) IH. cbn [fst snd] in *. unfold sq64_loop.
    eapply returns_bind. { apply sq64_up_spec; auto. }
    intros r1 (R1 & R2). assert (Hq : 0 <= div / 4 /\ 4 * (div / 4) <= div).
    { split; [apply Z.div_pos; lia | apply Z.mul_div_le; lia]. }
    set (d := if div / 4 <? 4 then 1 else div / 4).
    assert (Hdd : (d = 1 \/ 4 <= d) /\ d <= s + 1 /\ 1 <= d /\ (4 <= d -> 4 * d <= div)).
    { unfold d. destruct (Z.ltb_spec (div / 4) 4); lia. }
    eapply returns_bind. { apply sq64_down_spec; auto; lia. }
    intros r2 (R3 & R4 & R5).
    destruct (Z.eqb_spec (d / 4) 0) as [E | E].
    + apply returns_ok. apply R5. destruct Hdd as [[H | H] _]; auto. exfalso.
      assert (1 <= d / 4) by (apply Z.div_le_lower_bound; lia). lia.
    + assert (0 <= d / 4 /\ 4 * (d / 4) <= d).
      { split; [apply Z.div_pos; lia | apply Z.mul_div_le; lia]. }
      assert (d <> 1) by (intros ->; apply E; reflexivity).
      apply IH; cbn [fst snd]; [| lia].
      splits; lia.
  - cbn [fst snd]. splits; lia.
  - cbn [snd]. change (2 ^ Z.of_nat 64) with W64. lia.
Qed.
End Corr.

Lemma sqrt_unique n s : 0 <= s -> s * s <= n < (s + 1) * (s + 1) -> Z.sqrt n = s.
Proof. intros. apply Z.sqrt_unique. lia. Qed.
Lemma sqrt_bounds n : 0 <= n -> 0 <= Z.sqrt n /\ Z.sqrt n * Z.sqrt n <= n < (Z.sqrt n + 1) * (Z.sqrt n + 1).
Proof. intros. pose proof (Z.sqrt_spec n H) as S. cbv zeta in S. unfold Z.succ in S. pose proof (Z.sqrt_nonneg n). tauto. Qed.

Lemma div_bounds a b : 0 < b -> b * (a / b) <= a < b * (a / b) + b.
Proof. intros. pose proof (Z.div_mod a b ltac:(lia)). pose proof (Z.mod_pos_bound a b H). lia. Qed.

Lemma sqrt_u64_spec n : 0 <= n < KSQ -> sqrt_u64 n = Ok (Z.sqrt n).
Proof.
  intros Hn. unfold sqrt_u64. destruct (Z.eqb_spec n 0) as [-> | Hnz]; [reflexivity |].
  destruct (sq64_init_spec n ltac:(lia)) as (r0 & -> & Hr0 & H4 & H89 & HN). cbn [bind].
  specialize (HN ltac:(lia)).
  destruct (sqrt_bounds n ltac:(lia)) as (Hs & Hs1 & Hs2). set (s := Z.sqrt n) in *. clearbody s.
  assert (Hsm : s + 2 < 4294967296).
  { apply Z.nle_gt. intros C. assert (4294967294 * 4294967294 <= s * s) by (apply Z.mul_le_mono_nonneg; lia). lia. }
  assert (Hsq : 0 <= r0 * r0 <= 4294967295 * 4294967295) by (apply mul_bound; lia).
  rewrite mulw_ok by (change (2 ^ 64) with W64; lia). cbn [bind].
  rewrite mulw_ok by (change (2 ^ 64) with W64; lia). cbn [bind]. rewrite divw_ok by lia. cbn [bind].
  unfold abs_diffw. set (q := Z.abs (n - r0 * r0) / (2 * r0)).
  pose proof (div_bounds (Z.abs (n - r0 * r0)) (2 * r0) ltac:(lia)) as Hq. fold q in Hq.
  assert (Hq0 : 0 <= q) by (apply Z.div_pos; lia). clearbody q.
  assert (Hr1 : exists r1, (if r0 * r0 <? n then addw 64 r0 (Z.max q 1) else subw r0 (Z.max q 1)) = Ok r1 /\
     0 <= r1 < 4294967296 /\ n <= (r1 + 1) * (r1 + 1) /\ r1 <= 8 * (s + 1)).
  { assert (Hr0s : r0 <= 2 * (s + 1)).
    { apply Z.nlt_ge. intros C. assert ((2 * (s + 1)) * (2 * (s + 1)) <= r0 * r0) by (apply Z.mul_le_mono_nonneg; lia). lia. }
    destruct (Z.ltb_spec (r0 * r0) n) as [Hlt | Hge].
    - rewrite Z.abs_eq in Hq by lia.
      destruct (Z.eq_dec q 0) as [E | E].
      + replace (Z.max q 1) with 1 by lia. rewrite E in Hq.
        assert (r0 <= s) by (apply (sq_le_s n s); lia).
        rewrite addw_ok by (change (2 ^ 64) with W64; lia). eexists; split; [reflexivity |]. lia.
      + replace (Z.max q 1) with q by lia.
        assert (M : 2 * r0 * (r0 + q) <= r0 * r0 + n) by lia.
        assert (r0 + q < 4294967296).
        { apply (Z.mul_lt_mono_pos_l (2 * r0)); lia. }
        rewrite addw_ok by (change (2 ^ 64) with W64; lia). eexists; split; [reflexivity |]. splits; try lia.
        assert (2 * r0 * (r0 + q) <= 2 * r0 * (4 * r0)) by lia.
          assert (r0 + q <= 4 * r0) by (apply (Z.mul_le_mono_pos_l _ _ (2 * r0)); lia). lia.
    - rewrite Z.abs_neq in Hq by lia.
      destruct (Z.eq_dec q 0) as [E | E].
      + replace (Z.max q 1) with 1 by lia. rewrite subw_ok by lia. eexists; split; [reflexivity |]. 
        replace (r0 - 1 + 1) with r0 by lia. lia.
      + replace (Z.max q 1) with q by lia.
        assert (q <= r0).
        { apply (Z.mul_le_mono_pos_l _ _ (2 * r0)); lia. }
        rewrite subw_ok by lia. eexists; split; [reflexivity |]. splits; try lia.
    }
  destruct Hr1 as (r1 & -> & Hr1 & Hr1n & Hr1s). cbn [bind].
  assert (Hdiv : exists d, (if r1 =? 0 then Ok 2 else
      let* sq := mulw 64 r1 r1 in let* r2 := mulw 64 2 r1 in let* q := divw (Z.abs (n - sq)) r2 in
      Ok (if q =? 0 then 2 else q)) = Ok d /\ 1 <= d /\ s + d < 4294967296 /\ d / 4 <= s + 1).
  { destruct (Z.eqb_spec r1 0) as [-> | E1].
    - eexists; split; [reflexivity |]. splits; lia.
    - assert (Hsq1 : 0 <= r1 * r1 <= 4294967295 * 4294967295) by (apply mul_bound; lia).
      rewrite mulw_ok by (change (2 ^ 64) with W64; lia). cbn [bind].
      rewrite mulw_ok by (change (2 ^ 64) with W64; lia). cbn [bind]. rewrite divw_ok by lia. cbn [bind].
      set (q2 := Z.abs (n - r1 * r1) / (2 * r1)).
      pose proof (div_bounds (Z.abs (n - r1 * r1)) (2 * r1) ltac:(lia)) as Hq2. fold q2 in Hq2.
      assert (Hq20 : 0 <= q2) by (apply Z.div_pos; lia). clearbody q2.
      eexists; split; [reflexivity |]. destruct (Z.eqb_spec q2 0) as [E2 | E2].
      + splits; lia.
      + destruct (Z.le_gt_cases n (r1 * r1)) as [Hge | Hlt].
        * rewrite Z.abs_neq in Hq2 by lia.
          assert (q2 <= r1) by (apply (Z.mul_le_mono_pos_l _ _ (2 * r1)); lia).
          assert (Hsq2 : s <= r1 - q2).
          { apply Z.nlt_ge. intros C. assert ((r1 - q2 + 1) * (r1 - q2 + 1) <= s * s) by (apply Z.mul_le_mono_nonneg; lia).
            pose proof (Z.square_nonneg q2). lia. }
          assert (2 * q2 <= r1) by (apply (Z.mul_le_mono_pos_l _ _ r1); lia).
          splits; try lia; apply Z.div_le_upper_bound; lia.
        * rewrite Z.abs_eq in Hq2 by lia.
          assert (q2 <= 1).
          { apply Z.nlt_ge. intros C. assert (2 * r1 * 2 <= 2 * r1 * q2) by (apply Z.mul_le_mono_nonneg_l; lia). lia. }
          splits; try lia; apply Z.div_le_upper_bound; lia. }
  destruct Hdiv as (d & -> & Hd & Hsd & Hd4). cbn [bind].
  enough (returns (loopn 64 (sq64_loop n) (r1, d)) (fun r => r = s)) as (r & -> & ->) by reflexivity.
  eapply sq64_loop_spec; auto; lia.
Qed.
(** at the very top of the u64 range the first correction step overflows *)
Lemma sqrt_u64_max : sqrt_u64 (2 ^ 64 - 1) = Panic.
Proof. vm_compute. reflexivity. Qed.

(** ** UBigInt::sqrt *)
Section BigCorr.
Variable n s : Z.
Hypothesis Hn : 18446744073709551616 <= n.
Hypothesis Hs : 0 <= s.
Hypothesis Hs1 : s * s <= n.
Hypothesis Hs2 : n < (s + 1) * (s + 1).
Let N := uof n.

Lemma fuel_n : 4 * n < 2 ^ Z.of_nat (ufuel (uof n)).
Proof.
  destruct (len_uof_bounds n ltac:(lia)) as (_ & H & _). rewrite BB_pow2 in H.
  eapply Z.lt_le_trans with (2 ^ (2 + 32 * Z.of_nat (length (uof n)))).
  - rewrite Z.pow_add_r by lia. lia.
  - apply Z.pow_le_mono_r; unfold ufuel; lia.
Qed.
Lemma s_small : s + 4294967296 <= 2 * n.
Proof.
  assert (s <= n); [| lia]. apply Z.nlt_ge. intros C.
  assert (n * s <= s * s) by (apply Z.mul_le_mono_nonneg_r; lia). nia.
Qed.

Lemma sqrt_up_spec div r : 1 <= div < 4294967296 -> 0 <= r <= 2 * n ->
  returns (loopn (ufuel (uof n)) (sqrt_up (uof n) div) (uof r)) (fun l => exists r', l = uof r' /\ 0 <= r' <= 2 * n /\ n <= r' * r').
Proof.
  intros Hd Hr.
  apply (loopn_spec (sqrt_up (uof n) div) (fun l => exists r, l = uof r /\ 0 <= r <= 2 * n)
    (fun _ l => exists r', l = uof r' /\ 0 <= r' <= 2 * n /\ n <= r' * r')
    (fun l => Z.max 0 (n - uval l))).
  - clear r Hr. intros g l (r & -> & Hr) IH. unfold sqrt_up.
    assert (0 <= r * r) by apply Z.square_nonneg.
    rewrite Emul by lia. cbn [bind]. rewrite Elt by lia.
    destruct (Z.ltb_spec (r * r) n) as [C | C].
    + assert (r <= s) by (apply (sq_le_s n s); lia). pose proof s_small.
      assert (r < n) by nia.
      rewrite Eadd_u32 by lia. cbn [bind]. apply IH.
      * exists (r + div). split; auto. lia.
      * rewrite !uof_uval by lia. lia.
    + apply returns_ok. exists r. auto.
  - exists r; auto.
  - rewrite uof_uval by lia. pose proof fuel_n. lia.
Qed.
Lemma sqrt_down_spec div r : 1 <= div < 4294967296 -> 0 <= r <= 2 * n -> n <= r * r ->
  returns (loopn (ufuel (uof n)) (sqrt_down (uof n) div) (uof r)) (fun l => exists r', l = uof r' /\ 0 <= r' <= s /\ (div = 1 -> r' = s)).
Proof.
  intros Hd Hr Hrn.
  apply (loopn_spec (sqrt_down (uof n) div) (fun l => exists r, l = uof r /\ 0 <= r <= 2 * n /\ (div = 1 -> s <= r))
    (fun _ l => exists r', l = uof r' /\ 0 <= r' <= s /\ (div = 1 -> r' = s)) uval).
  - clear r Hr Hrn. intros g l (r & -> & Hr & Hr2) IH. unfold sqrt_down.
    assert (0 <= r * r) by apply Z.square_nonneg.
    rewrite Emul by lia. cbn [bind]. rewrite Egt by lia.
    destruct (Z.ltb_spec n (r * r)) as [C | C].
    + assert (s < r) by (apply (sq_gt_s n s); lia).
      assert (4294967296 <= r).
      { apply Z.nlt_ge. intros D. assert (r * r <= 4294967295 * 4294967295) by (apply Z.mul_le_mono_nonneg; lia). lia. }
      rewrite Esub_u32 by lia. cbn [bind]. apply IH.
      * exists (r - div). split; auto. lia.
      * rewrite !uof_uval by lia. lia.
    + assert (r <= s) by (apply (sq_le_s n s); lia). apply returns_ok. exists r. splits; auto; lia.
  - exists r. splits; auto; try lia. intros. apply Z.nlt_ge. intros C.
    assert ((r + 1) * (r + 1) <= s * s) by (apply Z.mul_le_mono_nonneg; lia). lia.
  - rewrite uof_uval by lia. pose proof fuel_n. lia.
Qed.
Lemma sqrt_loop_spec r div : 1 <= div < 4294967296 -> 0 <= r <= 2 * n ->
  returns (loopn 32 (sqrt_loop (uof n)) (uof r, div)) (fun l => l = uof s).
Proof.
  intros Hd Hr.
  apply (loopn_spec (sqrt_loop (uof n)) (fun p => exists r d, p = (uof r, d) /\ 1 <= d < 4294967296 /\ 0 <= r <= 2 * n)
    (fun _ l => l = uof s) snd).
  - clear r div Hr Hd. intros g p (r & div & -> & Hd & Hr) IH. unfold sqrt_loop.
    eapply returns_bind. { apply sqrt_up_spec; auto. }
    intros l (r1 & -> & R1 & R2). cbn beta.
    pose proof (div_bounds div 4 ltac:(lia)) as Hq. set (q := div / 4) in *. clearbody q.
    set (d := if q <? 4 then 1 else q).
    assert (Hdd : (d = 1 \/ 4 <= d) /\ 1 <= d < 4294967296 /\ (4 <= d -> 4 * d <= div)).
    { unfold d. destruct (Z.ltb_spec q 4); lia. }
    clearbody d.
    eapply returns_bind. { apply sqrt_down_spec; auto; lia. }
    intros l (r2 & -> & R3 & R4). cbn beta.
    pose proof (div_bounds d 4 ltac:(lia)) as Hq4. set (d4 := d / 4) in *. clearbody d4.
    destruct (Z.eqb_spec d4 0) as [E | E].
    + apply returns_ok. rewrite R4; auto. lia.
    + pose proof s_small. apply IH; [| cbn [snd]; lia].
      exists r2, d4. splits; auto; lia.
  - exists r, div; auto.
  - cbn [snd]. change (2 ^ Z.of_nat 32) with 4294967296. lia.
Qed.

Lemma div2_div x r : 0 <= x -> 0 < r -> x / 2 / r = x / (2 * r).
Proof. intros. apply Z.div_div; lia. Qed.

Lemma sqrt_newton_spec r : 0 < r <= 2 * n -> n < (r + 1) * (r + 1) ->
  returns (loopn (ufuel (uof n)) (sqrt_newton (uof n)) (uof r))
    (fun p => exists r' d, p = (uof r', uof d) /\ 0 <= r' <= 2 * n /\ 0 <= d < 4294967296).
Proof.
  intros Hr Hrn.
  apply (loopn_spec (sqrt_newton (uof n)) (fun l => exists r, l = uof r /\ 0 < r <= 2 * n /\ n < (r + 1) * (r + 1))
    (fun _ p => exists r' d, p = (uof r', uof d) /\ 0 <= r' <= 2 * n /\ 0 <= d < 4294967296) uval).
  - clear r Hr Hrn. intros g l (r & -> & Hr & Hrn) IH. unfold sqrt_newton.
    assert (0 <= r * r) by apply Z.square_nonneg.
    rewrite Emul by lia. cbn [bind]. rewrite Egeq by lia.
    destruct (Z.leb_spec (r * r) n) as [C | C].
    + rewrite Esub by lia. cbn [bind]. unfold udiv_u32. rewrite Ediv_u32 by lia. cbn [bind].
      rewrite Ediv by (try apply Z.div_pos; lia). cbn [bind].
      rewrite div2_div by lia. pose proof (div_bounds (n - r * r) (2 * r) ltac:(lia)) as Hq.
      assert (0 <= (n - r * r) / (2 * r)) by (apply Z.div_pos; lia).
      set (q := (n - r * r) / (2 * r)) in *. clearbody q.
      assert (q <= 1) by nia.
      assert (r < n) by nia.
      rewrite Eadd_mut by lia. rewrite (uof_small q) by lia. cbn [length Nat.ltb Nat.leb].
      apply returns_ok. exists (r + q), q. rewrite (uof_small q) by lia. splits; auto; lia.
    + rewrite Esub by lia. cbn [bind]. unfold udiv_u32. rewrite Ediv_u32 by lia. cbn [bind].
      rewrite Ediv by (try apply Z.div_pos; lia). cbn [bind].
      rewrite div2_div by lia. pose proof (div_bounds (r * r - n) (2 * r) ltac:(lia)) as Hq.
      assert (0 <= (r * r - n) / (2 * r)) by (apply Z.div_pos; lia).
      set (q := (r * r - n) / (2 * r)) in *. clearbody q.
      assert (Hqr : q < r) by nia. change usub_mut with usub.
      rewrite Esub by lia. cbn [bind].
      destruct (Nat.ltb_spec (length (uof q)) 2) as [L | L].
      * apply returns_ok. exists (r - q), q. splits; auto; try lia.
        assert (q < BB 1) by (apply nlimbs_iff; lia). change (BB 1) with 4294967296 in *. lia.
      * assert (4294967296 <= q).
        { apply Z.nlt_ge. intros D. assert (length (uof q) <= 1)%nat by (apply nlimbs_iff; try lia; exact D). lia. }
        apply IH.
        -- exists (r - q). splits; auto; lia || nia.
        -- rewrite !uof_uval by lia. lia.
  - exists r; auto.
  - rewrite uof_uval by lia. pose proof fuel_n. lia.
Qed.
End BigCorr.

(** the top 64 bits of a number *)
Definition top64 (n : Z) : Z := n / BB (length (uof n) - 2).

Lemma Esqrt n : 0 <= n -> top64 n < KSQ -> usqrt (uof n) = Ok (uof (Z.sqrt n)).
Proof.
  intros Hn HT. unfold usqrt. destruct (len_uof_bounds n Hn) as (L1 & L2 & L3).
  destruct (Nat.ltb_spec (length (uof n)) 3) as [H3 | H3].
  - unfold top64 in HT. replace (length (uof n) - 2)%nat with 0%nat in HT by lia. rewrite BB_0, Z.div_1_r in HT.
    rewrite Eto_u64 by auto. destruct (Z.ltb_spec n (2 ^ 64)) as [C | C]; [| change (2 ^ 64) with W64 in C; lia].
    cbn [expect bind]. rewrite sqrt_u64_spec by lia. cbn [bind].
    rewrite ufrom_u64_spec; auto. split; [apply Z.sqrt_nonneg |].
    destruct (sqrt_bounds n Hn) as (S0 & S1 & _). change (2 ^ 64) with W64 in *. nia.
  - rewrite subn_ok by lia. cbn [bind]. rewrite Eshr by auto. unfold top64 in HT.
    set (L := length (uof n)) in *. set (c := BB (L - 2)) in *.
    assert (Hc : 0 < c) by apply BB_pos.
    pose proof (div_bounds n c Hc) as HTb. set (T := n / c) in *.
    assert (HT0 : 0 <= T) by (apply Z.div_pos; lia).
    rewrite Eto_u64 by auto. destruct (Z.ltb_spec T (2 ^ 64)) as [C | C]; [| change (2 ^ 64) with W64 in C; lia].
    cbn [expect bind]. rewrite sqrt_u64_spec by lia. cbn [bind].
    destruct (sqrt_bounds T HT0) as (S0 & S1 & S2). set (t := Z.sqrt T) in *. clearbody t.
    assert (HnB : W64 <= n).
    { specialize (L3 ltac:(lia)). pose proof (BB_mono 2 (L - 1) ltac:(lia)). change (BB 2) with W64 in *. lia. }
    assert (HTB : 4294967296 <= T).
    { specialize (L3 ltac:(lia)). apply Z.div_le_lower_bound; auto.
      replace (L - 1)%nat with (L - 2 + 1)%nat in L3 by lia. rewrite BB_add in L3. change (BB 1) with 4294967296 in L3.
      unfold c. lia. }
    clearbody T.
    assert (Ht : 65536 <= t < 4294967296) by nia.
    rewrite ufrom_u64_spec by (change (2 ^ 64) with W64; lia).
    set (f := if negb (Nat.eqb (Nat.modulo L 2) 0) then 65536 else 1).
    assert (Hres : (if negb (Nat.eqb (Nat.modulo L 2) 0) then umul_u32_mut (uof t) 65536 else Ok (uof t)) = Ok (uof (t * f))).
    { unfold f. destruct (negb _). apply Emul_u32; lia. now rewrite Z.mul_1_r. }
    rewrite Hres. cbn [bind].
    assert (HL2 : (1 <= Nat.div L 2)%nat) by (apply Nat.div_le_lower_bound; lia).
    rewrite subn_ok by auto. cbn [bind].
    assert (Hf : f * f * (BB (Nat.div L 2 - 1) * BB (Nat.div L 2 - 1)) = c).
    { unfold c, f. rewrite <- BB_add. pose proof (Nat.div_mod L 2 ltac:(lia)) as E.
      pose proof (Nat.mod_upper_bound L 2 ltac:(lia)) as E2.
      destruct (Nat.eqb_spec (Nat.modulo L 2) 0) as [Em | Em]; cbn [negb].
      - change (1 * 1) with 1. rewrite Z.mul_1_l. f_equal. lia.
      - replace (65536 * 65536) with (BB 1) by reflexivity. rewrite <- BB_add. f_equal. lia. }
    assert (Hf1 : 1 <= f) by (unfold f; destruct (negb _); lia).
    rewrite Eshl_mut by nia.
    pose proof (BB_pos (Nat.div L 2 - 1)) as Hp. set (p := BB (Nat.div L 2 - 1)) in *.
    assert (Hr0 : 0 < t * f * p) by (apply Z.mul_pos_pos; nia).
    assert (Hr02 : t * f * p * (t * f * p) = t * t * c) by (rewrite <- Hf; ring).
    set (r0 := t * f * p) in *. clearbody r0.
    assert (Hr0n : r0 * r0 <= n).
    { rewrite Hr02. assert (t * t * c <= T * c) by (apply Z.mul_le_mono_nonneg_r; lia). lia. }
    assert (Hr0n' : r0 < n).
    { apply Z.nle_gt. intros D. assert (n * n <= r0 * r0) by (apply Z.mul_le_mono_nonneg; lia). nia. }
    rewrite Emul by lia. cbn [bind]. rewrite Esub by nia. cbn [bind]. unfold udiv_u32. rewrite Ediv_u32 by lia. cbn [bind].
    rewrite Ediv by (try apply Z.div_pos; lia). cbn [bind]. rewrite div2_div by lia.
    pose proof (div_bounds (n - r0 * r0) (2 * r0) ltac:(lia)) as Hq.
    assert (Hq0 : 0 <= (n - r0 * r0) / (2 * r0)) by (apply Z.div_pos; lia).
    set (q := (n - r0 * r0) / (2 * r0)) in *. clearbody q.
    rewrite Eadd_mut by lia.
    destruct (sqrt_bounds n Hn) as (T0 & T1 & T2). set (s := Z.sqrt n) in *. clearbody s.
    assert (Hqn : q <= n) by nia.
    destruct (sqrt_newton_spec n HnB (r0 + q)) as (pr & -> & r' & d & -> & Hr' & Hd).
    { lia. } { nia. }
    cbn [bind]. rewrite Eto_u32 by lia. destruct (Z.ltb_spec d 4294967296); [| lia]. cbn [expect bind].
    destruct (sqrt_loop_spec n s HnB T0 T1 T2 r' (if d =? 0 then 2 else d)) as (l & -> & ->); auto.
    destruct (Z.eqb_spec d 0); lia.
Qed.
(** the overflow of sqrt_u64 reaches UBigInt::sqrt for every number whose top 64 bits are all ones *)
Lemma sqrt_big_panic k : usqrt (repeat 0 k ++ [4294967295; 4294967295]) = Panic.
Proof.
  unfold usqrt. rewrite app_length, repeat_length. cbn [length].
  destruct (Nat.ltb_spec (k + 2) 3) as [H | H].
  - assert (k = 0)%nat as -> by lia. vm_compute. reflexivity.
  - rewrite subn_ok by lia. cbn [bind]. unfold ushift_right. rewrite app_length, repeat_length. cbn [length].
    destruct (Nat.leb_spec (k + 2) (k + 2 - 2)); [lia |].
    replace (k + 2 - 2)%nat with (length (repeat 0 k)) by (rewrite repeat_length; lia).
    rewrite skipn_app, skipn_all, Nat.sub_diag. cbn [skipn app uto_u64_opt expect bind].
    replace (4294967295 + 4294967295 * 2 ^ 32) with (2 ^ 64 - 1) by reflexivity.
    rewrite sqrt_u64_max. reflexivity.
Qed.
