(** Printing and parsing of unsigned numbers. *)
From Verif Require Import Base USpec UFacts UBig UAddSub UMul UDiv UEq UFun UPow USqrt UPrime SSpec UStr.

(** ** Digits *)
Lemma div_lt_pow2 b n f : 2 <= b -> 0 <= n < 2 ^ (Z.of_nat (S f)) -> b <= n -> 0 <= n / b < 2 ^ Z.of_nat f.
Proof.
  intros Hb Hn Hbn. rewrite Nat2Z.inj_succ, Z.pow_succ_r in Hn by lia. split; [apply Z.div_pos; lia |].
  apply Z.div_lt_upper_bound; [lia |]. nia.
Qed.
Lemma zdigs_indep b : 2 <= b -> forall f g n, 0 <= n < 2 ^ Z.of_nat f -> n < 2 ^ Z.of_nat g -> zdigs (S f) b n = zdigs (S g) b n.
Proof.
  intros Hb. induction f as [| f IH]; intros g n Hn Hg.
  - change (2 ^ Z.of_nat 0) with 1 in Hn. assert (n = 0) as -> by lia. cbn [zdigs]. destruct (Z.ltb_spec 0 b); [auto | lia].
  - change (zdigs (S (S f)) b n) with (if n <? b then [n] else zdigs (S f) b (n / b) ++ [n mod b]).
    change (zdigs (S g) b n) with (if n <? b then [n] else zdigs g b (n / b) ++ [n mod b]).
    destruct (Z.ltb_spec n b) as [C | C]; auto. f_equal.
    destruct g as [| g].
    + change (2 ^ Z.of_nat 0) with 1 in Hg. lia.
    + apply IH; [apply div_lt_pow2; auto | apply div_lt_pow2; auto; lia].
Qed.
Lemma log2_fuel n : 0 <= n -> n < 2 ^ Z.of_nat (S (Z.to_nat (Z.log2 n))).
Proof.
  intros. destruct (Z.eq_dec n 0) as [-> |]; [reflexivity |]. pose proof (Z.log2_spec n ltac:(lia)) as [_ H1].
  rewrite Nat2Z.inj_succ, Z2Nat.id by apply Z.log2_nonneg. exact H1.
Qed.
Lemma zdigits_fuel b n f : 2 <= b -> 0 <= n < 2 ^ Z.of_nat f -> zdigs (S f) b n = zdigits b n.
Proof.
  intros Hb Hn. unfold zdigits. apply zdigs_indep; auto. apply log2_fuel. lia.
Qed.
Lemma zdigits_eq b n : 2 <= b -> 0 <= n -> zdigits b n = if n <? b then [n] else zdigits b (n / b) ++ [n mod b].
Proof.
  intros Hb Hn. pose proof (log2_fuel n Hn) as L. rewrite <- (zdigits_fuel b n (S (Z.to_nat (Z.log2 n)))) by lia.
  set (f := Z.to_nat (Z.log2 n)) in *. clearbody f.
  change (zdigs (S (S f)) b n) with (if n <? b then [n] else zdigs (S f) b (n / b) ++ [n mod b]).
  destruct (Z.ltb_spec n b) as [C | C]; auto. f_equal. apply zdigits_fuel; auto. apply div_lt_pow2; auto; lia.
Qed.

(** exactly [k] digits *)
Fixpoint fixdigs (k : nat) (b r : Z) : list Z :=
  match k with O => [] | S k => fixdigs k b (r / b) ++ [r mod b] end.
Lemma fixdigs_len k b : forall r, length (fixdigs k b r) = k.
Proof. induction k; intros; cbn [fixdigs]; auto. rewrite app_length, IHk. cbn. lia. Qed.
Lemma fixdigs_0 k b : 0 < b -> fixdigs k b 0 = repeat 0 k.
Proof.
  intros. induction k; auto. cbn [fixdigs]. rewrite Z.div_0_l, Z.mod_0_l, IHk by lia.
  replace (S k) with (k + 1)%nat by lia. rewrite repeat_app. reflexivity.
Qed.
Lemma pow_S b k : b ^ Z.of_nat (S k) = b ^ Z.of_nat k * b.
Proof. rewrite Nat2Z.inj_succ, Z.pow_succ_r by lia. ring. Qed.
Lemma fixdigs_app b j : 0 < b -> forall i v x, 0 <= x < b ^ Z.of_nat j ->
  fixdigs (i + j) b (v * b ^ Z.of_nat j + x) = fixdigs i b v ++ fixdigs j b x.
Proof.
  intros Hb. induction j as [| j IH]; intros i v x Hx.
  - change (b ^ Z.of_nat 0) with 1 in *. assert (x = 0) as -> by lia. cbn [fixdigs]. rewrite app_nil_r, Nat.add_0_r.
    f_equal. lia.
  - rewrite pow_S in *. rewrite Nat.add_succ_r. cbn [fixdigs].
    assert (E1 : (v * (b ^ Z.of_nat j * b) + x) / b = v * b ^ Z.of_nat j + x / b).
    { rewrite Z.mul_assoc, Z.div_add_l; lia. }
    assert (E2 : (v * (b ^ Z.of_nat j * b) + x) mod b = x mod b).
    { rewrite Z.mul_assoc, Z.add_comm, Z.mod_add; lia. }
    rewrite E1, E2, IH, app_assoc; auto.
    split; [apply Z.div_pos; lia | apply Z.div_lt_upper_bound; lia].
Qed.
Lemma zdigits_app b k : 2 <= b -> forall q r, 0 < q -> 0 <= r < b ^ Z.of_nat k ->
  zdigits b (q * b ^ Z.of_nat k + r) = zdigits b q ++ fixdigs k b r.
Proof.
  intros Hb. induction k as [| k IH]; intros q r Hq Hr.
  - change (b ^ Z.of_nat 0) with 1 in *. cbn [fixdigs]. rewrite app_nil_r. f_equal. lia.
  - rewrite pow_S in *. pose proof (Z.pow_pos_nonneg b (Z.of_nat k) ltac:(lia) ltac:(lia)) as Hp.
    rewrite zdigits_eq by nia.
    assert (E1 : (q * (b ^ Z.of_nat k * b) + r) / b = q * b ^ Z.of_nat k + r / b).
    { rewrite Z.mul_assoc, Z.div_add_l; lia. }
    assert (E2 : (q * (b ^ Z.of_nat k * b) + r) mod b = r mod b).
    { rewrite Z.mul_assoc, Z.add_comm, Z.mod_add; lia. }
    destruct (Z.ltb_spec (q * (b ^ Z.of_nat k * b) + r) b) as [C | C]; [nia |].
    rewrite E1, E2, IH; auto.
    + cbn [fixdigs]. now rewrite app_assoc.
    + split; [apply Z.div_pos; lia | apply Z.div_lt_upper_bound; lia].
Qed.
Lemma dchar_0 d : 0 <= d < 16 -> (dchar d =? 48) = (d =? 0).
Proof. intros. unfold dchar. destruct (Z.ltb_spec d 10); zb; lia. Qed.
Lemma trim0_app s c : trim0 (s ++ [c]) = match trim0 s with [] => trim0 [c] | t => t ++ [c] end.
Proof.
  induction s as [| x s IH]; cbn [app trim0]; auto. destruct (x =? 48); auto.
Qed.
Lemma map_nil {A C} (f : A -> C) l : map f l = [] -> l = [].
Proof. destruct l; auto. discriminate. Qed.
Lemma zdigits_nonnil b n : 2 <= b -> 0 <= n -> zdigits b n <> [].
Proof. intros. rewrite zdigits_eq by auto. destruct (n <? b); [discriminate |]. intros C. apply app_eq_nil in C as [_ C]. discriminate. Qed.
Lemma trim0_fix b k : 2 <= b <= 16 -> forall r, 0 <= r < b ^ Z.of_nat k ->
  trim0 (map dchar (fixdigs k b r)) = if r =? 0 then [] else fmt_uint b r.
Proof.
  intros Hb. induction k as [| k IH]; intros r Hr.
  - change (b ^ Z.of_nat 0) with 1 in *. assert (r = 0) as -> by lia. reflexivity.
  - rewrite pow_S in Hr. cbn [fixdigs]. rewrite map_app. cbn [map]. rewrite trim0_app.
    rewrite IH by (split; [apply Z.div_pos; lia | apply Z.div_lt_upper_bound; lia]).
    pose proof (Z.mod_pos_bound r b ltac:(lia)) as Hm.
    unfold fmt_uint. rewrite (zdigits_eq b r) by lia.
    destruct (Z.eqb_spec (r / b) 0) as [E | E].
    + assert (Hrb : r < b). { apply Z.div_small_iff in E; lia. }
      rewrite Z.mod_small by lia. cbn [trim0]. rewrite dchar_0 by lia.
      destruct (Z.eqb_spec r 0); auto. destruct (Z.ltb_spec r b); [auto | lia].
    + assert (b <= r). { apply Z.nlt_ge. intros D. apply E. apply Z.div_small. lia. }
      destruct (Z.eqb_spec r 0); [lia |]. destruct (Z.ltb_spec r b); [lia |]. rewrite map_app. cbn [map].
      destruct (map dchar (zdigits b (r / b))) eqn:E2; auto. apply map_nil in E2. exfalso. revert E2.
      apply zdigits_nonnil; [lia |]. apply Z.div_pos; lia.
Qed.
Lemma zpad_fix b k : 2 <= b <= 16 -> forall r, (1 <= k)%nat -> 0 <= r < b ^ Z.of_nat k ->
  zpad k (fmt_uint b r) = map dchar (fixdigs k b r).
Proof.
  intros Hb. induction k as [| k IH]; intros r Hk Hr; [lia |].
  rewrite pow_S in Hr. cbn [fixdigs]. rewrite map_app. cbn [map]. unfold zpad, fmt_uint.
  rewrite zdigits_eq by lia. destruct (Z.ltb_spec r b) as [C | C].
  - rewrite Z.div_small, Z.mod_small, fixdigs_0 by lia. cbn [map length].
    replace (S k - 1)%nat with k by lia. f_equal. clear. induction k; auto. cbn [repeat map]. now rewrite IHk.
  - rewrite map_app, app_length, map_length. cbn [map length].
    destruct k as [| k]. { change (b ^ Z.of_nat 0) with 1 in Hr. lia. }
    rewrite <- IH by (try lia; (split; [apply Z.div_pos; lia | apply Z.div_lt_upper_bound; lia])).
    unfold zpad, fmt_uint. rewrite map_length.
    replace (S (S k) - (length (zdigits b (r / b)) + 1))%nat with (S k - length (zdigits b (r / b)))%nat by lia.
    now rewrite app_assoc.
Qed.

Fixpoint zval (b acc : Z) (ds : list Z) : Z := match ds with [] => acc | d :: t => zval b (acc * b + d) t end.
Lemma zval_app b ds es : forall acc, zval b acc (ds ++ es) = zval b (zval b acc ds) es.
Proof. induction ds; intros; cbn; auto. Qed.
Lemma bdig_dchar b d : b <= 16 -> 0 <= d < b -> bdig b (dchar d) = Some d.
Proof.
  intros Hb Hd. unfold bdig, cdig, dchar. destruct (Z.ltb_spec d 10).
  - replace ((48 <=? 48 + d) && (48 + d <=? 57)) with true by (symmetry; rewrite andb_true_iff; lia).
    replace (48 + d - 48) with d by lia. zb; auto; lia.
  - replace ((48 <=? 87 + d) && (87 + d <=? 57)) with false by (symmetry; rewrite andb_false_iff; lia).
    replace ((97 <=? 87 + d) && (87 + d <=? 102)) with true by (symmetry; rewrite andb_true_iff; lia).
    replace (87 + d - 87) with d by lia. zb; auto; lia.
Qed.
Lemma dvalue_map b ds : b <= 16 -> Forall (fun d => 0 <= d < b) ds -> forall acc, dvalue b acc (map dchar ds) = Some (zval b acc ds).
Proof.
  intros Hb. induction 1 as [| d ds Hd Hds IH]; intros acc; cbn [map dvalue zval]; auto. now rewrite bdig_dchar.
Qed.
Lemma zdigits_ind b (P : Z -> Prop) : 2 <= b ->
  (forall n, 0 <= n < b -> P n) -> (forall n, b <= n -> P (n / b) -> P n) -> forall n, 0 <= n -> P n.
Proof.
  intros Hb H1 H2 n Hn. pattern n. apply (Zlt_0_ind P); auto. clear n Hn. intros n IH Hn.
  destruct (Z_lt_ge_dec n b); [apply H1; lia |]. apply H2; [lia |]. apply IH.
  split; [apply Z.div_pos; lia |]. apply Z.div_lt_upper_bound; nia.
Qed.

Lemma zdigits_digits b n : 2 <= b -> 0 <= n -> Forall (fun d => 0 <= d < b) (zdigits b n).
Proof.
  intros Hb. revert n. apply (zdigits_ind b); auto; intros n Hn.
  - rewrite zdigits_eq by lia. destruct (Z.ltb_spec n b); [| lia]. repeat constructor; lia.
  - intros IH. rewrite zdigits_eq by lia. destruct (Z.ltb_spec n b); [lia |]. apply Forall_app. split; auto.
    repeat constructor; apply Z.mod_pos_bound; lia.
Qed.
Lemma zdigits_val b n : 2 <= b -> 0 <= n -> zval b 0 (zdigits b n) = n.
Proof.
  intros Hb. revert n. apply (zdigits_ind b); auto; intros n Hn.
  - rewrite zdigits_eq by lia. destruct (Z.ltb_spec n b); [| lia]. cbn. lia.
  - intros IH. rewrite zdigits_eq by lia. destruct (Z.ltb_spec n b); [lia |]. rewrite zval_app, IH. cbn.
    pose proof (Z.div_mod n b ltac:(lia)). lia.
Qed.
Lemma zdigits_hd b n t : 2 <= b -> 0 <= n -> zdigits b n = 0 :: t -> n = 0 /\ t = [].
Proof.
  intros Hb Hn. revert t. revert n Hn. apply (zdigits_ind b (fun n => forall t, zdigits b n = 0 :: t -> n = 0 /\ t = [])); auto; intros n Hn.
  - intros t. rewrite zdigits_eq by lia. destruct (Z.ltb_spec n b); [| lia]. intros E. inversion E. auto.
  - intros IH t. rewrite zdigits_eq by lia. destruct (Z.ltb_spec n b); [lia |]. intros E.
    destruct (zdigits b (n / b)) as [| d ds] eqn:E2. { exfalso. revert E2. apply zdigits_nonnil; auto. apply Z.div_pos; lia. }
    cbn in E. inversion E; subst. destruct (IH ds eq_refl) as [E0 _]. apply Z.div_small_iff in E0; lia.
Qed.
Lemma fmt_dvalue b n acc : 2 <= b <= 16 -> 0 <= n -> dvalue b acc (fmt_uint b n) = Some (zval b acc (zdigits b n)).
Proof. intros. unfold fmt_uint. apply dvalue_map; [lia |]. apply zdigits_digits; lia. Qed.
Lemma dchar_range d : 0 <= d < 16 -> 48 <= dchar d <= 57 \/ 97 <= dchar d <= 102.
Proof. unfold dchar. destruct (Z.ltb_spec d 10); lia. Qed.
Lemma fmt_numeral b n : 2 <= b <= 16 -> 0 <= n -> numeral b n (fmt_uint b n).
Proof.
  intros Hb Hn. unfold numeral. splits.
  - intros E. apply map_nil in E. revert E. apply zdigits_nonnil; lia.
  - rewrite fmt_dvalue by lia. now rewrite zdigits_val by lia.
  - unfold fmt_uint. apply Forall_map. eapply Forall_impl; [| apply zdigits_digits; lia]. cbn. intros. apply dchar_range. lia.
  - intros t E. unfold fmt_uint in E. destruct (zdigits b n) as [| d ds] eqn:Ed; [discriminate |].
    cbn [map] in E. inversion E as [[E1 E2]].
    pose proof (zdigits_digits b n ltac:(lia) Hn) as Hf. rewrite Ed in Hf. inversion Hf; subst.
    assert (d = 0). { pose proof (dchar_0 d ltac:(lia)). zb; lia. }
    subst. destruct (zdigits_hd b n ds ltac:(lia) Hn Ed) as [-> ->]. auto.
Qed.
(** canonical numerals are unique *)
Lemma bdig_inj b c d x : 48 <= c <= 57 \/ 97 <= c <= 102 -> 48 <= d <= 57 \/ 97 <= d <= 102 -> bdig b c = Some x -> bdig b d = Some x -> c = d.
Proof.
  unfold bdig, cdig. intros Hc Hd.
  destruct (Z.leb_spec 48 c), (Z.leb_spec c 57), (Z.leb_spec 97 c), (Z.leb_spec c 102), (Z.leb_spec 48 d), (Z.leb_spec d 57), (Z.leb_spec 97 d), (Z.leb_spec d 102);
    cbn [andb]; try lia; zb; intros E1 E2; inversion E1; inversion E2; lia.
Qed.

(** ** to_string_dec *)
Lemma concat_rev_snoc (buf : list (list Z)) x : concat (rev (buf ++ [x])) = x ++ concat (rev buf).
Proof. rewrite rev_app_distr. reflexivity. Qed.

Lemma Eto_string_dec n : 0 <= n -> Z.of_nat (length (uof n)) < 4294967296 -> uto_string_dec (uof n) = Ok (fmt_uint 10 n).
Proof.
  intros Hn HL. unfold uto_string_dec.
  enough (returns (loopn (ufuel (uof n)) dec_body (uof n, [])) (fun buf => concat (rev buf) = fmt_uint 10 n)) as (buf & -> & <-) by reflexivity.
  apply (loopn_spec dec_body
    (fun p => exists m buf tl, p = (uof m, buf) /\ 0 <= m <= n /\ concat (rev buf) = map dchar tl /\ zdigits 10 n = zdigits 10 m ++ tl)
    (fun _ buf => concat (rev buf) = fmt_uint 10 n) (fun p => uval (fst p))).
  - intros g p (m & buf & tl & -> & Hm & Hb & Ht) IH. unfold dec_body.
    assert (Z.of_nat (length (uof m)) < 4294967296) by (pose proof (len_uof_mono m n ltac:(lia)); lia).
    destruct (Nat.ltb_spec 1 (length (uof m))) as [C | C].
    + assert (4294967296 <= m).
      { apply Z.nlt_ge. intros D. assert (length (uof m) <= 1)%nat by (apply nlimbs_iff; try lia; exact D). lia. }
      pose proof (Z.mod_pos_bound m 1000000000 ltac:(lia)) as Hr. pose proof (Z.div_mod m 1000000000 ltac:(lia)) as Hdm.
      rewrite Erem_u32 by lia. cbn [bind]. rewrite uof_head by lia. cbn [bind]. rewrite Z.mod_small by lia.
      rewrite Ediv_u32 by lia. cbn [bind].
      set (q := m / 1000000000) in *. set (r := m mod 1000000000) in *.
      assert (0 < q) by lia. apply IH.
      * exists q, (buf ++ [zpad 9 (fmt_uint 10 r)]), (fixdigs 9 10 r ++ tl). splits; auto; try lia.
        -- rewrite concat_rev_snoc, Hb, (zpad_fix 10 9), map_app by (change (10 ^ Z.of_nat 9) with 1000000000; lia). auto.
        -- rewrite Ht, app_assoc. f_equal. rewrite Hdm, Z.mul_comm. apply (zdigits_app 10 9); auto; lia.
      * cbn [fst]. rewrite !uof_uval by lia. lia.
    + assert (m < 4294967296) by (apply (nlimbs_iff m 1); lia).
      rewrite uof_head by lia. cbn [bind]. rewrite Z.mod_small by lia. apply returns_ok.
      rewrite concat_rev_snoc, Hb. unfold fmt_uint. now rewrite Ht, map_app.
  - exists n, [], []. splits; auto; try lia. now rewrite app_nil_r.
  - cbn [fst]. rewrite uof_uval by lia. pose proof (ufuel_lt n n ltac:(lia)). lia.
Qed.

(** ** hexadecimal and binary: word by word *)
Lemma chunk_concat b k lo : 2 <= b <= 16 -> (1 <= k)%nat -> b ^ Z.of_nat k = 4294967296 -> limbs lo ->
  0 <= uval lo < b ^ Z.of_nat (k * length lo) /\
  concat (rev (map (fun x => zpad k (fmt_uint b x)) lo)) = map dchar (fixdigs (k * length lo) b (uval lo)).
Proof.
  intros Hb Hk E. induction lo as [| x lo IH]; intros HL.
  - cbn [length uval map rev concat]. rewrite Nat.mul_0_r. split; [change (b ^ Z.of_nat 0) with 1; lia | reflexivity].
  - inversion HL as [| ? ? Hx HL']; subst. destruct (IH HL') as [B1 B2]. cbn [length uval map rev].
    rewrite concat_app, B2. cbn [concat]. rewrite app_nil_r, zpad_fix by (rewrite ?E; auto; lia). rewrite <- map_app.
    replace (k * S (length lo))%nat with (k * length lo + k)%nat by lia.
    rewrite Nat2Z.inj_add, Z.pow_add_r, E by lia. split; [lia |]. f_equal.
    rewrite <- fixdigs_app, E by lia. f_equal. lia.
Qed.
Lemma Eto_chunks b k pre n : 2 <= b <= 16 -> (1 <= k)%nat -> b ^ Z.of_nat k = 4294967296 -> 0 <= n ->
  finish_radix pre (map (fun x => zpad k (fmt_uint b x)) (uof n)) = Ok (pre ++ fmt_uint b n).
Proof.
  intros Hb Hk E Hn. pose proof (uof_wf n Hn) as (W1 & W2 & W3).
  pose proof (uof_uval n Hn) as Hv. set (a := uof n) in *. clearbody a.
  destruct (exists_last W1) as (lo & t & ->).
  unfold limbs in W2. apply Forall_app in W2 as [W2 W4]. inversion W4 as [| ? ? Ht _]; subst.
  destruct (chunk_concat b k lo Hb Hk E W2) as [C1 C2].
  unfold finish_radix. rewrite map_app, rev_app_distr. cbn [map rev app].
  rewrite C2, zpad_fix, trim0_fix by (rewrite ?E; auto; lia). rewrite last_last in W3. rewrite uval_app. cbn [uval].
  rewrite BB_pow2. destruct (Z.eqb_spec t 0) as [-> | Nt].
  - destruct W3 as [W3 | W3]; [| lia]. rewrite app_length in W3. cbn in W3. destruct lo; [| cbn in W3; lia].
    cbn [length uval map fixdigs]. rewrite Nat.mul_0_r. cbn [fixdigs map]. rewrite app_nil_r.
    change (0 + 2 ^ (32 * Z.of_nat 0) * (0 + 4294967296 * 0)) with 0.
    unfold fmt_uint. rewrite zdigits_eq by lia. destruct (Z.ltb_spec 0 b); [reflexivity | lia].
  - f_equal. f_equal. replace (uval lo + 2 ^ (32 * Z.of_nat (length lo)) * (t + 4294967296 * 0)) with (t * b ^ Z.of_nat (k * length lo) + uval lo).
    + unfold fmt_uint. rewrite zdigits_app, map_app by lia.
      destruct (map dchar (zdigits b t)) eqn:E2; auto. apply map_nil in E2. exfalso. revert E2. apply zdigits_nonnil; lia.
    + rewrite Nat2Z.inj_mul, Z.pow_mul_r, E by lia. change 4294967296 with (2 ^ 32) at 1. rewrite <- Z.pow_mul_r by lia. ring.
Qed.
Lemma Eto_string_hex n p : 0 <= n -> uto_string_hex (uof n) p = Ok ((if p then [48; 120] else []) ++ fmt_uint 16 n).
Proof. intros. apply Eto_chunks; auto; try lia. Qed.
Lemma Eto_string_bin n p : 0 <= n -> uto_string_bin (uof n) p = Ok ((if p then [48; 98] else []) ++ fmt_uint 2 n).
Proof. intros. apply Eto_chunks; auto; try lia. Qed.

(** ** octal *)
Lemma trim0_fmt b n : 2 <= b <= 16 -> 0 <= n -> trim0 (fmt_uint b n) = if n =? 0 then [] else fmt_uint b n.
Proof.
  intros Hb Hn. destruct (Z.eqb_spec n 0) as [-> | N].
  - unfold fmt_uint. rewrite zdigits_eq by lia. destruct (Z.ltb_spec 0 b); [reflexivity | lia].
  - destruct (fmt_numeral b n Hb Hn) as (_ & _ & _ & H). destruct (fmt_uint b n) as [| c t] eqn:E; auto.
    cbn [trim0]. destruct (Z.eqb_spec c 48) as [-> |]; auto. destruct (H t eq_refl). lia.
Qed.
Lemma Eto_string_oct n p : 0 <= n -> uto_string_oct (uof n) p = Ok ((if p then [48; 111] else []) ++ fmt_uint 8 n).
Proof.
  intros Hn. unfold uto_string_oct.
  enough (returns (loopn (ufuel (uof n)) oct_body (uof n, []))
    (fun buf => exists lo m tl, buf = lo ++ [fmt_uint 8 m] /\ 0 <= m /\ (m = 0 -> n = 0) /\ concat (rev lo) = map dchar tl /\ zdigits 8 n = zdigits 8 m ++ tl))
    as (buf & -> & lo & m & tl & -> & Hm & Hm0 & Hlo & Htl).
  { cbn [bind]. unfold finish_radix. rewrite rev_app_distr. cbn [rev app].
    rewrite trim0_fmt by lia. rewrite Hlo. f_equal. f_equal. unfold fmt_uint at 3. rewrite Htl, map_app.
    destruct (Z.eqb_spec m 0) as [-> | N].
    - reflexivity.
    - unfold fmt_uint. destruct (map dchar (zdigits 8 m)) eqn:E2; auto. apply map_nil in E2. exfalso. revert E2. apply zdigits_nonnil; lia. }
  apply (loopn_spec oct_body
    (fun p => exists m buf tl, p = (uof m, buf) /\ 0 <= m <= n /\ (m = 0 -> n = 0) /\ concat (rev buf) = map dchar tl /\ zdigits 8 n = zdigits 8 m ++ tl)
    (fun _ buf => exists lo m tl, buf = lo ++ [fmt_uint 8 m] /\ 0 <= m /\ (m = 0 -> n = 0) /\ concat (rev lo) = map dchar tl /\ zdigits 8 n = zdigits 8 m ++ tl)
    (fun p => uval (fst p))).
  - intros g q (m & buf & tl & -> & Hm & Hm0 & Hb & Ht) IH. unfold oct_body.
    destruct (Nat.ltb_spec 1 (length (uof m))) as [C | C].
    + assert (4294967296 <= m).
      { apply Z.nlt_ge. intros D. assert (length (uof m) <= 1)%nat by (apply nlimbs_iff; try lia; exact D). lia. }
      pose proof (Z.mod_pos_bound m 1073741824 ltac:(lia)) as Hr. pose proof (Z.div_mod m 1073741824 ltac:(lia)) as Hdm.
      change 1073741824 with (2 ^ 30) at 1. rewrite Erem_pow2 by lia. change (2 ^ 30) with 1073741824.
      cbn [bind]. rewrite uof_head by lia. cbn [bind]. rewrite (Z.mod_small (m mod 1073741824)) by lia.
      rewrite Ediv_u32 by lia. cbn [bind].
      set (r := m mod 1073741824) in *. set (k := m / 1073741824) in *.
      assert (0 < k) by lia. apply IH.
      * exists k, (buf ++ [zpad 10 (fmt_uint 8 r)]), (fixdigs 10 8 r ++ tl). splits; auto; try lia.
        -- rewrite concat_rev_snoc, Hb, (zpad_fix 8 10), map_app by (change (8 ^ Z.of_nat 10) with 1073741824; lia). auto.
        -- rewrite Ht, app_assoc. f_equal. rewrite Hdm, Z.mul_comm. apply (zdigits_app 8 10); auto; lia.
      * cbn [fst]. rewrite !uof_uval by lia. lia.
    + assert (m < 4294967296) by (apply (nlimbs_iff m 1); lia).
      rewrite uof_head by lia. cbn [bind]. rewrite Z.mod_small by lia. apply returns_ok.
      exists buf, m, tl. splits; auto. lia.
  - exists n, [], []. splits; auto; try lia. now rewrite app_nil_r.
  - cbn [fst]. rewrite uof_uval by lia. pose proof (ufuel_lt n n ltac:(lia)). lia.
Qed.

(** ** from_string *)
Lemma to_digit_16 c : to_digit 16 c = cdig c.
Proof.
  unfold to_digit, cdig. destruct ((48 <=? c) && (c <=? 57)) eqn:E1; [zb; auto; lia |].
  destruct ((97 <=? c) && (c <=? 102)) eqn:E2.
  - replace ((97 <=? c) && (c <=? 122)) with true by (symmetry; lia). zb; auto; lia.
  - destruct ((97 <=? c) && (c <=? 122)) eqn:E3.
    + replace ((65 <=? c) && (c <=? 70)) with false by (symmetry; lia). zb; auto; lia.
    + destruct ((65 <=? c) && (c <=? 70)) eqn:E4.
      * replace ((65 <=? c) && (c <=? 90)) with true by (symmetry; lia). zb; auto; lia.
      * destruct ((65 <=? c) && (c <=? 90)) eqn:E5; zb; auto; lia.
Qed.
Lemma to_digit_10 c : to_digit 10 c = bdig 10 c.
Proof.
  unfold to_digit, bdig, cdig. destruct ((48 <=? c) && (c <=? 57)) eqn:E1; [auto |].
  destruct ((97 <=? c) && (c <=? 102)) eqn:E2.
  - replace ((97 <=? c) && (c <=? 122)) with true by (symmetry; lia). auto.
  - destruct ((97 <=? c) && (c <=? 122)) eqn:E3.
    + replace ((65 <=? c) && (c <=? 70)) with false by (symmetry; lia). zb; auto; lia.
    + destruct ((65 <=? c) && (c <=? 70)) eqn:E4.
      * replace ((65 <=? c) && (c <=? 90)) with true by (symmetry; lia). auto.
      * destruct ((65 <=? c) && (c <=? 90)) eqn:E5; zb; auto; lia.
Qed.
Lemma cdig_range c d : cdig c = Some d -> 0 <= d < 16.
Proof. unfold cdig. intros H. repeat match type of H with (if ?x then _ else _) = _ => destruct x eqn:?; [inversion H; lia |] end. discriminate. Qed.
Lemma bdig_range b c d : bdig b c = Some d -> 0 <= d < b.
Proof.
  unfold bdig. destruct (cdig c) eqn:E; [| discriminate]. apply cdig_range in E. destruct (Z.ltb_spec z b); [| discriminate].
  intros H1. inversion H1. lia.
Qed.

(** the expected outcome of reading: a value, or an error *)
Definition reads (o : option Z) (s : list Z) (r : res (rslt (list Z) cerr)) : Prop :=
  match o with
  | Some v => r = Ok (ROk (uof v))
  | None => exists e, r = Ok (RErr e) /\ (e = NoData \/ exists c, e = InvalidChar c /\ In c s)
  end.
Lemma reads_cons o c s r : reads o s r -> reads o (c :: s) r.
Proof. unfold reads. destruct o; auto. intros (e & -> & [-> | (d & -> & Hd)]); eexists; split; eauto. right. exists d. cbn; auto. Qed.

Lemma read_num b : 2 <= b <= 16 -> forall t ib u coeff, 0 <= u -> 0 <= ib < coeff -> coeff <= 134217728 ->
  reads (dvalue b (u * coeff + ib) (no_us t)) t (from_string_go t ReadNum ib (uof u) coeff b).
Proof.
  intros Hb. induction t as [| c t IH]; intros ib u coeff Hu Hib Hc.
  - cbn [no_us filter dvalue from_string_go reads]. destruct (Z.ltb_spec 1 coeff).
    + rewrite Emul_u32 by lia. cbn [bind]. rewrite Eadd_u32 by nia. reflexivity.
    + do 3 f_equal. assert (coeff = 1) as -> by lia. lia.
  - cbn [no_us filter from_string_go]. destruct (Z.eqb_spec c 95) as [-> | Nc]; cbn [andb negb].
    + apply reads_cons. apply IH; auto.
    + rewrite to_digit_16. cbn [dvalue]. fold (no_us t). unfold bdig. destruct (cdig c) as [d |] eqn:Ec.
      * apply cdig_range in Ec. destruct (Z.ltb_spec d b) as [Hd | Hd].
        -- assert (0 <= ib * b <= (coeff - 1) * b) by (split; [| apply Z.mul_le_mono_nonneg_r]; nia).
           assert (coeff * b <= 134217728 * 16) by (apply Z.mul_le_mono_nonneg; lia).
           rewrite mulw_ok by (change (2 ^ 32) with 4294967296; lia). cbn [bind].
           rewrite addw_ok by (change (2 ^ 32) with 4294967296; lia). cbn [bind].
           rewrite mulw_ok by (change (2 ^ 32) with 4294967296; lia). cbn [bind].
           apply reads_cons. replace ((u * coeff + ib) * b + d) with (u * (coeff * b) + (ib * b + d)) by ring.
           destruct (Z.ltb_spec 134217728 (coeff * b)).
           ++ rewrite Emul_u32 by lia. cbn [bind]. rewrite Eadd_u32 by nia. cbn [bind].
              replace (u * (coeff * b) + (ib * b + d)) with ((u * (coeff * b) + (ib * b + d)) * 1 + 0) at 1 by ring.
              apply IH; nia.
           ++ apply IH; lia.
        -- cbn [reads]. eexists; split; [reflexivity |]. right. exists c. cbn; auto.
      * cbn [reads]. eexists; split; [reflexivity |]. right. exists c. cbn; auto.
Qed.
Lemma read_initnum b : 2 <= b <= 16 -> forall t ib coeff,
  reads (match no_us t with [] => None | _ => dvalue b 0 (no_us t) end) t (from_string_go t InitNum ib uzero coeff b).
Proof.
  intros Hb. induction t as [| c t IH]; intros ib coeff.
  - cbn [no_us filter from_string_go reads]. eauto.
  - cbn [no_us filter from_string_go]. destruct (Z.eqb_spec c 95) as [-> | Nc]; cbn [andb negb].
    + apply reads_cons. apply IH; auto.
    + rewrite to_digit_16. cbn [dvalue]. fold (no_us t). unfold bdig. destruct (cdig c) as [d |] eqn:Ec.
      * apply cdig_range in Ec. destruct (Z.ltb_spec d b) as [Hd | Hd].
        -- apply reads_cons. change uzero with (uof 0). replace (0 * b + d) with (0 * b + d) by ring. apply read_num; lia.
        -- cbn [reads]. eexists; split; [reflexivity |]. right. exists c. cbn; auto.
      * cbn [reads]. eexists; split; [reflexivity |]. right. exists c. cbn; auto.
Qed.
Lemma prefix_lower c : prefix_base c = if ascii_lower c =? 120 then Some 16 else if ascii_lower c =? 98 then Some 2 else if ascii_lower c =? 111 then Some 8 else None.
Proof.
  unfold prefix_base, ascii_lower. destruct ((65 <=? c) && (c <=? 90)) eqn:E; zb; cbn [orb]; auto; lia.
Qed.
Lemma read_zero : forall t ib coeff base,
  reads (match no_us t with [] => Some 0 | p :: rest => match prefix_base p with Some b => match rest with [] => None | _ => dvalue b 0 rest end | None => None end end)
    t (from_string_go t InitialZero ib uzero coeff base).
Proof.
  induction t as [| c t IH]; intros ib coeff base.
  - reflexivity.
  - cbn [no_us filter from_string_go]. destruct (Z.eqb_spec c 95) as [-> | Nc]; cbn [andb negb].
    + apply reads_cons. apply IH; auto.
    + fold (no_us t). rewrite prefix_lower.
      destruct (ascii_lower c =? 120); [apply reads_cons, read_initnum; lia |].
      destruct (ascii_lower c =? 98); [apply reads_cons, read_initnum; lia |].
      destruct (ascii_lower c =? 111); [apply reads_cons, read_initnum; lia |].
      cbn [reads]. eexists; split; [reflexivity |]. right. exists c. cbn; auto.
Qed.

Lemma uread_cons c t : c <> 95 -> uread (c :: t) =
  if c =? 48 then match no_us t with [] => Some 0 | p :: rest => match prefix_base p with Some b => match rest with [] => None | _ => dvalue b 0 rest end | None => None end end
  else dvalue 10 0 (c :: no_us t).
Proof.
  intros Nc. unfold uread. cbn [no_us filter]. destruct (Z.eqb_spec c 95); [contradiction |]. cbn [negb]. fold (no_us t).
  assert (E : forall X Y : option Z, match c with 95 => X | _ => Y end = Y).
  { intros. destruct c as [| c | c]; auto. do 7 (destruct c as [c | c |]; auto). congruence. }
  rewrite E.
  destruct (Z.eqb_spec c 48) as [-> | N].
  - destruct (no_us t); auto.
  - destruct c as [| c | c]; auto. do 6 (destruct c as [c | c |]; auto). congruence.
Qed.

Lemma Efrom_string s : reads (uread s) s (ufrom_string s).
Proof.
  unfold ufrom_string. destruct s as [| c t].
  - cbn. eauto.
  - destruct (Z.eq_dec c 95) as [-> | Nc].
    + cbn. eexists; split; [reflexivity |]. right. exists 95. cbn; auto.
    + rewrite uread_cons by auto. cbn [from_string_go]. rewrite andb_false_r.
      destruct (Z.eqb_spec c 48) as [-> | N].
      * apply reads_cons, read_zero.
      * rewrite to_digit_10. cbn [dvalue]. destruct (bdig 10 c) as [d |] eqn:Ed.
        -- apply bdig_range in Ed. apply reads_cons. change uzero with (uof 0).
           replace (0 * 10 + d) with (0 * 10 + d) by ring. apply read_num; lia.
        -- cbn [reads]. eexists; split; [reflexivity |]. right. exists c. cbn; auto.
Qed.

(** reading back what was printed *)
Lemma no_us_numeral s : Forall (fun c => 48 <= c <= 57 \/ 97 <= c <= 102) s -> no_us s = s.
Proof.
  induction 1 as [| c s Hc Hs IH]; auto. cbn [no_us filter]. destruct (Z.eqb_spec c 95); [lia |]. cbn. now f_equal.
Qed.
Lemma uread_dec n s : numeral 10 n s -> uread s = Some n.
Proof.
  intros (H1 & H2 & H3 & H4). destruct s as [| c t]; [congruence |]. inversion H3; subst.
  rewrite uread_cons by lia. rewrite no_us_numeral by auto.
  destruct (Z.eqb_spec c 48) as [-> | N]; auto.
  destruct (H4 t eq_refl) as [-> ->]. reflexivity.
Qed.
Lemma uread_prefix p b n s : prefix_base p = Some b -> numeral b n s -> uread (48 :: p :: s) = Some n.
Proof.
  intros Hp (H1 & H2 & H3 & H4). assert (p <> 95). { intros ->. discriminate. }
  rewrite uread_cons by lia. cbn [no_us filter Z.eqb]. destruct (Z.eqb_spec p 95); [contradiction |]. cbn [negb].
  fold (no_us s). rewrite no_us_numeral, Hp by auto. change (48 =? 48) with true. cbn iota.
  destruct s; auto. congruence.
Qed.
