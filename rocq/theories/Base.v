(** Shared vocabulary of the model: the panic monad, checked machine words, vectors, loops.
    Nothing here is specific to one source file; the conventions are explained in /verif/DESIGN.md. *)
From Coq Require Export ZArith List Lia Bool Arith.
From Coq Require Export ZifyBool ZifyNat.
Export ListNotations.
Global Open Scope Z_scope.

(** Outcome of running a Rust function: a value, a panic, or (an artefact of the model only) the
    unrolling bound of a loop was too small. *)
Inductive res (A : Type) : Type :=
| Ok (a : A)
| Panic
| NoFuel.
Arguments Ok {A} a.
Arguments Panic {A}.
Arguments NoFuel {A}.

Definition bind {A C} (m : res A) (k : A -> res C) : res C :=
  match m with Ok a => k a | Panic => Panic | NoFuel => NoFuel end.

Declare Scope res_scope.
Delimit Scope res_scope with res.
Global Open Scope res_scope.
Notation "'let*' x ':=' m 'in' k" := (bind m (fun x => k))
  (at level 200, x name, m at level 100, k at level 200, right associativity) : res_scope.
Notation "'let*' ' p ':=' m 'in' k" := (bind m (fun p => k))
  (at level 200, p strict pattern, m at level 100, k at level 200, right associativity) : res_scope.

Definition guard (b : bool) : res unit := if b then Ok tt else Panic.

(** [returns m Q]: [m] terminates normally with a value satisfying [Q]. *)
Definition returns {A} (m : res A) (Q : A -> Prop) : Prop := exists a, m = Ok a /\ Q a.

Lemma returns_bind {A C} (m : res A) (k : A -> res C) Q R :
  returns m Q -> (forall a, Q a -> returns (k a) R) -> returns (bind m k) R.
Proof. intros [a [-> Hq]] H. exact (H a Hq). Qed.

Lemma returns_ok {A} (a : A) (Q : A -> Prop) : Q a -> returns (Ok a) Q.
Proof. intros; exists a; auto. Qed.

Lemma returns_weaken {A} (m : res A) (Q R : A -> Prop) :
  returns m Q -> (forall a, Q a -> R a) -> returns m R.
Proof. intros [a [-> Hq]] H. exists a; auto. Qed.

Lemma returns_eq {A} (m : res A) a (Q : A -> Prop) : m = Ok a -> Q a -> returns m Q.
Proof. intros -> H. exists a; auto. Qed.

(** ** Machine words.  [w] is the width in bits; unsigned values live in [0, 2^w). *)

(** debug-mode [a + b], [a - b], [a * b], [a / b], [a % b], [a << b], [a >> b] on unsigned words *)
Definition addw (w a b : Z) : res Z := if a + b <? 2 ^ w then Ok (a + b) else Panic.
Definition subw (a b : Z) : res Z := if b <=? a then Ok (a - b) else Panic.
Definition mulw (w a b : Z) : res Z := if a * b <? 2 ^ w then Ok (a * b) else Panic.
Definition divw (a b : Z) : res Z := if b =? 0 then Panic else Ok (a / b).
Definition remw (a b : Z) : res Z := if b =? 0 then Panic else Ok (a mod b).
(** Rust panics when the shift amount reaches the width; bits shifted out are dropped silently. *)
Definition shlw (w a b : Z) : res Z := if b <? w then Ok ((a * 2 ^ b) mod 2 ^ w) else Panic.
Definition shrw (w a b : Z) : res Z := if b <? w then Ok (a / 2 ^ b) else Panic.
(** [as] cast to an unsigned width *)
Definition castw (w a : Z) : Z := a mod 2 ^ w.
(** [checked_add], [checked_mul], [checked_sub] *)
Definition checked_add (w a b : Z) : option Z := if a + b <? 2 ^ w then Some (a + b) else None.
Definition checked_mul (w a b : Z) : option Z := if a * b <? 2 ^ w then Some (a * b) else None.
Definition checked_sub (a b : Z) : option Z := if b <=? a then Some (a - b) else None.
(** [Option::expect] / [unwrap] *)
Definition expect {A} (o : option A) : res A := match o with Some a => Ok a | None => Panic end.

(** signed words: [in_s w x] is -2^(w-1) <= x < 2^(w-1) *)
Definition in_s (w x : Z) : bool := (- 2 ^ (w - 1) <=? x) && (x <? 2 ^ (w - 1)).
Definition sres (w x : Z) : res Z := if in_s w x then Ok x else Panic.
Definition sadd (w a b : Z) : res Z := sres w (a + b).
Definition ssub (w a b : Z) : res Z := sres w (a - b).
Definition smul (w a b : Z) : res Z := sres w (a * b).
Definition sneg (w a : Z) : res Z := sres w (- a).
Definition sabs (w a : Z) : res Z := sres w (Z.abs a).

Lemma addw_ok w a b : a + b < 2 ^ w -> addw w a b = Ok (a + b).
Proof. unfold addw; intros; destruct (Z.ltb_spec (a + b) (2 ^ w)); [reflexivity | lia]. Qed.
Lemma subw_ok a b : b <= a -> subw a b = Ok (a - b).
Proof. unfold subw; intros; destruct (Z.leb_spec b a); [reflexivity | lia]. Qed.
Lemma mulw_ok w a b : a * b < 2 ^ w -> mulw w a b = Ok (a * b).
Proof. unfold mulw; intros; destruct (Z.ltb_spec (a * b) (2 ^ w)); [reflexivity | lia]. Qed.
Lemma divw_ok a b : b <> 0 -> divw a b = Ok (a / b).
Proof. unfold divw; intros; destruct (Z.eqb_spec b 0); [lia | reflexivity]. Qed.
Lemma remw_ok a b : b <> 0 -> remw a b = Ok (a mod b).
Proof. unfold remw; intros; destruct (Z.eqb_spec b 0); [lia | reflexivity]. Qed.
Lemma shrw_ok w a b : b < w -> shrw w a b = Ok (a / 2 ^ b).
Proof. unfold shrw; intros; destruct (Z.ltb_spec b w); [reflexivity | lia]. Qed.
Lemma shlw_ok w a b : b < w -> 0 <= a * 2 ^ b < 2 ^ w -> shlw w a b = Ok (a * 2 ^ b).
Proof.
  unfold shlw; intros; destruct (Z.ltb_spec b w); [| lia]. rewrite Z.mod_small; auto.
Qed.
Lemma sres_ok w x : - 2 ^ (w - 1) <= x < 2 ^ (w - 1) -> sres w x = Ok x.
Proof. unfold sres, in_s; intros [H1 H2].
  destruct (Z.leb_spec (- 2 ^ (w - 1)) x); [| lia].
  destruct (Z.ltb_spec x (2 ^ (w - 1))); [reflexivity | lia]. Qed.

(** ** Vectors *)
Definition getv {A} (l : list A) (i : nat) : res A :=
  match nth_error l i with Some a => Ok a | None => Panic end.
Fixpoint setv {A} (l : list A) (i : nat) (x : A) : res (list A) :=
  match l, i with
  | [], _ => Panic
  | _ :: t, O => Ok (x :: t)
  | a :: t, S j => let* t' := setv t j x in Ok (a :: t')
  end.
(** usize subtraction *)
Definition subn (a b : nat) : res nat := if (b <=? a)%nat then Ok (a - b)%nat else Panic.

(** ** Loops *)
(** [recn n F bot] unrolls the functional [F] up to 2^n times; below that it behaves as [bot]. *)
Fixpoint recn {A C} (n : nat) (F : (A -> res C) -> A -> res C) (bot : A -> res C) (a : A)
  {struct n} : res C :=
  match n with
  | O => F bot a
  | S m => recn m F (recn m F bot) a
  end.
Definition nofuel {A C} : A -> res C := fun _ => NoFuel.
Definition loopn {A C} (n : nat) (F : (A -> res C) -> A -> res C) : A -> res C := recn n F nofuel.

(** [for i in lo .. lo+n] *)
Fixpoint for_ {A} (n : nat) (i : Z) (body : Z -> A -> res A) (s : A) : res A :=
  match n with
  | O => Ok s
  | S m => let* s' := body i s in for_ m (i + 1) body s'
  end.

(** General rule: a predicate on outcomes that every unfolding establishes from smaller states. *)
Lemma recn_rule {A C} (F : (A -> res C) -> A -> res C) (P : A -> Prop) (Q : A -> res C -> Prop) (m : A -> Z) :
  (forall g a, P a ->
     (forall a', P a' -> 0 <= m a' < m a -> Q a' (g a')) -> Q a (F g a)) ->
  forall n bot k, 0 <= k ->
  (forall a, P a -> 0 <= m a < k -> Q a (bot a)) ->
  forall a, P a -> 0 <= m a < k + 2 ^ Z.of_nat n -> Q a (recn n F bot a).
Proof.
  intros HF n. induction n as [| n IH]; intros bot k Hk Hbot a HP Hm.
  - cbn [recn]. apply HF; auto. intros a' HP' Hm'. apply Hbot; auto.
    change (2 ^ Z.of_nat 0) with 1 in Hm. lia.
  - cbn [recn].
    assert (E : 2 ^ Z.of_nat (S n) = 2 * 2 ^ Z.of_nat n).
    { rewrite Nat2Z.inj_succ, Z.pow_succ_r; lia. }
    apply (IH _ (k + 2 ^ Z.of_nat n)); auto; try lia.
    apply IH; auto.
Qed.
Lemma loopn_rule {A C} (F : (A -> res C) -> A -> res C) (P : A -> Prop) (Q : A -> res C -> Prop) (m : A -> Z) :
  (forall g a, P a ->
     (forall a', P a' -> 0 <= m a' < m a -> Q a' (g a')) -> Q a (F g a)) ->
  forall n a, P a -> 0 <= m a < 2 ^ Z.of_nat n -> Q a (loopn n F a).
Proof.
  intros HF n a HP Hm. unfold loopn. eapply (recn_rule F P Q m HF n _ 0); try lia; auto.
  all: intros; lia.
Qed.
(** Partial correctness: whatever the unrolling bound, a normal result satisfies [Q]. *)
Lemma recn_partial {A C} (F : (A -> res C) -> A -> res C) (P : A -> Prop) (Q : A -> C -> Prop) :
  (forall g a, P a -> (forall a' r, P a' -> g a' = Ok r -> Q a' r) -> forall r, F g a = Ok r -> Q a r) ->
  forall n bot, (forall a r, P a -> bot a = Ok r -> Q a r) ->
  forall a r, P a -> recn n F bot a = Ok r -> Q a r.
Proof.
  intros HF n. induction n as [| n IH]; intros bot Hbot a r HP E; cbn [recn] in E.
  - eapply HF; eauto.
  - eapply (IH (recn n F bot)); eauto.
Qed.
Lemma loopn_partial {A C} (F : (A -> res C) -> A -> res C) (P : A -> Prop) (Q : A -> C -> Prop) :
  (forall g a, P a -> (forall a' r, P a' -> g a' = Ok r -> Q a' r) -> forall r, F g a = Ok r -> Q a r) ->
  forall n a r, P a -> loopn n F a = Ok r -> Q a r.
Proof. intros HF n. apply recn_partial; auto. intros a r _ H. discriminate. Qed.

Lemma recn_spec {A C} (F : (A -> res C) -> A -> res C) (P : A -> Prop) (Q : A -> C -> Prop) (m : A -> Z) :
  (forall g a, P a ->
     (forall a', P a' -> 0 <= m a' < m a -> returns (g a') (Q a')) -> returns (F g a) (Q a)) ->
  forall n bot k, 0 <= k ->
  (forall a, P a -> 0 <= m a < k -> returns (bot a) (Q a)) ->
  forall a, P a -> 0 <= m a < k + 2 ^ Z.of_nat n -> returns (recn n F bot a) (Q a).
Proof.
  intros HF n. induction n as [| n IH]; intros bot k Hk Hbot a HP Hm.
  - cbn [recn]. apply HF; auto. intros a' HP' Hm'. apply Hbot; auto.
    change (2 ^ Z.of_nat 0) with 1 in Hm. lia.
  - cbn [recn].
    assert (E : 2 ^ Z.of_nat (S n) = 2 * 2 ^ Z.of_nat n).
    { rewrite Nat2Z.inj_succ, Z.pow_succ_r; lia. }
    apply (IH _ (k + 2 ^ Z.of_nat n)); auto; try lia.
    apply IH; auto.
Qed.

Lemma loopn_spec {A C} (F : (A -> res C) -> A -> res C) (P : A -> Prop) (Q : A -> C -> Prop) (m : A -> Z) :
  (forall g a, P a ->
     (forall a', P a' -> 0 <= m a' < m a -> returns (g a') (Q a')) -> returns (F g a) (Q a)) ->
  forall n a, P a -> 0 <= m a < 2 ^ Z.of_nat n -> returns (loopn n F a) (Q a).
Proof.
  intros HF n a HP Hm. unfold loopn. eapply (recn_spec F P Q m HF n _ 0); try lia; auto.
  all: intros; lia.
Qed.

(** Invariant rule for [for_]. *)
Lemma for_spec {A} (body : Z -> A -> res A) (I : Z -> A -> Prop) :
  forall n i s, I i s ->
  (forall j s, i <= j < i + Z.of_nat n -> I j s -> returns (body j s) (I (j + 1))) ->
  returns (for_ n i body s) (I (i + Z.of_nat n)).
Proof.
  induction n as [| n IH]; intros i s HI Hb; cbn [for_].
  - apply returns_ok. now replace (i + Z.of_nat 0) with i by lia.
  - eapply returns_bind. { apply (Hb i s); auto; lia. }
    intros s' HI'. cbn beta in HI'.
    replace (i + Z.of_nat (S n)) with (i + 1 + Z.of_nat n) by lia.
    apply IH; auto. intros; apply Hb; auto; lia.
Qed.

Ltac zb := repeat match goal with
  | |- context [?a <? ?b] => destruct (Z.ltb_spec a b)
  | |- context [?a <=? ?b] => destruct (Z.leb_spec a b)
  | |- context [?a =? ?b] => destruct (Z.eqb_spec a b)
  end.

Ltac splits := repeat match goal with |- _ /\ _ => split end.

Lemma mul_bound x y a b : 0 <= x <= a -> 0 <= y <= b -> 0 <= x * y <= a * b.
Proof. intros; split; [apply Z.mul_nonneg_nonneg; lia | apply Z.mul_le_mono_nonneg; lia]. Qed.
