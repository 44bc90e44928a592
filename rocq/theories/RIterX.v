(** exp_iter, ln_iter, pow_iter, log_iter. *)
From Coq Require Import Zquot Qpower Lqa.
From Verif Require Import Base USpec SSpec UFacts UBig UFun UStr UEq UPow USqrt ULog BBig BSpec BEq RBig RSpec REq RIeee RTab RIter ISpec RIterP.
Local Open Scope Z_scope.

Lemma qsum_pos f n : (forall i, (i < n)%nat -> (0 < f i)%Q) -> (0 < n)%nat -> (0 < qsum f n)%Q.
Proof.
  intros H Hn. destruct n; [lia |]. clear Hn. induction n; cbn [qsum] in *.
  - pose proof (H 0%nat ltac:(lia)). lra.
  - assert (0 < qsum f n + f n)%Q by (apply IHn; intros; apply H; lia). pose proof (H (S n) ltac:(lia)). lra.
Qed.
Lemma exp_sum_pos y n : (0 < y)%Q -> (0 < n)%nat -> (0 < exp_sum y n)%Q.
Proof.
  intros. apply qsum_pos; auto. intros. unfold exp_term. apply Qlt_shift_div_l. apply qfact_pos.
  pose proof (qpw_pos y i H). lra.
Qed.
Lemma E_pos k : (0 < E_ k)%Q. Proof. apply exp_sum_pos; [reflexivity | lia]. Qed.
Lemma exp_term_S x n : (exp_term x n * x / inject_Z (Z.of_nat n + 1) == exp_term x (S n))%Q.
Proof.
  unfold exp_term. rewrite qpw_S, qfact_S. assert (inject_Z (Z.of_nat n + 1) == qnat (S n))%Q as ->.
  { unfold qnat. replace (Z.of_nat (S n)) with (Z.of_nat n + 1) by lia. reflexivity. }
  field. split; [apply qfact_nz | apply qnat_nz; lia].
Qed.
Lemma exp_term_m x y n : (x == y)%Q -> (exp_term x n == exp_term y n)%Q.
Proof. intros H. unfold exp_term. now rewrite H. Qed.
Lemma exp_sum_m x y n : (x == y)%Q -> (exp_sum x n == exp_sum y n)%Q.
Proof. intros H. apply qsum_ext. intros. now apply exp_term_m. Qed.
Lemma pair3 {A B C} (a a' : A) (b b' : B) (c c' : C) : a = a' -> b = b' -> c = c' -> (a, b, c) = (a', b', c').
Proof. intros; now subst. Qed.
Lemma exp_loop f k : Z.of_nat k < 2 ^ 31 - 20 ->
  for_ k 0 (fun (_ : Z) '(result, iterator, n) =>
    let* result := radd_mut result iterator in
    let* iterator := rmul_mut iterator (rof f) in
    let* iterator := rdiv_i32_mut iterator n in
    let* n := sadd 32 n 1 in
    Ok (result, iterator, n)) (rone, rof f, 2) = Ok (rof (exp_sum f (k + 1)), rof (exp_term f (k + 1)), Z.of_nat k + 2).
Proof.
  intros Hk. apply returns_eq'.
  eapply returns_weaken; [eapply (for_spec _ (fun i st => st = (rof (exp_sum f (Z.to_nat i + 1)), rof (exp_term f (Z.to_nat i + 1)), i + 2))) |].
  - rewrite Rone. apply pair3; auto; apply rofF.
    change (exp_term f (Z.to_nat 0 + 1)) with (qpw f 1 / 1)%Q. rewrite qpw_1. field.
  - intros j s Hj ->. rewrite Radd_mut. cbn [bind]. rewrite Rmul_mut. cbn [bind]. rewrite Rdiv_i32_mut by (unfold i32r; lia). cbn [bind].
    unfold sadd. rewrite sres_ok by (change (2 ^ (32 - 1)) with 2147483648; lia). cbn [bind]. apply returns_ok.
    replace (Z.to_nat (j + 1) + 1)%nat with (S (Z.to_nat j + 1)) by lia. apply pair3; [apply rofF .. | lia].
    + reflexivity.
    + rewrite <- exp_term_S. replace (Z.of_nat (Z.to_nat j + 1) + 1) with (j + 2) by lia. reflexivity.
  - intros s ->. replace (Z.to_nat (0 + Z.of_nat k)) with k by lia. reflexivity.
Qed.
Lemma qtrunc_frac_lt x : (x - inject_Z (qtrunc x) < 1)%Q.
Proof.
  destruct x as [n d]. unfold qtrunc, Qlt, Qminus, Qplus, Qopp, inject_Z; cbn [Qnum Qden].
  pose proof (Z.quot_rem' n (Z.pos d)). pose proof (Z.rem_bound_abs n (Z.pos d) ltac:(lia)). lia.
Qed.
Lemma exp_iter_ok x k : Z.of_nat k < 2 ^ 31 - 20 -> i32r (qtrunc x) -> exp_iter (rof x) k = Ok (rof (exp_value x k)).
Proof.
  intros Hk Ht. unfold exp_iter. rewrite Rtruncate_and_frac. cbn [bind]. rewrite e_iter_ok by auto. cbn [bind].
  rewrite from_dn_i32_ok by (unfold i32r; lia). cbn [bind]. rewrite Rgeq. cbn [bind]. fold (E_ k).
  assert (in_s 32 (qtrunc x) = true) as I. { unfold in_s. change (2 ^ (32 - 1)) with 2147483648. unfold i32r in Ht. lia. }
  unfold exp_value. pose proof (qtrunc_frac_lt x) as F. set (f := (x - inject_Z (qtrunc x))%Q) in *.
  assert (qleb (inject_Z 9 / inject_Z 10) f = Qle_bool (9 # 10) f) as -> by reflexivity.
  destruct (Qle_bool (9 # 10) f).
  - rewrite Rone, Rsub. cbn [bind]. rewrite <- Rone. rewrite exp_loop by auto. cbn [bind].
    pose proof (exp_sum_pos (1 - f) (k + 1) ltac:(lra) ltac:(lia)). rewrite Rdiv by lra. cbn [bind].
    rewrite Bto_i32, I. cbn [unwrap bind]. pose proof (E_pos k). rewrite Rpow; [| auto | left; lra]. cbn [bind]. apply Rmul_mut.
  - cbn [bind]. rewrite exp_loop by auto. cbn [bind]. 
    rewrite Bto_i32, I. cbn [unwrap bind]. pose proof (E_pos k). rewrite Rpow; [| auto | left; lra]. cbn [bind]. apply Rmul_mut.
Qed.
Lemma exp_iter_panic x k : Z.of_nat k < 2 ^ 31 - 20 -> ~ i32r (qtrunc x) -> exp_iter (rof x) k = Panic.
Proof.
  intros Hk Ht. unfold exp_iter. rewrite Rtruncate_and_frac. cbn [bind]. rewrite e_iter_ok by auto. cbn [bind].
  rewrite from_dn_i32_ok by (unfold i32r; lia). cbn [bind]. rewrite Rgeq. cbn [bind]. fold (E_ k).
  pose proof (qtrunc_frac_lt x) as F. set (f := (x - inject_Z (qtrunc x))%Q) in *.
  assert (P : forall r, (let* t := unwrap (bto_i32 (bof (qtrunc x))) in let* p := rpow_i32 (rof (E_ k)) t in rmul_mut r p) = Panic).
  { intros r. rewrite Bto_i32. destruct (in_s 32 (qtrunc x)) eqn:I; [| reflexivity]. cbn [unwrap bind].
    unfold in_s in I. change (2 ^ (32 - 1)) with 2147483648 in I. replace (qtrunc x) with (- 2 ^ 31) by (unfold i32r in Ht; lia). reflexivity. }
  destruct (qleb _ f).
  - rewrite Rone, Rsub. cbn [bind]. rewrite <- Rone. rewrite exp_loop by auto. cbn [bind].
    pose proof (exp_sum_pos (1 - f) (k + 1) ltac:(lra) ltac:(lia)). rewrite Rdiv by lra. cbn [bind]. apply P.
  - cbn [bind]. rewrite exp_loop by auto. cbn [bind]. apply P.
Qed.
