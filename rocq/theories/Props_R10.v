(** Property theorem for the text of very large and very small Ratios against the real number. *)
From Verif Require Import Base USpec SSpec UFacts UBig UFun UEq BBig BSpec BEq RBig RSpec REq RFmt RFmtP RFmtS RFmtU RFmtV RFmtW Props_R6 Props_R9.
From Coq Require Import Reals Lra Psatz Qreals.
Local Open Scope R_scope.

(** ** C85 the text beyond 10^9993 or below 2*10^-9993 denotes the number up to a relative error of 1/400 and a 4000000000th of its natural logarithm *)
Theorem C85_accuracy : forall r max_len, printable r -> ~ (rval r == 0)%Q ->
  (Qabs (rval r) <= 2 * inject_Z 10 ^ (- 9993))%Q \/ (inject_Z 10 ^ 9993 <= 2 * Qabs (rval r))%Q ->
  exists m ex e q, rto_approx_string r max_len = Ok ((if qltb (rval r) 0 then [45%Z] else []) ++ m ++ 101%Z :: ex) /\
    rread m = Some q /\ snumeral 10 [] e ex /\
    let X := Rabs (Q2R (rval r)) in let V := Q2R q * powerRZ 10 e in let E := / 400 + Rabs (ln X) / 4000000000 in
    X * exp (- E) <= V <= X * exp E.
Proof.
  intros r max_len P Hx R. destruct (printable_small r P) as [E S].
  destruct (approx_far (rval r) max_len Hx S) as [(_ & N1 & N2) | F].
  - exfalso. destruct R as [R | R]; [apply (Qlt_not_le _ _ N1 R) | apply (Qlt_not_le _ _ N2 R)].
  - rewrite <- E in F. destruct F as (m & ex & e & q & F1 & F2 & _ & F3 & (D & l & f & y & F4 & F5 & F6 & F7 & F8 & F9 & F10) & F11 & _).
    exists m, ex, e, q. split; [exact F1 |]. split; [exact F2 |]. split; [exact F11 |]. clear F1 F2 F11 R.
    assert (QD : Q2R q = IZR D / 1000). { rewrite (Qeq_eqR _ _ F4), Q2R_div by discriminate. unfold Q2R. cbn [inject_Z Qnum Qden]. rewrite Rinv_1, !Rmult_1_r. reflexivity. }
    assert (D0 : (1000 <= D)%Z). { destruct F3 as [F3 _]. apply Qle_Rle in F3. rewrite QD in F3. replace (Q2R 1) with 1 in F3 by (unfold Q2R; cbn; lra). apply le_IZR. lra. }
    rewrite E in F5. pose proof (far_real (rval r) D l f y e Hx S D0 F5 F6 F7 F8 F9 F10) as H.
    assert (X0 : 0 < Rabs (Q2R (rval r))) by (apply (log2_real (rval r) l Hx S F5)).
    cbv zeta. rewrite QD. set (X := Rabs (Q2R (rval r))) in *. set (B := / 400 + Rabs (ln X) / 4000000000) in *. clearbody B X.
    rewrite powerRZ_Rpower by lra. apply IZR_le in D0. set (d := IZR D / 1000) in *. assert (P0 : 0 < d) by (unfold d; lra). clearbody d.
    assert (V : d * Rpower 10 (IZR e) = exp (ln d + IZR e * ln 10)). { unfold Rpower. rewrite exp_plus, exp_ln by auto. reflexivity. }
    rewrite V. rewrite <- (exp_ln X X0) at 1 2. rewrite <- !exp_plus.
    pose proof (Rle_abs (ln d + IZR e * ln 10 - ln X)) as H1. pose proof (Rle_abs (- (ln d + IZR e * ln 10 - ln X))) as H2. rewrite Rabs_Ropp in H2.
    assert (EM : forall a b, a <= b -> exp a <= exp b) by (intros a b [L | ->]; [left; now apply exp_increasing | right; reflexivity]).
    split; apply EM; lra.
Qed.

Print Assumptions C85_accuracy.
