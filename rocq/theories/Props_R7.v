(** Property theorems for the cube root of Ratio: [cbrt_iter]. *)
From Verif Require Import Base USpec UFacts UBig UStr UEq UFun BBig BSpec BEq RBig RSpec REq RCbrt RCbrtR.
From Coq Require Import Reals Lra Lia ZArith QArith Qabs Qreals.
Local Open Scope R_scope.

(** ** C83 *)
(** numerator and denominator have fewer than 2^27 - 1 limbs *)
Definition rootable (r : rat) : Prop := rwf r /\ (Z.of_nat (length (bmag (rnum r))) + 1 < 2 ^ 27)%Z /\ (Z.of_nat (length (bmag (rden r))) + 1 < 2 ^ 27)%Z.
Theorem C83_cbrt_iter : forall r k, rootable r -> ~ (rval r == 0)%Q ->
  exists s, cbrt_iter r k = Ok s /\ rwf s /\ forall c, c ^ 3 = Q2R (rval r) -> Rabs (Q2R (rval s) - c) <= Rabs c * (/ 2 ^ (9 * 2 ^ k + 1) + / 2 ^ 127).
Proof.
  intros r k (W & L1 & L2) Nz. pose proof (rof_rval r W) as E. rewrite <- E in L1, L2. unfold rof in L1, L2. cbn [rnum rden bmag bof] in L1, L2.
  pose proof (rof_den_pos (rval r)) as Dp. rewrite (Z.abs_eq (qd (rval r))) in L2 by lia.
  destruct (cbrt_iter_real (rval r) k Nz L1 L2) as (s & Es & q & -> & H). rewrite E in Es. exists (rof q). split; auto. split; [apply rof_wf |].
  intros c Hc. specialize (H c Hc). rewrite Nat2Z.id in H. rewrite (Qeq_eqR _ _ (rof_val q)). exact H.
Qed.
Theorem C83_zero : forall r k, rwf r -> (rval r == 0)%Q -> cbrt_iter r k = Ok rzero.
Proof. intros r k W H. rewrite <- (rof_rval r W). unfold cbrt_iter. rewrite Ris_zero. apply qeqb_eq in H. now rewrite H. Qed.
(** the root keeps the sign *)
Theorem C83_sign : forall r k s, rootable r -> cbrt_iter r k = Ok s -> ((rval r < 0)%Q <-> (rval s < 0)%Q) /\ ((rval r == 0)%Q <-> (rval s == 0)%Q).
Proof.
  intros r k s Hr Hs. destruct (Qeq_dec (rval r) 0) as [Z0 | N0].
  - rewrite (C83_zero r k (proj1 Hr) Z0) in Hs. injection Hs as <-. assert (V : (rval rzero == 0)%Q) by reflexivity. rewrite Z0, V. split; reflexivity.
  - destruct (C83_cbrt_iter r k Hr N0) as (s' & E' & _ & H). rewrite E' in Hs. injection Hs as ->.
    destruct (cbrt_exists (Q2R (rval r))) as (c & Hc). specialize (H c Hc). pose proof (cube_nz c _ N0 Hc) as Nc.
    pose proof (eps3_bd k) as B1. pose proof b127_bd as B2. change (/ 2 ^ (9 * 2 ^ k + 1)) with (eps3 k) in H. change (/ 2 ^ 127) with b127 in H. assert (He : eps3 k + b127 <= / 2) by lra. set (e := eps3 k + b127) in *. clearbody e. clear B1 B2.
    assert (PC : Rabs c * e <= Rabs c * / 2) by (apply Rmult_le_compat_l; [apply Rabs_pos | lra]).
    assert (K : (c < 0 /\ Q2R (rval r) < 0 /\ Q2R (rval s) < 0) \/ (0 < c /\ 0 < Q2R (rval r) /\ 0 < Q2R (rval s))).
    { destruct (Rtotal_order c 0) as [G | [G | G]]; [left | lra | right].
      - rewrite (Rabs_left c) in * by auto. apply UExpR.Rabs_def2_le in H. split; auto. split; [| lra]. pose proof (pow_lt (- c) 3 ltac:(lra)) as P. cbn [pow] in P, Hc. lra.
      - rewrite (Rabs_pos_eq c) in * by lra. apply UExpR.Rabs_def2_le in H. split; auto. split; [| lra]. pose proof (pow_lt c 3 G) as P. lra. }
    assert (R0 := RMicromega.Q2R_0). split; [split; intros Q; apply Rlt_Qlt; apply Qlt_Rlt in Q; lra |].
    split; intros Q; apply Qeq_eqR in Q; lra.
Qed.
(** four rounds on 27/8 give 3/2 up to 2^-125 *)
Example C83_case : exists s, cbrt_iter (rof (27 # 8)) 4 = Ok s /\ Rabs (Q2R (rval s) - 3 / 2) <= / 2 ^ 125.
Proof.
  destruct (C83_cbrt_iter (rof (27 # 8)) 4) as (s & E & _ & H); [split; [apply rof_wf | split; vm_compute; reflexivity] | vm_compute; discriminate |].
  exists s. split; auto. specialize (H (3 / 2)). assert (V : Q2R (rval (rof (27 # 8))) = 27 / 8) by (rewrite (Qeq_eqR _ _ (rof_val _)); unfold Q2R; cbn; lra). rewrite V in H. specialize (H ltac:(lra)).
  rewrite (Rabs_pos_eq (3 / 2)) in H by lra. change (9 * 2 ^ 4 + 1)%nat with (18 + 127)%nat in H. rewrite pow_add, Rinv_mult in H. change 127%nat with (2 + 125)%nat in H. rewrite pow_add, Rinv_mult in H. assert (P : 0 < / 2 ^ 125) by (apply Rinv_0_lt_compat, pow_lt; lra). set (w := / 2 ^ 125) in *. clearbody w. lra.
Qed.
Print Assumptions C83_cbrt_iter.
Print Assumptions C83_zero.
Print Assumptions C83_sign.
