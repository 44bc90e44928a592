(** The F192 constants against the real numbers. *)
From Coq Require Import Reals Lra Lia Qreals Factorial Arith ZArith QArith Qabs List.
From Coquelicot Require Import Coquelicot.
From Verif Require Import Base FSpec RSpec ISpec RIeeeP XNum XSpec XP1 XP2 RReal RReal2 RReal3 RReal4.
Import List.ListNotations.
Local Open Scope R_scope.

(** [c] is a representable number nearest to the real [v], at most half a unit of the last place away *)
Definition xnearest_R (v : R) (c : f192) : Prop :=
  xwf c /\ (forall y, xwf y -> Rabs (Q2R (xval c) - v) <= Rabs (Q2R (xval y) - v)) /\ Rabs (Q2R (xval c) - v) <= 1 / 2 * Q2R (xulp c).

(** no number lies strictly within one unit of the last place of a positive number that is not a power of two *)
Lemma xgap M e y : (SIGNM < M < 2 * SIGNM)%Z -> expr e -> xwf y ->
  let c := xof false M e in (xval y <= xval c - xulp c \/ xval y == xval c \/ xval c + xulp c <= xval y)%Q.
Proof.
  intros HM He Wy c. assert (S : sigr M) by (unfold sigr; lia). assert (Nc : xnull c = false). { unfold c. rewrite xnull_of by auto. replace (M =? SIGNM)%Z with false by (symmetry; apply Z.eqb_neq; lia). reflexivity. }
  assert (V : (xval c == inject_Z M * two (e - EXPC))%Q). { unfold c. rewrite xval_of by auto. reflexivity. }
  assert (U : xulp c = two (e - EXPC)) by reflexivity. pose proof (two_pos (e - EXPC)) as T.
  assert (IL : (inject_Z SIGNM + 1 <= inject_Z M)%Q). { change 1%Q with (inject_Z 1). rewrite <- inject_Z_plus, <- Zle_Qle. lia. }
  assert (IU : (inject_Z M + 1 <= inject_Z (2 * SIGNM))%Q). { change 1%Q with (inject_Z 1). rewrite <- inject_Z_plus, <- Zle_Qle. lia. }
  assert (A : (Qabs (xval c - (inject_Z M + (1 # 2)) * two (e - EXPC)) <= Qabs (xval y - (inject_Z M + (1 # 2)) * two (e - EXPC)))%Q).
  { destruct (near_best false M e (inject_Z M + (1 # 2)) S He Nc ltac:(Lqa.lra) ltac:(Lqa.lra)) as (_ & K & _). { apply Qabs_case; intros; Lqa.lra. } apply K. auto. }
  assert (B : (Qabs (xval c - (inject_Z M - (1 # 2)) * two (e - EXPC)) <= Qabs (xval y - (inject_Z M - (1 # 2)) * two (e - EXPC)))%Q).
  { destruct (near_best false M e (inject_Z M - (1 # 2)) S He Nc ltac:(Lqa.lra) ltac:(Lqa.lra)) as (_ & K & _). { apply Qabs_case; intros; Lqa.lra. } apply K. auto. }
  rewrite U. set (t := two (e - EXPC)) in *. set (vy := xval y) in *. set (vc := xval c) in *. clearbody t vy vc.
  assert (E1 : (vc - (inject_Z M + (1 # 2)) * t == - ((1 # 2) * t))%Q) by (rewrite V; ring). assert (E2 : (vc - (inject_Z M - (1 # 2)) * t == (1 # 2) * t)%Q) by (rewrite V; ring).
  rewrite E1 in A. rewrite E2 in B. setoid_replace ((inject_Z M + (1 # 2)) * t)%Q with (vc + (1 # 2) * t)%Q in A by (rewrite V; ring). setoid_replace ((inject_Z M - (1 # 2)) * t)%Q with (vc - (1 # 2) * t)%Q in B by (rewrite V; ring).
  rewrite Qabs_opp, Qabs_pos in A by Lqa.lra. rewrite Qabs_pos in B by Lqa.lra.
  assert (A' : (vy <= vc \/ vc + t <= vy)%Q). { revert A. apply Qabs_case; intros; [right | left]; Lqa.lra. }
  assert (B' : (vy <= vc - t \/ vc <= vy)%Q). { revert B. apply Qabs_case; intros; [right | left]; Lqa.lra. }
  destruct A' as [A' | A']; [| now right; right]. destruct B' as [B' | B']; [now left | right; left]. apply Qle_antisym; auto.
Qed.
Lemma near_R M e v : (SIGNM < M < 2 * SIGNM)%Z -> expr e -> let c := xof false M e in
  Q2R (xval c - (1 # 2) * xulp c) <= v <= Q2R (xval c + (1 # 2) * xulp c) -> xnearest_R v c.
Proof.
  intros HM He c [L U]. assert (S : sigr M) by (unfold sigr; lia). pose proof (two_pos (xpow c)) as T. fold (xulp c) in T. apply Qlt_Rlt in T. rewrite RMicromega.Q2R_0 in T.
  rewrite Q2R_minus, Q2R_mult in L. rewrite Q2R_plus, Q2R_mult in U. replace (Q2R (1 # 2)) with (1 / 2) in L, U by (unfold Q2R; cbn; lra).
  assert (D : Rabs (Q2R (xval c) - v) <= 1 / 2 * Q2R (xulp c)) by (apply Rabs_le; lra).
  split; [now apply xof_wf |]. split; [| exact D]. intros y Wy. destruct (xgap M e y HM He Wy) as [K | [K | K]]; fold c in K.
  - apply Qle_Rle in K. rewrite Q2R_minus in K. eapply Rle_trans; [exact D |]. rewrite Rabs_left1 by lra. lra.
  - apply Qeq_eqR in K. rewrite K. lra.
  - apply Qle_Rle in K. rewrite Q2R_plus in K. eapply Rle_trans; [exact D |]. rewrite Rabs_pos_eq by lra. lra.
Qed.
(** rational enclosure *)
Lemma near_enc c lo hi v : (0 < xd c < SIGNM)%Z -> (0 <= xe c < 2 ^ 64)%Z -> Q2R lo <= v <= Q2R hi ->
  (Qle_bool (xval c - (1 # 2) * xulp c) lo && Qle_bool hi (xval c + (1 # 2) * xulp c))%bool = true -> xnearest_R v c.
Proof.
  intros HD HE B H. apply andb_prop in H. destruct H as [H1 H2]. apply Qle_bool_imp_le, Qle_Rle in H1, H2.
  assert (E : c = xof false (xd c + SIGNM) (xe c)). { destruct c as [d e]. unfold xof. cbn [xd xe]. f_equal. lia. } rewrite E in *. cbn [xd xe xof] in HD, HE. apply near_R; [lia | exact HE | lra].
Qed.

(** ** rational enclosures of the real constants: fixed point sums *)
Section FixedPoint.
  Variable num den : nat -> Z.
  Variable f : nat -> R.
  Hypothesis Hf : forall n, f n = IZR (num n) / IZR (den n).
  Hypothesis Hd : forall n, (0 < den n)%Z.
  (** every term lies between l/2^150 and (l+1)/2^150 *)
  Fixpoint fchk (l : list Z) : bool :=
    match l with nil => true | cons x r => let n := length r in let s := (2 ^ 150 * num n)%Z in ((den n * x <=? s) && (s <=? den n * (x + 1)) && fchk r)%Z%bool end.
  Fixpoint fsum (l : list Z) : Z := match l with nil => 0%Z | cons x r => (x + fsum r)%Z end.
  Lemma fchk_ok l : fchk l = true -> IZR (fsum l) / 2 ^ 150 <= rsum f (length l) <= IZR (fsum l + Z.of_nat (length l)) / 2 ^ 150.
  Proof.
    induction l as [| x r IH]; intros H. { cbn [fsum length rsum]. change (0 + Z.of_nat 0)%Z with 0%Z. unfold Rdiv. rewrite !Rmult_0_l. lra. }
    cbn [fchk] in H. cbv zeta in H. apply andb_prop in H. destruct H as [H H3]. apply andb_prop in H. destruct H as [H1 H2]. apply Z.leb_le in H1, H2. specialize (IH H3).
    cbn [fsum length rsum]. rewrite Nat2Z.inj_succ, Hf. set (n := length r) in *. pose proof (Hd n) as D. apply IZR_le in H1, H2. apply IZR_lt in D. rewrite !mult_IZR, ?plus_IZR in H1, H2.
    assert (P : 0 < 2 ^ 150) by (apply pow_lt; lra). assert (EP : IZR (2 ^ 150) = 2 ^ 150) by (rewrite (pow_IZR 2 150); reflexivity). rewrite EP in *.
    rewrite <- Z.add_1_r, !plus_IZR in *. set (t := 2 ^ 150) in *. clearbody t. set (d := IZR (den n)) in *. set (m := IZR (num n)) in *. clearbody d m.
    assert (A : IZR x / t <= m / d <= (IZR x + 1) / t). { split. apply (Rle_div_l (IZR x) (m / d) t); [auto |]. replace (m / d * t) with (t * m / d) by (field; lra). apply (Rle_div_r (IZR x) (t * m) d); [auto | lra]. apply (Rle_div_r (m / d) (IZR x + 1) t); [auto |]. replace (m / d * t) with (t * m / d) by (field; lra). apply (Rle_div_l (t * m) (IZR x + 1) d); [auto | lra]. }
    unfold Rdiv in *. lra.
  Qed.
End FixedPoint.
Definition rat_of (z : Z) : Q := z # 2 ^ 150.
Lemma rat_of_R z : Q2R (rat_of z) = IZR z / 2 ^ 150.
Proof. unfold rat_of, Q2R. cbn [Qnum Qden]. assert (IZR (Zpos (2 ^ 150)) = 2 ^ 150) as ->. { rewrite (pow_IZR 2 150). reflexivity. } reflexivity. Qed.
(** terms of the series times 2^150, rounded down, last term first *)
Definition l_pi : list Z := [3; 55; 938; 15983; 272854; 4668041; 80047096; 1376057495; 23718548000; 410005718678; 7109558658841; 123697110658344; 2160074865713263; 37871816304721986; 666911601677133599; 11800954955388876024; 209935203345285154548; 3756925110570904263203; 67680752748716830991618; 1228421574150658376571517; 22486258993071814730879306; 415630483943663125493489054; 7769185793255825017340771431; 147145129067937246225848136787; 2830553867128801604591969266297; 55478762859883199900345078770211; 1112639905411898047122107874390346; 22967094541547935481051056890590829; 492105431967333696957582632872389953; 11086504999375798606105596858987180307; 268169709339190379528416030409609938099; 7232179272101474664126936549832596711709; 235387290165290127124180168678705012585405; 11545196537456635179500786993410140755232840; 4472042770478674293982629370941751427332606088]%Z.
Definition l_16 : list Z := [29; 481; 7943; 131072; 2164802; 35791394; 592409282; 9817068105; 162890611522; 2706490160679; 45035996273704; 750599937895082; 12531755484857032; 209622091746699450; 3513665537849438403; 59029581035870565171; 994182417446241097620; 16790636383536516315363; 284453134026971570519100; 4835703278458516698824704; 82529335952358684993274948; 1414788616326148885598999113; 24377896158235180798013523180; 422550200076076467165567735125; 7375421674055152881435364104005; 129807421463370690713262408230502; 2307687492682145612680220590764487; 41538374868278621028243970633760768; 759558854734237641659318320160196900; 14178431955039102644307275309657008810; 272225893536750770770699685945414569164; 5444517870735015415413993718908291383296; 116149714575680328862165199336710216176981; 2787593149816327892691964784081045188247552; 89202980794122492566142873090593446023921664]%Z.
Definition l_25 : list Z := [54; 1418; 36730; 952259; 24722123; 642775217; 16738937961; 436667946809; 11412912246157; 298909606446984; 7846377169233350; 206483609716667130; 5448873034189827051; 144234874434436598433; 3831238852164722145895; 102166369391059257223889; 2736599180117658675639905; 73677670233936964344151299; 1995436902169126117654097691; 54421006422794348663293573407; 1496577676626844588240573268701; 41571602128523460784460368575040; 1169201309864722334562947866173026; 33405751710420638130369939033515040; 974334424887268612135789888477522013; 29230032746618058364073696654325660393; 913438523331814323877303020447676887284; 30447950777727144129243434014922562909498; 1141798154164767904846628775559596109106197; 57089907708238395242331438777979805455309864]%Z.
Definition l_81 : list Z := [66; 5676; 482801; 41165215; 3519625898; 301859679976; 25978798707949; 2244568208366843; 194796455226122489; 16992244632801761737; 1491069466528354592446; 131756320133232787623485; 11739488123871041377252530; 1056553931148393723952727750; 96278476975897378095192316235; 8912636154340214429383517274388; 842244116585150263576742382429752; 81866128132076605619659359572171903; 8288945473372756318990510156682405242; 895206111124257682450975096921699766222; 108767542501597308417793474275986521596002; 17620341885258763963682542832709816498552427]%Z.

Definition bnum_z (n : nat) : Z := let k := Z.of_nat n in (120 * k * k + 151 * k + 47)%Z.
Definition bden_z (n : nat) : Z := let k := Z.of_nat n in ((8 * k + 1) * (2 * k + 1) * (8 * k + 5) * (4 * k + 3) * 16 ^ k)%Z.
Lemma bbp_frac n : (4 / INR (8 * n + 1) - 2 / INR (8 * n + 4) - 1 / INR (8 * n + 5) - 1 / INR (8 * n + 6)) / 16 ^ n = IZR (bnum_z n) / IZR (bden_z n).
Proof.
  unfold bnum_z, bden_z. rewrite !mult_IZR, !plus_IZR, !mult_IZR. rewrite <- (pow_IZR 16 n), <- INR_IZR_INZ, !plus_INR, !mult_INR. replace (INR 8) with 8 by (cbn; ring). replace (INR 1) with 1 by reflexivity. replace (INR 4) with 4 by (cbn; ring). replace (INR 5) with 5 by (cbn; ring). replace (INR 6) with 6 by (cbn; ring).
  pose proof (pos_INR n). assert (0 < 16 ^ n) by (apply pow_lt; lra). field. repeat split; lra.
Qed.
Lemma bden_pos n : (0 < bden_z n)%Z.
Proof. unfold bden_z. assert (0 < 16 ^ Z.of_nat n)%Z by (apply Z.pow_pos_nonneg; lia). repeat apply Z.mul_pos_pos; lia. Qed.
Lemma PI_enc : Q2R (rat_of (fsum l_pi)) <= PI <= Q2R (rat_of (fsum l_pi + 36 + 1024)).
Proof.
  pose proof (fchk_ok bnum_z bden_z _ bbp_frac bden_pos l_pi ltac:(vm_compute; reflexivity)) as B. change (length l_pi) with 35%nat in B. fold (bbp_rsum 35) in B. pose proof (pi_tail 35) as T.
  rewrite !rat_of_R. split; [lra |]. assert (64 / 15 / (16 ^ 35 * INR (8 * 35 + 1)) <= 1024 / 2 ^ 150).
  { rewrite INR_IZR_INZ. change (Z.of_nat (8 * 35 + 1)) with 281%Z. replace (16 ^ 35) with 1393796574908163946345982392040522594123776 by ring. replace (2 ^ 150) with 1427247692705959881058285969449495136382746624 by ring. lra. }
  rewrite !plus_IZR in *. change (IZR (Z.of_nat 35)) with 35 in B. assert (0 < 2 ^ 150) by (apply pow_lt; lra). assert (35 / 2 ^ 150 <= 36 / 2 ^ 150) by (apply Rmult_le_compat_r; [left; now apply Rinv_0_lt_compat | lra]). unfold Rdiv in *. lra.
Qed.
(** minus the logarithm of 1 - 1/m *)
Definition lnum_z (n : nat) : Z := 1%Z.
Definition lden_z (m : Z) (n : nat) : Z := ((Z.of_nat n + 1) * m ^ (Z.of_nat n + 1))%Z.
Lemma lnm_term m n : (0 < m)%Z -> - ((-1) ^ n * ((- (1 / IZR m)) ^ (n + 1) / INR (n + 1))) = IZR (lnum_z n) / IZR (lden_z m n).
Proof.
  intros Hm. unfold lnum_z, lden_z. rewrite mult_IZR, plus_IZR. replace (Z.of_nat n + 1)%Z with (Z.of_nat (n + 1)) by lia. rewrite <- (pow_IZR m (n + 1)), <- INR_IZR_INZ, plus_INR. change (INR 1) with 1. pose proof (pos_INR n) as P0. apply IZR_lt in Hm.
  assert (0 < IZR m ^ (n + 1)) by now apply pow_lt. rewrite (pow_opp (n + 1)). unfold Rdiv. rewrite Rmult_1_l, pow_inv. rewrite (pow_add (-1) n 1). pose proof (m1_sq n) as M. set (g := (-1) ^ n) in *.
  replace (- (g * (g * (-1) ^ 1 * / IZR m ^ (n + 1) * / (INR n + 1)))) with ((g * g) * / IZR m ^ (n + 1) * / (INR n + 1)) by (cbn; ring). rewrite M. field. lra.
Qed.
Lemma LNM_enc (m : Z) l e : (2 <= m)%Z -> fchk lnum_z (lden_z m) l = true -> (2 ^ 151 <= e * m ^ Z.of_nat (length l + 1))%Z ->
  IZR (fsum l) / 2 ^ 150 <= ln (IZR m / IZR (m - 1)) <= (IZR (fsum l) + INR (length l) + IZR e) / 2 ^ 150.
Proof.
  intros Hm C He. set (N := length l) in *. set (u := 1 / IZR m). assert (Zm : 2 <= IZR m) by (apply IZR_le; lia). assert (Hu : 0 < u <= 1 / 2). { unfold u. split. apply Rdiv_lt_0_compat; lra. apply Rmult_le_compat_l; [lra |]. apply Rinv_le_contravar; lra. }
  assert (El : ln (IZR m / IZR (m - 1)) = - ln (1 - u)). { rewrite minus_IZR. replace (1 - u) with (/ (IZR m / (IZR m - 1))) by (unfold u; field; lra). rewrite ln_Rinv; [ring |]. apply Rdiv_lt_0_compat; lra. } rewrite El.
  pose proof (fchk_ok lnum_z (lden_z m) (fun n => - ((-1) ^ n * ((- (1 / IZR m)) ^ (n + 1) / INR (n + 1)))) ltac:(intros; apply lnm_term; lia) ltac:(intros n; unfold lden_z; apply Z.mul_pos_pos; [lia | apply Z.pow_pos_nonneg; lia]) l C) as B.
  fold N in B. assert (Es : rsum (fun n => - ((-1) ^ n * ((- (1 / IZR m)) ^ (n + 1) / INR (n + 1)))) N = - ln_rsum (- u) N). { replace (- ln_rsum (- u) N) with (-1 * ln_rsum (- u) N) by ring. unfold ln_rsum. rewrite rsum_scal. apply rsum_ext. intros. unfold u. ring. } rewrite Es in B.
  destruct (ln_rem_neg N u ltac:(lra)) as [L U]. assert (P : 0 < u ^ (N + 1)) by (apply pow_lt; lra). assert (I : 1 <= INR (N + 1)). { change 1 with (INR 1). apply le_INR. lia. }
  assert (0 < u ^ (N + 1) / INR (N + 1)) by (apply Rdiv_lt_0_compat; lra).
  assert (K : u ^ (N + 1) / INR (N + 1) / (1 - u) <= u ^ (N + 1) * 2). { apply Rle_div_l; [lra |]. apply Rle_div_l; [lra |]. assert (1 <= 2 * (1 - u) * INR (N + 1)) by nra. nra. }
  assert (PP : 0 < 2 ^ 150) by (apply pow_lt; lra). assert (K2 : u ^ (N + 1) * 2 <= IZR e / 2 ^ 150).
  { apply (Rle_div_r (u ^ (N + 1) * 2) (IZR e) (2 ^ 150)); [auto |]. unfold u. unfold Rdiv. rewrite Rmult_1_l, pow_inv. assert (PM : 0 < IZR m ^ (N + 1)) by (apply pow_lt; lra). apply IZR_le in He. rewrite mult_IZR, <- (pow_IZR m (N + 1)) in He. assert (E1 : IZR (2 ^ 151) = 2 * 2 ^ 150) by (rewrite <- tech_pow_Rmult, !pow_IZR, <- mult_IZR; reflexivity). rewrite E1 in He.
    replace (/ IZR m ^ (N + 1) * 2 * 2 ^ 150) with (2 * 2 ^ 150 / IZR m ^ (N + 1)) by (field; lra). apply (Rle_div_l (2 * 2 ^ 150) (IZR e) (IZR m ^ (N + 1))); [auto |]. lra. }
  rewrite plus_IZR, <- INR_IZR_INZ in B. unfold Rdiv in *. lra.
Qed.
(** ln 2, 3, 5 from ln 16/15, ln 25/24, ln 81/80 *)
Lemma ln_split : let a := ln (16 / 15) in let b := ln (25 / 24) in let c := ln (81 / 80) in
  ln 2 = 7 * a + 5 * b + 3 * c /\ ln 3 = 11 * a + 8 * b + 5 * c /\ ln 5 = 16 * a + 12 * b + 7 * c.
Proof.
  cbv zeta. assert (A : ln (16 / 15) = 4 * ln 2 - ln 3 - ln 5). { replace (16 / 15) with (2 * 2 * 2 * 2 * / (3 * 5)) by field. rewrite !ln_mult, ln_Rinv, ln_mult by lra. ring. }
  assert (B : ln (25 / 24) = 2 * ln 5 - 3 * ln 2 - ln 3). { replace (25 / 24) with (5 * 5 * / (2 * 2 * 2 * 3)) by field. rewrite !ln_mult, ln_Rinv, !ln_mult by lra. ring. }
  assert (C : ln (81 / 80) = 4 * ln 3 - 4 * ln 2 - ln 5). { replace (81 / 80) with (3 * 3 * 3 * 3 * / (2 * 2 * 2 * 2 * 5)) by field. rewrite !ln_mult, ln_Rinv, !ln_mult by lra. ring. }
  rewrite A, B, C. repeat split; ring.
Qed.
Definition s16 : Z := fsum l_16.
Definition s25 : Z := fsum l_25.
Definition s81 : Z := fsum l_81.
Lemma ln_parts : IZR s16 / 2 ^ 150 <= ln (16 / 15) <= (IZR s16 + 292) / 2 ^ 150 /\ IZR s25 / 2 ^ 150 <= ln (25 / 24) <= (IZR s25 + 180) / 2 ^ 150 /\ IZR s81 / 2 ^ 150 <= ln (81 / 80) <= (IZR s81 + 200) / 2 ^ 150.
Proof.
  assert (P : 0 < / 2 ^ 150) by (apply Rinv_0_lt_compat, pow_lt; lra).
  pose proof (LNM_enc 16 l_16 256 ltac:(lia) ltac:(vm_compute; reflexivity) ltac:(vm_compute; discriminate)) as A. pose proof (LNM_enc 25 l_25 150 ltac:(lia) ltac:(vm_compute; reflexivity) ltac:(vm_compute; discriminate)) as B. pose proof (LNM_enc 81 l_81 100 ltac:(lia) ltac:(vm_compute; reflexivity) ltac:(vm_compute; discriminate)) as C.
  rewrite INR_IZR_INZ in A, B, C. change (Z.of_nat (length l_16)) with 35%Z in A. change (Z.of_nat (length l_25)) with 30%Z in B. change (Z.of_nat (length l_81)) with 22%Z in C. change (16 - 1)%Z with 15%Z in A. change (25 - 1)%Z with 24%Z in B. change (81 - 1)%Z with 80%Z in C.
  fold s16 in A. fold s25 in B. fold s81 in C. set (x := IZR s16) in *. set (y := IZR s25) in *. set (z := IZR s81) in *. clearbody x y z. unfold Rdiv in *. set (p := / 2 ^ 150) in *. clearbody p. nra.
Qed.
Lemma LN2_enc : Q2R (rat_of (7 * s16 + 5 * s25 + 3 * s81)) <= ln 2 <= Q2R (rat_of (7 * s16 + 5 * s25 + 3 * s81 + 4096)).
Proof.
  destruct ln_parts as (A & B & C). destruct ln_split as (E & _). rewrite E, !rat_of_R, !plus_IZR, !mult_IZR. assert (P : 0 < / 2 ^ 150) by (apply Rinv_0_lt_compat, pow_lt; lra).
  set (x := IZR s16) in *. set (y := IZR s25) in *. set (z := IZR s81) in *. clearbody x y z. unfold Rdiv in *. set (p := / 2 ^ 150) in *. clearbody p. nra.
Qed.
Lemma LN3_enc : Q2R (rat_of (11 * s16 + 8 * s25 + 5 * s81)) <= ln 3 <= Q2R (rat_of (11 * s16 + 8 * s25 + 5 * s81 + 8192)).
Proof.
  destruct ln_parts as (A & B & C). destruct ln_split as (_ & E & _). rewrite E, !rat_of_R, !plus_IZR, !mult_IZR. assert (P : 0 < / 2 ^ 150) by (apply Rinv_0_lt_compat, pow_lt; lra).
  set (x := IZR s16) in *. set (y := IZR s25) in *. set (z := IZR s81) in *. clearbody x y z. unfold Rdiv in *. set (p := / 2 ^ 150) in *. clearbody p. nra.
Qed.
Lemma LN10_enc : Q2R (rat_of (23 * s16 + 17 * s25 + 10 * s81)) <= ln 10 <= Q2R (rat_of (23 * s16 + 17 * s25 + 10 * s81 + 16384)).
Proof.
  destruct ln_parts as (A & B & C). destruct ln_split as (E2 & _ & E5). assert (E : ln 10 = ln 2 + ln 5) by (rewrite <- ln_mult by lra; f_equal; lra). rewrite E, E2, E5, !rat_of_R, !plus_IZR, !mult_IZR. assert (P : 0 < / 2 ^ 150) by (apply Rinv_0_lt_compat, pow_lt; lra).
  set (x := IZR s16) in *. set (y := IZR s25) in *. set (z := IZR s81) in *. clearbody x y z. unfold Rdiv in *. set (p := / 2 ^ 150) in *. clearbody p. nra.
Qed.

(** e: partial sums over a common denominator *)
Fixpoint zf (n : nat) : Z := match n with O => 1 | S m => Z.of_nat n * zf m end.
Fixpoint ea (n : nat) : Z := match n with O => 1 | S m => Z.of_nat n * ea m + 1 end.
Lemma zf_fact n : INR (fact n) = IZR (zf n).
Proof. induction n. reflexivity. change (fact (S n)) with (S n * fact n)%nat. rewrite mult_INR, IHn. cbn [zf]. rewrite mult_IZR, <- INR_IZR_INZ. reflexivity. Qed.
Lemma zf_pos n : (0 < zf n)%Z.
Proof. induction n; cbn [zf]; lia. Qed.
Lemma ea_sum n : exp_rsum 1 (S n) = IZR (ea n) / IZR (zf n).
Proof.
  induction n. { cbn. unfold exp_rsum. cbn. field. }
  rewrite exp_rsum_S, IHn, pow1, zf_fact. cbn [ea zf]. pose proof (zf_pos n) as P. apply IZR_lt in P. rewrite plus_IZR, !mult_IZR. assert (0 < IZR (Z.of_nat (S n))) by (apply IZR_lt; lia). field. lra.
Qed.
Definition Elo : Q := ea 35 # Z.to_pos (zf 35).
Lemma E_enc : Q2R Elo <= exp 1 <= Q2R (Elo + (1 # 2 ^ 134)).
Proof.
  pose proof (En_bound 35 ltac:(lia)) as B. rewrite ea_sum in B. unfold eps_n in B. rewrite zf_fact, INR_IZR_INZ in B. change (Z.of_nat 35) with 35%Z in B.
  assert (E : Q2R Elo = IZR (ea 35) / IZR (zf 35)). { unfold Elo, Q2R. cbn [Qnum Qden]. rewrite Z2Pos.id by apply zf_pos. reflexivity. } rewrite Q2R_plus, E. split; [lra |].
  assert (1 / (IZR (zf 35) * 35) <= Q2R (1 # 2 ^ 134)); [| lra]. unfold Q2R. cbn [Qnum Qden]. change (2 ^ 134)%positive with 21778071482940061661655974875633165533184%positive.
  assert (V : zf 35 = 10333147966386144929666651337523200000000%Z) by (vm_compute; reflexivity). rewrite V. lra.
Qed.
(** square roots *)
Lemma sqrt_enc n lo hi : 0 <= n -> (0 <= lo)%Q -> (0 <= hi)%Q -> Q2R (lo * lo) <= n <= Q2R (hi * hi) -> Q2R lo <= sqrt n <= Q2R hi.
Proof.
  intros Hn L0 H0 [L U]. apply Qle_Rle in L0, H0. rewrite RMicromega.Q2R_0 in L0, H0. rewrite Q2R_mult in L, U. split.
  - rewrite <- (sqrt_square (Q2R lo)) by auto. now apply sqrt_le_1_alt.
  - rewrite <- (sqrt_square (Q2R hi)) by auto. now apply sqrt_le_1_alt.
Qed.
Lemma near_sqrt c (q : Q) : (0 < xd c < SIGNM)%Z -> (0 <= xe c < 2 ^ 64)%Z -> (0 <= q)%Q ->
  (let lo := (xval c - (1 # 2) * xulp c)%Q in let hi := (xval c + (1 # 2) * xulp c)%Q in Qle_bool 0 lo && Qle_bool 0 hi && Qle_bool (lo * lo) q && Qle_bool q (hi * hi))%bool = true ->
  xnearest_R (sqrt (Q2R q)) c.
Proof.
  intros HD HE Hq H. cbv zeta in H. apply andb_prop in H. destruct H as [H H4]. apply andb_prop in H. destruct H as [H H3]. apply andb_prop in H. destruct H as [H1 H2].
  apply near_enc with (xval c - (1 # 2) * xulp c)%Q (xval c + (1 # 2) * xulp c)%Q; auto.
  - apply sqrt_enc; try (now apply Qle_bool_imp_le). { apply Qle_Rle in Hq. now rewrite RMicromega.Q2R_0 in Hq. } apply Qle_bool_imp_le, Qle_Rle in H3, H4. auto.
  - rewrite andb_true_intro; auto. split; apply Qle_bool_iff; apply Qle_refl.
Qed.
Lemma enc_div v lo hi (m : positive) : Q2R lo <= v <= Q2R hi -> Q2R (lo * (1 # m)) <= v / IZR (Zpos m) <= Q2R (hi * (1 # m)).
Proof.
  intros H. rewrite !Q2R_mult. replace (Q2R (1 # m)) with (/ IZR (Zpos m)) by (unfold Q2R; cbn; lra). assert (0 < / IZR (Zpos m)) by (apply Rinv_0_lt_compat, IZR_lt; lia). unfold Rdiv. nra.
Qed.
