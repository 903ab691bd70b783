(** The rounded expressions of the model are the expressions of the code on doubles (C76). *)
From Coq Require Import SpecFloat Qpower Qabs Lia Lqa.
From Verif Require Import Base BaseFacts Spec Instance InstanceFacts Bounds Rounding RoundingFacts Floats Double DoubleFacts DoubleOps DoubleNear DoubleFloor.
From Verif Require Import OptModels Initial Refine CostRefine Merge Violations BigM Adaptive BoundsFl.
Local Open Scope Z_scope.

Lemma max_finite : (2 ^ 1023 < 2 ^ 1024 - 2 ^ 970)%Q. Proof. reflexivity. Qed.
Lemma dbl_of f q : nearest64 f q -> (Qabs q < 2 ^ 1024 - 2 ^ 970)%Q -> exists v, dbl f v /\ (v == rnd64 q)%Q.
Proof. intros N L. destruct (value_of f q N L) as (v & E & V). exists v. split; [|exact V]. split; [apply N|exact E]. Qed.
Lemma dbl_read q : (2 ^ (-1022) <= Qabs q <= 2 ^ 1023)%Q -> exists v, dbl (b64_read q) v /\ (v == rnd53 q)%Q.
Proof.
  intros [L1 L2]. destruct (dbl_of _ _ (read_nearest q)) as (v & D & V); [assert (X := max_finite); lra|]. exists v. split; [exact D|]. rewrite V. now apply normal_same.
Qed.
Lemma dbl_sub x y a b : dbl x a -> dbl y b -> (Qabs (a - b) <= 2 ^ 1023)%Q -> exists v, dbl (SFsub 53 1024 x y) v /\ (v == rnd53 (a - b))%Q.
Proof.
  intros [VX EX] [VY EY] L. assert (N := sub_nearest x y a b VX VY EX EY). destruct (dbl_of _ _ N) as (v & D & V); [assert (X := max_finite); lra|].
  exists v. split; [exact D|]. rewrite V. apply (sum_same x y a b VX VY EX EY).
Qed.
Lemma dbl_add x y a b : dbl x a -> dbl y b -> (Qabs (a + b) <= 2 ^ 1023)%Q -> exists v, dbl (SFadd 53 1024 x y) v /\ (v == rnd53 (a + b))%Q.
Proof.
  intros [VX EX] [VY EY] L. assert (N := add_nearest x y a b VX VY EX EY). destruct (dbl_of _ _ N) as (v & D & V); [assert (X := max_finite); lra|].
  exists v. split; [exact D|]. rewrite V. apply (sum_same x y a b VX VY EX EY).
Qed.
Lemma leb_dbl x y a b : dbl x a -> dbl y b -> SFleb x y = Qle_bool a b.
Proof.
  intros [VX EX] [VY EY]. unfold SFleb. rewrite (compare_exact x y a b VX VY EX EY). symmetry. destruct (a ?= b)%Q eqn:C.
  - apply Qeq_alt in C. apply Qle_bool_iff. lra.
  - apply Qlt_alt in C. apply Qle_bool_iff. lra.
  - apply Qgt_alt in C. destruct (Qle_bool a b) eqn:E; [apply Qle_bool_iff in E; lra|reflexivity].
Qed.
Lemma ltb_dbl x y a b : dbl x a -> dbl y b -> SFltb x y = Qlt_bool a b.
Proof.
  intros [VX EX] [VY EY]. unfold SFltb. rewrite (compare_exact x y a b VX VY EX EY). symmetry. destruct (a ?= b)%Q eqn:C.
  - apply Qeq_alt in C. destruct (Qlt_bool a b) eqn:E; [apply Qlt_bool_iff in E; lra|reflexivity].
  - apply Qlt_alt in C. now apply Qlt_bool_iff.
  - apply Qgt_alt in C. destruct (Qlt_bool a b) eqn:E; [apply Qlt_bool_iff in E; lra|reflexivity].
Qed.
Lemma dbl_zero : dbl (S754_zero false) 0. Proof. split; reflexivity. Qed.
Lemma dbl_max x a : dbl x a -> exists v, dbl (max64 x) v /\ (v == Qmax a 0)%Q.
Proof.
  intro D. unfold max64. rewrite (ltb_dbl x _ a 0 D dbl_zero). destruct (Qlt_bool a 0) eqn:E.
  - apply Qlt_bool_iff in E. exists 0%Q. split; [exact dbl_zero|]. symmetry. apply Q.max_r. lra.
  - exists a. split; [exact D|]. assert (L : (0 <= a)%Q). { apply Qnot_lt_le. intro C. apply Qlt_bool_iff in C. congruence. } symmetry. now apply Q.max_l.
Qed.
Lemma half : (2 ^ 1023 == 2 ^ 1022 + 2 ^ 1022)%Q. Proof. assert (E := pow2_S 1022). change (1022 + 1) with 1023 in E. lra. Qed.
Lemma abs_sub a b : (Qabs a <= 2 ^ 1022 -> Qabs b <= 2 ^ 1022 -> Qabs (a - b) <= 2 ^ 1023)%Q.
Proof. intros A B. assert (H := half). apply Qabs_Qle_condition in A, B. apply Qabs_Qle_condition. lra. Qed.
Lemma abs_add a b : (Qabs a <= 2 ^ 1022 -> Qabs b <= 2 ^ 1022 -> Qabs (a + b) <= 2 ^ 1023)%Q.
Proof. intros A B. assert (H := half). apply Qabs_Qle_condition in A, B. apply Qabs_Qle_condition. lra. Qed.
Lemma leb_proper a a' b b' : (a == a')%Q -> (b == b')%Q -> Qle_bool a b = Qle_bool a' b'.
Proof. intros A B. apply eq_true_iff_eq. rewrite !Qle_bool_iff, A, B. tauto. Qed.
Lemma ltb_proper a a' b b' : (a == a')%Q -> (b == b')%Q -> Qlt_bool a b = Qlt_bool a' b'.
Proof. intros A B. apply eq_true_iff_eq. rewrite !Qlt_bool_iff, A, B. tauto. Qed.
Lemma const_dbl q : (2 ^ (-1022) <= q <= 1)%Q -> exists v, dbl (b64_read q) v /\ (v == rnd53 q)%Q /\ (Qabs v <= 2 ^ 1022)%Q.
Proof.
  intros [L U]. assert (P := pow2_pos (-1022)). assert (A : (Qabs q == q)%Q) by (apply Qabs_pos; lra). destruct (dbl_read q) as (v & D & V).
  - rewrite A. split; [exact L|]. assert (X : (1 <= 2 ^ 1023)%Q) by discriminate. lra.
  - exists v. split; [exact D|]. split; [exact V|]. rewrite V. destruct (rnd53_pos q) as (R1 & R2 & _); [lra|]. rewrite Qabs_pos by lra.
    assert (X : (2 <= 2 ^ 1022)%Q) by discriminate. lra.
Qed.
Lemma violated_same v b x y : dbl x v -> dbl y b -> (Qabs v <= 2 ^ 1022)%Q -> (Qabs b <= 2 ^ 1022)%Q -> violated64 x y = violated_fl rnd53 v b.
Proof.
  intros DX DY HV HB. destruct (const_dbl tol6) as (t & DT & T & _); [split; discriminate|].
  destruct (dbl_sub x y v b DX DY (abs_sub _ _ HV HB)) as (d & DD & E). destruct (dbl_max _ _ DD) as (m & DM & M).
  unfold violated64, violated_fl. rewrite (ltb_dbl _ _ t m DT DM). apply ltb_proper; [exact T|]. now rewrite M, E.
Qed.
Lemma not_above_same v u x y : dbl x v -> dbl y u -> (Qabs u <= 2 ^ 1022)%Q -> not_above64 x y = not_above_fl rnd53 v (Fin u).
Proof.
  intros DX DY HU. destruct (const_dbl (1 # 100000000)) as (t & DT & T & B); [split; discriminate|].
  destruct (dbl_add y _ u t DY DT (abs_add _ _ HU B)) as (d & DD & E). unfold not_above64, not_above_fl, fl_add, ext_leb.
  rewrite (leb_dbl x _ v d DX DD). apply leb_proper; [reflexivity|]. now rewrite E, T.
Qed.
Lemma pruned_same c l x y : dbl x c -> dbl y l -> (Qabs l <= 2 ^ 1022)%Q ->
  pruned64 x y = ext_leb (Fin c) (fl_add rnd53 (Fin l) (- rnd53 (1 # 1000))%Q).
Proof.
  intros DX DY HL. destruct (const_dbl (1 # 1000)) as (t & DT & T & B); [split; discriminate|].
  destruct (dbl_sub y _ l t DY DT (abs_sub _ _ HL B)) as (d & DD & E). unfold pruned64, fl_add, ext_leb.
  rewrite (leb_dbl x _ c d DX DD). apply leb_proper; [reflexivity|]. now rewrite E, T.
Qed.
Lemma remaining_same limit now start x y z : dbl x limit -> dbl y now -> dbl z start ->
  (Qabs limit <= 2 ^ 1022)%Q -> (Qabs now <= 2 ^ 1020)%Q -> (Qabs start <= 2 ^ 1020)%Q ->
  exists r, dbl (remaining64 x y z) r /\ (r == remaining_fl rnd53 limit now start)%Q.
Proof.
  intros DX DY DZ HL HN HS. assert (E1 : (2 ^ 1022 == 4 * 2 ^ 1020)%Q) by apply (pow2_add 2 1020).
  assert (D1 : (Qabs (now - start) <= 2 * 2 ^ 1020)%Q) by (apply Qabs_Qle_condition in HN, HS; apply Qabs_Qle_condition; lra).
  assert (P := pow2_pos 1020). assert (H := half).
  destruct (dbl_sub y z now start DY DZ) as (d & DD & D); [lra|].
  assert (BD : (Qabs d <= 2 ^ 1022)%Q).
  { rewrite D. assert (R := rnd53_rounding (now - start)%Q). set (q := (now - start)%Q) in *. assert (A := Qabs_triangle (rnd53 q - q) q).
    assert (S : (rnd53 q - q + q == rnd53 q)%Q) by ring. rewrite S in A. unfold u53 in R. change (1 # 2 ^ 53) with (1 # 9007199254740992) in R. assert (N := Qabs_nonneg q). lra. }
  destruct (dbl_sub x _ limit d DX DD (abs_sub _ _ HL BD)) as (e & DE & E). destruct (dbl_max _ _ DE) as (m & DM & M).
  exists m. split; [exact DM|]. unfold remaining_fl. now rewrite M, E, D.
Qed.
Lemma feasible_same nb eps n : Z.abs nb < 2 ^ 53 -> (0 < eps)%Q -> Qnum eps < 2 ^ 53 -> Zpos (Qden eps) < 2 ^ 53 -> 0 < n < 2 ^ 53 ->
  feasible64 nb eps n = Qle_bool (inject_Z nb) (rnd53 (rnd53 eps * inject_Z n)) /\
  exists k, b64_floor eps n = Some k /\ feasible64 nb eps n = (nb <=? k).
Proof.
  intros HB P HN HD N. destruct (of_Z_exact nb HB) as (VB & b & EB & B). destruct (prod_value eps n P HN HD N) as (v & EV & V & _).
  assert (VE : nearest64 (b64_of_Q eps) eps) by (apply of_Q_nearest; [assert (0 < Qnum eps) by (unfold Qlt in P; cbn in P; lia); lia|exact HD]).
  assert (VV : valid_binary 53 1024 (b64_mul (b64_of_Q eps) (b64_of_Z n)) = true).
  { destruct (of_Z_exact n ltac:(lia)) as (VN & c & EC & _). unfold b64_prod in EV.
    destruct (b64_val (b64_of_Q eps)) as [e|] eqn:EE.
    - unfold b64_mul. exact (proj1 (mul_nearest _ _ e c (proj1 VE) VN EE EC)).
    - unfold b64_mul in *. destruct (b64_of_Q eps), (b64_of_Z n); cbn in EV |- *; try discriminate; try reflexivity. }
  assert (D1 : dbl (b64_of_Z nb) b) by (split; assumption). assert (D2 : dbl (b64_mul (b64_of_Q eps) (b64_of_Z n)) v) by (split; assumption).
  unfold feasible64. rewrite (leb_dbl _ _ b v D1 D2). split; [now apply leb_proper|].
  exists (Qfloor v). unfold b64_floor. rewrite EV. split; [reflexivity|]. apply eq_true_iff_eq. rewrite Qle_bool_iff, Z.leb_le, B. split; intro H.
  - now apply floor_le.
  - eapply Qle_trans; [rewrite <- Zle_Qle; exact H|apply Qfloor_le].
Qed.

(** The quotient neither overflows nor underflows for bounds of usual size. *)
Lemma gap_far x y a b : dbl x a -> dbl y b -> (2 ^ (-400) <= b)%Q -> (a - b == 0)%Q \/ (2 ^ (-454) <= Qabs (a - b))%Q.
Proof.
  intros [VX EX] [VY EY] L. destruct (Qlt_le_dec a (2 ^ (-402))) as [S|S].
  - right. assert (E1 : (2 ^ (-400) == 4 * 2 ^ (-402))%Q) by apply (pow2_add 2 (-402)). assert (E2 : (2 ^ (-454) <= 2 ^ (-402))%Q) by (apply pow2_le; lia).
    assert (P := pow2_pos (-402)). rewrite Qabs_neg by lra. lra.
  - destruct (grid_value x a (-454) VX EX) as (i & A); [right; exact S|lia|].
    destruct (grid_value y b (-454) VY EY) as (j & B); [right|lia|].
    { assert (E : (2 ^ (52 + -454) <= 2 ^ (-400))%Q) by (apply pow2_le; lia). lra. }
    assert (E : (a - b == inject_Z (i - j) * 2 ^ (-454))%Q) by (rewrite A, B; unfold Z.sub; rewrite inject_Z_plus, inject_Z_opp; ring).
    destruct (Z.eq_dec (i - j) 0) as [Z0|N]; [left; rewrite E, Z0; change (inject_Z 0) with 0%Q; ring|right].
    rewrite E, Qabs_Qmult. assert (P := pow2_pos (-454)). rewrite (Qabs_pos (2 ^ (-454))) by lra.
    assert (K : (1 <= Qabs (inject_Z (i - j)))%Q).
    { assert (X : (Qabs (inject_Z (i - j)) == inject_Z (Z.abs (i - j)))%Q) by reflexivity. rewrite X. change 1%Q with (inject_Z 1). rewrite <- Zle_Qle. lia. }
    nra.
Qed.
Lemma gap_same x y a b : dbl x a -> dbl y b -> (2 ^ (-400) <= b <= 2 ^ 400)%Q -> (Qabs a <= 2 ^ 400)%Q ->
  exists g, dbl (gap64 x y) g /\ forall npU npL, exists q, gap_fl rnd53 (Fin a) npU (Fin b) npL = Ok (Some (Fin q)) /\ (g == q)%Q.
Proof.
  intros DX DY [B1 B2] A1. assert (PB := pow2_pos (-400)). assert (BP : (0 < b)%Q) by lra.
  assert (AB : (Qabs (a - b) <= 2 ^ 401)%Q).
  { assert (E : (2 ^ 401 == 2 * 2 ^ 400)%Q) by apply (pow2_S 400). apply Qabs_Qle_condition in A1. apply Qabs_Qle_condition. lra. }
  destruct (dbl_sub x y a b DX DY) as (d & DD & D); [assert (E : (2 ^ 401 <= 2 ^ 1023)%Q) by (apply pow2_le; lia); lra|].
  assert (GF : forall npU npL, gap_fl rnd53 (Fin a) npU (Fin b) npL = Ok (Some (Fin (rnd53 (rnd53 (a - b) / b))))).
  { intros npU npL. unfold gap_fl. destruct (Qeq_bool b 0) eqn:E; [apply Qeq_bool_iff in E; lra|reflexivity]. }
  assert (NEAR := div_nearest _ _ d b (proj1 DD) (proj1 DY) (proj2 DD) (proj2 DY) ltac:(lra)).
  assert (RD : (rnd53 (d / b) == rnd53 (rnd53 (a - b) / b))%Q) by now rewrite D.
  assert (R := rnd53_rounding (a - b)%Q). unfold u53 in R. change (1 # 2 ^ 53) with (1 # 9007199254740992) in R. rewrite <- D in R.
  assert (N0 := Qabs_nonneg (a - b)).
  assert (DU : (Qabs d <= 2 ^ 402)%Q).
  { assert (T := Qabs_triangle (d - (a - b)) (a - b)). assert (S : (d - (a - b) + (a - b) == d)%Q) by ring. rewrite S in T.
    assert (E : (2 ^ 402 == 2 * 2 ^ 401)%Q) by apply (pow2_S 401). lra. }
  assert (INV : (0 < / b)%Q) by now apply Qinv_lt_0_compat. assert (IB : (b * / b == 1)%Q) by (field; lra).
  assert (QA : (Qabs (d / b) == Qabs d * / b)%Q) by (unfold Qdiv; rewrite Qabs_Qmult, (Qabs_pos (/ b)) by lra; reflexivity).
  assert (IU : (/ b <= 2 ^ 400)%Q). { assert (E : (2 ^ (-400) * 2 ^ 400 == 1)%Q) by (rewrite <- pow2_add; reflexivity). nra. }
  assert (IL : (2 ^ (-400) <= / b)%Q). { assert (E : (2 ^ (-400) * 2 ^ 400 == 1)%Q) by (rewrite <- pow2_add; reflexivity). assert (P5 := pow2_pos 400). nra. }
  assert (UPPER : (Qabs (d / b) < 2 ^ 1024 - 2 ^ 970)%Q).
  { apply (bound_1024 _ 803); [lia|]. rewrite QA. assert (E : (2 ^ 802 == 2 ^ 402 * 2 ^ 400)%Q) by apply (pow2_add 402 400).
    assert (E3 : (2 ^ 803 == 2 * 2 ^ 802)%Q) by apply (pow2_S 802). assert (P1 := pow2_pos 802). assert (ND := Qabs_nonneg d). nra. }
  destruct (dbl_of _ _ NEAR UPPER) as (g & DG & G). exists g. split; [exact DG|]. intros npU npL. eexists. split; [apply GF|]. rewrite G, <- RD.
  destruct (gap_far x y a b DX DY B1) as [Z0|FAR].
  - assert (DZ : (d / b == 0)%Q). { assert (X : (d == 0)%Q) by (rewrite D, Z0; reflexivity). rewrite X. field. lra. } rewrite DZ. reflexivity.
  - apply normal_same. rewrite QA. assert (DL : (2 ^ (-455) <= Qabs d)%Q).
    { assert (T := Qabs_triangle (a - b - d) d). assert (S : (a - b - d + d == a - b)%Q) by ring. rewrite S in T.
      assert (S2 : (Qabs (a - b - d) == Qabs (d - (a - b)))%Q) by (rewrite <- Qabs_opp; apply Qabs_wd; ring). rewrite S2 in T.
      assert (E : (2 ^ (-454) == 2 * 2 ^ (-455))%Q) by apply (pow2_S (-455)). lra. }
    assert (E : (2 ^ (-855) == 2 ^ (-455) * 2 ^ (-400))%Q) by apply (pow2_add (-455) (-400)).
    assert (P1 := pow2_pos (-455)). assert (F : (2 ^ (-1022) <= 2 ^ (-855))%Q) by (apply pow2_le; lia). nra.
Qed.

(** ** Comparisons and the rounding of the other files *)
Lemma comparisons x y a b : dbl x a -> dbl y b -> SFcompare x y = Some (a ?= b)%Q /\ SFleb x y = Qle_bool a b /\ SFltb x y = Qlt_bool a b.
Proof. intros DX DY. split; [destruct DX, DY; now apply compare_exact|]. split; [now apply leb_dbl|now apply ltb_dbl]. Qed.
Lemma rounded_same x y a b : dbl x a -> dbl y b ->
  ((Qabs (a + b) <= 2 ^ 1023)%Q -> exists v, dbl (SFadd 53 1024 x y) v /\ (v == rnd53 (a + b))%Q) /\
  ((Qabs (a - b) <= 2 ^ 1023)%Q -> exists v, dbl (SFsub 53 1024 x y) v /\ (v == rnd53 (a - b))%Q) /\
  ((2 ^ (-1022) <= Qabs (a * b) <= 2 ^ 1023)%Q -> exists v, dbl (SFmul 53 1024 x y) v /\ (v == rnd53 (a * b))%Q) /\
  (~ (b == 0)%Q -> (2 ^ (-1022) <= Qabs (a / b) <= 2 ^ 1023)%Q -> exists v, dbl (SFdiv 53 1024 x y) v /\ (v == rnd53 (a / b))%Q).
Proof.
  intros DX DY. assert (X := max_finite). split; [now apply dbl_add|]. split; [now apply dbl_sub|]. destruct DX as [VX EX], DY as [VY EY]. split.
  - intros [L1 L2]. destruct (dbl_of _ _ (mul_nearest x y a b VX VY EX EY)) as (v & D & V); [lra|]. exists v. split; [exact D|]. rewrite V. now apply normal_same.
  - intros NZ [L1 L2]. destruct (dbl_of _ _ (div_nearest x y a b VX VY EX EY NZ)) as (v & D & V); [lra|]. exists v. split; [exact D|]. rewrite V. now apply normal_same.
Qed.
Lemma read_same q : (q == 0)%Q \/ (2 ^ (-1022) <= Qabs q <= 2 ^ 1023)%Q -> exists v, dbl (b64_read q) v /\ (v == rnd53 q)%Q.
Proof.
  intros [Z0|H]; [|now apply dbl_read]. destruct q as [[|p|p] d]; try discriminate. exists 0%Q. split; [split; reflexivity|]. rewrite Z0. reflexivity.
Qed.

(** ** Percentages in file names *)
Lemma percent_near a : 0 < a < 2 ^ 40 -> exists p, b64_prod (a # 100) 100 = Some p /\ (Qabs (p - inject_Z a) * 100 < 1)%Q /\
  (Qfloor p = a \/ Qfloor p = a - 1 /\ (rnd53 (a # 100) < a # 100)%Q).
Proof.
  intros [A0 A1]. assert (P : (0 < a # 100)%Q) by (unfold Qlt; cbn; lia). assert (S : Qnum (a # 100) * 100 < 2 ^ 51) by (cbn [Qnum]; change (2 ^ 51) with (2048 * 2 ^ 40); lia).
  assert (E : ((a # 100) * inject_Z 100 == inject_Z a)%Q) by (unfold Qeq; cbn; lia).
  destruct (floor_value (a # 100) 100 P ltac:(reflexivity) ltac:(lia) S) as (v & k & EP & EF & EK & _ & C).
  assert (FC := floor_cases (a # 100) 100 P ltac:(reflexivity) ltac:(lia) S). rewrite EF in FC.
  assert (FE : Qfloor ((a # 100) * inject_Z 100) = a) by (rewrite E; apply Qfloor_Z). rewrite FE in FC.
  exists v. split; [exact EP|]. cbn [Qden] in C. rewrite E in C. change (inject_Z 100) with 100%Q in C. split; [exact C|]. rewrite <- EK.
  destruct FC as [FC|(FC & _ & L)]; injection FC as ->; [now left|right; split; [reflexivity|exact L]].
Qed.
Lemma percent_names a : 0 < a < 2 ^ 40 -> exists p, b64_prod (a # 100) 100 = Some p /\ (0 <= p)%Q /\ Qrnd p = a /\
  (Qtrunc p = a \/ Qtrunc p = a - 1 /\ (rnd53 (a # 100) < a # 100)%Q).
Proof.
  intros A. destruct (percent_near a A) as (p & EP & C & F). exists p. split; [exact EP|].
  assert (CL : (Qabs (p - inject_Z a) < 1 # 100)%Q) by lra. apply Qabs_Qlt_condition in CL.
  assert (A1 : (1 <= inject_Z a)%Q) by (change 1%Q with (inject_Z 1); rewrite <- Zle_Qle; lia). split; [lra|]. split.
  - destruct (Qrnd_bounds p) as [B1 B2]. assert (X : (inject_Z (Qrnd p) < inject_Z (a + 1))%Q) by (rewrite inject_Z_plus; change (inject_Z 1) with 1%Q; lra).
    assert (Y : (inject_Z a < inject_Z (Qrnd p + 1))%Q) by (rewrite inject_Z_plus; change (inject_Z 1) with 1%Q; lra). rewrite <- Zlt_Qlt in X, Y. lia.
  - assert (T : Qtrunc p = Qfloor p). { unfold Qtrunc. destruct (Qlt_bool p 0) eqn:E; [apply Qlt_bool_iff in E; lra|reflexivity]. } now rewrite T.
Qed.
