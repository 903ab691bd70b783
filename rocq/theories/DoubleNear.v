(** The rounding function of binary64 gives the nearest double (C76). *)
From Coq Require Import SpecFloat Qpower Qabs Lia Lqa.
From Verif Require Import Base BaseFacts Spec Instance InstanceFacts Rounding RoundingFacts Floats Double DoubleFacts DoubleOps.
From Verif Require ResultSpec ResultFacts.
Local Open Scope Z_scope.

Lemma rnd64_pos q : (0 < q)%Q -> exists k, k = Qrnd (q / 2 ^ ulp64 q) /\ (rnd64 q == inject_Z k * 2 ^ ulp64 q)%Q /\ 0 <= k <= 2 ^ 53 /\ (ulp64 q <> -1074 -> 2 ^ 52 <= k).
Proof.
  intro P. exists (Qrnd (q / 2 ^ ulp64 q)). split; [reflexivity|]. assert (PU := pow2_pos (ulp64 q)).
  split; [apply rnd64_at; [lra|reflexivity]|]. destruct (mag_spec q) as [A B]; [lra|]. rewrite Qabs_pos in A, B by lra.
  assert (X : (q == q / 2 ^ ulp64 q * 2 ^ ulp64 q)%Q) by (field; lra). set (x := (q / 2 ^ ulp64 q)%Q) in *.
  assert (U : mag q - 52 <= ulp64 q) by (unfold ulp64; lia). split.
  - apply round_even_range; [lia|]. split; [apply Qnot_lt_le; intro C; nra|]. apply Qnot_le_lt. intro C.
    assert (D : (2 ^ (mag q + 1) <= 2 ^ (53 + ulp64 q))%Q) by (apply pow2_le; lia). rewrite (pow2_add 53) in D. nra.
  - intro N. apply round_even_ge; [lia|]. assert (E : ulp64 q = mag q - 52) by (unfold ulp64 in *; lia). apply Qnot_lt_le. intro C.
    assert (D : (2 ^ mag q == 2 ^ 52 * 2 ^ ulp64 q)%Q) by (rewrite <- pow2_add; replace (52 + ulp64 q) with (mag q) by lia; reflexivity). nra.
Qed.
Lemma mag_mono q r : (0 < q)%Q -> (q <= r)%Q -> mag q <= mag r.
Proof.
  intros P L. destruct (mag_spec q) as [A _]; [lra|]. destruct (mag_spec r) as [_ B]; [lra|]. rewrite Qabs_pos in A, B by lra.
  assert (C : (2 ^ mag q < 2 ^ (mag r + 1))%Q) by lra. apply Qpower_lt_compat_l_inv in C; [|reflexivity]. lia.
Qed.
Lemma rnd64_nonneg q : (0 <= q)%Q -> (0 <= rnd64 q)%Q.
Proof.
  intro H. apply Qle_lteq in H as [H|H]; [|rewrite (rnd64_zero q); [lra|now symmetry]].
  destruct (rnd64_pos q H) as (k & _ & E & [K _] & _). rewrite E. assert (P := pow2_pos (ulp64 q)). rewrite Zle_Qle in K. change (inject_Z 0) with 0%Q in K. nra.
Qed.
Lemma rnd64_mono_pos q r : (0 < q)%Q -> (q <= r)%Q -> (rnd64 q <= rnd64 r)%Q.
Proof.
  intros P L. assert (PR : (0 < r)%Q) by lra. assert (M := mag_mono q r P L).
  destruct (rnd64_pos q P) as (k & KE & E & [K0 K1] & _). destruct (rnd64_pos r PR) as (j & JE & F & [J0 J1] & J2). rewrite E, F.
  assert (U : ulp64 q <= ulp64 r) by (unfold ulp64; lia). destruct (Z.eq_dec (ulp64 q) (ulp64 r)) as [EU|NU].
  - rewrite <- EU in *. assert (PU := pow2_pos (ulp64 q)). assert (KJ : k <= j). { rewrite KE, JE. apply Qrnd_mono. unfold Qdiv. apply Qmult_le_compat_r; [exact L|]. apply Qlt_le_weak, Qinv_lt_0_compat, PU. }
    rewrite Zle_Qle in KJ. nra.
  - assert (NR : ulp64 r <> -1074) by (unfold ulp64 in *; lia). specialize (J2 NR). rewrite Zle_Qle, inj_pow2 in K1, J2 by lia.
    assert (D : (2 ^ (53 + ulp64 q) <= 2 ^ (52 + ulp64 r))%Q) by (apply pow2_le; lia). rewrite !pow2_add in D. assert (P1 := pow2_pos (ulp64 q)). assert (P2 := pow2_pos (ulp64 r)). nra.
Qed.
Lemma rnd64_mono q r : (q <= r)%Q -> (rnd64 q <= rnd64 r)%Q.
Proof.
  intro L. destruct (Qlt_le_dec 0 q) as [P|N]; [now apply rnd64_mono_pos|]. destruct (Qlt_le_dec r 0) as [NR|PR].
  - assert (A := rnd64_mono_pos (- r) (- q) ltac:(lra) ltac:(lra)). rewrite !rnd64_opp in A. lra.
  - assert (A := rnd64_nonneg r PR). assert (B := rnd64_nonneg (- q) ltac:(lra)). rewrite rnd64_opp in B. lra.
Qed.

(** No multiple of the unit is nearer. *)
Lemma Qrnd_best x z : (Qabs (inject_Z (Qrnd x) - x) <= Qabs (inject_Z z - x))%Q /\
  ((Qabs (inject_Z (Qrnd x) - x) == Qabs (inject_Z z - x))%Q -> Qrnd x = z \/ Z.even (Qrnd x) = true).
Proof.
  destruct (ResultFacts.Qrnd_nearest x) as [A B]. destruct (Z.eq_dec (Qrnd x) z) as [E|N].
  - rewrite E. split; [apply Qle_refl|auto].
  - assert (S : (Qabs (inject_Z (Qrnd x) - x) == Qabs (x - inject_Z (Qrnd x)))%Q) by (rewrite <- Qabs_opp; apply Qabs_wd; ring).
    assert (H : (1 # 2 <= Qabs (inject_Z z - x))%Q).
    { assert (A3 := proj1 (Qabs_Qle_condition _ _) A). assert (C : Qrnd x + 1 <= z \/ z + 1 <= Qrnd x) by lia.
      destruct C as [C|C]; rewrite Zle_Qle, inject_Z_plus in C; change (inject_Z 1) with 1%Q in C.
      - eapply Qle_trans; [|apply Qle_Qabs]. lra.
      - rewrite <- Qabs_opp. eapply Qle_trans; [|apply Qle_Qabs]. lra. }
    rewrite S. split; [lra|]. intro E. right. apply B. lra.
Qed.

(** A double at least as large as a power of two is a multiple of the unit there. *)
Lemma grid_pos m e u : bounded 53 1024 m e = true -> u = -1074 \/ (2 ^ (52 + u) <= inject_Z (Zpos m) * 2 ^ e)%Q -> u <= e.
Proof.
  intros B H. apply bounded_range in B as (R & M & _). destruct H as [->|H]; [lia|]. destruct (Z_le_gt_dec u e) as [C|C]; [exact C|exfalso].
  rewrite Zlt_Qlt, inj_pow2 in M by lia. assert (P := pow2_pos e). assert (D : (2 ^ (53 + e) <= 2 ^ (52 + u))%Q) by (apply pow2_le; lia).
  rewrite (pow2_add 53) in D. nra.
Qed.
Lemma grid_value g w u : valid_binary 53 1024 g = true -> b64_val g = Some w -> u = -1074 \/ (2 ^ (52 + u) <= w)%Q -> -1074 <= u -> exists z, (w == inject_Z z * 2 ^ u)%Q.
Proof.
  intros V E H U. destruct g as [s|s| |s m e]; try discriminate.
  - injection E as <-. exists 0. change (inject_Z 0) with 0%Q. ring.
  - destruct (finite_val s m e) as (w' & E' & W). rewrite E in E'. injection E' as <-. cbn [valid_binary] in V.
    assert (L : u <= e). { apply (grid_pos m e u V). destruct H as [H|H]; [now left|right]. assert (P := pos_pow m e). assert (P2 := pow2_pos (52 + u)). destruct s; cbn [sgnq] in W; lra. }
    exists ((if s then Zneg m else Zpos m) * 2 ^ (e - u)). rewrite inject_Z_mult, inj_pow2 by lia. rewrite <- Qmult_assoc, <- pow2_add.
    replace (e - u + u) with e by lia. rewrite W. destruct s; cbn [sgnq]; [|reflexivity]. change (inject_Z (Zneg m)) with (- inject_Z (Zpos m))%Q. ring.
Qed.
Lemma scale_abs a b s : (0 < s)%Q -> (Qabs (a * s - b * s) == Qabs (a - b) * s)%Q.
Proof. intro P. rewrite <- (Qabs_pos s) at 3 by lra. rewrite <- Qabs_Qmult. apply Qabs_wd. ring. Qed.

Lemma rnd64_best_pos q g w : (0 < q)%Q -> valid_binary 53 1024 g = true -> b64_val g = Some w ->
  (Qabs (rnd64 q - q) <= Qabs (w - q))%Q /\
  ((Qabs (rnd64 q - q) == Qabs (w - q))%Q -> (rnd64 q == w)%Q \/ Z.even (Qrnd (q / 2 ^ ulp64 q)) = true).
Proof.
  intros P V E. assert (PU := pow2_pos (ulp64 q)). assert (R := rnd64_at q (ulp64 q) ltac:(lra) ltac:(reflexivity)).
  set (u := ulp64 q) in *. set (x := (q / 2 ^ u)%Q) in *. assert (X : (q == x * 2 ^ u)%Q) by (unfold x; field; lra).
  assert (U : -1074 <= u) by (unfold u, ulp64; lia).
  assert (GRID : forall z, (w == inject_Z z * 2 ^ u)%Q -> (Qabs (rnd64 q - q) <= Qabs (w - q))%Q /\
    ((Qabs (rnd64 q - q) == Qabs (w - q))%Q -> (rnd64 q == w)%Q \/ Z.even (Qrnd x) = true)).
  { intros z W. rewrite R, W, X, !scale_abs by exact PU. destruct (Qrnd_best x z) as [B1 B2]. split; [nra|]. intro T.
    destruct B2 as [B|B]; [|left|right; exact B]; [|now rewrite B]. apply (Qmult_inj_r _ _ (2 ^ u)); [lra|exact T]. }
  destruct (Z.eq_dec u (-1074)) as [EU|NU].
  - destruct (grid_value g w u V E (or_introl EU) U) as (z & W). now apply (GRID z).
  - destruct (Qlt_le_dec w (2 ^ (52 + u))) as [L|L].
    + destruct (mag_spec q) as [A _]; [lra|]. rewrite Qabs_pos in A by lra. assert (EM : mag q = 52 + u) by (unfold u, ulp64 in *; lia). rewrite EM in A.
      destruct (Qrnd_best x (2 ^ 52)) as [B1 _]. rewrite inj_pow2 in B1 by lia.
      assert (B : (Qabs (rnd64 q - q) <= Qabs (2 ^ (52 + u) - q))%Q) by (rewrite R, pow2_add, X, !scale_abs by exact PU; nra).
      rewrite (Qabs_neg (2 ^ (52 + u) - q)) in B by lra. rewrite (Qabs_neg (w - q)) by lra. split; [lra|]. intro T. lra.
    + destruct (grid_value g w u V E (or_intror L) U) as (z & W). now apply (GRID z).
Qed.
Lemma even_of_grid m e k u : bounded 53 1024 m e = true -> -1074 <= u -> 0 <= k <= 2 ^ 53 -> (inject_Z (Zpos m) * 2 ^ e == inject_Z k * 2 ^ u)%Q ->
  Z.even k = true -> Z.even (Zpos m) = true.
Proof.
  intros B U K E EV. apply bounded_range in B as (R & M & N). assert (PE := pow2_pos e). assert (PU := pow2_pos u). destruct (Z_le_gt_dec e u) as [C|C].
  - assert (X : Zpos m = k * 2 ^ (u - e)).
    { apply inject_Z_injective. rewrite inject_Z_mult, inj_pow2 by lia. apply (Qmult_inj_r _ _ (2 ^ e)); [lra|]. rewrite E, <- Qmult_assoc, <- pow2_add.
      replace (u - e + e) with u by lia. reflexivity. }
    rewrite X, Z.even_mul, EV. reflexivity.
  - assert (X : k = Zpos m * 2 ^ (e - u)).
    { apply inject_Z_injective. rewrite inject_Z_mult, inj_pow2 by lia. apply (Qmult_inj_r _ _ (2 ^ u)); [lra|]. rewrite <- E, <- Qmult_assoc, <- pow2_add.
      replace (e - u + u) with e by lia. reflexivity. }
    specialize (N ltac:(lia)). assert (T : 2 <= 2 ^ (e - u)). { change 2 with (2 ^ 1) at 1. apply Z.pow_le_mono_r; lia. }
    change (2 ^ 53) with (2 * 2 ^ 52) in K. assert (Y : Zpos m = 2 ^ 52) by nia. rewrite Y. reflexivity.
Qed.

(** Overflow *)
Lemma overflow_pos q : (0 < q)%Q -> (rnd64 q < 2 ^ 1024 <-> q < 2 ^ 1024 - 2 ^ 970)%Q.
Proof.
  intro P. split; intro H.
  - apply Qnot_le_lt. intro C. apply rnd64_mono in C. assert (A : (rnd64 (2 ^ 1024 - 2 ^ 970) == 2 ^ 1024)%Q) by (vm_compute; reflexivity). lra.
  - destruct (Qlt_le_dec q (2 ^ 1023)) as [L|L].
    + assert (A := rnd64_mono q (2 ^ 1023) ltac:(lra)). assert (B : (rnd64 (2 ^ 1023) == 2 ^ 1023)%Q) by (vm_compute; reflexivity).
      assert (D : (2 ^ 1023 < 2 ^ 1024)%Q) by reflexivity. lra.
    + assert (T : (0 < 2 ^ 970)%Q) by apply pow2_pos. assert (M : mag q = 1023) by (apply mag_unique; rewrite Qabs_pos by lra; change (1023 + 1) with 1024; lra).
      assert (U : ulp64 q = 971) by (unfold ulp64; rewrite M; reflexivity).
      rewrite (rnd64_at q 971) by (try lra; auto). assert (T2 := pow2_pos 971). set (x := (q / 2 ^ 971)%Q). assert (X : (q == x * 2 ^ 971)%Q) by (unfold x; field; lra).
      assert (E1 : (2 ^ 1024 == 2 ^ 53 * 2 ^ 971)%Q) by apply (pow2_add 53 971). assert (E2 : (2 ^ 971 == 2 * 2 ^ 970)%Q) by apply (pow2_S 970).
      assert (XL : (x < 2 ^ 53 - (1 # 2))%Q). { apply Qnot_le_lt. intro C. rewrite X, E1 in H. rewrite E2 in H. nra. }
      assert (K : Qrnd x < 2 ^ 53).
      { destruct (Z_lt_le_dec (Qrnd x) (2 ^ 53)) as [G|G]; [exact G|exfalso]. destruct (Qrnd_bounds x) as [B1 _]. rewrite Zle_Qle, inj_pow2 in G by lia. lra. }
      rewrite Zlt_Qlt, inj_pow2 in K by lia. rewrite E1. nra.
Qed.
Lemma overflow q : (Qabs (rnd64 q) < 2 ^ 1024 <-> Qabs q < 2 ^ 1024 - 2 ^ 970)%Q.
Proof.
  assert (A : forall r, (0 <= r)%Q -> (Qabs (rnd64 r) < 2 ^ 1024 <-> Qabs r < 2 ^ 1024 - 2 ^ 970)%Q).
  { intros r H. rewrite (Qabs_pos r H), (Qabs_pos (rnd64 r)) by now apply rnd64_nonneg. apply Qle_lteq in H as [H|H]; [now apply overflow_pos|].
    assert (Z0 : (rnd64 r == 0)%Q) by (apply rnd64_zero; now symmetry). rewrite Z0, <- H. split; intro; reflexivity. }
  destruct (Qlt_le_dec q 0) as [L|L]; [|now apply A]. rewrite <- (Qabs_opp q), <- (Qabs_opp (rnd64 q)), <- rnd64_opp. apply A. lra.
Qed.

Lemma nearest_pos f q : (0 <= q)%Q -> nearest64 f q -> (Qabs q < 2 ^ 1024 - 2 ^ 970)%Q -> is_nearest f q.
Proof.
  intros Q0 (V & F & _) L. apply overflow in L. destruct (F L) as (v & EV & VR). exists v. split; [exact EV|]. intros g w VG EG.
  apply Qle_lteq in Q0 as [P|Z0].
  - destruct (rnd64_best_pos q g w P VG EG) as [A B]. rewrite VR. split; [exact A|]. intro T. destruct (B T) as [C|C]; [now left|right].
    destruct (rnd64_pos q P) as (k & KE & E & K & _). rewrite <- KE in C. destruct f as [s|s| |s m e]; try reflexivity. cbn [even_mantissa].
    cbn [valid_binary] in V. destruct (finite_val s m e) as (v' & E' & V'). rewrite EV in E'. injection E' as <-.
    assert (R0 := rnd64_nonneg q ltac:(lra)). assert (PM := pos_pow m e). destruct s; cbn [sgnq] in V'; [lra|].
    apply (even_of_grid m e k (ulp64 q) V); [unfold ulp64; lia|exact K| |exact C]. rewrite <- V', VR, E. reflexivity.
  - assert (VZ : (v == 0)%Q) by (rewrite VR; apply rnd64_zero; now symmetry).
    assert (AZ : (Qabs (v - q) == 0)%Q) by (assert (X : (v - q == 0)%Q) by lra; rewrite X; reflexivity). rewrite AZ. split; [apply Qabs_nonneg|].
    intro T. left. assert (X : (w - q == 0)%Q). { destruct (Qlt_le_dec (w - q) 0) as [D|D]; [rewrite Qabs_neg in T by lra|rewrite Qabs_pos in T by lra]; lra. } lra.
Qed.
Lemma opp_valid f : valid_binary 53 1024 (SFopp f) = valid_binary 53 1024 f. Proof. destruct f; reflexivity. Qed.
Lemma opp_opp f : SFopp (SFopp f) = f. Proof. destruct f; cbn; rewrite ?Bool.negb_involutive; reflexivity. Qed.
Lemma opp_even f : even_mantissa (SFopp f) = even_mantissa f. Proof. destruct f; reflexivity. Qed.
Lemma nearest64_opp f q : ~ (q == 0)%Q -> nearest64 f q -> nearest64 (SFopp f) (- q).
Proof.
  intros NZ (V & F & G). assert (RA : (Qabs (rnd64 (- q)) == Qabs (rnd64 q))%Q) by (rewrite rnd64_opp; apply Qabs_opp). split; [now rewrite opp_valid|]. split.
  - intro L. destruct F as (v & E & VR); [now rewrite <- RA|]. destruct (opp_val f v E) as (w & EW & W). exists w. split; [exact EW|]. rewrite W, VR, rnd64_opp. reflexivity.
  - intro L. rewrite RA in L. rewrite (G L). cbn [SFopp]. f_equal. destruct (Qlt_bool q 0) eqn:A; cbn [negb]; symmetry.
    + apply Qlt_bool_iff in A. destruct (Qlt_bool (- q) 0) eqn:B; [apply Qlt_bool_iff in B; lra|reflexivity].
    + apply Qlt_bool_iff. destruct (Qlt_le_dec q 0) as [C|C]; [apply Qlt_bool_iff in C; congruence|]. apply Qle_lteq in C as [C|C]; [lra|]. exfalso. apply NZ. now symmetry.
Qed.
Lemma is_nearest_opp f q : is_nearest (SFopp f) (- q) -> is_nearest f q.
Proof.
  intros (v & E & H). destruct (opp_val _ _ E) as (w & EW & W). rewrite opp_opp in EW. exists w. split; [exact EW|]. intros g x VG EG.
  destruct (opp_val _ _ EG) as (y & EY & Y). destruct (H (SFopp g) y) as [A B]; [now rewrite opp_valid|exact EY|].
  assert (S1 : (Qabs (v - - q) == Qabs (w - q))%Q) by (rewrite <- Qabs_opp; apply Qabs_wd; lra).
  assert (S2 : (Qabs (y - - q) == Qabs (x - q))%Q) by (rewrite <- Qabs_opp; apply Qabs_wd; lra).
  rewrite S1, S2 in *. split; [exact A|]. intro T. destruct (B T) as [C|C]; [left; lra|right]. now rewrite opp_even in C.
Qed.
Lemma nearest_correct f q : nearest64 f q -> correctly_rounded f q.
Proof.
  intro N. split; [apply N|]. split.
  - intro L. destruct (Qlt_le_dec q 0) as [C|C]; [|now apply nearest_pos]. apply is_nearest_opp. apply nearest_pos; [lra| |now rewrite Qabs_opp].
    apply nearest64_opp; [lra|exact N].
  - intro L. apply (proj2 (proj2 N)). apply Qnot_lt_le. intro C. apply overflow in C. lra.
Qed.
Lemma operations x y a b : dbl x a -> dbl y b ->
  correctly_rounded (SFadd 53 1024 x y) (a + b) /\ correctly_rounded (SFsub 53 1024 x y) (a - b) /\
  correctly_rounded (SFmul 53 1024 x y) (a * b) /\ (~ (b == 0)%Q -> correctly_rounded (SFdiv 53 1024 x y) (a / b)).
Proof.
  intros [VX EX] [VY EY]. split; [|split; [|split]]; [now apply nearest_correct, add_nearest|now apply nearest_correct, sub_nearest|now apply nearest_correct, mul_nearest|].
  intro NZ. now apply nearest_correct, div_nearest.
Qed.
Lemma of_Z_correct z : correctly_rounded (b64_of_Z z) (inject_Z z).
Proof. apply nearest_correct, of_Z_nearest. Qed.
Lemma read_correct q : correctly_rounded (b64_read q) q.
Proof. apply nearest_correct, read_nearest. Qed.

(** ** The rounding without bounds on the exponent *)
Lemma normal_same q : (2 ^ (-1022) <= Qabs q)%Q -> (rnd64 q == rnd53 q)%Q.
Proof.
  intro H. assert (NZ : ~ (q == 0)%Q). { intro C. rewrite C in H. assert (P := pow2_pos (-1022)). change (Qabs 0) with 0%Q in H. lra. }
  destruct (mag_spec q NZ) as [_ B]. assert (C : (2 ^ (-1022) < 2 ^ (mag q + 1))%Q) by lra. apply Qpower_lt_compat_l_inv in C; [|reflexivity].
  unfold rnd64, rnd53, ulp64. rewrite Z.max_l by lia. reflexivity.
Qed.
Lemma grid_fixed z n : (Qabs (inject_Z z * 2 ^ n) < 2 ^ (53 + n))%Q -> (rnd53 (inject_Z z * 2 ^ n) == inject_Z z * 2 ^ n)%Q.
Proof.
  intro H. unfold rnd53. destruct (Qeq_bool (inject_Z z * 2 ^ n) 0) eqn:E; [apply Qeq_bool_iff in E; now rewrite E|]. apply Qeq_bool_neq in E.
  set (q := (inject_Z z * 2 ^ n)%Q) in *. destruct (mag_spec q E) as [A _]. assert (C : (2 ^ mag q < 2 ^ (53 + n))%Q) by lra.
  apply Qpower_lt_compat_l_inv in C; [|reflexivity]. set (k := mag q - 52) in *. assert (PK := pow2_pos k). cbv zeta.
  assert (X : (q / 2 ^ k == inject_Z (z * 2 ^ (n - k)))%Q).
  { rewrite inject_Z_mult, inj_pow2 by lia. unfold q. assert (Y : (2 ^ n == 2 ^ (n - k) * 2 ^ k)%Q) by (rewrite <- pow2_add; replace (n - k + k) with n by lia; reflexivity).
    rewrite Y. field. lra. }
  rewrite X, Qrnd_Z, <- X. field. lra.
Qed.
Lemma grid_same z : (rnd64 (inject_Z z * 2 ^ (-1074)) == rnd53 (inject_Z z * 2 ^ (-1074)))%Q.
Proof.
  set (q := (inject_Z z * 2 ^ (-1074))%Q). destruct (Qlt_le_dec (Qabs q) (2 ^ (-1022))) as [L|L]; [|now apply normal_same].
  assert (R : (rnd53 q == q)%Q). { apply grid_fixed. fold q. assert (D : (2 ^ (-1022) <= 2 ^ (53 + -1074))%Q) by (apply pow2_le; lia). lra. }
  rewrite R. unfold rnd64. destruct (Qeq_bool q 0) eqn:E; [apply Qeq_bool_iff in E; now rewrite E|]. apply Qeq_bool_neq in E.
  destruct (mag_spec q E) as [A _]. assert (C : (2 ^ mag q < 2 ^ (-1022))%Q) by lra. apply Qpower_lt_compat_l_inv in C; [|reflexivity].
  assert (U : ulp64 q = -1074) by (unfold ulp64; lia). rewrite U. cbv zeta. assert (P := pow2_pos (-1074)).
  assert (X : (q / 2 ^ (-1074) == inject_Z z)%Q) by (unfold q; field; lra). rewrite X, Qrnd_Z. reflexivity.
Qed.
Lemma double_grid g w : valid_binary 53 1024 g = true -> b64_val g = Some w -> exists z, (w == inject_Z z * 2 ^ (-1074))%Q.
Proof. intros V E. apply (grid_value g w (-1074) V E); [now left|lia]. Qed.
Lemma sum_same x y a b : valid_binary 53 1024 x = true -> valid_binary 53 1024 y = true -> b64_val x = Some a -> b64_val y = Some b ->
  (rnd64 (a + b) == rnd53 (a + b))%Q /\ (rnd64 (a - b) == rnd53 (a - b))%Q.
Proof.
  intros VX VY EX EY. destruct (double_grid x a VX EX) as (i & A). destruct (double_grid y b VY EY) as (j & B). split.
  - assert (E : (a + b == inject_Z (i + j) * 2 ^ (-1074))%Q) by (rewrite A, B, inject_Z_plus; ring). rewrite E. apply grid_same.
  - assert (E : (a - b == inject_Z (i - j) * 2 ^ (-1074))%Q) by (rewrite A, B; unfold Z.sub; rewrite inject_Z_plus, inject_Z_opp; ring). rewrite E. apply grid_same.
Qed.
Lemma value_of f q : nearest64 f q -> (Qabs q < 2 ^ 1024 - 2 ^ 970)%Q -> exists v, b64_val f = Some v /\ (v == rnd64 q)%Q.
Proof. intros (_ & F & _) L. apply F. now apply overflow. Qed.
Lemma add_rnd53 x y a b : valid_binary 53 1024 x = true -> valid_binary 53 1024 y = true -> b64_val x = Some a -> b64_val y = Some b ->
  ((Qabs (a + b) < 2 ^ 1024 - 2 ^ 970)%Q -> exists v, b64_val (SFadd 53 1024 x y) = Some v /\ (v == rnd53 (a + b))%Q) /\
  ((Qabs (a - b) < 2 ^ 1024 - 2 ^ 970)%Q -> exists v, b64_val (SFsub 53 1024 x y) = Some v /\ (v == rnd53 (a - b))%Q).
Proof.
  intros VX VY EX EY. destruct (sum_same x y a b VX VY EX EY) as [S1 S2]. split; intro L.
  - destruct (value_of _ _ (add_nearest x y a b VX VY EX EY) L) as (v & E & V). exists v. split; [exact E|]. now rewrite V.
  - destruct (value_of _ _ (sub_nearest x y a b VX VY EX EY) L) as (v & E & V). exists v. split; [exact E|]. now rewrite V.
Qed.
Lemma mul_rnd53 x y a b : valid_binary 53 1024 x = true -> valid_binary 53 1024 y = true -> b64_val x = Some a -> b64_val y = Some b ->
  (2 ^ (-1022) <= Qabs (a * b) < 2 ^ 1024 - 2 ^ 970)%Q -> exists v, b64_val (SFmul 53 1024 x y) = Some v /\ (v == rnd53 (a * b))%Q.
Proof.
  intros VX VY EX EY [L1 L2]. destruct (value_of _ _ (mul_nearest x y a b VX VY EX EY) L2) as (v & E & V). exists v. split; [exact E|]. rewrite V. now apply normal_same.
Qed.
Lemma div_rnd53 x y a b : valid_binary 53 1024 x = true -> valid_binary 53 1024 y = true -> b64_val x = Some a -> b64_val y = Some b -> ~ (b == 0)%Q ->
  (2 ^ (-1022) <= Qabs (a / b) < 2 ^ 1024 - 2 ^ 970)%Q -> exists v, b64_val (SFdiv 53 1024 x y) = Some v /\ (v == rnd53 (a / b))%Q.
Proof.
  intros VX VY EX EY NZ [L1 L2]. destruct (value_of _ _ (div_nearest x y a b VX VY EX EY NZ) L2) as (v & E & V). exists v. split; [exact E|]. rewrite V. now apply normal_same.
Qed.
