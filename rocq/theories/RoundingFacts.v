(** Facts about rounding. *)
From Coq Require Import Qpower Qabs Permutation.
From Verif Require Import Base BaseFacts Spec Instance InstanceFacts Rounding.

Lemma two_nz : ~ (2 == 0)%Q. Proof. discriminate. Qed.
Lemma pow2_pos e : (0 < 2 ^ e)%Q. Proof. apply Qpower_0_lt. reflexivity. Qed.
Lemma pow2_S e : (2 ^ (e + 1) == 2 * 2 ^ e)%Q.
Proof. rewrite Qpower_plus by apply two_nz. change (2 ^ 1)%Q with 2%Q. ring. Qed.
Lemma pow2_Z n : (0 <= n)%Z -> (inject_Z (2 ^ n) == 2 ^ n)%Q.
Proof. intro H. now rewrite Zpower_Qpower. Qed.

Lemma mag_spec q : ~ (q == 0)%Q -> (2 ^ mag q <= Qabs q /\ Qabs q < 2 ^ (mag q + 1))%Q.
Proof.
  intro H. destruct q as [p d]. unfold mag. cbn [Qnum Qden]. assert (Hp : (0 < Z.abs p)%Z).
  { destruct p; cbn; try lia. exfalso. apply H. reflexivity. }
  set (n := Z.abs p) in *. destruct (Z.log2_spec n Hp) as [N1 N2]. destruct (Z.log2_spec (Zpos d) eq_refl) as [D1 D2].
  assert (LN := Z.log2_nonneg n). assert (LD := Z.log2_nonneg (Zpos d)).
  set (ln := Z.log2 n) in *. set (ld := Z.log2 (Zpos d)) in *.
  assert (E : (Qabs (p # d) * inject_Z (Zpos d) == inject_Z n)%Q).
  { unfold Qabs. fold n. unfold Qeq, Qmult, inject_Z. cbn. lia. }
  set (a := Qabs (p # d)) in *.
  rewrite <- Z.add_1_r in N2, D2.
  assert (N1' : (2 ^ ln <= inject_Z n)%Q) by (rewrite <- pow2_Z by exact LN; now rewrite <- Zle_Qle).
  assert (N2' : (inject_Z n < 2 ^ (ln + 1))%Q) by (rewrite <- pow2_Z by lia; now rewrite <- Zlt_Qlt).
  assert (D1' : (2 ^ ld <= inject_Z (Zpos d))%Q) by (rewrite <- pow2_Z by exact LD; now rewrite <- Zle_Qle).
  assert (D2' : (inject_Z (Zpos d) < 2 ^ (ld + 1))%Q) by (rewrite <- pow2_Z by lia; now rewrite <- Zlt_Qlt).
  rewrite pow2_S in N2', D2'. clearbody n a. clear Hp N1 N2 D1 D2 H.
  set (e := (ln - ld)%Z). assert (EL : (2 ^ ln == 2 ^ e * 2 ^ ld)%Q).
  { rewrite <- Qpower_plus by apply two_nz. unfold e. now replace (ln - ld + ld)%Z with ln by lia. }
  rewrite EL in N1', N2'. assert (P1 := pow2_pos ld). assert (P2 := pow2_pos e). set (D := inject_Z (Zpos d)) in *. clearbody D.
  set (A := (2 ^ ld)%Q) in *. set (B := (2 ^ e)%Q) in *.
  assert (a < 2 * B)%Q.
  { apply Qnot_le_lt. intro C. assert (2 * B * A <= a * D)%Q by nra. nra. }
  assert (B < 2 * a)%Q.
  { apply Qnot_le_lt. intro C. assert (2 * (a * D) <= B * D)%Q by nra. nra. }
  destruct (Qle_bool B a) eqn:EB.
  - apply Qle_bool_iff in EB. split; [exact EB|]. rewrite pow2_S. assumption.
  - assert (a < B)%Q. { apply Qnot_le_lt. intro C. apply Qle_bool_iff in C. congruence. }
    replace (e - 1 + 1)%Z with e by lia. split; [|assumption].
    assert (E2 := pow2_S (e - 1)). replace (e - 1 + 1)%Z with e in E2 by lia. fold B in E2. lra.
Qed.
Lemma mag_unique q e : (2 ^ e <= Qabs q /\ Qabs q < 2 ^ (e + 1))%Q -> mag q = e.
Proof.
  intros [H1 H2]. assert (NZ : ~ (q == 0)%Q). { intro C. rewrite C in H1. assert (P := pow2_pos e). change (Qabs 0) with 0%Q in H1. lra. }
  destruct (mag_spec q NZ) as [M1 M2].
  assert (A : (2 ^ e < 2 ^ (mag q + 1))%Q) by lra. assert (B : (2 ^ mag q < 2 ^ (e + 1))%Q) by lra.
  apply Qpower_lt_compat_l_inv in A, B; try reflexivity. lia.
Qed.
Lemma mag_comp q r : ~ (q == 0)%Q -> (q == r)%Q -> mag q = mag r.
Proof. intros H E. symmetry. apply mag_unique. rewrite <- E. now apply mag_spec. Qed.
Global Instance rnd53_proper : Proper (Qeq ==> Qeq) rnd53.
Proof.
  intros q r E. unfold rnd53. assert (EB : Qeq_bool q 0 = Qeq_bool r 0) by (apply eq_true_iff_eq; rewrite !Qeq_bool_iff, E; tauto). rewrite <- EB. clear EB. destruct (Qeq_bool q 0) eqn:EZ; [reflexivity|].
  assert (NZ : ~ (q == 0)%Q) by (intro C; apply Qeq_bool_iff in C; congruence). rewrite (mag_comp q r NZ E).
  now rewrite E.
Qed.

(** Relative error of a rounding. *)
Definition u53 : Q := 1 # 2 ^ 53.
Definition rounding (rnd : Q -> Q) : Prop := forall q, (Qabs (rnd q - q) <= u53 * Qabs q)%Q.
Lemma rnd53_rounding : rounding rnd53.
Proof.
  intro q. unfold rnd53. destruct (Qeq_bool q 0) eqn:EZ.
  { apply Qeq_bool_iff in EZ. rewrite EZ. discriminate. }
  assert (NZ : ~ (q == 0)%Q) by (intro C; apply Qeq_bool_iff in C; congruence).
  destruct (mag_spec q NZ) as [M _]. assert (P := pow2_pos (mag q - 52)).
  assert (E : (2 ^ mag q == 2 ^ (mag q - 52) * inject_Z (2 ^ 52))%Q).
  { rewrite pow2_Z by lia. rewrite <- Qpower_plus by apply two_nz. now replace (mag q - 52 + 52)%Z with (mag q) by lia. }
  rewrite E in M. cbv zeta. set (s := (2 ^ (mag q - 52))%Q) in *. clearbody s. destruct (Qrnd_bounds (q / s)) as [B1 B2]. set (z := inject_Z (Qrnd (q / s))) in *. clearbody z.
  assert (Q1 : (q == q / s * s)%Q) by (field; lra). set (t := (q / s)%Q) in *. clearbody t.
  assert (K : (Qabs (z * s - q) <= (1 # 2) * s)%Q). { apply Qabs_case; intro; nra. }
  change (inject_Z (2 ^ 52)) with (inject_Z 4503599627370496) in M. unfold u53. change (2 ^ 53)%positive with 9007199254740992%positive.
  eapply Qle_trans; [exact K|]. set (a := Qabs q) in *. clearbody a. clear - M P. change (inject_Z 4503599627370496) with (4503599627370496 # 1) in M. lra.
Qed.

(** ** Sums *)
Definition asum (l : list Q) : Q := qsum (map Qabs l).
Lemma asum_nonneg l : (0 <= asum l)%Q.
Proof. apply qsum_nonneg. apply Forall_forall. intros q Hq. apply in_map_iff in Hq as (r & <- & _). apply Qabs_nonneg. Qed.
Lemma asum_app l l' : (asum (l ++ l') == asum l + asum l')%Q.
Proof. unfold asum. now rewrite map_app, qsum_app. Qed.
Lemma asum_perm l l' : Permutation l l' -> (asum l == asum l')%Q.
Proof. intro H. unfold asum. now apply qsum_perm, Permutation_map. Qed.
Lemma qsum_asum l : (Qabs (qsum l) <= asum l)%Q.
Proof.
  induction l as [|a l IH]; [discriminate|]. cbn [qsum]. unfold asum. cbn [map qsum]. fold (asum l).
  eapply Qle_trans; [apply Qabs_triangle|]. lra.
Qed.
Lemma abs_le a b : (Qabs a <= b)%Q <-> (- b <= a /\ a <= b)%Q.
Proof. apply Qabs_Qle_condition. Qed.

Lemma Qn_S n : (Qn (S n) == Qn n + 1)%Q.
Proof. unfold Qn. rewrite Nat2Z.inj_succ, <- Z.add_1_r, inject_Z_plus. reflexivity. Qed.
Lemma Qn_pos n : (0 <= Qn n)%Q.
Proof. unfold Qn. change 0%Q with (inject_Z 0). rewrite <- Zle_Qle. lia. Qed.

Section Sum.
  Variable rnd : Q -> Q.
  Hypothesis R : rounding rnd.

  Lemma fsum_error d l v : fsum rnd d l v -> (2 * Qn d * u53 <= 1)%Q -> (Qabs (v - qsum l) <= 2 * Qn d * u53 * asum l)%Q.
  Proof.
    induction 1 as [d|d q|d q|d l1 l2 v1 v2 H1 IH1 H2 IH2|d l l' v P H IH]; intro D.
    - assert (E := Qn_pos d). change (Qabs (0 - qsum []))%Q with 0%Q. change (asum []) with 0%Q. rewrite Qmult_0_r. apply Qle_refl.
    - assert (E : (Qabs (q - qsum [q]) == 0)%Q) by (cbn [qsum]; setoid_replace (q - (q + 0))%Q with 0%Q by ring; reflexivity).
      rewrite E. apply Qmult_le_0_compat; [|apply asum_nonneg]. assert (E1 := Qn_pos d). assert (U : (0 < u53)%Q) by reflexivity. nra.
    - assert (E : (rnd q - qsum [q] == rnd q - q)%Q) by (cbn [qsum]; ring). rewrite E. eapply Qle_trans; [apply R|].
      unfold asum. cbn [map qsum]. rewrite Qn_S. assert (E1 := Qn_pos d). assert (E2 := Qabs_nonneg q).
      assert (U : (0 < u53)%Q) by reflexivity. assert (U1 : (0 <= u53 * Qabs q)%Q) by nra. assert (U2 : (0 <= Qn d * (u53 * Qabs q))%Q) by nra. lra.
    - rewrite Qn_S in *. assert (D0 := Qn_pos d). assert (U : (0 < u53)%Q) by reflexivity.
      assert (D' : (2 * Qn d * u53 <= 1)%Q) by nra. specialize (IH1 D'). specialize (IH2 D').
      assert (S1 := asum_nonneg l1). assert (S2 := asum_nonneg l2). assert (Q1 := qsum_asum l1). assert (Q2 := qsum_asum l2).
      rewrite asum_app, qsum_app. assert (RR := R (v1 + v2)%Q).
      assert (WB : (Qabs (v1 + v2) <= (1 + 2 * Qn d * u53) * (asum l1 + asum l2))%Q).
      { apply abs_le in IH1, IH2, Q1, Q2. apply abs_le. split; lra. }
      set (w := Qabs (v1 + v2)) in *. clearbody w. set (S := (asum l1 + asum l2)%Q) in *.
      assert (K : (u53 * w <= 2 * u53 * S)%Q).
      { assert (u53 * w <= u53 * (2 * S))%Q; [|lra]. assert (0 <= S)%Q by (unfold S; lra). assert (w <= 2 * S)%Q by nra. nra. }
      apply abs_le in IH1, IH2, RR. apply abs_le. unfold S in *. split; lra.
    - rewrite <- (qsum_perm _ _ P), <- (asum_perm _ _ P). now apply IH.
  Qed.
End Sum.

(** ** Feasibility of a constraint *)
(** [f] is a double near the number [q]. *)
Definition near (f q : Q) : Prop := (Qabs (f - q) <= u53 * Qabs q)%Q.
Lemma abs_mul a b A B : (Qabs a <= A -> Qabs b <= B -> Qabs (a * b) <= A * B)%Q.
Proof. intros H1 H2. rewrite Qabs_Qmult. apply Qmult_le_compat_nonneg; split; auto using Qabs_nonneg. Qed.
Lemma u53_small : (u53 <= 1 # 1000000000000000)%Q. Proof. discriminate. Qed.

Lemma terms_close delta aF a : Forall2 near aF a -> (0 <= delta <= 1)%Q ->
  forall x y, Forall2 (fun x y => Qabs (x - y) <= delta)%Q x y -> is_bin y ->
  (Qabs (qsum (terms aF x) - dot a y) <= (2 * u53 + delta) * asum a /\ asum (terms aF x) <= 3 * asum a)%Q.
Proof.
  intros HA HD. assert (U : (0 < u53)%Q) by reflexivity. assert (US := u53_small). induction HA as [|f q aF a N HA IH]; intros x y HX HY.
  { unfold terms. cbn [combine map qsum dot]. change (asum []) with 0%Q. change (Qabs (0 - 0)) with 0%Q. split; lra. }
  destruct HX as [|xj yj x y Hj HX].
  { assert (S := asum_nonneg (q :: a)). cbn [terms combine map]. unfold terms. cbn [combine map qsum dot]. change (asum []) with 0%Q.
    change (Qabs (0 - 0)) with 0%Q. split; [apply Qmult_le_0_compat; lra|lra]. }
  inversion HY as [|? ? B HY']; subst. destruct (IH x y HX HY') as [I1 I2]. clear IH.
  unfold terms. cbn [combine map qsum dot fst snd]. fold (terms aF x). unfold asum. cbn [map qsum]. fold (asum (terms aF x)) (asum a).
  assert (QN := Qabs_nonneg q). assert (BX : (Qabs xj <= 2)%Q).
  { apply abs_le in Hj. apply abs_le. destruct B as [B|B]; rewrite B in Hj; lra. }
  assert (T1 : (Qabs ((f - q) * xj) <= u53 * Qabs q * 2)%Q) by (apply abs_mul; assumption).
  assert (T2 : (Qabs (q * (xj - yj)) <= Qabs q * delta)%Q) by (apply abs_mul; [apply Qle_refl|assumption]).
  split.
  - apply abs_le in T1, T2, I1. apply abs_le. split; lra.
  - assert (T3 : (Qabs f <= 2 * Qabs q * (3 # 4))%Q).
    { unfold near in N. set (A := Qabs q) in *. assert (q <= A /\ - A <= q)%Q by (destruct (proj1 (abs_le q A) (Qle_refl _)); split; assumption).
      apply abs_le in N. assert (u53 * A <= A * (1 # 2))%Q by nra. apply abs_le. split; lra. }
    assert (T4 : (Qabs (f * xj) <= 2 * Qabs q * (3 # 4) * 2)%Q) by (apply abs_mul; assumption). lra.
Qed.

Lemma tenth_dot a y : Forall tenth a -> is_bin y -> tenth (dot a y).
Proof.
  intro HA. revert y. induction HA as [|q a (z & E) HA IH]; intros y HY; [exists 0%Z; reflexivity|].
  destruct HY as [|b y HB HY]; [exists 0%Z; reflexivity|]. destruct (IH y HY) as (z' & E'). cbn [dot].
  destruct HB as [HB|HB]; [exists z'|exists (z + z')%Z]; rewrite HB, E', ?E, ?inject_Z_plus; field.
Qed.
Lemma tenth_gap q b : tenth q -> tenth b -> (q <= b \/ b + (1 # 10) <= q)%Q.
Proof.
  intros (z & E) (t & E'). rewrite E, E'. destruct (Z_le_gt_dec z t) as [H|H]; [left|right].
  - assert (inject_Z z <= inject_Z t)%Q by now rewrite <- Zle_Qle. unfold Qdiv. change (/ 10)%Q with (1 # 10). lra.
  - assert (inject_Z t + 1 <= inject_Z z)%Q by (change 1%Q with (inject_Z 1); rewrite <- inject_Z_plus, <- Zle_Qle; lia).
    unfold Qdiv. change (/ 10)%Q with (1 # 10). lra.
Qed.

Section Row.
  Variable rnd : Q -> Q.
  Hypothesis R : rounding rnd.

  Lemma row_verdict d delta a b aF bF x y v : Forall tenth a -> tenth b -> Forall2 near aF a -> near bF b ->
    Forall2 (fun x y => Qabs (x - y) <= delta)%Q x y -> is_bin y -> (0 <= delta <= 1)%Q ->
    (Qn d + 1 <= 100000000)%Q -> ((Qn d + 1) * (asum a + Qabs b) <= 100000000)%Q -> (delta * asum a <= 1 # 2000000)%Q ->
    fsum rnd d (terms aF x) v ->
    (violated_fl rnd v bF = true <-> (b < dot a y)%Q).
  Proof.
    intros TA TB NA NB HX HY HD D1 D2 D3 HF. unfold violated_fl. destruct (terms_close _ _ _ NA HD _ _ HX HY) as [C1 C2].
    assert (US : (u53 <= 2 # 10000000000000000)%Q) by discriminate. assert (U : (0 < u53)%Q) by reflexivity.
    assert (D0 := Qn_pos d). assert (FE := fsum_error rnd R _ _ _ HF ltac:(nra)). unfold near in NB.
    assert (SA := asum_nonneg a). assert (SB := Qabs_nonneg b). set (sa := asum a) in *. set (sb := Qabs b) in *. clearbody sa sb.
    set (st := asum (terms aF x)) in *. clearbody st. set (qs := qsum (terms aF x)) in *. clearbody qs. set (D := dot a y) in *.
    assert (TD : tenth D) by now apply tenth_dot. clearbody D.
    (* error of the computed difference *)
    assert (E1 : (2 * Qn d * u53 * st <= 6 * (Qn d * sa) * u53)%Q).
    { assert (0 <= Qn d * u53)%Q by nra. nra. }
    assert (K2 : (6 * (Qn d * sa) * u53 + 2 * u53 * sa + u53 * sb <= 12 # 100000000)%Q).
    { assert (X : (6 * (Qn d * sa) + 2 * sa + sb <= 600000000)%Q) by nra.
      assert (u53 * (6 * (Qn d * sa) + 2 * sa + sb) <= (2 # 10000000000000000) * 600000000)%Q; [|lra].
      apply Qmult_le_compat_nonneg; split; try lra. assert (0 <= Qn d * sa)%Q by nra. lra. }
    set (eta := (6 * (Qn d * sa) * u53 + 2 * u53 * sa + u53 * sb)%Q) in *.
    assert (W : (Qabs ((v - bF) - (D - b)) <= eta + delta * sa)%Q).
    { apply abs_le in FE, C1, NB. apply abs_le. unfold eta. split; lra. }
    clearbody eta. set (w := (v - bF)%Q) in *. clearbody w. assert (RW := R w). assert (RT := R tol6).
    assert (T6 : (9 # 10000000 <= rnd tol6 <= 11 # 10000000)%Q).
    { change (Qabs tol6) with tol6 in RT. assert (u53 * tol6 <= 1 # 10000000)%Q by (unfold tol6; lra). apply abs_le in RT. unfold tol6 in *. lra. }
    clear RT. rewrite Qlt_bool_iff. destruct (tenth_gap D b TD TB) as [G|G].
    - split; [|intro; lra]. intro H. exfalso. apply abs_le in W.
      assert (RH : (rnd w <= 65 # 100000000)%Q).
      { destruct (Qlt_le_dec w 0) as [N|N].
        - assert (EA : (Qabs w == - w)%Q) by (apply Qabs_neg; lra). rewrite EA in RW. apply abs_le in RW. nra.
        - assert (EA : (Qabs w == w)%Q) by (apply Qabs_pos; lra). rewrite EA in RW. apply abs_le in RW. nra. }
      destruct (Q.max_spec (rnd w) 0) as [[L E]|[L E]]; lra.
    - split; [intro; lra|]. intros _. apply abs_le in W. assert (N : (9 # 100 <= w)%Q) by lra.
      assert (EA : (Qabs w == w)%Q) by (apply Qabs_pos; lra). rewrite EA in RW. apply abs_le in RW. assert (RH : (8 # 100 <= rnd w)%Q) by nra.
      destruct (Q.max_spec (rnd w) 0) as [[L E]|[L E]]; lra.
  Qed.
End Row.

(** ** Sums from left to right are among the sums considered *)
Lemma fsum_mono rnd d l v : fsum rnd d l v -> forall d', d <= d' -> fsum rnd d' l v.
Proof.
  induction 1 as [d|d q|d q|d l1 l2 v1 v2 H1 IH1 H2 IH2|d l l' v HP H IH]; intros d' Hd.
  - constructor.
  - constructor.
  - destruct d'; [lia|]. constructor.
  - destruct d'; [lia|]. constructor; [apply IH1|apply IH2]; lia.
  - eapply fs_perm; [exact HP|]. now apply IH.
Qed.
Lemma seq_fsum_from rnd l : forall d l0 v, fsum rnd (S d) l0 v ->
  fsum rnd (S d + length l) (l0 ++ l) (fold_left (fun acc q => rnd (acc + rnd q)%Q) l v).
Proof.
  induction l as [|q l IH]; intros d l0 v H; cbn [fold_left length]; [rewrite app_nil_r, Nat.add_0_r; exact H|].
  replace (S d + S (length l)) with (S (S d) + length l) by lia. replace (l0 ++ q :: l) with ((l0 ++ [q]) ++ l) by (rewrite <- app_assoc; reflexivity).
  apply IH. apply fs_add; [exact H|]. constructor.
Qed.
Lemma seq_fsum rnd l : fsum rnd (S (length l)) l (fold_left (fun acc q => rnd (acc + rnd q)%Q) l 0%Q).
Proof. apply (seq_fsum_from rnd l 0 [] 0%Q). constructor. Qed.
