(** Rounding of the comparisons of bounds, gaps and times (C74). *)
From Coq Require Import Qpower Qabs Qround.
From Verif Require Import Base BaseFacts Spec Instance Bounds Rounding RoundingFacts RoundingStore OptModels Initial Refine CostRefine Merge
  Violations BigM Adaptive BoundsFl.

Lemma u53_pos : (0 < u53)%Q. Proof. reflexivity. Qed.
Lemma u53_val : (u53 == 1 # 9007199254740992)%Q. Proof. reflexivity. Qed.

Lemma terms_dot c : forall x, (qsum (terms c x) == dot c x)%Q.
Proof. induction c as [|a c IH]; intros [|y x]; try reflexivity. unfold terms. cbn [combine map qsum dot fst snd]. fold (terms c x). now rewrite IH. Qed.

Section Any.
  Variable rnd : Q -> Q.
  Hypothesis R : rounding rnd.

  Lemma rnd_pos q : (0 < q)%Q -> (q * (1 - u53) <= rnd q <= q * (1 + u53))%Q.
  Proof. intro H. assert (X := R q). rewrite (Qabs_pos q) in X by lra. apply abs_le in X. lra. Qed.
  Lemma rnd_neg q : (q < 0)%Q -> (q * (1 + u53) <= rnd q <= q * (1 - u53))%Q.
  Proof. intro H. assert (X := R q). rewrite (Qabs_neg q) in X by lra. apply abs_le in X. lra. Qed.
  Lemma rnd_zero q : (q == 0)%Q -> (rnd q == 0)%Q.
  Proof.
    intro H. assert (X := R q). assert (E : (Qabs q == 0)%Q) by (rewrite H; reflexivity). rewrite E in X. apply abs_le in X. lra.
  Qed.
  Lemma rnd_sign q : ((0 < rnd q <-> 0 < q) /\ (rnd q == 0 <-> q == 0) /\ (rnd q < 0 <-> q < 0))%Q.
  Proof.
    assert (U := u53_small). destruct (Q_dec q 0) as [[H|H]|H].
    - assert (X := rnd_neg q H). assert (rnd q < 0)%Q by nra. repeat split; intro; lra.
    - assert (X := rnd_pos q H). assert (0 < rnd q)%Q by nra. repeat split; intro; lra.
    - assert (X := rnd_zero q H). repeat split; intro; lra.
  Qed.
  (** Relative error of the rounded gap. *)
  Lemma gap_error u l : ~ (l == 0)%Q -> (Qabs (rnd (rnd (u - l) / l) - (u - l) / l) <= 3 * u53 * Qabs ((u - l) / l))%Q.
  Proof.
    intro NL. set (d := (u - l)%Q). assert (X := R d). assert (Y := R (rnd d / l)%Q). set (r := rnd d) in *. clearbody r.
    set (g := (d / l)%Q). assert (Z : (Qabs (r / l - g) <= u53 * Qabs g)%Q).
    { assert (E : (r / l - g == (r - d) * / l)%Q) by (unfold g; field; exact NL). rewrite E, Qabs_Qmult.
      assert (E2 : (Qabs g == Qabs d * Qabs (/ l))%Q) by (unfold g, Qdiv; apply Qabs_Qmult). rewrite E2.
      assert (P := Qabs_nonneg (/ l)). nra. }
    set (h := (r / l)%Q) in *. clearbody h g. set (f := rnd h) in *. clearbody f. assert (U := u53_small). assert (U0 := u53_pos).
    assert (W : (Qabs h <= (1 + u53) * Qabs g)%Q).
    { setoid_replace h with (h - g + g)%Q by ring. eapply Qle_trans; [apply Qabs_triangle|]. lra. }
    setoid_replace (f - g)%Q with (f - h + (h - g))%Q by ring. eapply Qle_trans; [apply Qabs_triangle|].
    assert (P := Qabs_nonneg g). assert (V : (u53 * Qabs h <= u53 * ((1 + u53) * Qabs g))%Q) by nra.
    assert (T : (u53 * ((1 + u53) * Qabs g) <= 2 * u53 * Qabs g)%Q). { assert (0 <= u53 * Qabs g)%Q by nra. nra. }
    assert (0 <= u53 * Qabs g)%Q by nra. lra.
  Qed.

  (** Same kind of answer as in exact arithmetic; a finite gap has the right sign and is off by a factor of at most 1 + 2^-51. *)
  Lemma gap_shape vUB npU vLB npL : match compute_gap vUB npU vLB npL, gap_fl rnd vUB npU vLB npL with
    | Ok (Some (Fin g)), Ok (Some (Fin f)) => (Qabs (f - g) <= (1 # 2 ^ 51) * Qabs g)%Q
    | r, r' => r = r'
    end.
  Proof.
    destruct vLB as [|l|], vUB as [|u|]; try reflexivity. cbn [compute_gap gap_fl]. destruct (Qeq_bool l 0) eqn:EL.
    - destruct (npU || npL); [|reflexivity]. apply Qeq_bool_iff in EL. destruct (rnd_sign (u - l)%Q) as (S1 & S2 & S3).
      assert (A : Qeq_bool (rnd (u - l)) 0 = Qeq_bool u 0). { apply eq_true_iff_eq. rewrite !Qeq_bool_iff, S2. split; intro; lra. }
      assert (B : Qlt_bool 0 (rnd (u - l)) = Qlt_bool 0 u). { apply eq_true_iff_eq. rewrite !Qlt_bool_iff, S1. split; intro; lra. }
      rewrite A, B. destruct (Qeq_bool u 0); [reflexivity|]. destruct (Qlt_bool 0 u); reflexivity.
    - assert (NL : ~ (l == 0)%Q) by (intro H; apply Qeq_bool_iff in H; congruence). eapply Qle_trans; [exact (gap_error u l NL)|]. apply Qmult_le_compat_r; [discriminate|apply Qabs_nonneg].
  Qed.
  Lemma gap_sign u l : (0 < l)%Q -> ((rnd (rnd (u - l) / l) <= 0 <-> u <= l) /\ (rnd (rnd (u - l) / l) == 0 <-> u == l))%Q.
  Proof.
    intro L. destruct (rnd_sign (u - l)%Q) as (S1 & S2 & S3). destruct (rnd_sign (rnd (u - l) / l)%Q) as (T1 & T2 & T3).
    set (r := rnd (u - l)) in *. clearbody r.
    assert (D : (r == r / l * l)%Q) by (field; lra). set (h := (r / l)%Q) in *. clearbody h. set (f := rnd h) in *. clearbody f.
    split; split; intro H.
    - destruct (Qlt_le_dec 0 (u - l)) as [C|C]; [|lra]. apply S1 in C. assert (0 < h)%Q by nra. apply T1 in H0. lra.
    - destruct (Qlt_le_dec 0 f) as [C|C]; [|exact C]. apply T1 in C. assert (0 < r)%Q by nra. apply S1 in H0. lra.
    - apply T2 in H. assert (r == 0)%Q by nra. apply S2 in H0. lra.
    - apply T2. assert (r == 0)%Q by (apply S2; lra). nra.
  Qed.
  (** The test of the target gap. *)
  Lemma gap_test u l t : (0 < l)%Q -> (0 <= t)%Q ->
    (rnd (rnd (u - l) / l) <= t -> u <= l * (1 + t * (1 + (1 # 2 ^ 51))))%Q /\ (u <= l * (1 + t * (1 - (1 # 2 ^ 51))) -> rnd (rnd (u - l) / l) <= t)%Q.
  Proof.
    intros L T. destruct (gap_sign u l L) as [S _]. assert (U := u53_small). assert (U0 := u53_pos).
    change (1 # 2 ^ 51)%Q with (1 # 2251799813685248)%Q. assert (UV := u53_val).
    assert (V : ((1 # 2251799813685248) == 4 * u53)%Q) by (rewrite UV; reflexivity). rewrite V. clear UV V.
    destruct (Qlt_le_dec l u) as [C|C].
    - assert (Z : ~ (l == 0)%Q) by lra. assert (E := gap_error u l Z). assert (D : (u - l == (u - l) / l * l)%Q) by (field; lra).
      set (f := rnd (rnd (u - l) / l)) in *. clearbody f. set (g := ((u - l) / l)%Q) in *. clearbody g.
      assert (G : (0 < g)%Q) by nra. rewrite (Qabs_pos g) in E by lra. apply abs_le in E. destruct E as [E1 E2]. clear S.
      assert (UL : (u == l + g * l)%Q) by lra. clear D. split; intro H.
      + assert (K : (g * (1 - 3 * u53) <= t)%Q) by lra. assert (K2 : (g <= t * (1 + 4 * u53))%Q) by nra. nra.
      + assert (K : (g <= t * (1 - 4 * u53))%Q) by nra. nra.
    - split; intro H; [|apply S in C; lra]. assert (0 <= l * (t * (1 + 4 * u53)))%Q by (apply Qmult_le_0_compat; [lra|]; apply Qmult_le_0_compat; lra). lra.
  Qed.

  (** A bound plus or minus a small constant. *)
  Lemma add_fl a c B : (Qabs a <= B)%Q -> (1 <= B)%Q -> (Qabs c <= 1 # 500)%Q -> (Qabs (rnd (a + c) - (a + c)) <= (501 # 500) * B * u53)%Q.
  Proof.
    intros HA HB HC. eapply Qle_trans; [apply R|]. assert (X := Qabs_triangle a c). assert (U := u53_pos).
    assert (Y : (Qabs (a + c) <= (501 # 500) * B)%Q) by lra. nra.
  Qed.
  Lemma const_fl c : (0 < c <= 1 # 1000)%Q -> (Qabs (rnd c - c) <= (1 # 1000) * u53)%Q /\ (0 < rnd c <= 1 # 500)%Q.
  Proof.
    intros [H1 H2]. assert (X := R c). assert (Y := rnd_pos c H1). rewrite (Qabs_pos c) in X by lra. assert (U := u53_small). assert (U0 := u53_pos).
    split; [|split; nra]. eapply Qle_trans; [exact X|]. nra.
  Qed.
  Lemma shift_fl a c B : (Qabs a <= B)%Q -> (1 <= B)%Q -> (0 < c <= 1 # 1000)%Q ->
    (Qabs (rnd (a + rnd c) - (a + c)) <= (1 # 2 ^ 52) * B)%Q /\ (Qabs (rnd (a + - rnd c) - (a - c)) <= (1 # 2 ^ 52) * B)%Q.
  Proof.
    intros HA HB HC. destruct (const_fl c HC) as [C1 C2].
    assert (X := add_fl a (rnd c) B HA HB). assert (Y := add_fl a (- rnd c) B HA HB). rewrite Qabs_opp in Y. rewrite (Qabs_pos (rnd c)) in X, Y by lra.
    specialize (X ltac:(lra)). specialize (Y ltac:(lra)). change (1 # 2 ^ 52)%Q with (1 # 4503599627370496)%Q.
    assert (V : ((1 # 4503599627370496) == 2 * u53)%Q) by (rewrite u53_val; reflexivity). rewrite V. assert (U := u53_pos).
    assert (K : ((501 # 500) * B * u53 + (1 # 1000) * u53 <= 2 * u53 * B)%Q) by nra.
    apply abs_le in X, Y, C1. split; apply abs_le; lra.
  Qed.

  (** UpperBounder.py:110-112 *)
  Lemma prune_fl_spec costs l B i : (Qabs l <= B)%Q -> (1 <= B)%Q ->
    (In i (prune_fl rnd costs (Fin l)) -> i < length costs /\ (nth i costs 0 <= l - (1 # 1000) + (1 # 2 ^ 52) * B)%Q) /\
    (i < length costs -> (nth i costs 0 <= l - (1 # 1000) - (1 # 2 ^ 52) * B)%Q -> In i (prune_fl rnd costs (Fin l))).
  Proof.
    intros HL HB. destruct (shift_fl l (1 # 1000) B HL HB ltac:(lra)) as [_ X]. unfold prune_fl. rewrite filter_In, in_seq. cbn [fl_add ext_leb].
    rewrite Qle_bool_iff. apply abs_le in X. split.
    - intros [H1 H2]. split; [lia|lra].
    - intros H1 H2. split; [lia|lra].
  Qed.
  Lemma prune_fl_inf costs : prune_fl rnd costs NInf = [].
  Proof. unfold prune_fl. cbn [fl_add]. induction (seq 0 (length costs)); [reflexivity|exact IHl]. Qed.
  (** AdaptivePartitioner.py:147-148, UpperBounder.py:34-35 *)
  Lemma not_above_spec v u B : (Qabs u <= B)%Q -> (1 <= B)%Q ->
    (not_above_fl rnd v (Fin u) = true -> v <= u + (1 # 100000000) + (1 # 2 ^ 52) * B)%Q /\
    (v <= u + (1 # 100000000) - (1 # 2 ^ 52) * B -> not_above_fl rnd v (Fin u) = true)%Q.
  Proof.
    intros HU HB. destruct (shift_fl u (1 # 100000000) B HU HB ltac:(lra)) as [X _]. unfold not_above_fl. cbn [fl_add ext_leb]. rewrite Qle_bool_iff.
    apply abs_le in X. split; intro; lra.
  Qed.

  (** LowerBounder.py:107-119: the new bound exceeds the old one, and the true objective of the solution is near it. *)
  Lemma incumbent_fl_spec feas cands objs vUB vLB l x o : incumbent_loop_fl rnd feas cands objs vUB vLB l = Some (x, o) ->
    exists i, In i l /\ x = nth i cands [] /\ o = nth i objs 0%Q /\ feas x = true /\ ext_leb (Fin o) vUB = true /\
      ext_leb (fl_add rnd vLB (rnd (1 # 100000000))) (Fin o) = true.
  Proof.
    induction l as [|i l IH]; [discriminate|]. cbn [incumbent_loop_fl].
    destruct (ext_leb (Fin (nth i objs 0%Q)) vUB && ext_leb (fl_add rnd vLB (rnd (1 # 100000000))) (Fin (nth i objs 0%Q))) eqn:C.
    - apply andb_prop in C as [C1 C2]. destruct (feas (nth i cands [])) eqn:F.
      + intro E. injection E as <- <-. exists i. repeat split; auto. now left.
      + intro E. destruct (IH E) as (j & J & K). exists j. split; [now right|exact K].
    - intro E. destruct (IH E) as (j & J & K). exists j. split; [now right|exact K].
  Qed.
  Lemma incumbent_fl_ok c d feas cands objs vUB l order x o :
    (Qabs l <= 10000000)%Q -> (2 * Qn d * u53 <= 1)%Q ->
    (forall i, In i order -> fsum rnd d (terms c (nth i cands [])) (nth i objs 0%Q)) ->
    incumbent_loop_fl rnd feas cands objs vUB (Fin l) order = Some (x, o) ->
    (l < o)%Q /\ ext_leb (Fin o) vUB = true /\ In x (map (fun i => nth i cands []) order) /\ feas x = true /\
    (Qabs (o - dot c x) <= (2 * Qn d * u53) * asum (terms c x))%Q.
  Proof.
    intros HL HD HS E. destruct (incumbent_fl_spec _ _ _ _ _ _ _ _ E) as (i & I1 & -> & -> & I4 & I5 & I6).
    destruct (shift_fl l (1 # 100000000) 10000000 HL ltac:(lra) ltac:(lra)) as [X _]. apply abs_le in X. cbn [fl_add ext_leb] in I6. apply Qle_bool_iff in I6.
    split; [|split; [exact I5|split; [apply in_map_iff; exists i; auto|split; [exact I4|]]]].
    - change (1 # 2 ^ 52)%Q with (1 # 4503599627370496)%Q in X. lra.
    - assert (F := fsum_error rnd R d _ _ (HS i I1) HD). rewrite terms_dot in F. exact F.
  Qed.

  (** TimeManager.py:27-39 *)
  Lemma remaining_fl_spec limit now start : (0 <= limit)%Q -> (start <= now)%Q ->
    (0 < remaining_fl rnd limit now start -> now - start < limit * (1 + (1 # 2 ^ 52)))%Q /\
    (now - start < limit * (1 - (1 # 2 ^ 52)) -> 0 < remaining_fl rnd limit now start)%Q.
  Proof.
    intros HL HN. unfold remaining_fl. destruct (rnd_sign (limit - rnd (now - start))%Q) as (S1 & _ & _). assert (X := R (now - start)%Q).
    rewrite (Qabs_pos (now - start)) in X by lra. apply abs_le in X. set (e := rnd (now - start)) in *. clearbody e. set (t := (now - start)%Q) in *.
    assert (T : (0 <= t)%Q) by (unfold t; lra). clearbody t. change (1 # 2 ^ 52)%Q with (1 # 4503599627370496)%Q.
    assert (V : ((1 # 4503599627370496) == 2 * u53)%Q) by (rewrite u53_val; reflexivity). rewrite V. assert (U := u53_small). assert (U0 := u53_pos). split.
    - intro H. assert (P : (0 < rnd (limit - e))%Q).
      { destruct (Q.max_spec (rnd (limit - e)) 0) as [[_ M]|[_ M]]; rewrite M in H; lra. }
      apply S1 in P. nra.
    - intro H. apply Q.max_lt_iff. left. apply S1. nra.
  Qed.
End Any.

(** ** Numbers with 53 bits *)
Definition is53 (q : Q) : Prop := exists z e, (q == inject_Z z * 2 ^ e)%Q /\ (Z.abs z < 2 ^ 53)%Z.
(** The quotient by the last bit is an integer. *)
Lemma is53_grid q : is53 q -> ~ (q == 0)%Q -> exists z, (q == inject_Z z * 2 ^ (mag q - 52))%Q /\ (2 ^ 52 <= Z.abs z < 2 ^ 53)%Z.
Proof.
  intros (z & e & E & B) NZ. destruct (mag_spec q NZ) as [M1 M2]. set (m := mag q) in *. clearbody m.
  assert (A : (Qabs q == inject_Z (Z.abs z) * 2 ^ e)%Q).
  { rewrite E, Qabs_Qmult. rewrite (Qabs_pos (2 ^ e)) by apply Qlt_le_weak, pow2_pos. apply Qmult_comp; [|reflexivity]. reflexivity. }
  assert (Z1 : (inject_Z (Z.abs z) < 2 ^ 53)%Q). { rewrite <- (pow2_Z 53) by lia. now rewrite <- Zlt_Qlt. }
  assert (K : (m - 52 <= e)%Z).
  { assert (L : (2 ^ m < 2 ^ (53 + e))%Q).
    { eapply Qle_lt_trans; [exact M1|]. rewrite A, pow2_split. apply Qmult_lt_compat_r; [apply pow2_pos|exact Z1]. }
    destruct (Z_lt_le_dec m (53 + e)) as [H|H]; [lia|]. apply pow2_le in H. exfalso. lra. }
  exists (z * 2 ^ (e - (m - 52)))%Z.
  assert (E2 : (q == inject_Z (z * 2 ^ (e - (m - 52))) * 2 ^ (m - 52))%Q).
  { rewrite E, inject_Z_mult, pow2_Z by lia. rewrite <- Qmult_assoc, <- pow2_split. replace (e - (m - 52) + (m - 52))%Z with e by lia. reflexivity. }
  split; [exact E2|]. set (y := (z * 2 ^ (e - (m - 52)))%Z) in *. clearbody y.
  assert (A2 : (Qabs q == inject_Z (Z.abs y) * 2 ^ (m - 52))%Q).
  { rewrite E2, Qabs_Qmult. rewrite (Qabs_pos (2 ^ (m - 52))) by apply Qlt_le_weak, pow2_pos. apply Qmult_comp; [|reflexivity]. reflexivity. }
  rewrite A2 in M1, M2. assert (P := pow2_pos (m - 52)).
  assert (X1 : (2 ^ m == inject_Z (2 ^ 52) * 2 ^ (m - 52))%Q). { rewrite pow2_Z by lia. rewrite <- pow2_split. now replace (52 + (m - 52))%Z with m by lia. }
  assert (X2 : (2 ^ (m + 1) == inject_Z (2 ^ 53) * 2 ^ (m - 52))%Q). { rewrite pow2_Z by lia. rewrite <- pow2_split. now replace (53 + (m - 52))%Z with (m + 1)%Z by lia. }
  rewrite X1 in M1. rewrite X2 in M2. apply Qmult_le_r in M1; [|exact P]. apply Qmult_lt_r in M2; [|exact P].
  rewrite <- Zle_Qle in M1. rewrite <- Zlt_Qlt in M2. lia.
Qed.
(** A number less than half a bit above one with 53 bits is rounded to it. *)
Lemma rnd53_absorb q d : is53 q -> (0 < q)%Q -> (0 <= d)%Q -> (d < 2 ^ (mag q - 53))%Q -> (rnd53 (q + d) == q)%Q.
Proof.
  intros H Q0 D0 D1. assert (NZ : ~ (q == 0)%Q) by lra. destruct (is53_grid q H NZ) as (z & E & B1 & B2). set (m := mag q) in *. clearbody m.
  assert (P := pow2_pos (m - 52)). assert (HH : (2 ^ (m - 52) == 2 * 2 ^ (m - 53))%Q). { replace (m - 52)%Z with (m - 53 + 1)%Z by lia. apply pow2_S. }
  assert (ZP : (0 < z)%Z). { rewrite Zlt_Qlt. change (inject_Z 0) with 0%Q. destruct (Qlt_le_dec 0 (inject_Z z)) as [?|C]; [assumption|]. exfalso. rewrite E in Q0. nra. }
  rewrite Z.abs_eq in B1, B2 by lia.
  assert (X1 : (2 ^ m == inject_Z (2 ^ 52) * 2 ^ (m - 52))%Q). { rewrite pow2_Z by lia. rewrite <- pow2_split. now replace (52 + (m - 52))%Z with m by lia. }
  assert (X2 : (2 ^ (m + 1) == inject_Z (2 ^ 53) * 2 ^ (m - 52))%Q). { rewrite pow2_Z by lia. rewrite <- pow2_split. now replace (53 + (m - 52))%Z with (m + 1)%Z by lia. }
  assert (Z1 : (inject_Z (2 ^ 52) <= inject_Z z)%Q) by now rewrite <- Zle_Qle. assert (Z2 : (inject_Z z <= inject_Z (2 ^ 53) - 1)%Q).
  { setoid_replace (inject_Z (2 ^ 53) - 1)%Q with (inject_Z (2 ^ 53 - 1)) by reflexivity. rewrite <- Zle_Qle. lia. }
  assert (M : mag (q + d)%Q = m).
  { apply mag_unique. rewrite Qabs_pos by lra. rewrite X1, X2, E. set (s := (2 ^ (m - 52))%Q) in *. clearbody s.
    set (a := inject_Z (2 ^ 52)) in *. set (b := inject_Z (2 ^ 53)) in *. clearbody a b. split; nra. }
  unfold rnd53. destruct (Qeq_bool (q + d) 0) eqn:EZ; [apply Qeq_bool_iff in EZ; lra|]. cbv zeta. rewrite M.
  assert (R : Qrnd ((q + d) / 2 ^ (m - 52)) = z).
  { apply Qrnd_near. assert (F : ((q + d) / 2 ^ (m - 52) == inject_Z z + d / 2 ^ (m - 52))%Q) by (rewrite E; field; lra). rewrite F.
    assert (G : (0 <= d / 2 ^ (m - 52))%Q) by (apply Qle_shift_div_l; lra). assert (K : (d / 2 ^ (m - 52) < 1 # 2)%Q) by (apply Qlt_shift_div_r; lra). lra. }
  rewrite R. now rewrite E.
Qed.
Lemma rnd53_fixed q : is53 q -> (0 <= q)%Q -> (rnd53 q == q)%Q.
Proof.
  intros H Q0. destruct (Qeq_dec q 0) as [E|E]; [unfold rnd53; rewrite (proj2 (Qeq_bool_iff q 0) E); now rewrite E|].
  assert (X := rnd53_absorb q 0 H ltac:(lra) ltac:(lra) (pow2_pos _)). rewrite <- X at 2. apply rnd53_proper. ring.
Qed.
Lemma mag_lower q e : (2 ^ e <= q)%Q -> (e <= mag q)%Z.
Proof.
  intro H. assert (P := pow2_pos e). assert (NZ : ~ (q == 0)%Q) by lra. destruct (mag_spec q NZ) as [_ M]. rewrite Qabs_pos in M by lra.
  destruct (Z_lt_le_dec (mag q) e) as [C|C]; [|lia]. assert (L := pow2_le (mag q + 1) e ltac:(lia)). lra.
Qed.
(** Above 2^27 the tolerance 1e-8 is lost. *)
Lemma tolerance_lost u : is53 u -> (2 ^ 27 <= u)%Q -> (rnd53 (u + rnd53 (1 # 100000000)) == u)%Q.
Proof.
  intros H L. assert (M := mag_lower u 27 L). assert (P : (0 < u)%Q) by (eapply Qlt_le_trans; [apply (pow2_pos 27)|exact L]). apply rnd53_absorb; auto.
  - vm_compute. discriminate.
  - eapply Qlt_le_trans; [|apply (pow2_le (-26))]; [|lia]. vm_compute. reflexivity.
Qed.
Lemma not_above_large u v : is53 u -> (2 ^ 27 <= u)%Q -> not_above_fl rnd53 v (Fin u) = Qle_bool v u.
Proof. intros H L. unfold not_above_fl. cbn [fl_add ext_leb]. apply eq_true_iff_eq. rewrite !Qle_bool_iff. now rewrite (tolerance_lost u H L). Qed.
(** Three objectives 0.1, 0.2 and their sum, which is above 0.3 in doubles. *)
Definition exSum_cands : list (list Q) := [[1; 0]; [1; 1]]%Q.
Definition exSum_c : list Q := [1 # 10; 2 # 10]%Q.
Definition exSum_objs (rnd : Q -> Q) : list Q := map (fun x => fold_left (fun acc q => rnd (acc + rnd q)%Q) (terms (map rnd exSum_c) x) 0%Q) exSum_cands.
Lemma incumbent_lost : incumbent_loop_fl (fun q => q) (fun _ => true) exSum_cands (map (dot exSum_c) exSum_cands) (Fin (3 # 10)) (Fin 0) [1; 0]%nat = Some ([1; 1]%Q, dot exSum_c [1; 1]%Q) /\
  (dot exSum_c [1; 1] == 3 # 10)%Q /\
  exists o, incumbent_loop_fl rnd53 (fun _ => true) exSum_cands (exSum_objs rnd53) (Fin (rnd53 (3 # 10))) (Fin 0) [1; 0]%nat = Some ([1; 0]%Q, o) /\ (o == rnd53 (1 # 10))%Q.
Proof. split; [vm_compute; reflexivity|]. split; [reflexivity|]. eexists. split; [vm_compute; reflexivity|]. vm_compute. reflexivity. Qed.

(** ** Progress *)
Lemma is53_Z z : (Z.abs z < 2 ^ 53)%Z -> is53 (inject_Z z).
Proof. intro H. exists z, 0%Z. split; [|exact H]. change (2 ^ 0)%Q with 1%Q. ring. Qed.
Lemma percent_exact s nb : 0 < nb -> (100 * Z.of_nat s + Z.of_nat nb < 2 ^ 53)%Z ->
  percent_fl rnd53 s nb = (100 * Z.of_nat s / Z.of_nat nb)%Z.
Proof.
  intros HN HB. set (a := (100 * Z.of_nat s)%Z) in *. set (b := Z.of_nat nb) in *. assert (B0 : (0 < b)%Z) by (unfold b; lia). assert (A0 : (0 <= a)%Z) by (unfold a; lia).
  unfold percent_fl. set (q := (a / b)%Z). set (r := (a mod b)%Z). assert (DM := Z.div_mod a b ltac:(lia)). assert (RB := Z.mod_pos_bound a b B0).
  fold q r in DM, RB. assert (Q0 : (0 <= q)%Z) by (apply Z.div_pos; lia).
  assert (E : (100 * Qn s / Qn nb == inject_Z a / inject_Z b)%Q). { unfold Qn, a, b. rewrite inject_Z_mult. reflexivity. }
  assert (BP : (0 < inject_Z b)%Q) by (change 0%Q with (inject_Z 0); now rewrite <- Zlt_Qlt).
  assert (F : (inject_Z a / inject_Z b == inject_Z q + inject_Z r / inject_Z b)%Q).
  { rewrite DM at 1. rewrite inject_Z_plus, inject_Z_mult. field. lra. }
  assert (Q1 : (Z.abs q < 2 ^ 53)%Z). { assert (q <= a)%Z by nia. lia. }
  assert (U := u53_pos).
  assert (FL : forall y, (inject_Z q <= y)%Q -> (y < inject_Z q + 1)%Q -> Qfloor y = q).
  { intros y Y1 Y2. assert (L1 := Qfloor_le y). assert (L2 := Qlt_floor y).
    assert (K1 : (inject_Z q < inject_Z (Qfloor y + 1))%Q) by lra. rewrite <- Zlt_Qlt in K1.
    assert (K2 : (inject_Z (Qfloor y) < inject_Z (q + 1))%Q) by (rewrite inject_Z_plus; change (inject_Z 1) with 1%Q; lra). rewrite <- Zlt_Qlt in K2. lia. }
  apply FL; rewrite E, F; destruct (Z.eq_dec r 0) as [R0|R0].
  - rewrite R0. setoid_replace (inject_Z q + inject_Z 0 / inject_Z b)%Q with (inject_Z q) by (change (inject_Z 0) with 0%Q; field; lra).
    rewrite rnd53_fixed; [lra|now apply is53_Z|]. change 0%Q with (inject_Z 0). now rewrite <- Zle_Qle.
  - set (y := (inject_Z q + inject_Z r / inject_Z b)%Q).
    assert (R1 : (1 <= inject_Z r)%Q) by (change 1%Q with (inject_Z 1); rewrite <- Zle_Qle; lia).
    assert (Yb : (y * inject_Z b == inject_Z a)%Q) by (unfold y; rewrite <- F; field; lra).
    assert (YQ : (y * inject_Z b == inject_Z q * inject_Z b + inject_Z r)%Q) by (unfold y; field; lra).
    assert (AB : (inject_Z a + inject_Z b < inject_Z (2 ^ 53))%Q) by (rewrite <- inject_Z_plus, <- Zlt_Qlt; exact HB).
    assert (UV : (u53 * inject_Z (2 ^ 53) == 1)%Q) by reflexivity.
    assert (QP : (0 <= inject_Z q)%Q) by (change 0%Q with (inject_Z 0); now rewrite <- Zle_Qle).
    assert (YP : (0 < y)%Q) by nra. destruct (rnd_pos rnd53 rnd53_rounding y YP) as [Z1 _]. set (f := rnd53 y) in *. clearbody f.
    set (p := inject_Z (2 ^ 53)) in *. clearbody p. set (A := inject_Z a) in *. set (B := inject_Z b) in *. set (q' := inject_Z q) in *. set (r' := inject_Z r) in *. clearbody y A B q' r'.
    assert (K : (q' * B <= f * B)%Q); [|nra]. assert (K1 : (y * u53 * B < 1)%Q); [|nra]. assert (y * u53 * B == u53 * A)%Q by (rewrite <- Yb; ring). nra.
  - rewrite R0. setoid_replace (inject_Z q + inject_Z 0 / inject_Z b)%Q with (inject_Z q) by (change (inject_Z 0) with 0%Q; field; lra).
    rewrite rnd53_fixed; [lra|now apply is53_Z|]. change 0%Q with (inject_Z 0). now rewrite <- Zle_Qle.
  - set (y := (inject_Z q + inject_Z r / inject_Z b)%Q).
    assert (R1 : (inject_Z r + 1 <= inject_Z b)%Q) by (change 1%Q with (inject_Z 1); rewrite <- inject_Z_plus, <- Zle_Qle; lia).
    assert (R2 : (1 <= inject_Z r)%Q) by (change 1%Q with (inject_Z 1); rewrite <- Zle_Qle; lia).
    assert (Yb : (y * inject_Z b == inject_Z a)%Q) by (unfold y; rewrite <- F; field; lra).
    assert (YQ : (y * inject_Z b == inject_Z q * inject_Z b + inject_Z r)%Q) by (unfold y; field; lra).
    assert (AB : (inject_Z a + inject_Z b < inject_Z (2 ^ 53))%Q) by (rewrite <- inject_Z_plus, <- Zlt_Qlt; exact HB).
    assert (UV : (u53 * inject_Z (2 ^ 53) == 1)%Q) by reflexivity.
    assert (QP : (0 <= inject_Z q)%Q) by (change 0%Q with (inject_Z 0); now rewrite <- Zle_Qle).
    assert (YP : (0 < y)%Q) by nra. destruct (rnd_pos rnd53 rnd53_rounding y YP) as [_ Z1]. set (f := rnd53 y) in *. clearbody f.
    set (p := inject_Z (2 ^ 53)) in *. clearbody p. set (A := inject_Z a) in *. set (B := inject_Z b) in *. set (q' := inject_Z q) in *. set (r' := inject_Z r) in *. clearbody y A B q' r'.
    assert (K : (f * B < (q' + 1) * B)%Q); [|nra]. assert (K1 : (y * u53 * B < 1)%Q); [|nra]. assert (y * u53 * B == u53 * A)%Q by (rewrite <- Yb; ring). nra.
Qed.

(** The percentages printed by a loop over s = 0, …, nb-1. *)
Definition printed (rnd : Q -> Q) (nb : nat) : list Z :=
  flat_map (fun s => match progress_fl rnd s nb with Some p => [p] | None => [] end) (seq 0 nb).
Lemma printed_in nb p : 0 < nb -> (101 * Z.of_nat nb < 2 ^ 53)%Z ->
  In p (printed rnd53 nb) <-> exists s, s < nb /\ p = (100 * Z.of_nat s / Z.of_nat nb)%Z /\ (p mod 10 = 0)%Z.
Proof.
  intros HN HB. unfold printed. rewrite in_flat_map. split.
  - intros (s & Hs & H). apply in_seq in Hs. unfold progress_fl in H. rewrite percent_exact in H by lia.
    destruct (_ =? 0)%Z eqn:E in H; [|contradiction]. destruct H as [<-|[]]. apply Z.eqb_eq in E. exists s. split; [lia|auto].
  - intros (s & Hs & -> & E). exists s. split; [apply in_seq; lia|]. unfold progress_fl. rewrite percent_exact by lia. apply Z.eqb_eq in E. rewrite E. now left.
Qed.
Lemma printed_all nb j : 100 <= nb -> (101 * Z.of_nat nb < 2 ^ 53)%Z -> (0 <= j < 10)%Z -> In (10 * j)%Z (printed rnd53 nb).
Proof.
  intros HN HB HJ. apply printed_in; [lia|exact HB|]. set (b := Z.of_nat nb). assert (B0 : (100 <= b)%Z) by (unfold b; lia).
  (* the first s with 100 s >= 10 j nb *)
  set (s := ((10 * j * b + 99) / 100)%Z). assert (D := Z.div_mod (10 * j * b + 99) 100 ltac:(lia)). assert (M := Z.mod_pos_bound (10 * j * b + 99) 100 ltac:(lia)).
  fold s in D. assert (S0 : (0 <= s)%Z) by (apply Z.div_pos; nia). assert (S1 : (s < b)%Z) by nia.
  exists (Z.to_nat s). split; [unfold b in *; lia|]. rewrite Z2Nat.id by exact S0. split.
  - apply Z.div_unique with (r := (100 * s - 10 * j * b)%Z); nia.
  - rewrite Z.mul_comm. apply Z.mod_mul. lia.
Qed.
