(** Risk levels just below a multiple of 1/N (C77): what each part of the code tolerates. *)
From Coq Require Import Qabs Qpower.
From Verif Require Import Rounding RoundingFacts DoubleFloor.
From Verif Require Import Base BaseFacts Spec Instance InstanceFacts OptModels OptFacts PartitionFacts Initial Bounds BoundsFacts Refine RefineFacts CostRefine Merge
  Violations BigM InitialFacts Adaptive AdaptiveSpec Milp MilpFacts.

Lemma inject_Z_sub a b : (inject_Z (a - b) == inject_Z a - inject_Z b)%Q.
Proof. unfold Z.sub, Qminus. now rewrite inject_Z_plus, inject_Z_opp. Qed.
Lemma count_iff c q P : (0 < P)%Q -> ((1 - q) <= (1 / P) * (P - Qn c))%Q <-> (Z.of_nat c <= Qfloor (q * P))%Z.
Proof.
  intro HP. assert (E : (1 / P * (P - Qn c) == 1 - Qn c / P)%Q) by (field; lra). rewrite E. clear E.
  assert (D : (Qn c / P * P == Qn c)%Q) by (field; lra). split; intro H.
  - assert (A : (Qn c / P * P <= q * P)%Q) by (apply Qmult_le_compat_r; lra). rewrite D in A. apply Qfloor_resp_le in A. unfold Qn in A. now rewrite Qfloor_Z in A.
  - assert (A : (Qn c <= q * P)%Q) by (eapply Qle_trans; [|apply Qfloor_le]; unfold Qn; now rewrite <- Zle_Qle).
    assert (B : (Qn c / P <= q)%Q) by (apply Qle_shift_div_r; assumption). lra.
Qed.
Lemma row_slack I tau x z : wf_inst I -> length z = i_k I -> is_bin z ->
  cstr_ok tau x z (chance_row (milp_view I)) <->
  (Z.of_nat (count (fun v => Qeq_bool v 0) z) <= Qfloor (i_eps I * Qn (i_k I) + tau * Qn (i_k I)))%Z.
Proof.
  intros HW HL HB. assert (K := Qn_pos _ (proj1 HW)). cbn [cstr_ok chance_row milp_view view_inst v_p v_eps].
  rewrite (dot_uniform_z (1 / Qn (i_k I))).
  2: { now rewrite uniform_length. }
  2: { unfold uniform. apply Forall_forall. intros q Hq. apply repeat_spec in Hq. now rewrite Hq. }
  2: { exact HB. }
  rewrite HL. assert (E : (i_eps I * Qn (i_k I) + tau * Qn (i_k I) == (i_eps I + tau) * Qn (i_k I))%Q) by ring.
  rewrite (Qfloor_comp _ _ E), <- count_iff by exact K. split; intro H; lra.
Qed.
Lemma subsets_slack I p V tau x z : wf_inst I -> valid_partition (i_k I) p -> load_partition I (uniform (i_k I)) (length p) p = Ok V ->
  length z = length p -> is_bin z ->
  cstr_ok tau x z (chance_row V) <->
  (Z.of_nat (count (fun v => Qeq_bool v 0) z) <= Qfloor (i_eps I * Qn (i_k I) + tau * Qn (length p)))%Z.
Proof.
  intros HW Hp HL Hz Hb. destruct (load_partition_uniform I p HW Hp) as (V' & HL' & Hk & Hlen & Hpr & He).
  rewrite HL in HL'. injection HL' as <-. assert (QP := Qn_pos _ (vp_pos _ _ (proj1 HW) Hp)). cbn [cstr_ok chance_row].
  rewrite (dot_uniform_z (1 / Qn (length p))) by (auto; lia). rewrite Hz.
  assert (E : (i_eps I * Qn (i_k I) + tau * Qn (length p) == (v_eps V + tau) * Qn (length p))%Q) by lra.
  rewrite (Qfloor_comp _ _ E), <- count_iff by exact QP. split; intro H; lra.
Qed.

(** The lower bound leaves out floor(eps N + 1e-7 N) scenarios. *)
Lemma selected_count argsort eps k index sel : argsort_ok argsort -> 0 < k -> length index = k -> (eps + (1 # 10000000) < 1)%Q ->
  selected_scenarios argsort (uniform k) eps k index = Ok (Some sel) ->
  (Z.of_nat k - Z.of_nat (length sel) = Qfloor (eps * Qn k + (1 # 10000000) * Qn k))%Z.
Proof.
  intros HA Hk HI HE HS. assert (K := Qn_pos _ Hk).
  destruct (selected_spec _ _ _ _ _ _ HA (uniform_length k) HI HS) as (Hge & Hlt & ND & HF & _).
  assert (E : (eps * Qn k + (1 # 10000000) * Qn k == (eps + (1 # 10000000)) * Qn k)%Q) by ring. rewrite (Qfloor_comp _ _ E). clear E.
  rewrite qsum_uniform_sub in Hge by assumption. set (e := (eps + (1 # 10000000))%Q) in *.
  assert (D : forall c, (Qn c / Qn k * Qn k == Qn c)%Q) by (intro; field; lra).
  assert (A : ((1 - e) * Qn k <= Qn (length sel))%Q).
  { rewrite <- (D (length sel)). apply Qmult_le_compat_r; [unfold e; lra|lra]. }
  assert (LK : length sel <= k).
  { rewrite <- (seq_length k 0). apply NoDup_incl_length; [exact ND|]. intros s Hs. rewrite Forall_forall in HF. apply in_seq. specialize (HF s Hs). lia. }
  assert (L1 : (Z.of_nat k - Z.of_nat (length sel) <= Qfloor (e * Qn k))%Z).
  { rewrite <- (Qfloor_Z (Z.of_nat k - Z.of_nat (length sel))). apply Qfloor_resp_le. rewrite inject_Z_sub. fold (Qn k) (Qn (length sel)). lra. }
  assert (L2 : (Qfloor (e * Qn k) < Z.of_nat k - Z.of_nat (length sel) + 1)%Z); [|lia].
  rewrite Zlt_Qlt. eapply Qle_lt_trans; [apply Qfloor_le|]. rewrite inject_Z_plus, inject_Z_sub. fold (Qn k) (Qn (length sel)). change (inject_Z 1) with 1%Q.
  destruct sel as [|s sel] using rev_ind.
  - cbn [length] in *. assert (B : (0 < (1 - e) * Qn k)%Q) by (apply Qmult_lt_0_compat; lra). change (Qn 0) with 0%Q in *. lra.
  - clear IHsel. rewrite app_length in *. cbn [length] in *. rewrite Qn_add in *. change (Qn 1) with 1%Q in *.
    destruct sel as [|a sel].
    + cbn [length]. change (Qn 0) with 0%Q. assert (B : (e * Qn k < 1 * Qn k)%Q) by (apply Qmult_lt_compat_r; lra). lra.
    + specialize (Hlt (a :: sel) [s] eq_refl ltac:(discriminate) ltac:(discriminate)).
      rewrite qsum_uniform_sub in Hlt by (apply Forall_app in HF; apply HF).
      assert (B : (Qn (length (a :: sel)) < (1 - e) * Qn k)%Q).
      { rewrite <- (D (length (a :: sel))). apply Qmult_lt_compat_r; [lra|unfold e; lra]. }
      lra.
Qed.

(** The feasibility check and the number of subsets. *)
Lemma check_count norm I x :
  fst (fst (fst (fst (is_feasible norm I x)))) = true <-> (Z.of_nat (nviol I tol6 x) <= Qfloor (i_eps I * Qn (i_k I)))%Z.
Proof.
  rewrite is_feasible_verdict. split; intro H.
  - apply Qfloor_resp_le in H. unfold Qn in H at 1. now rewrite Qfloor_Z in H.
  - eapply Qle_trans; [|apply Qfloor_le]. unfold Qn at 1. now rewrite <- Zle_Qle.
Qed.
Lemma splits_raise I nb : (0 <= i_eps I)%Q ->
  number_of_splits I nb = Err AssertionError <-> (Qfloor (i_eps I * Qn (i_k I)) < Z.of_nat nb)%Z.
Proof.
  intro HE. rewrite number_of_splits_spec by exact HE. unfold tolerated.
  assert (N : (0 <= Qfloor (i_eps I * Qn (i_k I)))%Z).
  { change 0%Z with (Qfloor 0). apply Qfloor_resp_le, Qmult_le_0_compat; [exact HE|apply Qn_nonneg]. }
  destruct (_ <=? _) eqn:E; [apply Nat.leb_le in E|apply Nat.leb_gt in E]; (split; intro H; [try discriminate|try reflexivity]); lia.
Qed.

(** Decimal risk levels, read as doubles. *)
Section Level.
  Variables (eps tau : Q) (n : nat).
  Hypothesis H0 : (0 < eps <= 1)%Q.
  Hypothesis Hn : 0 < n.
  Hypothesis HT : (u53 <= tau)%Q.
  Hypothesis HS : (inject_Z (Zpos (Qden eps)) * Qn n * (tau + u53) < 1)%Q.
  Local Notation e := (rnd53 eps).

  Lemma level_near : (eps - u53 <= e <= eps + u53)%Q.
  Proof.
    assert (R := rnd53_rounding eps). apply abs_le in R. rewrite Qabs_pos in R by lra.
    assert (U : (0 < u53)%Q) by reflexivity. nra.
  Qed.
  Lemma level_frac : let t := Qfloor (eps * Qn n) in (eps * Qn n == inject_Z t)%Q \/
    ((inject_Z t + 1 / inject_Z (Zpos (Qden eps)) <= eps * Qn n)%Q /\ (eps * Qn n <= inject_Z t + 1 - 1 / inject_Z (Zpos (Qden eps)))%Q).
  Proof.
    cbv zeta. set (d := Zpos (Qden eps)). set (a := (Qnum eps * Z.of_nat n)%Z).
    assert (E : (eps * Qn n == inject_Z a / inject_Z d)%Q).
    { unfold a, Qn. rewrite inject_Z_mult. 
      assert (X : (eps == inject_Z (Qnum eps) / inject_Z d)%Q) by (destruct eps as [u v]; cbn; now rewrite Qmake_Qdiv).
      rewrite X at 1. field. unfold d. intro C. discriminate C. }
    assert (DP : (0 < inject_Z d)%Q) by reflexivity.
    assert (F : Qfloor (eps * Qn n) = (a / d)%Z) by (rewrite (Qfloor_comp _ _ E); unfold d; rewrite <- Qmake_Qdiv; reflexivity).
    rewrite F. assert (M := Z.div_mod a d ltac:(discriminate)). assert (B := Z.mod_pos_bound a d eq_refl).
    set (q := (a / d)%Z) in *. set (r := (a mod d)%Z) in *.
    assert (EQ : (eps * Qn n == inject_Z q + inject_Z r / inject_Z d)%Q).
    { rewrite E, M, inject_Z_plus, inject_Z_mult. field. lra. }
    destruct (Z.eq_dec r 0) as [Z0|NZ].
    - left. rewrite EQ, Z0. change (inject_Z 0) with 0%Q. unfold Qdiv. lra.
    - right. assert (R1 : (1 <= inject_Z r)%Q) by (change 1%Q with (inject_Z 1); rewrite <- Zle_Qle; lia).
      assert (R2 : (inject_Z r <= inject_Z d - 1)%Q) by (change 1%Q with (inject_Z 1); rewrite <- inject_Z_sub, <- Zle_Qle; lia).
      assert (A1 : (1 / inject_Z d <= inject_Z r / inject_Z d)%Q) by (apply Qmult_le_compat_r; [exact R1|apply Qlt_le_weak, Qinv_lt_0_compat, DP]).
      assert (A2 : (inject_Z r / inject_Z d <= 1 - 1 / inject_Z d)%Q).
      { apply Qle_shift_div_r; [exact DP|]. assert (X : ((1 - 1 / inject_Z d) * inject_Z d == inject_Z d - 1)%Q) by (field; lra). lra. }
      rewrite EQ. split; lra.
  Qed.

  (** The understated levels: eps*N is an integer and the double is below the decimal. *)
  Lemma level_slack : Qfloor (e * Qn n + tau * Qn n) = Qfloor (e * Qn n) <-> ~ ((eps * Qn n == inject_Z (Qfloor (eps * Qn n)))%Q /\ (e < eps)%Q).
  Proof.
    assert (N := level_near). assert (K := Qn_pos _ Hn). assert (F := level_frac). cbv zeta in F. set (t := Qfloor (eps * Qn n)) in *.
    set (d := inject_Z (Zpos (Qden eps))) in *. assert (DP : (0 < d)%Q) by reflexivity. assert (D1 : (1 <= d)%Q) by (unfold d; change 1%Q with (inject_Z 1); rewrite <- Zle_Qle; lia).
    assert (U : (0 < u53)%Q) by reflexivity. 
    assert (S : (Qn n * (tau + u53) < 1 / d)%Q) by (apply Qlt_shift_div_l; [exact DP|lra]).
    assert (D2 : (1 / d <= 1)%Q) by (apply Qle_shift_div_r; lra).
    assert (B1 : (eps * Qn n - u53 * Qn n <= e * Qn n)%Q).
    { assert (X : ((eps - u53) * Qn n <= e * Qn n)%Q) by (apply Qmult_le_compat_r; lra). lra. }
    assert (B2 : (e * Qn n <= eps * Qn n + u53 * Qn n)%Q).
    { assert (X : (e * Qn n <= (eps + u53) * Qn n)%Q) by (apply Qmult_le_compat_r; lra). lra. }
    assert (T0 : (0 <= tau * Qn n)%Q) by (apply Qmult_le_0_compat; lra).
    assert (T1 : (u53 * Qn n <= tau * Qn n)%Q) by (apply Qmult_le_compat_r; lra).
    assert (T2 : (tau * Qn n + u53 * Qn n < 1 / d)%Q) by lra.
    assert (FL : forall a, (inject_Z t <= a)%Q -> (a < inject_Z t + 1)%Q -> Qfloor a = t).
    { intros a L1 L2. assert (G1 := floor_le t a L1). assert (G2 : (Qfloor a < t + 1)%Z) by (apply floor_lt; rewrite inject_Z_plus; exact L2). lia. }
    destruct F as [F|[F1 F2]].
    - split.
      + intros E [_ L]. assert (L' : (e * Qn n < eps * Qn n)%Q) by (apply Qmult_lt_compat_r; assumption).
        assert (G1 : (Qfloor (e * Qn n) < t)%Z) by (apply floor_lt; lra).
        assert (G2 : (t <= Qfloor (e * Qn n + tau * Qn n))%Z) by (apply floor_le; lra). lia.
      + intro NE. assert (GE : (eps <= e)%Q) by (apply Qnot_lt_le; intro L; apply NE; now split).
        assert (GE' : (eps * Qn n <= e * Qn n)%Q) by (apply Qmult_le_compat_r; lra).
        rewrite !FL; [reflexivity|lra|lra|lra|lra].
    - split; [intros _ [E _]; lra|]. intros _. rewrite !FL; [reflexivity|lra|lra|lra|lra].
  Qed.
  (** There one scenario less is tolerated than meant, and the tolerance gives it back. *)
  Lemma level_understated : (eps * Qn n == inject_Z (Qfloor (eps * Qn n)))%Q -> (e < eps)%Q ->
    Qfloor (e * Qn n) = (Qfloor (eps * Qn n) - 1)%Z /\ Qfloor (e * Qn n + tau * Qn n) = Qfloor (eps * Qn n).
  Proof.
    intros F L. assert (N := level_near). assert (K := Qn_pos _ Hn). set (t := Qfloor (eps * Qn n)) in *.
    set (d := inject_Z (Zpos (Qden eps))) in *. assert (DP : (0 < d)%Q) by reflexivity. assert (D1 : (1 <= d)%Q) by (unfold d; change 1%Q with (inject_Z 1); rewrite <- Zle_Qle; lia).
    assert (U : (0 < u53)%Q) by reflexivity.
    assert (S : (Qn n * (tau + u53) < 1 / d)%Q) by (apply Qlt_shift_div_l; [exact DP|lra]).
    assert (D2 : (1 / d <= 1)%Q) by (apply Qle_shift_div_r; lra).
    assert (B1 : (eps * Qn n - u53 * Qn n <= e * Qn n)%Q).
    { assert (X : ((eps - u53) * Qn n <= e * Qn n)%Q) by (apply Qmult_le_compat_r; lra). lra. }
    assert (T1 : (u53 * Qn n <= tau * Qn n)%Q) by (apply Qmult_le_compat_r; lra).
    assert (L' : (e * Qn n < eps * Qn n)%Q) by (apply Qmult_lt_compat_r; assumption).
    assert (T0 : (0 <= tau * Qn n)%Q) by (apply Qmult_le_0_compat; lra).
    split.
    - assert (G1 : (Qfloor (e * Qn n) < t)%Z) by (apply floor_lt; lra).
      assert (G2 : (t - 1 <= Qfloor (e * Qn n))%Z) by (apply floor_le; rewrite inject_Z_sub; change (inject_Z 1) with 1%Q; lra). lia.
    - assert (G1 : (t <= Qfloor (e * Qn n + tau * Qn n))%Z) by (apply floor_le; lra).
      assert (G2 : (Qfloor (e * Qn n + tau * Qn n) < t + 1)%Z) by (apply floor_lt; rewrite inject_Z_plus; change (inject_Z 1) with 1%Q; lra). lia.
  Qed.
End Level.
