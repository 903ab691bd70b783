(** Points of the partition model with continuous variables satisfy the subsets whose indicator is one, rows with a negative
    big M included (C69). *)
From Coq Require Import Qabs Qminmax.
From Verif Require Import Base BaseFacts Spec Instance InstanceFacts OptModels OptFacts PartitionFacts Initial InitialFacts Bounds BoundsFacts
  Refine CostRefine Merge MergeFacts Knapsack KnapsackFacts Violations BigM BigMFacts BigMFacts2 Adaptive AdaptiveSpec AdaptiveBounds MilpFacts NearSpec.

(** numpy's closeness, entry by entry. *)
Lemma Qmax_abs a : (Qmax a (- a) == Qabs a)%Q.
Proof.
  destruct (Qlt_le_dec a 0) as [H|H].
  - rewrite Qabs_neg by lra. apply Q.max_r. lra.
  - rewrite Qabs_pos by lra. apply Q.max_l. lra.
Qed.
Lemma allclose_spec x : forall y, allclose x y = true <-> close_to x y.
Proof.
  unfold allclose, close_to. induction x as [|a x IH]; intros [|b y].
  - split; [cbn; lia|reflexivity].
  - split; [cbn; lia|reflexivity].
  - split; [cbn; lia|reflexivity].
  - cbn [combine forallb]. rewrite andb_true_iff, Qle_bool_iff, (IH y). cbn [fst snd].
    assert (E : (Qmax (a - b) (b - a) == Qabs (a - b))%Q).
    { rewrite <- Qmax_abs. apply Q.max_compat; lra. }
    rewrite E, Qmax_abs. split.
    + intros [H1 H2] [|i] Hi Hj; cbn in Hi, Hj |- *; [exact H1|apply H2; lia].
    + intro H. split; [exact (H 0 ltac:(cbn; lia) ltac:(cbn; lia))|]. intros i Hi Hj. exact (H (Datatypes.S i) ltac:(cbn; lia) ltac:(cbn; lia)).
Qed.

(** Belotti's method always answers. *)
Definition answers (o : outcome) : Prop := match o with Solved _ _ _ _ | Infeasible => True | _ => False end.
Lemma belotti_total tau argsort solve I V vUB t : argsort_ok argsort -> wf_inst I -> packing I -> is_view I V -> 0 < i_n I ->
  ext_leb (Fin 0) vUB = true -> (forall t m, outcome_ok tau m (solve t m)) ->
  (i_cont I = false -> forall t m, m_cont m = false -> answers (solve t m)) ->
  exists Ms t', belotti_all argsort solve V vUB (v_k V) t = (Ok Ms, t') /\ bigM_shape V Ms /\
    bigM_valid V Ms (fun x => in_dom I x /\ ext_leb (Fin (obj I x)) vUB = true).
Proof.
  intros HA HW HP HV HN HU HO HX.
  assert (E : exists Ms t', belotti_all argsort solve V vUB (v_k V) t = (Ok Ms, t')).
  { destruct (i_cont I) eqn:EC.
    - destruct (view_rows_of I V HW HV) as (E1 & E2 & E3 & _). unfold belotti_all, integer_vars. rewrite E2, EC. cbn [negb andb].
      destruct (rmap2_exists (fun s i => belotti_cont argsort V s i vUB)
       (fun s i v => knap_max (v_row V s i) (v_rhs V s i) (i_c I) vUB v) (v_m V) (v_k V) 0%Q) as (T & ET & _).
      { intros s i Hs Hi. destruct (view_row_facts I V HW HP HV s i Hs Hi) as (F1 & F2 & _).
        unfold belotti_cont. rewrite E3. apply knapsack_exact; auto.
        - rewrite F1. apply HW.
        - apply HP.
        - apply nonneg_F2; [rewrite F1; apply HW|assumption]. }
      rewrite ET. eauto.
    - destruct (view_rows_of I V HW HV) as (E1 & E2 & E3 & _).
      assert (EI : integer_vars V = true) by (unfold integer_vars; rewrite E2, E1, EC; cbn [negb andb]; now apply Nat.ltb_lt).
      unfold belotti_all. rewrite EI. apply belotti_rows_total. intros t0 s i.
      assert (A := HX eq_refl t0 (big_m_knapsack_model V vUB s i) ltac:(cbn [m_cont big_m_knapsack_model]; congruence)).
      specialize (HO t0 (big_m_knapsack_model V vUB s i)). unfold belotti_mip.
      destruct (solve t0 _) as [y z v b'| | |]; cbn in A |- *; eauto; [|contradiction|contradiction].
      exfalso. apply (HO (repeat 0%Q (i_n I)) []). apply knapsack_model_ok. rewrite E1, E2, E3. destruct (zero_point (i_n I)) as [Z1 Z2].
      split; [split; auto|]. destruct vUB; cbn in HU; try congruence; auto. apply Qle_bool_iff in HU. rewrite dot_repeat0. lra. }
  destruct E as (Ms & t' & E). exists Ms, t'. split; [exact E|]. exact (belotti_valid tau argsort solve I V vUB t Ms t' HA HW HP HV HU HO E).
Qed.

Lemma cclp_row_cases V um lz Ms st pr g t m tau x z s i :
  cclp_model V um lz Ms st pr g t = Ok m -> model_ok tau m x z ->
  s < v_k V -> i < v_m V s -> (nth s z 0 == 1)%Q -> (dot (v_row V s i) x <= v_rhs V s i + tau)%Q \/
    (um = true /\ (nth i (nth s Ms []) 0 < - (1 # 1000000))%Q /\ all_continuous V = true).
Proof.
  intros EM HO Hs Hi HZ. apply cclp_shape in EM as (rows & ER & -> & _). destruct HO as (_ & _ & _ & F). cbn [m_cstrs] in F.
  apply Forall_app in F as [F _]. destruct um.
  - unfold all_big_m_rows in ER. destruct (rmap _ _) as [rs|] eqn:E; cbn [rbind] in ER; [|discriminate].
    injection ER as <-. rewrite Forall_concat in F. assert (LR := rmap_length _ _ _ E). rewrite seq_length in LR.
    assert (ES := rmap_nth _ _ _ 0 [] s E ltac:(rewrite seq_length; exact Hs)). cbv beta in ES. rewrite seq_nth in ES by exact Hs. cbn [Nat.add] in ES.
    destruct (geti Ms s) as [Mr|] eqn:EG; cbn [rbind] in ES; [|discriminate]. apply (geti_inv _ _ _ []) in EG as [_ EG].
    rewrite Forall_forall in F. assert (FS : Forall (cstr_ok tau x z) (nth s rs [])) by (apply F, nth_In; rewrite LR; exact Hs). clear F.
    unfold big_m_rows in ES. destruct (rmap (fun i => _) _) as [rr|] eqn:E2 in ES; cbn [rbind] in ES; [|discriminate].
    injection ES as ES. rewrite <- ES in FS. rewrite Forall_concat, Forall_forall in FS.
    assert (LR2 := rmap_length _ _ _ E2). rewrite seq_length in LR2.
    assert (EI := rmap_nth _ _ _ 0 [] i E2 ltac:(rewrite seq_length; exact Hi)). cbv beta in EI.
    rewrite seq_nth in EI by exact Hi. cbn [Nat.add] in EI.
    destruct (geti Mr i) as [q|] eqn:EG2; cbn [rbind] in EI; [|discriminate]. apply (geti_inv _ _ _ 0%Q) in EG2 as [_ EG2].
    assert (FI : Forall (cstr_ok tau x z) (nth i rr [])) by (apply FS, nth_In; lia). rewrite EG, EG2.
    destruct (Qle_bool big_m_threshold q) eqn:EQ.
    + left. injection EI as EI. rewrite <- EI in FI. inversion FI as [|? ? H _]; subst. cbn [cstr_ok] in H. rewrite HZ in H. lra.
    + apply Qle_bool_false in EQ. unfold big_m_threshold in EQ. destruct (all_continuous V) eqn:AC.
      * right. split; [reflexivity|]. split; [lra|reflexivity].
      * left. injection EI as EI. rewrite <- EI in FI. inversion FI as [|? ? H _]; subst. cbn [cstr_ok] in H. lra.
  - left. injection ER as <-. unfold all_indicator_rows in F. rewrite Forall_flat_map, Forall_seq in F. specialize (F s ltac:(lia)). cbv beta in F.
    rewrite Forall_map_iff, Forall_seq in F. specialize (F i ltac:(lia)). exact (F HZ).
Qed.

Lemma cclp_row V um lz Ms st pr g t m tau x z s i : all_continuous V = false ->
  cclp_model V um lz Ms st pr g t = Ok m -> model_ok tau m x z ->
  s < v_k V -> i < v_m V s -> (nth s z 0 == 1)%Q -> (dot (v_row V s i) x <= v_rhs V s i + tau)%Q.
Proof. intros AC EM HM Hs Hi HZ. destruct (cclp_row_cases V um lz Ms st pr g t m tau x z s i EM HM Hs Hi HZ) as [H|(_ & _ & H)]; [exact H|congruence]. Qed.

Section Scale.
  Variable I : inst.
  Variable V : view.
  Hypothesis HW : wf_inst I.
  Hypothesis HP : packing I.
  Hypothesis HV : is_view I V.

  Definition sel_ok (y z : list Q) : Prop := forall c j, c < v_k V -> j < v_m V c -> (nth c z 0 == 1)%Q -> (dot (v_row V c j) y <= v_rhs V c j)%Q.
  Definition vbad (x z : list Q) : list (nat * nat) :=
    filter (fun p => Qeq_bool (nth (fst p) z 0%Q) 1%Q && Qlt_bool (v_rhs V (fst p) (snd p)) (dot (v_row V (fst p) (snd p)) x))
      (flat_map (fun s => map (fun i => (s, i)) (seq 0 (v_m V s))) (seq 0 (v_k V))).
  Lemma vbad_in x z s i : In (s, i) (vbad x z) <->
    s < v_k V /\ i < v_m V s /\ (nth s z 0 == 1)%Q /\ (v_rhs V s i < dot (v_row V s i) x)%Q.
  Proof.
    unfold vbad. rewrite filter_In, in_flat_map. cbn [fst snd]. rewrite andb_true_iff, Qlt_bool_iff. split.
    - intros ((t & Ht & H) & H1 & H2). apply in_map_iff in H as (j & E & Hj). injection E as -> ->. apply in_seq in Ht, Hj.
      apply Qeq_bool_iff in H1. repeat split; try assumption; lia.
    - intros (H1 & H2 & H3 & H4). apply Qeq_bool_iff in H3. repeat split; try assumption. exists s. split; [apply in_seq; lia|].
      apply in_map_iff. exists i. split; [reflexivity|apply in_seq; lia].
  Qed.
  Lemma v_nonneg s i x : s < v_k V -> i < v_m V s -> in_box (i_n I) x -> (0 <= dot (v_row V s i) x)%Q /\ (0 <= v_rhs V s i)%Q.
  Proof.
    intros Hs Hi [_ HX]. destruct (view_row_facts I V HW HP HV s i Hs Hi) as (_ & N & R). split; [|exact R].
    apply dot_nonneg; [exact N|]. eapply Forall_impl; [|exact HX]. cbv beta. intros; lra.
  Qed.

  (** A violated row would be tight at a smaller multiple of the point that satisfies all the selected rows. *)
  Lemma scaled_ok (kept : nat -> nat -> Prop) x z : in_box (i_n I) x ->
    (forall c j, c < v_k V -> j < v_m V c -> (nth c z 0 == 1)%Q -> (dot (v_row V c j) x <= v_rhs V c j)%Q \/ kept c j) ->
    (forall c j, c < v_k V -> j < v_m V c -> (nth c z 0 == 1)%Q -> kept c j -> forall lam, (0 <= lam /\ lam <= 1)%Q -> sel_ok (map (Qmult lam) x) z ->
       ~ (dot (v_row V c j) (map (Qmult lam) x) == v_rhs V c j)%Q) -> sel_ok x z.
  Proof.
    intros D R HM. assert (G : vbad x z = []).
    { destruct (vbad x z) as [|p0 l0] eqn:EB; [reflexivity|exfalso].
      destruct (exists_min (map (fun p => v_rhs V (fst p) (snd p) / dot (v_row V (fst p) (snd p)) x)%Q (vbad x z))) as (lam & HI & HMin).
      { rewrite EB. discriminate. }
      apply in_map_iff in HI as ([s i] & EL & HI). cbn [fst snd] in EL. apply vbad_in in HI as (Hs & Hi & HZ & HB).
      destruct (v_nonneg s i x Hs Hi D) as [ND NR]. assert (PD : (0 < dot (v_row V s i) x)%Q) by lra.
      assert (L0 : (0 <= lam)%Q). { rewrite <- EL. apply Qle_shift_div_l; lra. }
      assert (L1 : (lam <= 1)%Q). { rewrite <- EL. apply Qle_shift_div_r; lra. }
      destruct (R s i Hs Hi HZ) as [C|K]; [lra|]. apply (HM s i Hs Hi HZ K lam (conj L0 L1)).
      - intros s' i' Hs' Hi' HZ'. rewrite dot_scale. destruct (v_nonneg s' i' x Hs' Hi' D) as [ND' NR'].
        destruct (Qlt_le_dec (v_rhs V s' i') (dot (v_row V s' i') x)) as [LT|LE].
        + assert (HI' : In (s', i') (vbad x z)) by (apply vbad_in; auto).
          assert (HQ := HMin _ (in_map (fun p => v_rhs V (fst p) (snd p) / dot (v_row V (fst p) (snd p)) x)%Q _ _ HI')). cbn [fst snd] in HQ.
          assert (E2 : (v_rhs V s' i' / dot (v_row V s' i') x * dot (v_row V s' i') x == v_rhs V s' i')%Q) by (field; lra).
          assert (lam * dot (v_row V s' i') x <= v_rhs V s' i' / dot (v_row V s' i') x * dot (v_row V s' i') x)%Q by (apply Qmult_le_compat_r; lra). lra.
        + assert (lam * dot (v_row V s' i') x <= 1 * dot (v_row V s' i') x)%Q by (apply Qmult_le_compat_r; lra). lra.
      - rewrite dot_scale, <- EL. field. lra. }
    intros c j Hc Hj HZ. destruct (Qlt_le_dec (v_rhs V c j) (dot (v_row V c j) x)) as [LT|LE]; [|exact LE].
    assert (HI : In (c, j) (vbad x z)) by (apply vbad_in; auto). rewrite G in HI. destruct HI.
  Qed.

  (** Big M's valid for the points of value at most u: a little slack for the points of value at most u + 1e-8. *)
  Lemma slack_ok Ms u y z c j : in_dom I y -> i_cont I = true -> bigM_valid V Ms (fun x => in_dom I x /\ (obj I x <= u)%Q) ->
    (obj I y <= u + (1 # 100000000))%Q -> sel_ok y z -> c < v_k V -> j < v_m V c -> (nth c z 0 == 1)%Q -> (v_rhs V c j <= 100 * u)%Q ->
    (dot (v_row V c j) y - v_rhs V c j <= nth j (nth c Ms []) 0 + (1 # 1000000))%Q.
  Proof.
    intros Dy CO BV OY SO Hc Hj HZ RB. destruct (Qlt_le_dec u (obj I y)) as [LT|LE].
    2:{ assert (H := BV y c j (conj Dy LE) Hc Hj). lra. }
    destruct (v_nonneg c j y Hc Hj (proj1 Dy)) as [ND NR].
    assert (U0 : (0 <= u)%Q) by lra. assert (OP : (0 < obj I y)%Q) by lra.
    set (mu := (u / obj I y)%Q). assert (EM : (mu * obj I y == u)%Q) by (unfold mu; field; lra).
    assert (M0 : (0 <= mu)%Q) by (unfold mu; apply Qle_shift_div_l; lra).
    assert (M1 : (mu <= 1)%Q) by (unfold mu; apply Qle_shift_div_r; lra).
    assert (H := BV (map (Qmult mu) y) c j). rewrite dot_scale in H.
    assert (HH : (mu * dot (v_row V c j) y - v_rhs V c j <= nth j (nth c Ms []) 0)%Q).
    { apply H; try assumption. split; [split; [apply box_scale; [exact M0|exact M1|apply Dy]|congruence]|]. unfold obj. rewrite dot_scale. fold (obj I y). lra. }
    assert (S1 := SO c j Hc Hj HZ).
    assert (S2 : ((1 - mu) * dot (v_row V c j) y <= (1 - mu) * (100 * obj I y))%Q).
    { rewrite !(Qmult_comm (1 - mu)). apply Qmult_le_compat_r; lra. }
    assert (S3 : ((1 - mu) * (100 * obj I y) == 100 * (obj I y - u))%Q) by (rewrite <- EM; ring). lra.
  Qed.
End Scale.
