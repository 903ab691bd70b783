(** When feasibility within 1e-6 brings little: right-hand sides of at least a thousandth of the largest objective (C69). *)
From Verif Require Import Base BaseFacts Spec Instance InstanceFacts OptModels Initial Bounds Refine CostRefine Merge Violations BigM Adaptive AdaptiveSpec AdaptiveBounds MilpFacts
  NearSpec AdaptiveEnd.

Lemma obj_le_sum I x : wf_inst I -> packing I -> in_box (i_n I) x -> (obj I x <= qsum (i_c I))%Q.
Proof.
  intros (_ & LC & _) (NC & _) [L B]. unfold obj. rewrite <- dot_repeat1. apply dot_mono; [exact NC|]. rewrite LC, <- L. clear - B.
  induction B as [|a x H B IH]; cbn [length repeat]; constructor; [apply H|exact IH].
Qed.

Lemma near_cont I : wf_inst I -> packing I -> i_cont I = true ->
  (forall s i, s < i_k I -> i < i_m I -> (qsum (i_c I) <= 1000 * rhs I s i)%Q) -> near I.
Proof.
  intros HW HP CO HR x [D F]. set (C := qsum (i_c I)) in *. assert (C0 : (0 <= C)%Q) by (apply qsum_nonneg, HP). assert (OX := obj_le_sum I x HW HP (proj1 D)). fold C in OX.
  set (r := (C / 1000)%Q). assert (R0 : (0 <= r)%Q) by (unfold r; apply Qle_shift_div_l; lra). assert (RC : (C == 1000 * r)%Q) by (unfold r; field).
  set (lam := (r / (r + (1 # 1000000)))%Q). assert (LE : (lam * (r + (1 # 1000000)) == r)%Q) by (unfold lam; field; lra).
  assert (L0 : (0 <= lam)%Q) by (unfold lam; apply Qle_shift_div_l; lra). assert (L1 : (lam <= 1)%Q) by (unfold lam; apply Qle_shift_div_r; lra).
  assert (LR : (lam * (r + (1 # 1000000)) == lam * r + lam * (1 # 1000000))%Q) by ring.
  exists (map (Qmult lam) x). split; [split|].
  - split; [|congruence]. destruct D as [[L B] _]. split; [now rewrite map_length|]. apply Forall_map. eapply Forall_impl; [|exact B]. cbv beta. intros a [A0 A1].
    split; [now apply Qmult_le_0_compat|]. assert (lam * a <= 1 * a)%Q by (apply Qmult_le_compat_r; lra). lra.
  - eapply Qle_trans; [|exact F]. apply Qn_le. unfold nviol. apply count_mono. intros s Hs. apply in_seq in Hs. rewrite !negb_true_iff. intro E.
    destruct (satb I tol6 x s) eqn:E2; [|reflexivity]. rewrite <- E. symmetry. apply satb_iff. apply satb_iff in E2. intros i Hi.
    rewrite dot_scale. specialize (E2 i Hi). assert (HR' := HR s i ltac:(lia) Hi).
    assert (A : (lam * dot (row I s i) x <= lam * (rhs I s i + tol6))%Q) by (rewrite !(Qmult_comm lam); now apply Qmult_le_compat_r).
    assert (B : (lam * (rhs I s i - r) <= 1 * (rhs I s i - r))%Q) by (apply Qmult_le_compat_r; lra). unfold tol6 in A. lra.
  - unfold obj at 2. rewrite dot_scale. fold (obj I x). assert (N0 := obj_nonneg I x HP D).
    assert (A : ((1 - lam) * obj I x <= (1 - lam) * (1000 * r))%Q) by (rewrite !(Qmult_comm (1 - lam)); apply Qmult_le_compat_r; lra).
    assert (B : ((1 - lam) * r == lam * (1 # 1000000))%Q) by lra.
    assert (LT : (lam < 1)%Q) by (unfold lam; apply Qlt_shift_div_r; lra). lra.
Qed.

(** With positive right-hand sides and a positive coefficient of the objective, a small point of positive value satisfies every scenario. *)
Lemma in_qsum a l : Forall (fun a => 0 <= a)%Q l -> In a l -> (a <= qsum l)%Q.
Proof.
  induction 1 as [|b l N NL IH]; [intros []|]. cbn [qsum]. assert (S := qsum_nonneg l NL). intros [->|HI]; [lra|]. specialize (IH HI). lra.
Qed.
Lemma positive_point I : wf_inst I -> packing I -> i_cont I = true -> (0 < qsum (i_c I))%Q ->
  (forall s i, s < i_k I -> i < i_m I -> (qsum (i_c I) <= 1000 * rhs I s i)%Q) ->
  exists y, det_feasible I (seq 0 (i_k I)) 0 y /\ (0 < obj I y)%Q.
Proof.
  intros HW HP CO C0 HR. set (C := qsum (i_c I)) in *. set (r := (C / 1000)%Q). assert (R0 : (0 < r)%Q) by (unfold r; apply Qlt_shift_div_l; lra).
  assert (RC : (C == 1000 * r)%Q) by (unfold r; field). set (u := repeat 1%Q (i_n I)).
  assert (BU : Forall (fun v => 0 <= v /\ v <= 1)%Q u) by (unfold u; apply Forall_forall; intros a Ha; apply repeat_spec in Ha; subst; lra).
  set (T := qsum (map (fun p => dot (row I (fst p) (snd p)) u) (flat_map (fun s => map (fun i => (s, i)) (seq 0 (i_m I))) (seq 0 (i_k I))))).
  assert (N : Forall (fun a => 0 <= a)%Q (map (fun p => dot (row I (fst p) (snd p)) u) (flat_map (fun s => map (fun i => (s, i)) (seq 0 (i_m I))) (seq 0 (i_k I))))).
  { apply Forall_map, Forall_forall. intros [s i] HI. apply in_flat_map in HI as (t & Ht & HI). apply in_map_iff in HI as (j & E & Hj). injection E as -> ->.
    apply in_seq in Ht, Hj. cbn [fst snd]. refine (proj1 (mv_nonneg I HW HP s i u _ _ _)); try lia; [].
    split; [unfold u; apply repeat_length|exact BU]. }
  assert (T0 : (0 <= T)%Q) by (apply qsum_nonneg, N).
  set (lam := (r / (T + r))%Q). assert (LE : (lam * (T + r) == r)%Q) by (unfold lam; field; lra).
  assert (L0 : (0 < lam)%Q) by (unfold lam; apply Qlt_shift_div_l; lra). assert (L1 : (lam <= 1)%Q) by (unfold lam; apply Qle_shift_div_r; lra).
  assert (LR : (lam * (T + r) == lam * T + lam * r)%Q) by ring. assert (LP : (0 < lam * r)%Q) by now apply Qmult_lt_0_compat.
  exists (map (Qmult lam) u). split; [split|].
  - split; [|congruence]. split; [unfold u; rewrite map_length; apply repeat_length|]. apply Forall_map. eapply Forall_impl; [|exact BU]. cbv beta. intros a [A0 A1].
    split; [apply Qmult_le_0_compat; lra|]. assert (lam * a <= 1 * a)%Q by (apply Qmult_le_compat_r; lra). lra.
  - intros s Hs i Hi. apply in_seq in Hs. rewrite dot_scale. assert (HR' := HR s i ltac:(lia) Hi).
    assert (X : (dot (row I s i) u <= T)%Q).
    { apply in_qsum; [exact N|]. apply in_map_iff. exists (s, i). split; [reflexivity|]. apply in_flat_map. exists s. split; [apply in_seq; lia|].
      apply in_map_iff. exists i. split; [reflexivity|apply in_seq; lia]. }
    assert (A : (lam * dot (row I s i) u <= lam * T)%Q) by (rewrite !(Qmult_comm lam); apply Qmult_le_compat_r; lra). lra.
  - unfold obj. rewrite dot_scale. apply Qmult_lt_0_compat; [exact L0|]. unfold u. destruct HW as (_ & LC & _). rewrite <- LC, dot_repeat1. exact C0.
Qed.

(** ** Runs without merging *)
Section NoMerge.
  Variables (w : world) (I : inst) (cf : cfg).
  Hypothesis HO : oracles_ok w I.
  Hypothesis HSo : sort_spec (w_sort w).
  Hypothesis HW : wf_inst I.
  Hypothesis HP : packing I.
  Hypothesis HEps : eps_ok I.
  Hypothesis HE1 : (i_eps I < 1)%Q.
  Hypothesis HS : solver_ok w I 0 0.
  Hypothesis HC : calm w cf.
  Hypothesis HOp : options_ok w I cf.
  Hypothesis HX : exact_if_cont w I.
  Hypothesis HN : 0 < i_n I.

  Lemma cont_ends : near I -> forall fuel r s, c_merger cf = false -> i_k I - tolerated I <= fuel -> run w I cf fuel = (r, s) ->
    (r = Ok Feasible /\ a_iter s <= i_k I - tolerated I) \/ (r = Ok GapReached /\ a_iter s <= i_k I - tolerated I) \/
    zero_bound r s \/ exists e, r = Err e /\ close_failed w I cf e s.
  Proof.
    intros HT fuel r s NM HF E. refine (ends_run_any w I cf 0 0 HO HSo HW HP HEps HE1 HS (within_zero I) (fun _ => eq_refl) HC HOp HT HX HN fuel r s NM HF E).
  Qed.
  Lemma cont_never_raises : i_cont I = true -> (0 < qsum (i_c I))%Q -> (forall s i, s < i_k I -> i < i_m I -> (qsum (i_c I) <= 1000 * rhs I s i)%Q) ->
    forall fuel r s, c_merger cf = false -> i_k I - tolerated I <= fuel -> run w I cf fuel = (r, s) ->
    ((r = Ok Feasible \/ r = Ok GapReached) /\ a_iter s <= i_k I - tolerated I) \/ exists e, r = Err e /\ close_failed w I cf e s.
  Proof.
    intros CO C0 HR fuel r s NM HF E.
    refine (never_raises_any w I cf 0 0 HO HSo HW HP HEps HE1 HS (within_zero I) (fun _ => eq_refl) HC HOp (near_cont I HW HP CO HR) HX HN (positive_point I HW HP CO C0 HR) fuel r s NM HF E).
  Qed.
End NoMerge.

Lemma cont_progress : forall w I cf, oracles_ok w I -> sort_spec (w_sort w) -> wf_inst I -> packing I -> eps_ok I -> (i_eps I < 1)%Q ->
  solver_ok w I 0 0 -> calm w cf -> options_ok w I cf -> near I -> exact_if_cont w I -> 0 < i_n I ->
  forall fuel r s, run w I cf fuel = (r, s) ->
  r = Ok Feasible \/ r = Ok GapReached \/ r = Err NonTermination \/ zero_bound r s \/ exists e, r = Err e /\ close_failed w I cf e s.
Proof.
  intros w I cf HO HSo HW HP HEps HE1 HS HC HOp HT HX HN.
  exact (safe_run_any w I cf 0 0 HO HSo HW HP HEps HE1 HS (within_zero I) (fun _ => eq_refl) HC HOp HT HX HN).
Qed.
Lemma cont_progress_positive : forall w I cf, oracles_ok w I -> sort_spec (w_sort w) -> wf_inst I -> packing I -> eps_ok I -> (i_eps I < 1)%Q ->
  solver_ok w I 0 0 -> calm w cf -> options_ok w I cf -> exact_if_cont w I -> 0 < i_n I ->
  i_cont I = true -> (0 < qsum (i_c I))%Q -> (forall s i, s < i_k I -> i < i_m I -> (qsum (i_c I) <= 1000 * rhs I s i)%Q) ->
  forall fuel r s, run w I cf fuel = (r, s) ->
  r = Ok Feasible \/ r = Ok GapReached \/ r = Err NonTermination \/ exists e, r = Err e /\ close_failed w I cf e s.
Proof.
  intros w I cf HO HSo HW HP HEps HE1 HS HC HOp HX HN CO C0 HR.
  exact (safe_pos_any w I cf 0 0 HO HSo HW HP HEps HE1 HS (within_zero I) (fun _ => eq_refl) HC HOp (near_cont I HW HP CO HR) HX HN (positive_point I HW HP CO C0 HR)).
Qed.
