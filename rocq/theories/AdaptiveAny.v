(** A solver that answers, no interruption and enough time: an iteration raises only when the lower bound is zero or, for continuous
    variables, at the sanity check of the relaxation, and without merging the number of iterations is bounded (C44, C69). *)
From Coq Require Import Qabs.
From Verif Require Import Base BaseFacts Spec Instance InstanceFacts OptModels OptFacts PartitionFacts Initial InitialFacts Bounds BoundsFacts
  Refine RefineFacts RefineSum CostRefine CostRefineFacts Merge MergeFacts Violations ViolTable BigM BigMFacts2 SongFacts Adaptive AdaptiveSpec AdaptiveWp AdaptiveStruct AdaptiveStart
  AdaptiveBounds NearSpec ContFacts.
From Verif Require MilpFacts.

(** ** A point of the partition model satisfies the subsets whose indicator is one *)
Lemma zeros_unsat I tau x p z : length z = length p -> is_bin z ->
  (forall c, c < length p -> (nth c z 0 == 1)%Q -> subset_sat I tau x (nth c p [])) ->
  nunsat I tau x p <= count (fun v => Qeq_bool v 0) z.
Proof.
  intros HL HB. revert p HL. unfold nunsat. induction HB as [|v z Hv HB IH]; intros [|S p] HL HS; try discriminate HL; [cbn; lia|].
  rewrite !count_cons. assert (IH' := IH p ltac:(now injection HL)).
  assert (H' : forall c, c < length p -> (nth c z 0 == 1)%Q -> subset_sat I tau x (nth c p [])).
  { intros c Hc Hz. apply (HS (Datatypes.S c)); [cbn; lia|exact Hz]. }
  specialize (IH' H'). destruct Hv as [Hv|Hv].
  - apply Qeq_bool_iff in Hv. rewrite Hv. destruct (negb _); lia.
  - assert (HZ := HS 0 ltac:(cbn; lia) Hv). cbn [nth] in HZ. apply subset_satb_iff in HZ. rewrite HZ. cbn [negb]. lia.
Qed.
Lemma nunsat_mono_tau I tau tau' x p : (tau <= tau')%Q -> nunsat I tau' x p <= nunsat I tau x p.
Proof.
  intro Ht. unfold nunsat. apply count_mono. intros S _ H. apply negb_true_iff in H. apply negb_true_iff.
  destruct (subset_satb I tau x S) eqn:E; [|reflexivity]. apply subset_satb_iff in E.
  rewrite <- H. symmetry. apply subset_satb_iff. intros s Hs i Hi. specialize (E s Hs i Hi). lra.
Qed.
Lemma chance_within I tau p V z : wf_inst I -> valid_partition (i_k I) p -> load_partition I (uniform (i_k I)) (length p) p = Ok V ->
  length z = length p -> is_bin z -> (0 <= i_eps I)%Q -> (0 <= tau)%Q -> eps_within I tau ->
  (1 - v_eps V <= dot (v_p V) z + tau)%Q -> count (fun v => Qeq_bool v 0) z <= tolerated I.
Proof.
  intros HW Hp HL Hz Hb HE HT HWi H. destruct (load_partition_uniform I p HW Hp) as (V' & HL' & Hk & Hlen & Hpr & He).
  rewrite HL in HL'. injection HL' as <-.
  assert (HP := vp_pos _ _ (proj1 HW) Hp). assert (QP := Qn_pos _ HP). assert (LK := vp_length _ _ Hp). apply Qn_le in LK.
  rewrite (dot_uniform_z (1 / Qn (length p))) in H by (auto; lia). rewrite Hz in H.
  set (P := Qn (length p)) in *. set (c := count _ z) in *.
  assert (E : (1 / P * (P - Qn c) == 1 - Qn c / P)%Q) by (field; lra). rewrite E in H.
  assert (D : (Qn c / P * P == Qn c)%Q) by (field; lra).
  assert (U : (Qn c <= i_eps I * Qn (i_k I) + tau * Qn (i_k I))%Q).
  { assert (A : (Qn c / P * P <= (v_eps V + tau) * P)%Q) by (apply Qmult_le_compat_r; lra).
    assert (B : (tau * P <= tau * Qn (i_k I))%Q) by (rewrite !(Qmult_comm tau); apply Qmult_le_compat_r; assumption). lra. }
  unfold tolerated. apply Nat2Z.inj_le. rewrite Z2Nat.id by (change 0%Z with (Qfloor 0); apply Qfloor_resp_le; apply Qmult_le_0_compat; [exact HE|apply Qn_nonneg]).
  unfold eps_within in HWi. rewrite <- HWi. rewrite <- (Qfloor_Z (Z.of_nat c)). now apply Qfloor_resp_le.
Qed.
Lemma relaxed_unsat I tau p V um lz Ms st pr g t m x z : wf_inst I -> valid_partition (i_k I) p ->
  load_partition I (uniform (i_k I)) (length p) p = Ok V -> (0 <= i_eps I)%Q -> (0 <= tau)%Q -> eps_within I tau ->
  cclp_model V um lz Ms st pr g t = Ok m -> model_ok tau m x z ->
  in_dom I x /\ length z = length p /\ forall rho y, (forall c j, c < v_k V -> j < v_m V c -> (nth c z 0 == 1)%Q -> (dot (v_row V c j) y <= v_rhs V c j + rho)%Q) -> nunsat I rho y p <= tolerated I.
Proof.
  intros HW HP HL HE HT HWi EM HM. destruct (view_data _ _ _ HW HP HL) as (N1 & N2 & N3 & N4).
  apply cclp_shape in EM as (rows & ER & -> & _). destruct HM as (D & LZ & BZ & F). cbn [m_nz m_n m_cont] in LZ, D. rewrite N1, N2 in D. rewrite N4 in LZ.
  split; [exact D|]. split; [exact LZ|]. intros rho y HY. cbn [m_cstrs] in F. apply Forall_app in F as [_ F]. inversion F as [|? ? CH _]; subst. cbn [cstr_ok chance_row] in CH.
  apply (chance_within I tau p V z HW HP HL LZ BZ HE HT HWi) in CH.
  eapply Nat.le_trans; [|exact CH]. apply zeros_unsat; try assumption.
  intros c Hc HZ. apply (view_subset_sat I p V HW HP HL rho y c Hc). intros j Hj. assert (A := HY c j ltac:(lia) Hj HZ). lra.
Qed.

Lemma zero_cc I : packing I -> (0 <= i_eps I)%Q -> cc_feasible I 0 (repeat 0%Q (i_n I)) /\ (obj I (repeat 0%Q (i_n I)) == 0)%Q.
Proof.
  intros HP HE. split.
  - assert (Z := fun S => zero_feasible I HP S). split; [apply (Z [])|].
    assert (nviol I 0 (repeat 0%Q (i_n I)) = 0) as ->.
    { unfold nviol. apply count_zero. intros s _. apply negb_false_iff, satb_iff. apply (Z [s]). now left. }
    change (Qn 0) with 0%Q. apply Qmult_le_0_compat; [exact HE|apply Qn_nonneg].
  - unfold obj. rewrite dot_repeat0. lra.
Qed.

Lemma need_inv {A} (o : option A) : (exists a, o = Some a /\ need o = Ok a) \/ (o = None /\ need o = Err TypeError).
Proof. destruct o; [left; eauto|right; auto]. Qed.

Lemma part_iff I tau x p : (0 <= i_eps I)%Q -> part_feasible I p tau x <-> in_dom I x /\ nunsat I tau x p <= tolerated I.
Proof. intro E. unfold part_feasible. now rewrite tolerated_le. Qed.
Lemma ext_leb_eq v w u : (v == w)%Q -> ext_leb (Fin v) u = ext_leb (Fin w) u.
Proof. intro E. destruct u as [|q|]; cbn; auto. apply eq_true_iff_eq. rewrite !Qle_bool_iff. now rewrite E. Qed.

Lemma split_new_costs w I cf s : wp (fun _ _ => True) (split_step w I cf) (fun Rn _ =>
  Forall2 (fun c v => exists x, answered w I (nth c (rf_part (fst Rn)) []) v x) (rf_new (fst Rn)) (snd Rn)) s.
Proof.
  unfold split_step. eapply wp_bind_mono with (P := fun _ _ => True); [unfold wp; destruct (refine w I cf s) as [[a|e] s']; exact Logic.I|].
  intros R s1 _. do 2 (eapply wp_bind_mono with (P := fun _ _ => True); [apply wp_put; auto|]; intros _ ? _).
  eapply wp_bind_mono with (P := fun _ _ => True); [apply wp_lift; auto|]. intros V s2 _.
  eapply wp_bind_mono with (P := fun _ _ => True); [apply wp_put; auto|]. intros _ s3 _.
  eapply wp_bind_mono with (P := fun r _ => Forall2 (fun c v => exists x, answered w I (nth c (rf_part R) []) v x) (rf_new R) (map fst r)).
  - clear. generalize (rf_new R). intro l. revert s3. induction l as [|c l IH]; intro s; cbn [eval_new]; [apply wp_ret; constructor|].
    apply wp_bind, wp_lift; [|auto]. intros S ES. assert (S = nth c (rf_part R) []).
    { unfold geti in ES. destruct (nth_error (rf_part R) c) eqn:E; [|discriminate]. injection ES as <-. symmetry. now apply nth_error_nth. }
    subst S. clear ES. eapply wp_bind_mono with (P := fun vx _ => answered w I (nth c (rf_part R) []) (fst vx) (snd vx)).
    { eapply wp_mono with (Q := fun vx _ => answered w I (nth c (rf_part R) []) (fst vx) (snd vx)); [apply ext_cost|auto|auto]. intros v x t A. exact A. }
    intros [v x] s1 A. cbn [fst snd] in A. apply wp_bind, wp_get.
    eapply wp_bind_mono with (P := fun _ _ => True).
    { destruct (c <? length (a_costs s1)); apply wp_bind, wp_put; auto; intros _; apply wp_put; auto. }
    intros _ s2 _. apply wp_bind. eapply wp_mono; [apply IH| |auto]. cbv beta. intros r s4 F. apply wp_ret. cbn [map fst]. constructor; eauto.
  - intros r s4 F. eapply wp_bind_mono with (P := fun _ _ => True); [unfold wp; destruct (improve_vlb w I (map snd r) s4) as [[a|e] ?]; exact Logic.I|].
    intros _ s5 _. apply wp_ret. exact F.
Qed.

Lemma unsat_bad I tau q S : negb (subset_satb I tau q S) = existsb (fun s => negb (satb I tau q s)) S.
Proof. unfold subset_satb. induction S as [|s S IH]; [reflexivity|]. cbn [forallb existsb]. rewrite <- IH. now destruct (satb I tau q s). Qed.
Lemma nunsat_bad I tau q p : nunsat I tau q p = nb_bad (fun s => negb (satb I tau q s)) p.
Proof. unfold nb_bad, nunsat. apply count_ext. intros S _. apply unsat_bad. Qed.
Lemma forallb_false {A} (f : A -> bool) l : forallb f l = false -> exists a, In a l /\ f a = false.
Proof.
  induction l as [|a l IH]; [discriminate|]. cbn [forallb]. destruct (f a) eqn:E; [|exists a; split; [now left|exact E]].
  intro H. destruct (IH H) as (b & B1 & B2). exists b. split; [now right|exact B2].
Qed.
(** A point of the relaxation after a merge satisfies a subset changed by the split, or is one before the split. *)
Lemma merged_points I q R old p' :
  (forall f, (forall c, In c (rf_new R) -> existsb f (nth c (rf_part R) []) = true) -> nb_bad f old <= nb_bad f p') ->
  (exists c, In c (rf_new R) /\ subset_sat I 0 q (nth c (rf_part R) [])) \/ nunsat I 0 q old <= nunsat I 0 q p'.
Proof.
  intro H. destruct (forallb (fun c => negb (subset_satb I 0 q (nth c (rf_part R) []))) (rf_new R)) eqn:E.
  - right. rewrite !(nunsat_bad I 0 q). apply H. intros c Hc. rewrite forallb_forall in E. specialize (E c Hc).
    rewrite <- unsat_bad. exact E.
  - left. apply forallb_false in E as (c & Hc & E). exists c. split; [exact Hc|]. apply negb_false_iff in E. now apply subset_satb_iff.
Qed.

(** Belotti's method answers unless a signal arrives. *)
Section BelottiStops.
  Variables (solve : nat -> model -> outcome) (V : view) (vUB : ext).
  Lemma belotti_row_err s e l : forall t t', belotti_row solve V vUB s l t = (Err e, t') -> exists t i, belotti_mip (solve t (big_m_knapsack_model V vUB s i)) = Err e.
  Proof.
    induction l as [|i l IH]; intros t t' H; cbn [belotti_row] in H; [discriminate H|]. destruct (belotti_mip _) as [b|e'] eqn:E.
    - destruct (belotti_row solve V vUB s l (S t)) as [[r|e'] t1] eqn:E1; cbn [rbind] in H; [discriminate H|]. injection H as -> _. exact (IH _ _ E1).
    - injection H as -> _. eauto.
  Qed.
  Lemma belotti_rows_err e l : forall t t', belotti_rows solve V vUB l t = (Err e, t') -> exists t s i, belotti_mip (solve t (big_m_knapsack_model V vUB s i)) = Err e.
  Proof.
    induction l as [|s l IH]; intros t t' H; cbn [belotti_rows] in H; [discriminate H|].
    destruct (belotti_row solve V vUB s _ t) as [[row|e'] t1] eqn:E.
    - destruct (belotti_rows solve V vUB l t1) as [[rs|e'] t2] eqn:E2; cbn [rbind] in H; [discriminate H|]. injection H as -> _. exact (IH _ _ E2).
    - injection H as -> _. apply belotti_row_err in E as (t2 & i & E). eauto.
  Qed.
End BelottiStops.
Lemma belotti_stops tau argsort solve I V vUB t : argsort_ok argsort -> wf_inst I -> packing I -> is_view I V -> 0 < i_n I ->
  ext_leb (Fin 0) vUB = true -> (forall t m, outcome_ok tau m (solve t m)) ->
  (forall t m, m_cont m = i_cont I -> m_time m = None -> solve t m <> Interrupted -> answers (solve t m)) ->
  (exists Ms t', belotti_all argsort solve V vUB (v_k V) t = (Ok Ms, t') /\ bigM_shape V Ms /\
    bigM_valid V Ms (fun x => in_dom I x /\ ext_leb (Fin (obj I x)) vUB = true)) \/
  exists t' t2 m, belotti_all argsort solve V vUB (v_k V) t = (Err KeyboardInterrupt, t') /\ solve t2 m = Interrupted.
Proof.
  intros HA HW HP HV HN HU HO HX. destruct (i_cont I) eqn:EC; [left; apply (belotti_total tau argsort solve I V vUB t HA HW HP HV HN HU HO); congruence|].
  destruct (belotti_all argsort solve V vUB (v_k V) t) as [[Ms|e] t'] eqn:E.
  { left. exists Ms, t'. split; [reflexivity|]. exact (belotti_valid tau argsort solve I V vUB t Ms t' HA HW HP HV HU HO E). }
  right. destruct (view_rows_of I V HW HV) as (E1 & E2 & E3 & _).
  assert (EI : integer_vars V = true) by (unfold integer_vars; rewrite E2, E1, EC; cbn [negb andb]; now apply Nat.ltb_lt).
  unfold belotti_all in E. rewrite EI in E. apply belotti_rows_err in E as (t0 & s & i & E). exists t', t0, (big_m_knapsack_model V vUB s i).
  assert (A := HX t0 (big_m_knapsack_model V vUB s i) ltac:(cbn [m_cont big_m_knapsack_model]; congruence) eq_refl).
  specialize (HO t0 (big_m_knapsack_model V vUB s i)). unfold belotti_mip in E.
  destruct (solve t0 _) as [y z v b'| | |]; cbn in E, A; try discriminate.
  - exfalso. apply (HO (repeat 0%Q (i_n I)) []). apply knapsack_model_ok. rewrite E1, E2, E3. destruct (zero_point (i_n I)) as [Z1 Z2].
    split; [split; auto|]. destruct vUB; cbn in HU; try congruence; auto. apply Qle_bool_iff in HU. rewrite dot_repeat0. lra.
  - exfalso. apply A. discriminate.
  - injection E as <-. split; reflexivity.
Qed.

(** Exceptions [out] that come from outside; [lt] holds if the time limit is passed. *)
Record regular (w : world) (I : inst) (cf : cfg) (out : exn -> Prop) (lt : Prop) : Prop := mkRegular {
  rg_mono : clock_mono w;
  rg_intr : forall t, w_intr w t = true -> out KeyboardInterrupt;
  rg_solved : forall t m, w_solve w t m = Interrupted -> out KeyboardInterrupt;
  rg_answer : forall t m, m_cont m = i_cont I -> w_solve w t m = Interrupted \/ finished (w_solve w t m) \/
    (m_time m <> None /\ (w_solve w t m = NoSolution -> out AttributeError));
  rg_exact : i_cont I = true -> forall t m, m_cont m = true -> match w_solve w t m with Interrupted | NoSolution => True | o => outcome_exact m o end;
  rg_late : forall t, (c_limit cf <= w_clock w t - w_clock w 0)%Q -> lt /\ out GurobiError
}.

Section End.
  Variable w : world.
  Variable I : inst.
  Variable cf : cfg.
  Variables tau delta : Q.
  Variable out : exn -> Prop.
  Variable lt : Prop.
  Hypothesis HO : oracles_ok w I.
  Hypothesis HSo : sort_spec (w_sort w).
  Hypothesis HW : wf_inst I.
  Hypothesis HP : packing I.
  Hypothesis HEps : eps_ok I.
  Hypothesis HE1 : (i_eps I < 1)%Q.
  Hypothesis HS : solver_ok w I tau delta.
  Hypothesis HTau : eps_within I tau.
  Hypothesis HCTau : i_cont I = true -> tau = 0%Q.
  Hypothesis HC : regular w I cf out lt.
  Hypothesis HOp : options_ok w I cf.
  Hypothesis HT : near I.
  Hypothesis HN : 0 < i_n I.

  Local Notation shaped := (shaped w I).
  Local Notation state_ok := (state_ok w I).
  Local Notation fe_of := (fe_of w I).
  Local Notation fe_ok := (fe_ok w I).
  Local Notation ms_ok := (ms_ok I cf).
  Local Notation bnd := (bnd I).
  Local Notation good := (good I).

  Definition never (e : exn) (s : ast) : Prop := False.
  Definition chk (e : exn) (s : ast) : Prop := close_failed w I cf e s.
  Definition div0 (e : exn) (s : ast) : Prop := e = ZeroDivisionError /\ a_npL s = false /\ exists l, a_vLB s = Fin l /\ (l == 0)%Q.
  Definition zde (e : exn) (s : ast) : Prop := div0 e s \/ chk e s.
  Definition outer (e : exn) (s : ast) : Prop := out e.
  Definition chko (e : exn) (s : ast) : Prop := chk e s \/ out e.
  Definition zdo (e : exn) (s : ast) : Prop := zde e s \/ out e.
  (** Postconditions that admit the exceptions from outside. *)
  Class opens (E : exn -> ast -> Prop) : Prop := is_open : forall e s, out e -> E e s.
  Instance opens_outer : opens outer. Proof. intros e s H. exact H. Qed.
  Instance opens_chko : opens chko. Proof. intros e s H. now right. Qed.
  Instance opens_zdo : opens zdo. Proof. intros e s H. now right. Qed.

  Lemma eps0 : (0 <= i_eps I)%Q. Proof. apply HEps. Qed.

  Lemma run_put {E} {OE : opens E} f (Q : unit -> ast -> Prop) s : Q tt (bump (f s)) -> wp E (put w f) Q s.
  Proof. intro H. apply wp_put; [|auto]. intro C. apply OE, (rg_intr _ _ _ _ _ HC _ C). Qed.
  (** What is known of an answer: exact for continuous variables. *)
  Definition ans (m : model) (o : outcome) : Prop := outcome_ok tau m o /\
    match o with Solved _ _ v b => m_time m = None -> finished o | Infeasible => True | NoSolution => m_time m <> None /\ out AttributeError | Interrupted => False end /\
    (i_cont I = true -> match o with NoSolution => True | _ => outcome_exact m o end).
  Lemma exact_all t m : m_cont m = i_cont I -> w_solve w t m <> Interrupted -> ans m (w_solve w t m).
  Proof.
    intros E NI. split; [apply (so_ok _ _ _ _ HS)|]. split.
    - destruct (rg_answer _ _ _ _ _ HC t m E) as [A|[A|[A1 A2]]]; [contradiction| |].
      + destruct (w_solve w t m); cbn in A |- *; try contradiction; auto.
      + destruct (w_solve w t m); auto; try congruence; intro C; contradiction.
    - intro CO. assert (X := rg_exact _ _ _ _ _ HC CO t m (eq_trans E CO)). destruct (w_solve w t m); auto; congruence.
  Qed.
  Lemma run_call {E} {OE : opens E} m (Q : outcome -> ast -> Prop) s : m_cont m = i_cont I ->
    (forall o, ans m o -> (exists t, o = w_solve w t m) -> Q o (bump (bump s))) -> wp E (call w m) Q s.
  Proof.
    intros Hm H. apply wp_call.
    - intro C. apply OE, (rg_intr _ _ _ _ _ HC _ C).
    - intro C. apply OE, (rg_solved _ _ _ _ _ HC _ _ C).
    - intro NI. apply H; [now apply exact_all|eauto].
  Qed.
  (** The time limit is passed in state s. *)
  Definition after (t : nat) : Prop := (c_limit cf <= w_clock w t - w_clock w 0)%Q.
  Lemma after_mono t t' : t <= t' -> after t -> after t'.
  Proof. intros L H. unfold after in *. assert (M := rg_mono _ _ _ _ _ HC t t' L). lra. Qed.
  Lemma run_avail E (Q : Q -> ast -> Prop) s : a_start s = w_clock w 0 ->
    (forall t, Qle_bool t 0 = false -> ~ after (a_t s) -> t == (c_limit cf - (w_clock w (a_t s) - w_clock w 0)) -> Q t (bump s))%Q ->
    (after (a_t s) -> forall t, Qle_bool t 0 = true -> t == 0 -> Q t (bump s))%Q -> wp E (available w cf) Q s.
  Proof.
    intros ES H1 H2. apply wp_available. rewrite ES. destruct (Qlt_le_dec (w_clock w (a_t s) - w_clock w 0) (c_limit cf)) as [L|L].
    - apply H1; [|unfold after; lra|apply Q.max_l; lra].
      destruct (Qle_bool _ 0) eqn:E1; [|reflexivity]. apply Qle_bool_iff in E1.
      assert (L2 := Q.le_max_l (c_limit cf - (w_clock w (a_t s) - w_clock w 0)) 0). lra.
    - assert (M : (Qmax (c_limit cf - (w_clock w (a_t s) - w_clock w 0)) 0 == 0)%Q) by (apply Q.max_r; lra).
      apply H2; [exact L| |exact M]. apply Qle_bool_iff. lra.
  Qed.

  Lemma gap_safe (Q : gapv -> ast -> Prop) s : (forall g, Q g s) -> wp zdo gap_now Q s.
  Proof.
    intro H. unfold gap_now. apply wp_bind, wp_get, wp_lift; [auto|]. intros e E.
    assert (X : exists e, compute_gap (a_vUB s) (a_npU s) (a_vLB s) (a_npL s) = Err e) by eauto.
    apply compute_gap_error in X as ((q & r & E1 & E2 & E3) & E4 & E5). rewrite E1, E3, E4, E5 in E. cbn in E.
    apply Qeq_bool_iff in E2 as E2'. rewrite E2' in E. injection E as <-. left. left. split; [reflexivity|]. split; [exact E5|]. eauto.
  Qed.
  Lemma store_safe (Q : unit -> ast -> Prop) s : (forall t l, Q tt (set_t t (set_log l s))) -> wp zdo (store_info w) Q s.
  Proof. intro H. unfold store_info. apply wp_bind, gap_safe. intro g. apply wp_bind, wp_clock, run_put. apply H. Qed.

  Lemma deter_solved S o : ans (deter_model I S) o -> exists x z v b, o = Solved x z v b.
  Proof.
    intros (H & F & _). destruct o as [x z v b| | |]; cbn in H, F; try contradiction; [eauto|exfalso|now destruct F].
    apply (H (repeat 0%Q (i_n I)) []). apply deter_model_ok. now apply zero_feasible.
  Qed.
  Lemma ext_out e : external w I e -> out e.
  Proof.
    intros [[-> [(t & H)|(t & m & H)]]|[-> (t & S & H)]].
    - exact (rg_intr _ _ _ _ _ HC _ H).
    - exact (rg_solved _ _ _ _ _ HC _ _ H).
    - exfalso. assert (NI : w_solve w t (deter_model I S) <> Interrupted) by (intro C; rewrite C in H; exact H).
      destruct (deter_solved S _ (exact_all t (deter_model I S) eq_refl NI)) as (x & z & v & b & E). rewrite E in H. exact H.
  Qed.
  Lemma ext_safe {A} {E : exn -> ast -> Prop} {OE : opens E} (m : M A) Q s : wp (fun e _ => external w I e) m Q s -> wp E m Q s.
  Proof. intro H. eapply wp_mono; [exact H|auto|]. intros e s' X. apply OE, ext_out, X. Qed.

  (** ** Big M's *)
  (** Big M's valid for the points of the relaxation (below vUB for Belotti's method). *)
  Definition ms_part (s : ast) : Prop := c_bigM cf = true -> min_size I < a_nb s ->
    bigM_valid (a_view s) (a_bigM s) (fun y => in_dom I y /\
      match c_method cf with Belotti => ext_leb (Fin (obj I y)) (a_vUB s) = true | _ => nunsat I 0 y (a_part s) <= tolerated I end).
  Definition shape_ok (s : ast) : Prop := c_bigM cf = true -> min_size I < a_nb s -> bigM_shape (a_view s) (a_bigM s).
  Lemma naive_shape V : bigM_shape V (naive_all V (v_k V)).
  Proof.
    split; [unfold naive_all; now rewrite map_length, seq_length|]. intros s Hs. unfold naive_all.
    rewrite (map_nth_lt _ _ 0 []) by (now rewrite seq_length). rewrite seq_nth by assumption. cbn [Nat.add].
    unfold naive_bigM. now rewrite map_length, seq_length.
  Qed.
  Lemma big_M_safe s : state_ok s -> wp outer (big_M w I cf) (fun _ s' => (exists t v, s' = set_t t (set_bigM v s)) /\ shape_ok s' /\ ms_part s') s.
  Proof.
    intros [[BD _] SH]. destruct (view_is w I HW s SH) as [V1 V2]. unfold big_M. apply wp_bind, wp_get.
    destruct (c_bigM cf && (min_size I <? a_nb s)) eqn:EC.
    2:{ apply wp_ret. split; [exists (a_t s), (a_bigM s); destruct s; reflexivity|]. split; intros C1 C2; apply Nat.ltb_lt in C2; rewrite C1, C2 in EC; discriminate. }
    apply andb_prop in EC as [EB EN]. apply Nat.ltb_lt in EN. unfold update_big_M. apply wp_bind, wp_get. apply wp_bind, run_put.
    destruct (c_method cf) eqn:EM.
    - destruct (belotti_stops tau (w_argsort w) (w_solve w) I (a_view s) (a_vUB s) (S (a_t s)) (proj1 (proj2 HO)) HW HP V1 HN (bv_u0 _ _ _ _ BD) (so_ok _ _ _ _ HS)
        ltac:(intros t0 m0 M0 M1 NI; assert (X := exact_all t0 m0 M0 NI); destruct X as (_ & X & _); destruct (w_solve w t0 m0); cbn in *; tauto))
        as [(Ms & t' & E & BS & BV)|(t' & t2 & m2 & E & SI)].
      2:{ apply wp_bind. unfold wp.
          change (a_view (bump (set_bigM (naive_all (a_view s) (a_nb s)) s))) with (a_view s).
          change (a_vUB (bump (set_bigM (naive_all (a_view s) (a_nb s)) s))) with (a_vUB s).
          change (a_nb (bump (set_bigM (naive_all (a_view s) (a_nb s)) s))) with (a_nb s).
          change (a_t (bump (set_bigM (naive_all (a_view s) (a_nb s)) s))) with (S (a_t s)).
          rewrite V2 in E. rewrite E. exact (rg_solved _ _ _ _ _ HC _ _ SI). }
      rewrite V2 in E. eapply wp_bind_mono with (P := fun Ms' s' => Ms' = Ms /\ s' = set_t t' (set_bigM (naive_all (a_view s) (a_nb s)) s)).
      + unfold wp.
        change (a_view (bump (set_bigM (naive_all (a_view s) (a_nb s)) s))) with (a_view s).
        change (a_vUB (bump (set_bigM (naive_all (a_view s) (a_nb s)) s))) with (a_vUB s).
        change (a_nb (bump (set_bigM (naive_all (a_view s) (a_nb s)) s))) with (a_nb s).
        change (a_t (bump (set_bigM (naive_all (a_view s) (a_nb s)) s))) with (S (a_t s)).
        rewrite E. split; reflexivity.
      + intros Ms' s' [-> ->]. apply run_put. split; [do 2 eexists; reflexivity|]. split; intros _ _; [exact BS|].
        intros y c i (Y1 & Y2) Hc Hi. rewrite EM in Y2. apply BV; auto.
    - destruct SH as [B1 B2 B3 B4 B5 B6]. apply wp_bind, wp_get.
      destruct (song_part (w_sort w) HSo I HW (proj1 (proj2 HP)) (a_part s) (a_view s) B1 ltac:(rewrite <- B2; exact B4) eps0) as [_ H].
      rewrite min_size_tolerated in EN by (apply eps0). destruct (H ltac:(lia)) as (Ms & E & BS & BV).
      rewrite <- B2 in E. apply wp_bind, wp_lift.
      + intros Ms' E'. cbn [a_part a_view a_nb bump set_t set_bigM] in E'. rewrite E in E'. cbn [rbind] in E'. rewrite to_floats_fin in E'. injection E' as <-.
        apply run_put. split; [do 2 eexists; reflexivity|]. split; intros _ _; [exact BS|].
        intros y c i (Y1 & Y2) Hc Hi. rewrite EM in Y2. apply BV; auto. split; [apply Y1|exact Y2].
      + intros e E'. cbn [a_part a_view a_nb bump set_t set_bigM] in E'. rewrite E in E'. cbn [rbind] in E'. rewrite to_floats_fin in E'. discriminate.
    - apply wp_ret. split; [do 2 eexists; reflexivity|]. split; intros _ _; cbn [a_view a_bigM a_nb a_part a_vUB bump set_t set_bigM]; rewrite <- V2; [apply naive_shape|].
      intros y c i (Y1 & _) Hc Hi. apply (naive_valid I (a_view s) HW HP V1 y c i (proj1 Y1) Hc Hi).
    - exfalso. now apply (op_bigM _ _ _ HOp EB).
  Qed.

  (** ** Upper bound *)
  (** The indicators of the last relaxation fit the partition. *)
  Definition zfits (s : ast) : Prop := a_nb s = min_size I \/ exists z, a_zUB s = Some z /\ length z <= a_nb s.

  Lemma witness s : bnd s -> exists y, cc_feasible I 0 y /\ ext_leb (Fin (obj I y)) (a_vUB s) = true /\
    ext_leb (Fin (obj I y + (1 # 1000))%Q) (a_vLB s) = false.
  Proof.
    intros [B1 B2 B3 B4 _ _]. destruct B2 as [E|(v & x & E & F & L)].
    - destruct (zero_cc I HP eps0) as [Z1 Z2]. exists (repeat 0%Q (i_n I)). split; [exact Z1|]. rewrite E. split; [|reflexivity].
      eapply ext_leb_trans; [|exact B4]. apply Qle_bool_iff. lra.
    - apply HT in F as (y & F & G). exists y. split; [exact F|].
      assert (N : ext_leb (Fin (obj I y + (1 # 1000))%Q) (a_vLB s) = false).
      { rewrite E. cbn. destruct (Qle_bool (obj I y + (1 # 1000)) v) eqn:C; [|reflexivity]. apply Qle_bool_iff in C. lra. }
      split; [|exact N]. destruct (B1 y F) as [H|H]; [exact H|congruence].
  Qed.
  (** Exact answers: all the points of the relaxation are below the upper bound, also after a merge. *)
  Definition jv (p : list (list nat)) (u l : ext) : Prop := forall y, part_feasible I p 0 y ->
    ext_leb (Fin (obj I y)) u = true \/ ext_leb (Fin (obj I y + (1 # 1000))%Q) l = true.
  Definition plain : Prop := tau = 0%Q /\ (i_cont I = true \/ delta = 0%Q).
  Lemma cont_plain : i_cont I = true -> plain.
  Proof. intro CO. split; [now apply HCTau|now left]. Qed.
  Definition jinv (p : list (list nat)) (s : ast) : Prop := plain -> jv p (a_vUB s) (a_vLB s).
  Definition xinv (s : ast) : Prop := plain -> a_nb s = min_size I \/ a_xUB s <> None.
  Lemma jinv_lax p : lax (jinv p).
  Proof.
    constructor; try (intros; assumption). intros s v np H HV M y Y. destruct (H M y Y) as [A|A]; [now left|]. right.
    eapply ext_leb_trans; [exact A|exact HV].
  Qed.
  Lemma below p s y : bnd s -> jv p (a_vUB s) (a_vLB s) -> part_feasible I p 0 y -> ext_leb (Fin (obj I y)) (a_vUB s) = true.
  Proof.
    intros BD J Y. destruct (J y Y) as [H|H]; [exact H|]. destruct (witness s BD) as (y' & _ & W2 & W3).
    eapply ext_leb_trans; [|exact W2]. destruct (a_vLB s) as [|l|]; cbn in H, W3; try discriminate.
    apply Qle_bool_iff in H. apply Qle_bool_false in W3. cbn. apply Qle_bool_iff. lra.
  Qed.

  Lemma builds s z limit g : state_ok s -> shape_ok s -> a_nb s <> min_size I -> length z <= a_nb s ->
    exists m, cclp_model (a_view s) (c_bigM cf) (c_lazy cf) (a_bigM s) (get_z_start z (ms_deleted (a_ms s)))
      (prune_indices (a_costs s) (a_vLB s)) g limit = Ok m.
  Proof.
    intros [_ SH] SO NN LZ. destruct (view_is w I HW s SH) as [_ VK].
    assert (MN := sh_min _ _ _ SH). assert (AL := sh_costs _ _ _ SH).
    assert (E0 : exists m, cclp_model (a_view s) false (c_lazy cf) (a_bigM s) (get_z_start z (ms_deleted (a_ms s)))
      (prune_indices (a_costs s) (a_vLB s)) g limit = Ok m).
    { unfold cclp_model.
      replace (forallb (fun kv => fst kv <? v_k (a_view s)) (get_z_start z (ms_deleted (a_ms s)))) with true.
      2:{ symmetry. apply forallb_forall. intros [j v] H. apply z_start_spec in H as (_ & i & H1 & _ & _ & ->). cbn [fst].
          apply Nat.ltb_lt. assert (B := new_index_le (ms_deleted (a_ms s)) i). lia. }
      cbn [negb rbind].
      replace (forallb (fun s0 => s0 <? v_k (a_view s)) (prune_indices (a_costs s) (a_vLB s))) with true.
      2:{ symmetry. apply forallb_forall. intros c H. apply prune_In in H as [H _]. apply Nat.ltb_lt.
          destruct AL as [L _]. rewrite VK, (sh_nb _ _ _ SH). lia. }
      cbn [negb]. eauto. }
    destruct (c_bigM cf) eqn:EB; [|exact E0]. destruct E0 as [m0 E0].
    apply (bigM_builds _ _ _ _ _ _ _ _ _ (SO EB ltac:(rewrite min_size_tolerated in * by apply eps0; lia)) E0).
  Qed.

  Definition optimal_in (s : ast) (r : list Q * list Q * Q * Q) : Prop := plain ->
    ext_leb (Fin (snd (fst r))) (a_vUB s) = true /\ (snd r == snd (fst r))%Q /\ jv (a_part s) (Fin (snd r)) (a_vLB s) /\
    part_feasible I (a_part s) 0 (fst (fst (fst r))) /\ (snd (fst r) == obj I (fst (fst (fst r))))%Q.
  Lemma partition_safe s : state_ok s -> ms_ok s -> shape_ok s -> ms_part s -> zfits s -> a_start s = w_clock w 0 -> jinv (a_part s) s -> xinv s -> a_nb s <> min_size I ->
    wp chko (partition_bound w I cf) (fun r s' => (exists t, s' = set_t t s) /\
      nunsat I tol6 (fst (fst (fst r))) (a_part s) <= tolerated I /\ length (snd (fst (fst r))) = a_nb s /\ optimal_in s r) s.
  Proof.
    intros OK MS SO MP ZF ST JI XI NN. destruct ZF as [ZF|(z0 & EZ & LZ)]; [contradiction|].
    unfold partition_bound.
    eapply wp_bind_mono with (P := fun time s' => s' = bump s /\ (~ after (a_t s) /\ time == c_limit cf - (w_clock w (a_t s) - w_clock w 0) \/ after (a_t s) /\ time == 0)%Q).
    { apply run_avail; [exact ST|auto|auto]. }
    intros time s0 [-> Htime]. apply wp_bind, wp_get.
    apply wp_bind, wp_lift; [|intros e E; change (a_zUB (bump s)) with (a_zUB s) in E; rewrite EZ in E; discriminate].
    intros z1 E1. change (a_zUB (bump s)) with (a_zUB s) in E1. rewrite EZ in E1. injection E1 as <-.
    change (a_view (bump s)) with (a_view s). change (a_bigM (bump s)) with (a_bigM s). change (a_costs (bump s)) with (a_costs s).
    change (a_vLB (bump s)) with (a_vLB s). change (a_ms (bump s)) with (a_ms s).
    assert (BU := fun g l => builds s z0 g l OK SO NN LZ).
    set (st := get_z_start z0 (ms_deleted (a_ms s))) in *.
    assert (ES : st = get_z_start (match a_zUB s with Some z => z | None => [] end) (ms_deleted (a_ms s))) by (rewrite EZ; reflexivity).
    clearbody st. clear z0 EZ LZ.
    eapply wp_bind_mono with (P := fun r s' => (exists t, s' = set_t t s) /\ exists m limit t,
      cclp_model (a_view s) (c_bigM cf) (c_lazy cf) (a_bigM s) st (prune_indices (a_costs s) (a_vLB s)) (1 # 100000000)%Q limit = Ok m /\
      model_ok tau m (fst (fst (fst r))) (snd (fst (fst r))) /\ (snd (fst r) == m_val m (fst (fst (fst r))))%Q /\
      w_solve w t m = Solved (fst (fst (fst r))) (snd (fst (fst r))) (snd (fst r)) (snd r) /\ (plain -> (snd r == snd (fst r))%Q) /\
      (forall y z, model_ok 0 m y z -> (m_val m y <= snd r)%Q)).
    - unfold solve_cclp. apply wp_bind, wp_clock. destruct (BU time (1 # 100000000)%Q) as (m0 & E0).
      apply wp_bind, wp_lift; [|intros e E; rewrite E0 in E; discriminate]. intros _ _. clear m0 E0.
      apply wp_bind, wp_clock. unfold grb_time_limit.
      set (limit := (time - (w_clock w (a_t (bump (bump s))) - w_clock w (a_t (bump s))))%Q).
      destruct (Qlt_bool limit 0) eqn:L0.
      { apply wp_raise. right. unfold Qlt_bool in L0. apply negb_true_iff in L0.
        assert (L1 : (limit < 0)%Q) by (destruct (Qlt_le_dec limit 0) as [X|X]; [exact X|apply Qle_bool_iff in X; congruence]).
        unfold limit in L1. change (a_t (bump (bump s))) with (S (S (a_t s))) in L1. change (a_t (bump s)) with (S (a_t s)) in L1.
        apply (rg_late _ _ _ _ _ HC (S (S (a_t s)))). destruct Htime as [[_ Htime]|[Htime _]]; [|exact (after_mono (a_t s) (S (S (a_t s))) ltac:(lia) Htime)].
        assert (M1 := rg_mono _ _ _ _ _ HC (a_t s) (S (a_t s)) ltac:(lia)). lra. }
      clear L0. clearbody limit. destruct (BU limit (1 # 100000000)%Q) as (m & EM). clear BU.
      apply wp_bind, wp_lift; [|intros e E; rewrite EM in E; discriminate]. intros m' EM'. rewrite EM in EM'. injection EM' as <-.
      destruct (proj2 OK) as [B1 B2 B3 B4 (B5 & B5' & B5'') B6]. assert (B4' := B4). rewrite B2 in B4'.
      destruct (view_data _ _ _ HW B1 B4') as (N1 & N2 & N3 & N4).
      assert (MC : m_cont m = i_cont I) by (apply cclp_shape in EM as (r & _ & -> & _); cbn [m_cont]; congruence).
      apply wp_bind, run_call; [exact MC|]. intros o HO' (tt0 & ET).
      destruct (witness s (proj1 (proj1 OK))) as (y & Y1 & Y2 & Y3).
      destruct (cclp_admits I (a_part s) (a_view s) (c_bigM cf) (c_lazy cf) (a_bigM s) st (a_costs s) (a_vLB s) (1 # 100000000)%Q limit m y)
        as [_ [A|A]]; try assumption.
      + intros c y' Hc. apply (so_eval _ _ _ _ HS _ _ _ (B5'' c Hc)).
      + intros UM c i Hc Hi. apply MS; auto. rewrite min_size_tolerated in * by apply eps0. lia.
      + destruct (bv_l0 _ _ _ _ (proj1 (proj1 OK))) as [->|(v & -> & _)]; discriminate.
      + destruct HO' as (HO' & FO & XO). destruct o as [x z v b| | |]; cbn [outcome_ok outcome_exact] in HO', FO, XO; try contradiction; [|now apply HO' in A|].
        2:{ apply wp_lift; [discriminate|]. intros e E. injection E as <-. right. exact (proj2 FO). }
        destruct HO' as (M1 & M2 & M3 & M4). apply wp_lift; [|discriminate]. intros r E. injection E as <-. cbn [fst snd].
        split; [eexists; reflexivity|]. exists m, limit, tt0. split; [exact EM|]. split; [exact M1|]. split; [exact M2|]. split; [now symmetry|].
        split.
        { intros [_ [CO|DE]]; [destruct (XO CO) as (_ & _ & X & _); lra|].
          assert (GA : m_gap m = Some (1 # 100000000)%Q) by (apply cclp_shape in EM as (r & _ & -> & _); reflexivity).
          assert (X := so_gap _ _ _ _ HS tt0 m x z v b GA ltac:(now symmetry)). rewrite DE in X. lra. }
        intros y' z' A'. apply M4 in A'. lra.
      + congruence.
    - clear BU. intros [[[x z] vo] vb] s' ((t & ->) & m & limit & t2 & EM & M1 & M2 & EW & M3 & M4). cbn [fst snd] in M1, M2, EW, M3, M4. apply wp_bind, wp_get.
      destruct (proj2 OK) as [B1 B2 B3 B4 _ _]. rewrite B2 in B4. destruct (view_data _ _ _ HW B1 B4) as (N1 & N2 & N3 & N4).
      destruct (relaxed_unsat I tau (a_part s) (a_view s) _ _ _ _ _ _ _ m x z HW B1 B4 eps0 (proj1 (so_tau _ _ _ _ HS)) HTau EM M1) as (D & LZ & UNR).
      assert (UN : forall y, (forall c j, c < v_k (a_view s) -> j < v_m (a_view s) c -> (nth c z 0 == 1)%Q -> (dot (v_row (a_view s) c j) y <= v_rhs (a_view s) c j)%Q) ->
        nunsat I 0 y (a_part s) <= tolerated I) by (intros y HY; apply UNR; intros c j Hc Hj HZ; specialize (HY c j Hc Hj HZ); lra).
      assert (VO : (vo == obj I x)%Q).
      { rewrite M2. apply cclp_shape in EM as (r & _ & -> & _). unfold m_val, obj. cbn [m_obj m_const]. rewrite N3. lra. }
      change (a_merged (set_t t s)) with (a_merged s). change (a_xUB (set_t t s)) with (a_xUB s). change (a_vUB (set_t t s)) with (a_vUB s).
      destruct (view_is w I HW s (proj2 OK)) as [V1 VK]. assert (BD := proj1 (proj1 OK)).
      assert (MN : min_size I < a_nb s) by (assert (Z := sh_min _ _ _ (proj2 OK)); rewrite min_size_tolerated in * by apply eps0; lia).
      assert (DIR : forall c j, c < v_k (a_view s) -> j < v_m (a_view s) c -> (nth c z 0 == 1)%Q -> (dot (v_row (a_view s) c j) x <= v_rhs (a_view s) c j + tau)%Q \/
        (c_bigM cf = true /\ (nth j (nth c (a_bigM s) []) 0 < - (1 # 1000000))%Q /\ all_continuous (a_view s) = true)).
      { intros c j Hc Hj HZ. exact (cclp_row_cases _ _ _ _ _ _ _ _ m tau x z c j EM M1 Hc Hj HZ). }
      assert (DIS : plain -> forall c j, c < v_k (a_view s) -> j < v_m (a_view s) c -> (nth c z 0 == 1)%Q -> (dot (v_row (a_view s) c j) x <= v_rhs (a_view s) c j)%Q \/
        (c_bigM cf = true /\ (nth j (nth c (a_bigM s) []) 0 < - (1 # 1000000))%Q /\ all_continuous (a_view s) = true)).
      { intros [T0 _] c j Hc Hj HZ. destruct (DIR c j Hc Hj HZ) as [C|C]; [left; rewrite T0 in C; lra|right; exact C]. }
      assert (ALL : all_continuous (a_view s) = true -> i_cont I = true).
      { intro K3. unfold all_continuous in K3. rewrite N1, N2 in K3. destruct (i_n I) as [|k]; [lia|]. destruct (i_cont I); [reflexivity|discriminate K3]. }
      assert (SCD : forall lam, all_continuous (a_view s) = true -> (0 <= lam /\ lam <= 1)%Q -> in_dom I (map (Qmult lam) x)).
      { intros lam K3 LL. split; [apply MilpFacts.box_scale; [apply LL|apply LL|apply D]|]. rewrite (ALL K3). discriminate. }
      assert (PX : plain -> part_feasible I (a_part s) 0 x).
      { intro NM. specialize (JI NM). apply part_iff; [apply eps0|]. split; [exact D|]. apply UN.
        apply (scaled_ok I (a_view s) HW HP V1 (fun c j => c_bigM cf = true /\ (nth j (nth c (a_bigM s) []) 0 < - (1 # 1000000))%Q /\ all_continuous (a_view s) = true) x z (proj1 D) (DIS NM)).
        intros c j Hc Hj HZ (K1 & K2 & K3) lam LL SL EQ. assert (DL := SCD lam K3 LL).
        assert (PL : part_feasible I (a_part s) 0 (map (Qmult lam) x)) by (apply part_iff; [apply eps0|split; [exact DL|exact (UN _ SL)]]).
        assert (BV := MP K1 MN (map (Qmult lam) x) c j). cbv beta in BV.
        assert (BV' : (dot (v_row (a_view s) c j) (map (Qmult lam) x) - v_rhs (a_view s) c j <= nth j (nth c (a_bigM s) []) 0)%Q); [|lra].
        apply BV; auto. split; [exact DL|]. destruct (c_method cf); [exact (below _ _ _ BD JI PL)|exact (UN _ SL)..]. }
      assert (OPT : optimal_in s (x, z, vo, vb)).
      { intro NM. cbn [fst snd]. assert (JJ := JI NM). split; [rewrite (ext_leb_eq _ _ (a_vUB s) VO); exact (below _ _ _ BD JJ (PX NM))|]. split; [exact (M3 NM)|]. split; [|split; [exact (PX NM)|exact VO]].
        intros y Y. assert (OB := below _ _ _ BD JJ Y).
        destruct (cclp_admits_part I (a_part s) (a_view s) (c_bigM cf) (c_lazy cf) (a_bigM s) st (a_costs s) (a_vLB s) (1 # 100000000)%Q limit m y)
          as [MV [A|A]]; try assumption.
        + apply (proj1 (sh_costs _ _ _ (proj2 OK))).
        + intros c y' Hc. destruct (sh_costs _ _ _ (proj2 OK)) as (_ & _ & B5''). apply (so_eval _ _ _ _ HS _ _ _ (B5'' c Hc)).
        + intros UM c i Hc Hi. apply (MP UM MN); auto. split; [apply Y|]. assert (YT := proj2 (proj1 (part_iff I 0 y (a_part s) eps0) Y)).
          destruct (c_method cf); [exact OB|exact YT..].
        + destruct (bv_l0 _ _ _ _ BD) as [->|(v & -> & _)]; discriminate.
        + left. apply M4 in A. cbn. apply Qle_bool_iff. lra.
        + now right. }
      assert (CP := cont_plain).
      apply wp_bind, wp_lift.
      + intros [] CK. apply wp_ret. cbn [fst snd]. split; [eexists; reflexivity|]. split; [|split; [rewrite B2; exact LZ|exact OPT]].
        destruct (i_cont I) eqn:CO.
        2:{ eapply Nat.le_trans; [apply (nunsat_mono_tau I tau tol6); apply (so_tau _ _ _ _ HS)|]. apply UNR. intros c j Hc Hj HZ.
            destruct (DIR c j Hc Hj HZ) as [C|(_ & _ & C)]; [exact C|]. apply ALL in C. congruence. }
        eapply Nat.le_trans; [apply (nunsat_mono_tau I 0 tol6); unfold tol6; lra|].
        apply (part_iff I 0 x (a_part s) eps0), PX, CP, eq_refl.
      + intros e CK. unfold check_results in CK. destruct (i_cont I) eqn:CO; [|discriminate].
        assert (RX : relaxation cf (set_t t s) limit = Ok m).
        { unfold relaxation. cbn [a_view a_bigM a_zUB a_ms a_costs a_vLB set_t]. rewrite <- ES. exact EM. }
        assert (NM := CP eq_refl). left. split; [exact CO|]. exists limit, m, t2, x, z, vo, vb. split; [exact RX|]. split; [exact EW|]. change (a_merged (set_t t s)) with (a_merged s). change (a_xUB (set_t t s)) with (a_xUB s).
          destruct (OPT NM) as (O1 & _). cbn [fst snd] in O1.
          assert (EV : ext_leb (Fin vo) (ext_add (a_vUB s) (1 # 100000000)) = true) by (eapply ext_leb_trans; [exact O1|apply ext_add_le; lra]).
          rewrite EV in CK. destruct (a_merged s); cbn in CK; [discriminate|].
          destruct (XI NM) as [C|C]; [contradiction|]. destruct (a_xUB s) as [y|] eqn:EX; [|congruence].
          destruct (allclose x y) eqn:EA; cbn in CK; [|discriminate]. injection CK as <-. split; [reflexivity|]. split; [reflexivity|].
          exists y. split; [reflexivity|]. now apply allclose_spec.
  Qed.
  Lemma first_safe s r : state_ok s -> jinv (a_part s) s -> a_nb s = min_size I -> first_iteration_bound (a_costs s) (a_sols s) = Ok r ->
    nunsat I tol6 (fst (fst (fst r))) (a_part s) <= tolerated I /\ length (snd (fst (fst r))) = a_nb s /\ optimal_in s r.
  Proof.
    intros OK JI. assert (OK' := OK). revert OK'. intros [[BD _] [B1 B2 B3 B4 (B5 & B5' & B5'') B6]] EN E. destruct r as [[[x z] vo] vb]. cbn [fst snd].
    rewrite min_size_tolerated in EN by apply eps0.
    destruct (first_iteration I tau (a_part s) (a_costs s) (a_sols s) x z vo vb eps0) as (F1 & F2 & F3 & F4 & F5 & _); try assumption; try lia.
    - intros c Hc. destruct (answered_facts _ _ _ _ HP HS _ _ _ (B5'' c Hc)) as (_ & A2 & A3 & _). split; [exact A2|]. now symmetry.
    - intros c y Hc. apply (so_eval _ _ _ _ HS _ _ _ (B5'' c Hc)).
    - split; [|split; [lia|]].
      + apply nunsat_tolerated; [apply eps0|]. destruct F1 as [D F1]. split; [exact D|]. eapply Qle_trans; [|exact F1].
        apply Qn_le, nunsat_mono_tau. apply (so_tau _ _ _ _ HS).
      + intro NM. specialize (JI NM). cbn [fst snd]. subst vb. rewrite (proj1 NM) in F1. split; [|split; [reflexivity|split; [|split; [exact F1|now symmetry]]]].
        * rewrite <- (ext_leb_eq _ _ (a_vUB s) F2). exact (below _ _ _ BD JI F1).
        * intros y Y. left. cbn. apply Qle_bool_iff. now apply F4.
  Qed.
  Lemma answer_safe s : state_ok s -> ms_ok s -> shape_ok s -> ms_part s -> zfits s -> a_start s = w_clock w 0 -> jinv (a_part s) s -> xinv s ->
    wp chko (if a_nb s =? min_size I then lift (first_iteration_bound (a_costs s) (a_sols s)) else partition_bound w I cf)
      (fun r s' => (exists t, s' = set_t t s) /\
      nunsat I tol6 (fst (fst (fst r))) (a_part s) <= tolerated I /\ length (snd (fst (fst r))) = a_nb s /\ optimal_in s r) s.
  Proof.
    intros OK MS SO MP ZF ST JI XI. destruct (a_nb s =? min_size I) eqn:EN.
    - apply Nat.eqb_eq in EN. destruct (proj2 OK) as [B1 B2 B3 B4 (B5 & B5' & _) B6].
      apply wp_lift.
      + intros r E. split; [exists (a_t s); destruct s; reflexivity|]. now apply first_safe.
      + intros e E. destruct (first_iteration_some (a_costs s) (a_sols s)) as (x & z & v & E'); [lia|congruence|]. rewrite E in E'. discriminate.
    - apply Nat.eqb_neq in EN. now apply partition_safe.
  Qed.

  (** The point y and the upper bound it gives. *)
  Definition at_point (p : list (list nat)) (u0 : ext) (y : list Q) (s : ast) : Prop :=
    a_xUB s = Some y /\ part_feasible I p 0 y /\ ext_leb (Fin (obj I y)) u0 = true /\ exists u, a_vUB s = Fin u /\ (u == obj I y)%Q.
  Lemma upper_safe s : state_ok s -> ms_ok s -> shape_ok s -> ms_part s -> zfits s -> a_start s = w_clock w 0 -> jinv (a_part s) s -> xinv s ->
    wp zdo (upper_bound_step w I cf) (fun r s' => a_start s' = a_start s /\ a_iter s' = a_iter s /\ (snd r = false /\ after (a_t s') \/
      (exists z, a_zUB s' = Some z /\ length z = a_nb s) /\
      jinv (a_part s) s' /\
      exists x, fst r = Some x /\ nunsat I tol6 x (a_part s) <= tolerated I /\ (snd r = false -> fe_of x s') /\ (plain -> at_point (a_part s) (a_vUB s) x s'))) s.
  Proof.
    intros OK MS SO MP ZF ST JI XI. unfold upper_bound_step. apply wp_bind, wp_get. apply wp_bind.
    eapply wp_mono; [apply (answer_safe s OK MS SO MP ZF ST JI XI)| |intros e s' [H|H]; [left; right; exact H|right; exact H]].
    intros [[[x z] vo] vb] s1 ((t & ->) & H1 & H2 & OPT). cbn [fst snd] in H1, H2. apply wp_bind, run_avail; [exact ST| |].
    2:{ intros AF tm ET _. rewrite ET. apply wp_bind, wp_get. apply wp_ret. split; [reflexivity|]. split; [reflexivity|]. left. split; [reflexivity|].
        exact (after_mono _ _ (Nat.le_succ_diag_r _) AF). }
    intros tm ET _ _. rewrite ET. destruct (check_feasibility (w_norm w) I x) as [ok f] eqn:EC.
    set (K := fun s' : ast => a_start s' = a_start s /\ a_iter s' = a_iter s /\ a_fe s' = Some f /\ a_zUB s' = Some z /\
      (jinv (a_part s) s' /\ (plain -> at_point (a_part s) (a_vUB s) x s'))).
    set (B := fun s' : ast => a_start s' = a_start s /\ a_iter s' = a_iter s /\ a_vLB s' = a_vLB s /\ a_vUB s' = a_vUB s).
    assert (H0 : B (bump (set_t t s))) by (repeat split). revert H0. generalize (bump (set_t t s)). clear t ET tm. intros s0 H0.
    eapply wp_bind_mono with (P := fun _ s' => B s' /\ a_fe s' = Some f); [apply run_put; split; [exact H0|reflexivity]|].
    clear s0 H0. intros _ s0 H0. eapply wp_bind_mono with (P := fun _ s' => B s' /\ a_fe s' = Some f /\ a_zUB s' = Some z);
      [apply run_put; destruct H0 as [X1 X2]; exact (conj X1 (conj X2 eq_refl))|].
    clear s0 H0. intros _ s2 ((K2 & K3 & K4 & K5) & K6 & K7). apply wp_bind, wp_get. rewrite !K5.
    eapply wp_bind_mono with (P := fun _ => K).
    { assert (UP : plain -> ext_leb (Fin vb) (ext_add (a_vUB s) (1 # 100000000)) = true /\ ext_leb (Fin vo) (ext_add (a_vUB s) (1 # 100000000)) = true).
      { intro NM. destruct (OPT NM) as (O1 & O2 & _ & _). cbn [fst snd] in O1, O2. rewrite (ext_leb_eq _ _ _ O2).
        assert (O3 : ext_leb (Fin vo) (ext_add (a_vUB s) (1 # 100000000)) = true) by (eapply ext_leb_trans; [exact O1|apply ext_add_le; lra]). auto. }
      destruct (ext_leb (Fin vb) (ext_add (a_vUB s) (1 # 100000000))).
      2:{ apply wp_ret. split; [exact K2|]. split; [exact K3|]. split; [exact K6|]. split; [exact K7|]. split; intro NM; destruct (UP NM); discriminate. }
      eapply wp_bind_mono with (P := fun _ s' => a_start s' = a_start s /\ a_iter s' = a_iter s /\ a_fe s' = Some f /\ a_zUB s' = Some z /\ a_vLB s' = a_vLB s /\
        (plain -> a_xUB s' = Some x)).
      - destruct (ext_leb (Fin vo) (ext_add (a_vUB s) (1 # 100000000))).
        + apply run_put. repeat split; auto.
        + apply wp_ret. repeat split; auto. intro NM. destruct (UP NM). discriminate.
      - intros _ s3 (L1 & L2 & L3 & L4 & L5 & L6). apply run_put. split; [exact L1|]. split; [exact L2|]. split; [exact L3|]. split; [exact L4|]. split; intro NM; destruct (OPT NM) as (O1 & O2 & O3 & O4 & O5); cbn [fst snd] in O1, O2, O3, O4, O5.
        + change (jv (a_part s) (Fin vb) (a_vLB s3)). rewrite L5. exact O3.
        + split; [exact (L6 NM)|]. split; [exact O4|]. split; [rewrite <- (ext_leb_eq _ _ (a_vUB s) O5); exact O1|]. exists vb. split; [reflexivity|]. lra. }
    clear s2 K2 K3 K4 K5 K6 K7. intros _ s2 K2. eapply wp_bind_mono with (P := fun _ => K); [apply run_put; exact K2|].
    clear s2 K2. intros _ s2 K2. eapply wp_bind_mono with (P := fun _ => K); [apply store_safe; intros t2 l2; exact K2|].
    clear s2 K2. intros _ s2 K2. apply wp_ret. cbn [fst snd].
    destruct K2 as (A1 & A2 & A3 & A4 & A5). split; [exact A1|]. split; [exact A2|]. right. split; [exists z; auto|]. split; [exact (proj1 A5)|]. exists x. split; [reflexivity|].
    split; [exact H1|]. split; [|exact (proj2 A5)]. intros ->. unfold AdaptiveStruct.fe_of. rewrite EC. split; [exact A3|reflexivity].
  Qed.

  (** ** Lower bound *)
  Definition kept (s s' : ast) : Prop := a_start s' = a_start s /\ a_iter s' = a_iter s /\ a_zUB s' = a_zUB s /\ a_fe s' = a_fe s /\ a_xUB s' = a_xUB s /\ a_vUB s' = a_vUB s.
  Lemma deterministic_safe x s : bnd s -> wp outer (deterministic_bound w I cf (Some x)) (fun _ s' => kept s s') s.
  Proof.
    intro BD. unfold deterministic_bound. apply wp_bind, wp_get.
    assert (EI : exists idx, (match c_proj cf with
                      | ProjRescaled => do y <- need (Some x) ;; index_scenarios (w_norm w) I ProjRescaled (lb_counter (a_lb s)) y
                      | pr => index_scenarios (w_norm w) I pr (lb_counter (a_lb s)) []
                      end) = Ok idx).
    { assert (N := op_proj _ _ _ HOp). destruct (c_proj cf); cbn [need rbind index_scenarios]; eauto. congruence. }
    destruct EI as (idx & EI). rewrite EI. apply index_length in EI; [|exact BD].
    apply wp_bind, wp_ret. destruct HO as (_ & HA & _).
    destruct (selected_exists (w_argsort w) (i_eps I) (i_k I) idx HA) as (sel & ES); [apply HW|exact EI|assert (E0 := eps0); lra|].
    assert (SS := selected_spec (w_argsort w) (uniform (i_k I)) (i_eps I) (i_k I) idx sel HA (uniform_length _) EI ES).
    destruct SS as (_ & _ & ND & _). rewrite ES. cbn [rbind need]. apply wp_bind, wp_ret.
    destruct (bv_cut _ _ _ _ BD) as (cuts & C1 & _).
    destruct (lb_prepare_good I cuts (a_lb s) (a_vLB s) sel C1 ND) as (lb' & E' & _). rewrite E'. apply wp_bind, wp_ret.
    apply wp_bind, run_put. apply wp_bind, run_call; [reflexivity|]. intros o (_ & Ho & _) _.
    destruct o as [y z v b| | |]; try contradiction; [cbn; repeat split..|now destruct Ho].
  Qed.
  Lemma lower_safe x s : bnd s -> wp zdo (lower_bound_step w I cf (Some x)) (fun _ s' => kept s s') s.
  Proof.
    intro BD. unfold lower_bound_step. apply wp_bind. eapply wp_mono; [apply deterministic_safe, BD| |intros e s' X; right; exact X].
    intros [y v] s1 K1. apply wp_bind, wp_get. eapply wp_bind_mono with (P := fun _ => kept s).
    - destruct (ext_ltb (a_vLB s1) (Fin v)); [|apply wp_ret, K1]. apply wp_bind, run_put. apply run_put. exact K1.
    - intros _ s2 K2. apply wp_bind, gap_safe. intro g. apply wp_bind, store_safe. intros t l. apply wp_ret. exact K2.
  Qed.

  (** ** One turn of the loop *)
  Lemma bound_safe s : state_ok s -> zfits s -> a_start s = w_clock w 0 -> jinv (a_part s) s -> xinv s ->
    wp zdo (bound_phase w I cf) (fun r s' => a_start s' = a_start s /\ a_iter s' = a_iter s /\ (r = inl TimeUp /\ lt \/
      (exists z, a_zUB s' = Some z /\ length z = a_nb s) /\ jinv (a_part s) s' /\
      (plain -> exists y, at_point (a_part s) (a_vUB s) y s' /\ forall x, r = inr x -> x = Some y) /\
      match r with
      | inl v => v = Feasible \/ v = GapReached
      | inr x => exists y, x = Some y /\ nunsat I tol6 y (a_part s) <= tolerated I /\ fe_of y s'
      end)) s.
  Proof.
    intros OK ZF ST JI XI. rewrite bound_phase_eq. apply wp_bind, gap_safe. intros _. apply wp_bind.
    eapply wp_mono; [eapply wp_conj; [exact (big_M_good w I cf tau delta HO HSo HW HP HEps HS s OK)|exact (big_M_safe s OK)]| |intros e s' [_ X]; right; exact X].
    cbv beta. intros _ s1 ((OK1 & MS1) & (t & v & E1) & SO1 & MP1).
    assert (ST1 : a_start s1 = w_clock w 0) by (rewrite E1; exact ST).
    assert (ZF1 : zfits s1) by (rewrite E1; exact ZF).
    assert (XI1 : xinv s1) by (rewrite E1; exact XI).
    assert (JI1 : jinv (a_part s1) s1) by (rewrite E1; exact JI).
    assert (F1 : a_start s = a_start s1 /\ a_iter s = a_iter s1 /\ a_nb s = a_nb s1 /\ a_part s = a_part s1 /\ a_vUB s = a_vUB s1) by (rewrite E1; repeat split).
    destruct F1 as (-> & -> & -> & -> & ->). clear E1 s OK ZF ST JI XI t v. rename s1 into s.
    apply wp_bind.
    eapply wp_mono; [eapply wp_conj; [exact (upper_good w I cf tau delta HO HW HP HEps HS s OK1 MS1)|exact (upper_safe s OK1 MS1 SO1 MP1 ZF1 ST1 JI1 XI1)]| |intros e s' [_ H]; exact H].
    cbv beta. intros [x ok] s2 ((G2 & _) & A1 & A2 & [[OF AF]|(A3 & AJ & y & EY & HU & FE & AX)]).
    { cbn [snd] in OF. subst ok. unfold after_upper. apply wp_bind, run_avail; [congruence|intros tm _ NA _; now elim NA|]. intros _ tm ET _. rewrite ET. apply wp_ret.
      split; [exact A1|]. split; [exact A2|]. left. split; [reflexivity|]. exact (proj1 (rg_late _ _ _ _ _ HC _ AF)). }
    cbn [fst snd] in EY, FE. subst x.
    unfold after_upper. destruct ok; [apply wp_ret; cbv beta; split; [exact A1|]; split; [exact A2|]; right; split; [exact A3|]; split; [exact AJ|]; split; [|now left]; intro NM; exists y; split; [exact (AX NM)|discriminate]|].
    specialize (FE eq_refl). apply wp_bind, run_avail; [congruence| |].
    2:{ intros AF tm ET _. rewrite ET. apply wp_ret. split; [exact A1|]. split; [exact A2|]. left. split; [reflexivity|]. exact (proj1 (rg_late _ _ _ _ _ HC _ AF)). }
    intros tm ET _ _. rewrite ET.
    apply wp_bind. eapply wp_mono; [eapply wp_conj; [apply (lower_safe y (bump s2)); exact (proj1 G2)|
      exact (lax_lower w I cf _ (jinv_lax (a_part s)) (Some y) (bump s2) AJ)]| |intros e s' [X _]; exact X].
    cbv beta. intros g s3 ((K1 & K2 & K3 & K4 & K5 & K6) & KJ). change (a_xUB (bump s2)) with (a_xUB s2) in K5. change (a_vUB (bump s2)) with (a_vUB s2) in K6.
    assert (AX3 : plain -> at_point (a_part s) (a_vUB s) y s3) by (unfold at_point; rewrite K5, K6; exact AX). clear AJ AX. change (a_start (bump s2)) with (a_start s2) in K1. change (a_iter (bump s2)) with (a_iter s2) in K2.
    change (a_zUB (bump s2)) with (a_zUB s2) in K3. change (a_fe (bump s2)) with (a_fe s2) in K4.
    destruct (gap_leb g (c_gap cf)).
    { apply wp_ret. split; [congruence|]. split; [congruence|]. right. split; [rewrite K3; exact A3|]. split; [exact KJ|]. split; [|now right]. intro NM. exists y. split; [exact (AX3 NM)|discriminate]. }
    apply wp_bind, run_avail; [congruence| |].
    2:{ clear tm ET. intros AF tm ET _. rewrite ET. apply wp_ret. split; [cbn [a_start bump set_t]; congruence|]. split; [cbn [a_iter bump set_t]; congruence|]. left. split; [reflexivity|].
        exact (proj1 (rg_late _ _ _ _ _ HC _ AF)). }
    clear tm ET. intros tm ET _ _. rewrite ET. apply wp_ret.
    change (a_start (bump s3)) with (a_start s3). change (a_iter (bump s3)) with (a_iter s3). change (a_zUB (bump s3)) with (a_zUB s3).
    split; [congruence|]. split; [congruence|]. right. split; [rewrite K3; exact A3|]. split; [exact KJ|]. split; [intro NM; exists y; split; [exact (AX3 NM)|intros x E; now injection E]|]. exists y. split; [reflexivity|]. split; [exact HU|].
    destruct FE as [F1 F2]. split; [|exact F2]. cbn [a_fe bump set_t]. congruence.
  Qed.

  Lemma refine_safe y s e s' : shaped s -> fe_of y s -> nunsat I tol6 y (a_part s) <= tolerated I -> refine w I cf s = (Err e, s') -> out e.
  Proof.
    intros [V NB MN VW AL RE] [F1 F2] HU E. destruct HO as (PO & HA & HNm & HSd & HL).
    unfold refine, mbind, mget, lift in E. rewrite F1 in E. destruct (op_split _ _ _ HOp) as [(E1 & E2 & E3)|(E1 & E2 & E3)]; rewrite E1 in E.
    - rewrite E2 in E.
      destruct (random_after_check (w_norm w) (w_perm w) I y (a_part s) (a_perm s) (c_fuel cf) PO HNm eps0 V HU F2 ltac:(lia)) as (R & t' & ER & _).
      rewrite ER in E. unfold put, mbind, tick in E. destruct (w_intr w _) eqn:IN; [|discriminate E]. injection E as <- _. exact (rg_intr _ _ _ _ _ HC _ IN).
    - destruct (check_pattern (w_norm w) I y HNm) as (fm & EP). apply check_infeasible_count in F2; [|apply eps0].
      assert (HU' := HU). rewrite <- nb_bad_nunsat in HU'.
      destruct (cost_refinement_total (w_acc w) (w_argsort w) I (a_ref s) (violated I y) fm (a_costs s) (a_vUB s) (a_part s) E3 HL HA eps0 RE V (proj1 AL) HU' F2) as (R & cs' & ER & _).
      rewrite EP, ER in E. unfold put, mbind, tick in E. destruct (w_intr w _) eqn:IN; [|discriminate E]. injection E as <- _. exact (rg_intr _ _ _ _ _ HC _ IN).
  Qed.

  (** Invariant at the head of the loop. *)
  Record head_ok (s : ast) : Prop := mkHead {
    hd_state : state_ok s;
    hd_fe : fe_ok s;
    hd_z : zfits s;
    hd_start : a_start s = w_clock w 0;
    hd_j : jinv (a_part s) s;
    hd_x : xinv s
  }.
  Lemma pres_eq {A B} (f : ast -> B) (m : M A) s : pres (fun s' => f s' = f s) m -> wp (fun _ _ => True) m (fun _ s' => f s' = f s) s.
  Proof. intro H. eapply wp_mono; [apply H; reflexivity|auto|auto]. Qed.

  (** A turn that goes on, with exact answers: its point y solves the relaxation of the partition p at its beginning, its value is the
      new upper bound, it violates too many scenarios, and the next partition excludes it. *)
  Definition turn (p : list (list nat)) (u0 : ext) (s' : ast) : Prop := plain -> exists y, at_point p u0 y s' /\
    tolerated I < nviol I tol6 y /\ tolerated I < nunsat I tol6 y (a_part s').
  Definition grown (p : list (list nat)) (s' : ast) : Prop := length p <= length (a_part s') /\ (a_merged s' = false -> length p < length (a_part s')) /\
    (c_merger cf = false -> length p < length (a_part s')).
  Definition timed (p : list (list nat)) (i : nat) (s' : ast) : Prop := lt /\ (a_iter s' = i \/ a_iter s' = S i /\ (c_merger cf = false -> length p < i_k I)).
  Lemma iteration_safe s : head_ok s -> wp zdo (iteration w I cf) (fun v s' =>
    (v = TimeUp /\ timed (a_part s) (a_iter s) s') \/ (v = Feasible /\ a_iter s' = a_iter s) \/ (v = GapReached /\ a_iter s' = a_iter s) \/
    (v = Continue /\ head_ok s' /\ a_iter s' = S (a_iter s) /\ grown (a_part s) s' /\ turn (a_part s) (a_vUB s) s')) s.
  Proof.
    intros [OK FE ZF ST JI XI]. rewrite iteration_eq. apply wp_bind.
    eapply wp_mono; [eapply wp_conj; [exact (bound_safe s OK ZF ST JI XI)|eapply wp_conj; [exact (bound_good w I cf tau delta HO HSo HW HP HEps HS s OK)|exact (bound_inv w I cf s (proj2 OK) FE)]]| |intros e s' [H _]; exact H].
    cbv beta. intros [v|x] s1 ((A1 & A2 & AT) & (G1 & _) & SH1 & P1 & _).
    { apply wp_ret. destruct AT as [[E L]|(_ & _ & _ & [->| ->])]; auto. injection E as ->. left. split; [reflexivity|]. split; [exact L|]. now left. }
    destruct AT as [[E _]|(A3 & AJ & AX & A4)]; [discriminate E|]. destruct A4 as (y & -> & HU & F1). unfold after_bounds.
    assert (AY : plain -> at_point (a_part s) (a_vUB s) y s1) by (intro NM; destruct (AX NM) as (y' & Y1 & Y2); specialize (Y2 _ eq_refl); congruence). clear AX.
    assert (N1 : a_nb s1 = a_nb s) by (rewrite (sh_nb _ _ _ SH1), (sh_nb _ _ _ (proj2 OK)); congruence).
    rewrite <- P1 in HU, AJ, AY |- *. rewrite <- N1 in A3. rewrite <- A2. clear A2. assert (ST1 : a_start s1 = w_clock w 0) by congruence. clear A1 ST N1 P1 ZF FE OK JI XI. generalize dependent (a_vUB s). clear s. intros u0 AY.
    set (f := fun s : ast => (a_start s, a_iter s, a_zUB s, a_xUB s, a_vUB s)).
    assert (IM : forall (c : ast) cands, pres (fun s' => f s' = f c) (improve_vlb w I cands)).
    { intros c cands. apply pres_improve0; auto. }
    apply wp_bind.
    eapply wp_mono with (E := outer);
      [apply wp_mono with (1 := wp_conj _ _ _ _ _ s1 (split_inv w I cf HO HW eps0 y s1 SH1 F1) (wp_conj _ _ _ _ _ s1 (split_good w I cf tau delta HO HP HS s1 G1) (wp_conj _ _ _ _ _ s1 (lax_split w I cf _ (jinv_lax (a_part s1)) s1 AJ) (wp_conj _ _ _ _ _ s1 (split_new_costs w I cf s1) (pres_eq f _ s1 (pres_split0 w I cf (fun s' => f s' = f s1) ltac:(auto) ltac:(auto) ltac:(auto) ltac:(auto) ltac:(auto) ltac:(auto) ltac:(auto) ltac:(auto) (IM s1)))))))|  |intros e s' X; right; exact X].
    { cbv beta. intros a s' H. exact H. }
    { cbv beta. intros e s' [[H|(s2 & H)] _]; [now apply ext_out in H|]. now apply refine_safe with (y := y) in H. }
    cbv beta. intros [R nc] s2 (SP & G2 & J2 & NEW & E2). cbn [fst snd] in SP, NEW.
    apply wp_bind.
    eapply wp_mono with (E := outer);
      [apply wp_mono with (1 := wp_conj _ _ _ _ _ s2 (merge_inv w I cf HW eps0 y (Some y) s1 s2 R nc SH1 SP) (wp_conj _ _ _ _ _ s2 (merge_good w I cf tau delta HO HP HS (Some y) R nc s2 G2) (wp_conj _ _ _ _ _ s2 (lax_merge w I cf _ (jinv_lax (a_part s1)) (Some y) R nc s2 J2) (pres_eq f _ s2 (pres_merge0 w I cf (fun s' => f s' = f s2) ltac:(auto) (Some y) R nc ltac:(auto) ltac:(auto) ltac:(auto) ltac:(auto) ltac:(auto) ltac:(auto) ltac:(auto) (IM s2))))))|  |intros e s' X; right; exact X].
    { cbv beta. intros a s' H. exact H. }
    { cbv beta. intros e s' [[H|H] _]; [now apply ext_out in H|discriminate]. }
    cbv beta. intros [] s3 (MP & G3 & J3 & E3). assert (U2 : a_vUB s2 = a_vUB s1) by (unfold f in E2; injection E2; auto). rewrite E2 in E3. clear E2 G2 J2 AJ. unfold f in E3. injection E3 as T1 T2 T3 T4 T5.
    assert (SH3 := mp_shape _ _ _ _ _ _ _ _ _ MP).
    assert (F3 : fe_of y s3). { destruct F1 as [X1 X2]. split; [|exact X2]. rewrite (mp_fe _ _ _ _ _ _ _ _ _ MP), (sp_fe _ _ _ _ _ _ _ SP). exact X1. }
    destruct (sp_ref _ _ _ _ _ _ _ SP) as ((RV & L1 & RR & _) & _).
    assert (JN : jinv (a_part s3) s3).
    { intros NM q Q. destruct (a_merged s3) eqn:EM.
      { apply part_iff in Q as [Q1 Q2]; [|apply eps0]. destruct (merged_points I q R (a_part s1) (a_part s3)) as [(c & C1 & C2)|C].
        - exact (mp_keep _ _ _ _ _ _ _ _ _ MP EM).
        - left. rewrite T5, <- U2. apply (mp_when _ _ _ _ _ _ _ _ _ MP) in EM as [_ EM].
          apply (In_nth _ _ 0) in C1 as (i & I1 & <-). assert (IL := Forall2_len _ _ _ NEW).
          destruct (proj2 (Forall2_nth _ _ _ 0 0%Q NEW) i I1) as (x & AN). rewrite Forall_forall in EM.
          apply ext_leb_trans with (Fin (nth i nc 0%Q)); [|apply EM, nth_In; lia]. cbn. apply Qle_bool_iff. apply (so_eval _ _ _ _ HS _ _ _ AN). split; [exact Q1|exact C2].
        - apply (J3 NM). apply part_iff; [apply eps0|]. split; [exact Q1|]. lia. }
      destruct Q as [Q1 Q2]. apply (J3 NM). split; [exact Q1|]. eapply Qle_trans; [|exact Q2]. apply Qn_le.
      rewrite (mp_none _ _ _ _ _ _ _ _ _ MP EM), (sp_part _ _ _ _ _ _ _ SP).
      apply (nunsat_refines I 0 q _ _ (sh_valid _ _ _ SH1) RV RR). }
    assert (L2 : length (a_part s1) < length (a_part s2)).
    { rewrite (sp_part _ _ _ _ _ _ _ SP), L1. lia. }
    assert (L3 : grown (a_part s1) s3).
    { unfold grown. destruct (a_merged s3) eqn:EM.
      - rewrite (mp_size _ _ _ _ _ _ _ _ _ MP EM). split; [lia|]. split; [discriminate|]. intro C. apply (mp_when _ _ _ _ _ _ _ _ _ MP) in EM as [EM _]. congruence.
      - rewrite (mp_none _ _ _ _ _ _ _ _ _ MP EM). split; [lia|]. split; intros _; exact L2. }
    assert (TU : turn (a_part s1) u0 s3).
    { intro NM. exists y. split; [unfold at_point; rewrite T4, T5; exact (AY NM)|]. split; [|rewrite (mp_cut _ _ _ _ _ _ _ _ _ MP); lia].
      destruct F1 as [_ F1]. apply check_infeasible_count in F1; [|apply eps0]. exact F1. }
    clear MP SP L1 L2. unfold next_iteration. apply wp_bind, run_avail; [congruence| |].
    2:{ intros AF tm ET _. rewrite ET. apply wp_ret. left. split; [reflexivity|]. split; [exact (proj1 (rg_late _ _ _ _ _ HC _ AF))|]. left. exact T2. }
    intros tm ET _ _. rewrite ET. apply wp_bind, run_put. apply wp_bind, run_avail; [exact (eq_trans T1 ST1)| |].
    2:{ clear tm ET. intros AF tm ET _. rewrite ET. apply wp_ret. left. split; [reflexivity|]. split; [exact (proj1 (rg_late _ _ _ _ _ HC _ AF))|]. right.
        split; [change (S (a_iter s3) = S (a_iter s1)); congruence|]. intro NM. destruct L3 as (_ & _ & L3). specialize (L3 NM).
        assert (L := vp_length _ _ (sh_valid _ _ _ SH3)). lia. }
    clear tm ET. intros tm ET _ _. rewrite ET. apply wp_ret.
    right. right. right. split; [reflexivity|]. split; [|split; [|split; [exact L3|exact TU]]].
    - constructor.
      + split; [exact G3|]. destruct SH3 as [B1 B2 B3 B4 B5 B6]. constructor; assumption.
      + right. exists y. exact F3.
      + right. destruct A3 as (z & Z1 & Z2). exists z. split; [exact (eq_trans T3 Z1)|].
        change (length z <= a_nb s3). rewrite Z2, (sh_nb _ _ _ SH3), (sh_nb _ _ _ SH1). apply L3.
      + exact (eq_trans T1 ST1).
      + exact JN.
      + intro NM. right. destruct (AY NM) as (X & _). change (a_xUB s3 <> None). rewrite T4, X. discriminate.
    - change (S (a_iter s3) = S (a_iter s1)). congruence.
  Qed.

  Definition looping (e : exn) (s : ast) : Prop := zdo e s \/ e = NonTermination.
  Instance opens_looping : opens looping. Proof. intros e s H. left. now right. Qed.
  Definition ended (v : verdict) : Prop := v = TimeUp /\ lt \/ v = Feasible \/ v = GapReached.
  Lemma loop_safe fuel : forall s, head_ok s -> wp looping (main_loop w I cf fuel) (fun v s' => ended v) s.
  Proof.
    induction fuel as [|n IH]; intros s H; cbn [main_loop]; [apply wp_raise; now right|]. apply wp_bind.
    eapply wp_mono; [exact (iteration_safe s H)| |intros e s' X; now left]. cbv beta.
    intros v s' [(-> & L & _)|[[-> _]|[[-> _]|(-> & H' & _)]]]; [apply wp_ret; left; auto|apply wp_ret; right; now left|apply wp_ret; right; now right|]. now apply IH.
  Qed.
  Lemma loop_ends fuel : c_merger cf = false -> forall s, head_ok s -> i_k I < fuel + length (a_part s) ->
    wp zdo (main_loop w I cf fuel) (fun v s' => ended v /\ a_iter s' + length (a_part s) <= a_iter s + i_k I) s.
  Proof.
    intro NM. induction fuel as [|n IH]; intros s H HF; cbn [main_loop].
    { assert (L := vp_length _ _ (sh_valid _ _ _ (proj2 (hd_state s H)))). lia. }
    apply wp_bind. eapply wp_mono; [exact (iteration_safe s H)| |auto]. cbv beta.
    assert (L := vp_length _ _ (sh_valid _ _ _ (proj2 (hd_state s H)))).
    intros v s' [(-> & LT & E)|[[-> E]|[[-> E]|(-> & H' & E & G & _)]]];
      [apply wp_ret; split; [left; auto|]; destruct E as [E|[E E2]]; [lia|specialize (E2 NM); lia]|apply wp_ret; split; [right; now left|lia]|apply wp_ret; split; [right; now right|lia]|].
    destruct G as (_ & _ & G). specialize (G NM). eapply wp_mono; [apply (IH s' H'); lia| |auto]. cbv beta. intros v s2 [X1 X2]. split; [exact X1|]. lia.
  Qed.

  (** ** Construction *)
  Lemma k_pos : 0 < i_k I. Proof. apply HW. Qed.
  Lemma eps_k : (i_eps I * Qn (i_k I) < Qn (i_k I))%Q.
  Proof. assert (P := Qn_pos _ k_pos). assert (X := Qmult_lt_r (i_eps I) 1 (Qn (i_k I)) P). apply X in HE1. lra. Qed.
  Lemma min_size_le : min_size I <= i_k I.
  Proof.
    rewrite min_size_tolerated by apply eps0. destruct (le_lt_dec (tolerated I + 1) (i_k I)) as [H|H]; [exact H|exfalso].
    assert (T : i_k I <= tolerated I) by lia. apply tolerated_le in T; [|apply eps0]. assert (X := eps_k). lra.
  Qed.
  Lemma eps_below : (i_eps I + (1 # 10000000) <= 1)%Q.
  Proof.
    assert (P := Qn_pos _ k_pos). destruct HEps as [_ E]. assert (X := eps_k).
    assert (F : (Qfloor (i_eps I * Qn (i_k I)) < Z.of_nat (i_k I))%Z).
    { rewrite Zlt_Qlt. eapply Qle_lt_trans; [apply Qfloor_le|exact X]. }
    assert (G := Qlt_floor (i_eps I * Qn (i_k I) + (1 # 10000000) * Qn (i_k I))). rewrite E in G.
    set (fl := Qfloor (i_eps I * Qn (i_k I))) in *. clearbody fl.
    assert (B : (inject_Z (fl + 1) <= Qn (i_k I))%Q) by (unfold Qn; rewrite <- Zle_Qle; lia).
    assert (Y : ((i_eps I + (1 # 10000000)) * Qn (i_k I) <= 1 * Qn (i_k I))%Q) by lra.
    apply Qmult_le_r in Y; [exact Y|exact P].
  Qed.
  Lemma setup_safe s : wp outer (setup_initial_partition w I cf) (fun b s' => b = true /\ a_start s' = a_start s) s.
  Proof.
    destruct HO as (PO & HA & _). unfold setup_initial_partition. apply wp_bind, run_put. assert (MS := min_size_le).
    unfold rassert. rewrite (proj2 (Nat.leb_le _ _) MS). apply wp_bind, wp_ret. set (s1 := bump _).
    assert (S1 : a_start s1 = a_start s) by reflexivity. clearbody s1. rewrite <- S1. clear S1 s. rename s1 into s.
    eapply wp_bind_mono with (P := fun costs s' => a_start s' = a_start s /\ (c_init cf = InitCost -> length costs = i_k I)).
    { destruct (c_init cf); try (apply wp_ret; split; [reflexivity|discriminate]).
      unfold all_scenario_costs. apply wp_bind. apply (wp_mmap_map _ (subset_cost w I) (fun s => [s])).
      apply ext_safe. apply ext_mmap_cost. intros r t HF. apply wp_ret. split; [reflexivity|]. intros _.
      apply Forall2_len in HF. rewrite map_length, seq_length in HF. now rewrite map_length. }
    intros costs s1 [ST LC]. apply wp_bind, wp_get.
    assert (EP : exists p, create_first_partition (w_argsort w) (w_perm w (a_perm s1) (i_k I)) costs (i_k I) (min_size I) (c_init cf) = Ok p /\
      length p = min_size I /\ valid_partition (i_k I) p).
    { assert (M0 : 0 < min_size I) by (rewrite min_size_tolerated by apply eps0; lia). assert (NO := op_init _ _ _ HOp).
      destruct (c_init cf) eqn:EI; [| |congruence].
      - rewrite (create_random_ignores _ _ costs (repeat 0%Q (i_k I))).
        destruct (initial_partition (w_argsort w) (w_perm w (a_perm s1) (i_k I)) (repeat 0%Q (i_k I)) (i_k I) (min_size I) InitRandom HA)
          as (p' & E' & L' & V' & _); try assumption; [apply PO|apply repeat_length|]. eauto.
      - destruct (initial_partition (w_argsort w) (w_perm w (a_perm s1) (i_k I)) costs (i_k I) (min_size I) InitCost HA)
          as (p' & E' & L' & V' & _); try assumption; [apply PO|auto|]. eauto. }
    destruct EP as (p & EP & LP & VP). rewrite EP. apply wp_bind, wp_ret.
    eapply wp_bind_mono with (P := fun _ s' => a_start s' = a_start s); [apply run_put; exact ST|]. clear s1 ST EP. intros _ s1 ST.
    eapply wp_bind_mono with (P := fun _ s' => a_start s' = a_start s); [apply run_put; exact ST|]. clear s1 ST. intros _ s1 ST.
    destruct (load_partition_uniform I p HW VP) as (V & EV & _). rewrite LP in EV. rewrite EV. apply wp_bind, wp_ret.
    eapply wp_bind_mono with (P := fun _ s' => a_start s' = a_start s); [apply run_put; exact ST|]. clear s1 ST EV. intros _ s2 S2.
    destruct (c_init cf); try (apply wp_ret; split; [reflexivity|exact S2]). specialize (LC eq_refl).
    apply wp_bind, wp_lift.
    - intros [[i v]|] EA.
      + apply wp_bind, run_put. apply wp_ret. split; [reflexivity|exact S2].
      + exfalso. apply ahmed_none in EA; [|exact HA|now rewrite uniform_length|apply uniform_nonneg|rewrite uniform_length; apply k_pos].
        rewrite (uniform_sum (i_k I) k_pos) in EA. assert (X := eps_below). lra.
    - intros e EA. exfalso. revert EA. apply ahmed_no_error; [exact HA|now rewrite uniform_length].
  Qed.
  Lemma construct_safe : wp outer (construct w I cf) (fun b s' => b = true /\ a_start s' = w_clock w 0) (ast0 I).
  Proof.
    unfold construct. apply wp_bind, wp_clock. apply wp_bind, run_put.
    assert (EI : init_refiner cf = Ok tt).
    { unfold init_refiner. destruct (op_split _ _ _ HOp) as [(E1 & _)|(E1 & E2 & _)]; rewrite E1; [reflexivity|]. now rewrite E2. }
    rewrite EI. apply wp_bind, wp_ret. eapply wp_bind_mono; [apply setup_safe|]. cbv beta. intros b s [-> E]. apply wp_bind, wp_get.
    apply wp_bind, run_put. apply wp_ret. split; [reflexivity|exact E].
  Qed.
  Lemma prologue_safe s : a_start s = w_clock w 0 ->
    wp outer (prologue w I cf true) (fun v s' => (v = Continue \/ v = TimeUp /\ lt) /\ a_start s' = w_clock w 0 /\ a_iter s' = 1 /\ a_nb s' = a_nb s) s.
  Proof.
    intro ST. unfold prologue. apply wp_bind, wp_get, wp_bind. unfold partition_cost. apply wp_bind, ext_safe, ext_mmap_cost.
    intros r t _. apply wp_ret. apply wp_bind, run_put. apply wp_bind, run_put. apply wp_bind, wp_ret.
    set (s1 := bump _). assert (S1 : a_start s1 = a_start s /\ a_nb s1 = a_nb s) by (split; reflexivity). clearbody s1.
    apply wp_bind, ext_safe, ext_improve. intros s2 HF.
    assert (S2 : a_start s2 = a_start s /\ a_nb s2 = a_nb s) by (apply (HF (fun s' => a_start s' = a_start s /\ a_nb s' = a_nb s)); auto).
    apply wp_bind, run_put. apply wp_bind, run_avail; [exact (eq_trans (proj1 S2) ST)| |].
    2:{ intros AF tm ET _. rewrite ET. apply wp_ret. split; [right; split; [reflexivity|]; exact (proj1 (rg_late _ _ _ _ _ HC _ AF))|].
        split; [exact (eq_trans (proj1 S2) ST)|]. split; [reflexivity|]. exact (proj2 S2). }
    intros tm ET _ _. rewrite ET. apply wp_ret.
    split; [now left|]. split; [exact (eq_trans (proj1 S2) ST)|]. split; [reflexivity|]. exact (proj2 S2).
  Qed.
  (** The first partition and the first upper bound. *)
  Lemma setup_below s : a_vUB s = PInf -> wp (fun _ _ => True) (setup_initial_partition w I cf) (fun _ s' => jv (a_part s') (a_vUB s') NInf) s.
  Proof.
    intro EU. unfold setup_initial_partition. set (K := fun (s : ast) => a_vUB s = PInf). destruct HO as (PO & HA & _).
    assert (A : forall s, a_vUB s = PInf -> jv (a_part s) (a_vUB s) NInf) by (intros s1 E1 y _; left; rewrite E1; reflexivity).
    eapply wp_bind_mono with (P := fun _ => K); [apply wp_put; [auto|intros _; exact EU]|]. clear s EU. intros _ s EU. apply wp_bind, wp_lift; [|auto]. intros _ _.
    eapply wp_bind_mono with (P := fun costs s' => a_vUB s' = PInf /\ (c_init cf = InitCost -> length costs = i_k I /\
      forall t, t < i_k I -> exists x, answered w I [t] (nth t costs 0%Q) x)).
    { destruct (c_init cf); try (apply wp_ret; split; [assumption|discriminate]).
      unfold all_scenario_costs. apply wp_bind. apply (wp_mmap_map _ (subset_cost w I) (fun s => [s])).
      match goal with |- wp _ ?m ?q ?s => apply wp_mono with (E := fun e _ => external w I e) (Q := q) end; [apply (ext_mmap_cost w I)|auto|auto]. intros r t F. apply wp_ret. split; [exact EU|]. intros _. split.
      - apply Forall2_len in F. rewrite map_length, seq_length in F. now rewrite map_length.
      - apply (Forall2_nth_singletons w I (i_k I) 0 r F). }
    clear s EU. intros costs s [EU HK]. apply wp_bind, wp_get. apply wp_bind, wp_lift; [|auto]. intros p. generalize (w_perm w (a_perm s) (i_k I)). intros perm EP.
    eapply wp_bind_mono with (P := fun _ => K); [apply wp_put; [auto|intros _; exact EU]|]. clear s EU. intros _ s EU.
    eapply wp_bind_mono with (P := fun _ s' => K s' /\ a_part s' = p); [apply wp_put; [auto|intros _; split; [exact EU|reflexivity]]|]. clear s EU. intros _ s EU. apply wp_bind, wp_lift; [|auto]. intros W _.
    eapply wp_bind_mono with (P := fun _ s' => K s' /\ a_part s' = p); [apply wp_put; [auto|intros _; exact EU]|]. clear s EU. intros _ s [EU PE].
    destruct (c_init cf); try (apply wp_ret; now apply A). destruct (HK eq_refl) as [LC HC'].
    apply wp_bind, wp_lift; [|auto]. intros [[i v]|] EA; [|apply wp_ret; now apply A].
    apply wp_bind, wp_put; [auto|]. intros _. apply wp_ret. cbn [a_part a_vUB bump set_t set_vUB]. rewrite PE. intros y Y. left. cbn. apply Qle_bool_iff.
    rewrite min_size_tolerated in EP by apply eps0. assert (MS := min_size_le). rewrite min_size_tolerated in MS by apply eps0.
    assert (LP : length p = tolerated I + 1).
    { destruct (initial_partition (w_argsort w) (seq 0 (i_k I)) costs (i_k I) (tolerated I + 1) InitCost HA) as (p' & E' & L' & _); try assumption; try lia; [reflexivity|discriminate|].
      unfold create_first_partition in E', EP. rewrite E' in EP. injection EP as <-. exact L'. }
    apply part_iff in Y as [Y1 Y2]; [|apply eps0].
    destruct (count_exists_false (subset_satb I 0 y) p) as (S & HIn & HSat); [unfold nunsat in Y2; lia|].
    destruct (cost_partition_below (w_argsort w) I costs p i v HA k_pos eps0 LC MS EP EA S HIn) as (t & T1 & T2 & T3).
    eapply Qle_trans; [|exact T3]. destruct (HC' t T2) as (x & AN). apply (so_eval _ _ _ _ HS _ _ _ AN y). split; [exact Y1|].
    intros u [<-|[]]. apply subset_satb_iff in HSat. now apply HSat.
  Qed.
  Lemma construct_below : wp (fun _ _ => True) (construct w I cf) (fun _ s' => jv (a_part s') (a_vUB s') NInf) (ast0 I).
  Proof.
    unfold construct. set (K := fun (s : ast) => a_vUB s = PInf).
    apply wp_bind, wp_clock. eapply wp_bind_mono with (P := fun _ => K); [apply wp_put; intros; [auto|reflexivity]|].
    intros _ s EU. apply wp_bind, wp_lift; [|auto]. intros _ _. eapply wp_bind_mono; [apply setup_below, EU|]. cbv beta. clear s EU. intros b s A.
    apply wp_bind, wp_get. eapply wp_bind_mono with (P := fun _ s' => jv (a_part s') (a_vUB s') NInf); [apply wp_put; auto|]. intros _ s1 A1. apply wp_ret, A1.
  Qed.
  Lemma start_safe {A} (E : exn -> ast -> Prop) {OE : opens E} (k : verdict -> M A) (Q : A -> ast -> Prop) :
    (lt -> forall s, a_iter s = 1 -> wp E (k TimeUp) Q s) -> (forall s, head_ok s -> a_iter s = 1 -> length (a_part s) = tolerated I + 1 -> wp E (k Continue) Q s) ->
    wp E (let! b := construct w I cf in let! v := prologue w I cf b in k v)%mon Q (ast0 I).
  Proof.
    intros K0 K. apply wp_bind.
    eapply wp_mono; [eapply wp_conj; [exact construct_safe|eapply wp_conj; [exact (construct_good w I cf tau delta HO HW HP HS)|eapply wp_conj; [exact (construct_inv w I cf HO eps0)|exact construct_below]]]| |intros e s [X _]; apply OE, X].
    cbv beta. intros b s ([-> ST] & G & CS & JB). apply wp_bind.
    assert (JI : jinv (a_part s) s) by (intros _ y Y; destruct (JB y Y) as [H|H]; [now left|destruct (obj I y); discriminate H]).
    eapply wp_mono; [eapply wp_conj; [exact (prologue_safe s ST)|eapply wp_conj; [exact (prologue_good w I cf tau delta HO HP HS true s G)|eapply wp_conj; [exact (prologue_inv w I cf true s CS)|
      exact (prologue_frame w I cf (jinv (a_part s)) true (lax_t _ (jinv_lax _)) (lax_costs _ (jinv_lax _)) (lax_sols _ (jinv_lax _)) ltac:(intros ? X; exact X) (lax_improve w I _ (jinv_lax _)) s JI)]]]| |intros e s' [X _]; apply OE, X].
    cbv beta. intros v s' (([->|[-> LT]] & ST' & IT & NB) & (G' & _) & (SH & FE & PT) & J'); [|now apply K0].
    assert (LP : length (a_part s') = tolerated I + 1) by (rewrite PT; apply CS).
    apply K; [|exact IT|exact LP]. constructor.
    - split; assumption.
    - now left.
    - left. rewrite (sh_nb _ _ _ SH), LP. symmetry. apply min_size_tolerated, eps0.
    - exact ST'.
    - rewrite PT. exact J'.
    - intros _. left. rewrite (sh_nb _ _ _ SH), LP. symmetry. apply min_size_tolerated, eps0.
  Qed.
  Lemma epilogue_safe E {OE : opens E} v s (Q : verdict -> ast -> Prop) : (forall s', a_iter s' = a_iter s -> Q v s') -> wp E (epilogue w v) Q s.
  Proof.
    intro H. unfold epilogue. destruct v; try (apply wp_ret; apply H; reflexivity).
    apply wp_bind, run_put. apply wp_bind, run_put. apply wp_ret. apply H; reflexivity.
  Qed.

  Definition failed (r : res verdict) (s : ast) : Prop := exists e, r = Err e /\ (close_failed w I cf e s \/ out e).
  Lemma safe_run_out fuel r s : run w I cf fuel = (r, s) -> (exists v, r = Ok v /\ ended v) \/ r = Err NonTermination \/ zero_bound r s \/ failed r s.
  Proof.
    intro ER.
    assert (W : wp looping (let! b := construct w I cf in let! v := prologue w I cf b in
      (let! v := match v with Continue => main_loop w I cf fuel | _ => mret v end in epilogue w v))%mon (fun v s' => ended v) (ast0 I)).
    { apply (start_safe looping).
      - intros LT s' _. apply wp_bind, wp_ret. apply (epilogue_safe looping). intros _ _. left. auto.
      - intros s' H _ _. eapply wp_bind_mono; [apply loop_safe, H|]. cbv beta. intros v s2 HV. apply (epilogue_safe looping). auto. }
    apply (wp_run _ _ _ _ _ _ W) in ER. destruct r as [v|e]; cbv beta iota in ER; [left; eauto|]. right.
    destruct ER as [[[(-> & _ & ER)|ER]|ER]| ->]; [right; left; split; [reflexivity|exact ER]| | |now left]; right; right; exists e; auto.
  Qed.
  Lemma ends_run_out fuel r s : c_merger cf = false -> i_k I - tolerated I <= fuel -> run w I cf fuel = (r, s) ->
    (exists v, r = Ok v /\ ended v /\ a_iter s <= i_k I - tolerated I) \/ zero_bound r s \/ failed r s.
  Proof.
    intros NM HF ER. assert (KS := min_size_le). rewrite min_size_tolerated in KS by apply eps0.
    assert (W : wp zdo (let! b := construct w I cf in let! v := prologue w I cf b in
      (let! v := match v with Continue => main_loop w I cf fuel | _ => mret v end in epilogue w v))%mon
      (fun v s' => ended v /\ a_iter s' <= i_k I - tolerated I) (ast0 I)).
    { apply (start_safe zdo).
      - intros LT s' IT. apply wp_bind, wp_ret. apply (epilogue_safe zdo). intros s3 ->. split; [left; auto|lia].
      - intros s' H IT LP. eapply wp_bind_mono; [apply loop_ends; [exact NM|exact H|lia]|]. cbv beta. intros v s2 [HV HI].
        apply (epilogue_safe zdo). intros s3 ->. split; [exact HV|lia]. }
    apply (wp_run _ _ _ _ _ _ W) in ER. destruct r as [v|e]; cbv beta iota in ER; [left; eauto|]. right.
    destruct ER as [[(-> & _ & ER)|ER]|ER]; [left; split; [reflexivity|exact ER]| |]; right; exists e; auto.
  Qed.

  (** ** No division by zero when a point of positive value satisfies all scenarios *)
  Section Positive.
    Hypothesis HPos : exists y, det_feasible I (seq 0 (i_k I)) 0 y /\ (0 < obj I y)%Q.

    Definition lbpos (s : ast) : Prop := a_npL s = true \/ forall l, a_vLB s = Fin l -> (0 < l)%Q.
    Lemma lbpos_zde e s : lbpos s -> zde e s -> chk e s.
    Proof. intros P [(_ & N & l & E & Z)|C]; [exfalso|exact C]. destruct P as [P|P]; [congruence|]. apply P in E. lra. Qed.

    Lemma deterministic_pos x s : bnd s -> lbpos s -> wp (fun _ => lbpos) (deterministic_bound w I cf x)
      (fun yv s' => lbpos s' /\ (ext_ltb (a_vLB s') (Fin (snd yv)) = true -> 0 < snd yv)%Q) s.
    Proof.
      intros BD LP. unfold deterministic_bound. apply wp_bind, wp_get. apply wp_bind, wp_lift; [|intros; exact LP]. intros idx EI.
      apply index_length in EI; [|exact BD]. apply wp_bind, wp_lift; [|intros; exact LP]. intros sel ES.
      destruct (selected_scenarios _ _ _ _ idx) as [[sel'|]|e] eqn:EQ; cbn [rbind need] in ES; try discriminate. injection ES as <-.
      destruct HO as (_ & HA & _).
      assert (SS := selected_spec (w_argsort w) (uniform (i_k I)) (i_eps I) (i_k I) idx sel' HA (uniform_length _) EI EQ).
      destruct SS as (_ & _ & ND & FK & _). apply wp_bind, wp_lift; [|intros; exact LP]. intros lb EL.
      destruct (bv_cut _ _ _ _ BD) as (cuts & C1 & C2). assert (L0 := bv_l0 _ _ _ _ BD). clear BD.
      destruct (lb_prepare_good I cuts (a_lb s) (a_vLB s) sel' C1 ND) as (lb' & E' & L1 & L2 & _ & _). rewrite EL in E'. injection E' as <-.
      set (cuts' := cuts ++ _) in L1.
      assert (C' : Forall (fun v => ext_leb v (a_vLB s) = true) cuts').
      { apply Forall_app. split; [exact C2|]. destruct (ext_leb (lb_prev (a_lb s)) (a_vLB s)); repeat constructor. apply ext_leb_refl'. }
      clearbody cuts'.
      assert (EV : forall y, det_feasible I (seq 0 (i_k I)) 0 y -> (0 < obj I y)%Q ->
        model_ok 0 (lb_model I lb) y [] \/ exists l, a_vLB s = Fin l /\ (0 < l)%Q).
      { intros y [Y1 Y2] Y3. destruct L0 as [L0|(l & L0 & L0')].
        - left. apply (lb_good_model I cuts' lb 0 y L1). split; [split; [exact Y1|]|].
          + rewrite L2. intros t Ht. apply Y2, in_seq. rewrite Forall_forall in FK. apply FK in Ht. lia.
          + eapply Forall_impl; [|exact C']. cbv beta. intros a Ha. rewrite L0 in Ha. destruct a; try discriminate. exact Logic.I.
        - destruct (Qlt_le_dec 0 l) as [Hl|Hl]; [right; eauto|]. left. apply (lb_good_model I cuts' lb 0 y L1). split; [split; [exact Y1|]|].
          + rewrite L2. intros t Ht. apply Y2, in_seq. rewrite Forall_forall in FK. apply FK in Ht. lia.
          + eapply Forall_impl; [|exact C']. cbv beta. intros a Ha. rewrite L0 in Ha. destruct a as [|a|]; try discriminate; [exact Logic.I|].
            cbn in Ha. apply Qle_bool_iff in Ha. cbn [cstr_ok]. unfold obj in Y3. lra. }
      eapply wp_bind_mono with (P := fun _ s' => lbpos s' /\ a_vLB s' = a_vLB s); [apply wp_put; intros _; [exact LP|split; [exact LP|reflexivity]]|].
      intros _ s1 [P1 V1]. rewrite <- V1 in *. clear V1 s LP EL C1 C2 EQ EI.
      apply wp_bind, wp_call; [intros _; exact P1..|]. intro NI. assert (Ho := exact_all (S (a_t s1)) (lb_model I lb) eq_refl NI). revert Ho.
      generalize (w_solve w (S (a_t s1)) (lb_model I lb)). clear NI. intros o Ho. destruct HPos as (y & Y1 & Y2).
      assert (LT : forall v, (exists l, a_vLB s1 = Fin l /\ (0 < l)%Q) -> ext_ltb (a_vLB s1) (Fin v) = true -> (0 < v)%Q).
      { intros v (l & E & Hl) H. rewrite E in H. unfold ext_ltb in H. cbn in H. apply negb_true_iff in H.
        assert (~ (v <= l)%Q); [|lra]. intro C. apply Qle_bool_iff in C. congruence. }
      destruct Ho as (Ho & FO & _). destruct o as [u z v b| | |]; cbn [outcome_ok] in Ho, FO; try contradiction; [specialize (FO eq_refl); cbn [finished] in FO| |now destruct FO].
      - apply wp_lift; [|discriminate]. cbn. intros r ER. injection ER as <-. cbn [fst snd]. split; [exact P1|].
        change (a_vLB (bump (bump s1))) with (a_vLB s1). destruct Ho as (_ & _ & _ & DOM). destruct (EV y Y1 Y2) as [A|A]; [|apply LT, A].
        intros _. apply DOM in A. unfold m_val in A. cbn [lb_model m_obj m_const] in A. unfold obj in Y2. destruct FO as [FO|FO]; [lra|].
        destruct (Qlt_le_dec 0 v) as [V0|V0]; [exact V0|]. rewrite Qabs_neg in FO by exact V0. lra.
      - apply wp_lift; [|discriminate]. cbn. intros r ER. injection ER as <-. cbn [fst snd]. split; [exact P1|].
        change (a_vLB (bump (bump s1))) with (a_vLB s1). destruct (EV y Y1 Y2) as [A|A]; [now apply Ho in A|apply LT, A].
    Qed.
    Lemma lower_pos x s : bnd s -> lbpos s -> wp (fun _ => lbpos) (lower_bound_step w I cf x) (fun _ => lbpos) s.
    Proof.
      intros BD LP. unfold lower_bound_step. eapply wp_bind_mono; [apply deterministic_pos; assumption|]. cbv beta. intros [y v] s1 [P1 V1]. cbn [snd] in V1.
      apply wp_bind, wp_get. eapply wp_bind_mono with (P := fun _ => lbpos).
      - destruct (ext_ltb (a_vLB s1) (Fin v)); [|apply wp_ret, P1]. specialize (V1 eq_refl).
        eapply wp_bind_mono with (P := fun _ => lbpos); [apply wp_put; intros _; right; intros l E; cbn in E; injection E as <-; exact V1|].
        intros _ s2 P2. apply wp_put; intros _; exact P2.
      - clear s1 P1 V1. intros _ s1 P1. assert (PP : pres lbpos (let! g := gap_now in store_info w ;;; mret g)%mon).
        { unfold store_info. repeat (pres_step; auto). }
        apply PP, P1.
    Qed.
    Lemma improve_pos cands : pres lbpos (improve_vlb w I cands).
    Proof. unfold improve_vlb. repeat (pres_step; auto). left. reflexivity. Qed.
    Lemma upper_pos : pres lbpos (upper_bound_step w I cf).
    Proof.
      unfold upper_bound_step. apply pres_get. intro s0. apply pres_bind; [apply pres_if; [apply pres_lift|apply pres_partition_bound; auto]|].
      intros [[[x z] vo] vb]. apply pres_bind; [apply pres_available; auto|]. intro tm. apply pres_if; [repeat (pres_step; auto)|].
      destruct (check_feasibility (w_norm w) I x) as [ok f]. unfold store_info. repeat (pres_step; auto).
    Qed.
    Lemma next_pos : pres lbpos (next_iteration w cf).
    Proof. unfold next_iteration. repeat (pres_step; auto). Qed.
    Lemma iteration_pos s : head_ok s -> lbpos s -> wp (fun _ => lbpos) (iteration w I cf) (fun _ => lbpos) s.
    Proof.
      intros [OK _ _ _ _ _] LP. rewrite iteration_eq, bound_phase_eq. apply wp_bind. eapply wp_bind_mono with (P := fun _ s' => s' = s).
      { unfold gap_now. apply wp_bind, wp_get, wp_lift; [reflexivity|intros; exact LP]. }
      intros _ s' ->. apply wp_bind.
      eapply wp_mono; [eapply wp_conj; [exact (big_M_good w I cf tau delta HO HSo HW HP HEps HS s OK)|exact (pres_big_M w I cf lbpos ltac:(auto) ltac:(auto) s LP)]| |intros e s1 [_ H]; exact H].
      cbv beta. clear s OK LP. intros _ s [[OK MS] LP]. apply wp_bind.
      eapply wp_mono; [eapply wp_conj; [exact (upper_good w I cf tau delta HO HW HP HEps HS s OK MS)|exact (upper_pos s LP)]| |intros e s1 [_ H]; exact H].
      cbv beta. clear s OK MS LP. intros [x ok] s [[G _] LP]. unfold after_upper. destruct ok; [apply wp_ret, wp_ret, LP|].
      apply wp_bind, wp_available. match goal with |- wp _ (if ?b then _ else _) _ _ => destruct b end; [apply wp_ret, wp_ret, LP|].
      eapply wp_bind_mono; [apply (lower_pos x (bump s)); [exact (proj1 G)|exact LP]|]. clear s G LP. intros g s LP.
      match goal with |- wp _ (if ?b then _ else _) _ _ => destruct b end; [apply wp_ret, wp_ret, LP|].
      apply wp_bind, wp_available. match goal with |- wp _ (if ?b then _ else _) _ _ => destruct b end; [apply wp_ret, wp_ret, LP|].
      apply wp_ret. unfold after_bounds. assert (L1 : lbpos (bump s)) by exact LP. revert L1. generalize (bump s). clear s LP. intros s LP.
      eapply wp_bind_mono; [apply (pres_split0 w I cf lbpos); try exact LP; auto; apply improve_pos|].
      clear s LP. intros [R nc] s LP.
      eapply wp_bind_mono; [apply (pres_merge0 w I cf lbpos); try exact LP; auto; apply improve_pos|].
      clear s LP. intros [] s LP. apply next_pos, LP.
    Qed.
    Lemma loop_pos fuel : forall s, head_ok s -> lbpos s -> wp (fun _ => lbpos) (main_loop w I cf fuel) (fun _ _ => True) s.
    Proof.
      induction fuel as [|n IH]; intros s H LP; cbn [main_loop]; [exact LP|]. apply wp_bind.
      eapply wp_mono; [eapply wp_conj; [exact (iteration_safe s H)|exact (iteration_pos s H LP)]| |intros e s' [_ X]; exact X].
      cbv beta. intros v s' [[[-> _]|[[-> _]|[[-> _]|(-> & H' & _)]]] LP']; try exact Logic.I. now apply IH.
    Qed.
    Lemma start_pos {A} (E : exn -> ast -> Prop) {OE : opens E} (k : verdict -> M A) (Q : A -> ast -> Prop) :
      (lt -> forall s, a_iter s = 1 -> wp E (k TimeUp) Q s) -> (forall s, head_ok s -> lbpos s -> a_iter s = 1 -> length (a_part s) = tolerated I + 1 -> wp E (k Continue) Q s) ->
      wp E (let! b := construct w I cf in let! v := prologue w I cf b in k v)%mon Q (ast0 I).
    Proof.
      intros K0 K.
      assert (W1 := start_safe outer (fun v => fun s => (Ok v, s)) (fun v s => a_iter s = 1 /\ (v = TimeUp /\ lt \/ v = Continue /\ head_ok s /\ length (a_part s) = tolerated I + 1))
        ltac:(intros LT s IT; exact (conj IT (or_introl (conj eq_refl LT)))) ltac:(intros s H1 H2 H3; exact (conj H2 (or_intror (conj eq_refl (conj H1 H3)))))).
      assert (W2 : wp (fun _ => lbpos) (let! b := construct w I cf in let! v := prologue w I cf b in (fun s => (Ok v, s)))%mon (fun _ => lbpos) (ast0 I)).
      { assert (PP : pres lbpos (let! b := construct w I cf in let! v := prologue w I cf b in mret v)%mon).
        { apply pres_bind; [apply construct_frame; auto|]. intro b. apply pres_bind; [apply prologue_frame; auto; apply improve_pos|]. intro v. apply pres_ret. }
        apply PP. right. discriminate. }
      assert (W := wp_conj _ _ _ _ _ _ W1 W2). clear W1 W2. unfold wp, mbind in W |- *. destruct (construct w I cf (ast0 I)) as [[b|e] s1]; [|destruct W as [X _]; apply OE, X].
      destruct (prologue w I cf b s1) as [[v|e] s2]; [|destruct W as [X _]; apply OE, X]. destruct W as ((H2 & [[-> LT]|(-> & H1 & H3)]) & LP); [exact (K0 LT s2 H2)|exact (K s2 H1 LP H2 H3)].
    Qed.
    Lemma never_raises_out fuel r s : c_merger cf = false -> i_k I - tolerated I <= fuel -> run w I cf fuel = (r, s) ->
      (exists v, r = Ok v /\ ended v /\ a_iter s <= i_k I - tolerated I) \/ failed r s.
    Proof.
      intros NM HF ER. assert (KS := min_size_le). rewrite min_size_tolerated in KS by apply eps0.
      assert (W : wp chko (let! b := construct w I cf in let! v := prologue w I cf b in
        (let! v := match v with Continue => main_loop w I cf fuel | _ => mret v end in epilogue w v))%mon
        (fun v s' => ended v /\ a_iter s' <= i_k I - tolerated I) (ast0 I)).
      { apply (start_pos chko).
        - intros LT s' IT. apply wp_bind, wp_ret. apply (epilogue_safe chko). intros s3 ->. split; [left; auto|lia].
        - intros s' H LP IT LN. apply wp_bind.
          eapply wp_mono; [eapply wp_conj; [exact (loop_ends fuel NM s' H ltac:(lia))|exact (loop_pos fuel s' H LP)]| |].
          + cbv beta. intros v s2 [[HV HI] _]. apply (epilogue_safe chko). intros s3 ->. split; [exact HV|lia].
          + cbv beta. intros e s2 [[Z|Z] L]; [left; now apply lbpos_zde|now right]. }
      apply (wp_run _ _ _ _ _ _ W) in ER. destruct r as [v|e]; cbv beta iota in ER; [left; eauto|right; exists e; auto].
    Qed.
    Lemma safe_pos_out fuel r s : run w I cf fuel = (r, s) -> (exists v, r = Ok v /\ ended v) \/ r = Err NonTermination \/ failed r s.
    Proof.
      intro ER. set (E := fun (e : exn) (s' : ast) => chko e s' \/ e = NonTermination). assert (OE : opens E) by (intros e s' X; left; now right).
      assert (W : wp E (let! b := construct w I cf in let! v := prologue w I cf b in
        (let! v := match v with Continue => main_loop w I cf fuel | _ => mret v end in epilogue w v))%mon (fun v s' => ended v) (ast0 I)).
      { apply (start_pos E).
        - intros LT s' _. apply wp_bind, wp_ret. apply (epilogue_safe E). intros _ _. left. auto.
        - intros s' H LP _ _. apply wp_bind.
          eapply wp_mono; [eapply wp_conj; [exact (loop_safe fuel s' H)|exact (loop_pos fuel s' H LP)]| |].
          + cbv beta. intros v s2 [HV _]. apply (epilogue_safe E). auto.
          + cbv beta. intros e s2 [[[Z|Z]| ->] L]; [left; left; now apply lbpos_zde|left; now right|now right]. }
      apply (wp_run _ _ _ _ _ _ W) in ER. destruct r as [v|e]; cbv beta iota in ER; [left; eauto|]. right.
      destruct ER as [ER| ->]; [|now left]. right. exists e. auto.
    Qed.
  End Positive.
End End.

