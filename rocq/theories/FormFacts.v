(** Proofs for C86. *)
From Coq Require Import Sorting.Sorted.
From Verif Require Import Base BaseFacts Spec Instance InstanceFacts PartitionFacts OptModels OptFacts Initial Bounds Refine CostRefine Merge
  MergeFacts Knapsack Violations BigM Adaptive AdaptiveSpec AdaptiveWp AdaptiveStruct Milp SolveSpec SolveFacts SolveRuns FormSpec.

(** ** Lists *)
Lemma rmap_In {A B} (f : A -> res B) : forall l l', rmap f l = Ok l' -> forall b, In b l' -> exists a, In a l /\ f a = Ok b.
Proof.
  induction l as [|a l IH]; intros l' E b Hb; cbn in E; [injection E as <-; destruct Hb|].
  destruct (f a) as [c|] eqn:Ea; [|discriminate]. cbn in E. destruct (rmap f l) as [l0|]; [|discriminate]. cbn in E. injection E as <-.
  destruct Hb as [->|Hb]; [exists a; split; [now left|exact Ea]|]. destruct (IH l0 eq_refl b Hb) as (x & H1 & H2). exists x. split; [now right|exact H2].
Qed.
Lemma rmap_ok_each {A B} (f : A -> res B) : forall l l', rmap f l = Ok l' -> forall a, In a l -> exists b, f a = Ok b /\ In b l'.
Proof.
  induction l as [|a l IH]; intros l' E b Hb; cbn in E; [destruct Hb|].
  destruct (f a) as [c|] eqn:Ea; [|discriminate]. cbn in E. destruct (rmap f l) as [l0|]; [|discriminate]. cbn in E. injection E as <-.
  destruct Hb as [->|Hb]; [exists c; split; [exact Ea|now left]|]. destruct (IH l0 eq_refl b Hb) as (x & H1 & H2). exists x. split; [exact H1|now right].
Qed.
Lemma geti_lt {A} (l : list A) i a : geti l i = Ok a -> i < length l.
Proof. intro E. apply (geti_inv l i a a E). Qed.

(** ** Rows *)
Lemma data_row_of I s i : wf_inst I -> s < i_k I -> i < i_m I -> data_row I (row I s i) (rhs I s i).
Proof.
  intros (_ & _ & HA & HR & _) Hs Hi. split; [|exists s, i; auto]. unfold row. rewrite Forall_forall in HR.
  destruct (HR (nth s (i_A I) [])) as [L1 L2]; [apply nth_In; lia|]. rewrite Forall_forall in L2. apply L2, nth_In. lia.
Qed.
Lemma scenario_fits I s nz : wf_inst I -> s < i_k I -> Forall (cstr_fits I nz) (scenario_cstrs I s).
Proof.
  intros HW Hs. apply Forall_forall. intros c Hc. apply in_map_iff in Hc as (i & <- & Hi). apply in_seq in Hi.
  cbn. right. exists (rhs I s i). split; [apply data_row_of; auto; lia|apply Qle_refl].
Qed.
Lemma deter_formed I S : wf_inst I -> Forall (fun s => s < i_k I) S -> well_formed I (deter_model I S).
Proof.
  intros HW HS. constructor; cbn; try reflexivity; try discriminate.
  - split; [apply HW|]. left. split; [reflexivity|apply Qeq_refl].
  - apply Forall_forall. intros c Hc. apply in_flat_map in Hc as (s & H1 & H2). rewrite Forall_forall in HS.
    pose proof (scenario_fits I s 0 HW (HS s H1)) as F. rewrite Forall_forall in F. now apply F.
  - split; constructor.
Qed.

(** ** Views *)
Record view_ok (I : inst) (V : view) : Prop := mkVok {
  vo_n : v_n V = i_n I;
  vo_cont : v_cont V = i_cont I;
  vo_c : v_c V = i_c I;
  vo_p : length (v_p V) = v_k V /\ Forall (fun q => 0 < q)%Q (v_p V);
  vo_rows : forall c j, c < v_k V -> j < v_m V c -> data_row I (v_row V c j) (v_rhs V c j)
}.
Lemma view_of_part I p V : wf_inst I -> valid_partition (i_k I) p -> load_partition I (uniform (i_k I)) (length p) p = Ok V ->
  view_ok I V /\ v_k V = length p.
Proof.
  intros HW HP E. assert (HF := vp_lt _ _ HP). assert (Hk : 0 < i_k I) by apply HW. assert (HP0 := vp_pos _ _ Hk HP).
  assert (Qk := Qn_pos _ Hk). assert (QP := Qn_pos _ HP0). assert (ET := total_uniform (i_k I) p HF).
  assert (TP : (0 < Qn (length p) * (1 / Qn (i_k I)))%Q).
  { apply Qmult_lt_0_compat; [assumption|]. apply Qlt_shift_div_l; lra. }
  assert (Hz : ~ (qsum (map (min_proba (uniform (i_k I))) p) == 0)%Q) by (rewrite ET; intro C; lra).
  assert (LU : length (uniform (i_k I)) = i_k I) by (unfold uniform; now rewrite repeat_length).
  destruct (load_partition_rows I _ p V HW LU HF Hz E) as [VK H].
  rewrite load_partition_ok in E by assumption. injection E as EV. split; [|exact VK]. constructor; try (rewrite <- EV; reflexivity).
  - rewrite <- EV. cbn [v_p v_k]. split; [apply map_length|]. apply Forall_forall. intros q Hq. apply in_map_iff in Hq as (S & <- & HS).
    rewrite Forall_forall in HF. destruct (HF S HS) as [N1 N2]. rewrite min_proba_uniform by assumption.
    apply Qlt_shift_div_l; [rewrite ET; exact TP|]. rewrite Qmult_0_l. apply Qlt_shift_div_l; lra.
  - rewrite VK. intros c j Hc Hj. destruct (H c Hc) as (M1 & _ & R1 & _). destruct (R1 j Hj) as [-> ->]. rewrite M1 in Hj.
    assert (Hm : i_m I <> 0) by (intro C; rewrite C in Hj; lia).
    assert (Hd : j / i_m I < length (nth c p [])) by (apply Nat.div_lt_upper_bound; lia).
    apply data_row_of; [exact HW| |apply Nat.mod_upper_bound, Hm].
    rewrite Forall_forall in HF. destruct (HF (nth c p []) (nth_In _ _ Hc)) as [_ L]. rewrite Forall_forall in L. apply L, nth_In, Hd.
Qed.
Lemma milp_view_ok I : wf_inst I -> view_ok I (milp_view I).
Proof.
  intro HW. pose proof HW as (Hk & _ & HA & HR & _). constructor; try reflexivity.
  - cbn. unfold uniform. split; [apply repeat_length|]. apply Forall_forall. intros q Hq. apply repeat_spec in Hq. subst q.
    apply Qlt_shift_div_l; [now apply Qn_pos|lra].
  - intros c j Hc Hj. apply data_row_of; [exact HW|exact Hc|]. unfold v_m, milp_view, view_inst in Hj. cbn in Hc, Hj.
    rewrite Forall_forall in HR. rewrite (proj1 (HR (nth c (i_A I) []) ltac:(apply nth_In; lia))) in Hj. exact Hj.
Qed.

(** ** The relaxation *)
Lemma start_sorted : forall zUB i cnt d, Forall (fun kv => cnt <= fst kv /\ (snd kv == 1)%Q) (z_start_loop zUB i cnt d) /\
  NoDup (map fst (z_start_loop zUB i cnt d)).
Proof.
  induction zUB as [|z zs IH]; intros i cnt d; cbn [z_start_loop]; [split; constructor|].
  destruct (memb i d); [apply IH|]. destruct (IH (S i) (S cnt) d) as [F N]. destruct (Qeq_bool z 1); cbn [app map].
  - split.
    + constructor; [split; [cbn; lia|reflexivity]|]. eapply Forall_impl; [|exact F]. cbn. intros a [H1 H2]. split; [lia|exact H2].
    + constructor; [|exact N]. intro C. apply in_map_iff in C as (kv & E & H). rewrite Forall_forall in F. apply F in H. cbn in *. lia.
  - split; [|exact N]. eapply Forall_impl; [|exact F]. cbn. intros a [H1 H2]. split; [lia|exact H2].
Qed.
Lemma big_m_fits I V s bigM rows : view_ok I V -> s < v_k V -> big_m_rows V s bigM = Ok rows -> Forall (cstr_fits I (v_k V)) rows.
Proof.
  intros HV Hs E. unfold big_m_rows in E. destruct (rmap _ _) as [l|] eqn:EL; [|discriminate]. cbn [rbind] in E. injection E as <-.
  apply Forall_concat. apply Forall_forall. intros r Hr. apply (rmap_In _ _ _ EL) in Hr as (i & Hi & Er). apply in_seq in Hi.
  assert (D := vo_rows _ _ HV s i Hs ltac:(lia)).
  destruct (geti bigM i) as [M|]; [|discriminate]. cbn [rbind] in Er. destruct (Qle_bool big_m_threshold M) eqn:EM.
  - injection Er as <-. apply Qle_bool_iff in EM. constructor; [|constructor]. cbn. auto.
  - destruct (all_continuous V); injection Er as <-; [constructor|]. constructor; [|constructor]. cbn. right. exists (v_rhs V s i).
    split; [exact D|]. apply Qle_bool_false in EM. unfold big_m_threshold in EM. lra.
Qed.
Lemma cclp_formed I V ub lz bM zs d pr gap time m : view_ok I V -> wf_inst I -> (0 <= gap)%Q -> (0 <= time)%Q ->
  cclp_model V ub lz bM (get_z_start zs d) pr gap time = Ok m -> well_formed I m.
Proof.
  intros HV HW HG HT E. unfold cclp_model in E. destruct (forallb (fun kv => fst kv <? v_k V) _) eqn:ES; [|discriminate]. cbn [negb] in E.
  destruct (if ub then _ else _) as [rows|] eqn:ER; [|discriminate]. cbn [rbind] in E.
  destruct (forallb (fun s => s <? v_k V) pr) eqn:EP; [|discriminate]. cbn [negb] in E. injection E as <-.
  rewrite forallb_forall in ES, EP. constructor; cbn.
  - apply HV.
  - apply HV.
  - rewrite (vo_c _ _ HV). split; [apply HW|]. left. split; reflexivity.
  - apply Forall_app. split; [|constructor].
    + destruct ub.
      * unfold all_big_m_rows in ER. destruct (rmap _ _) as [l|] eqn:EL; [|discriminate]. cbn [rbind] in ER. injection ER as <-.
        apply Forall_concat. apply Forall_forall. intros r Hr. apply (rmap_In _ _ _ EL) in Hr as (s & Hs & Er). apply in_seq in Hs.
        destruct (geti bM s) as [M|]; [|discriminate]. cbn [rbind] in Er. eapply big_m_fits; [exact HV| |exact Er]. lia.
      * injection ER as <-. apply Forall_forall. intros c Hc. apply in_flat_map in Hc as (s & Hs & Hc). apply in_seq in Hs.
        apply in_map_iff in Hc as (i & <- & Hi). apply in_seq in Hi. split; [apply HV; lia|lia].
    + cbn. apply (vo_p _ _ HV).
    + apply Forall_forall. intros c Hc. apply in_map_iff in Hc as (s & <- & Hs). cbn. apply EP in Hs. now apply Nat.ltb_lt.
  - destruct (start_sorted zs 0 0 d) as [F N]. split; [|exact N]. apply Forall_forall. intros kv Hkv.
    unfold get_z_start in *. rewrite Forall_forall in F. split; [apply Nat.ltb_lt, ES, Hkv|apply F, Hkv].
  - intros g Eg. now injection Eg as <-.
  - intros t Et. now injection Et as <-.
Qed.
Lemma knapsack_formed I V v c i : view_ok I V -> wf_inst I -> v <> NInf -> c < v_k V -> i < v_m V c -> well_formed I (big_m_knapsack_model V v c i).
Proof.
  intros HV HW Hv Hc Hi. assert (D := vo_rows _ _ HV c i Hc Hi). constructor; cbn; try discriminate.
  - apply HV.
  - apply HV.
  - split; [apply D|]. right. exists (v_rhs V c i). split; [exact D|reflexivity].
  - destruct v; [congruence|constructor; [|constructor]|constructor]. cbn. left. split; [apply HV|reflexivity].
  - split; constructor.
  - intros g E. injection E as <-. discriminate.
Qed.

(** ** The model of the lower bound *)
Definition rows_ok (I : inst) (lb : lbst) : Prop := Forall (fun hc => cstr_fits I 0 (snd hc)) (lb_store lb).
Lemma lb_add1_rows I lb s : wf_inst I -> s < i_k I -> rows_ok I lb -> rows_ok I (lb_add1 I lb s).
Proof.
  intros HW Hs H. unfold rows_ok, lb_add1. cbn [lb_store]. apply Forall_app. split; [exact H|]. apply Forall_forall. intros [h c] Hc.
  apply in_combine_r in Hc. pose proof (scenario_fits I s 0 HW Hs) as F. rewrite Forall_forall in F. cbn. now apply F.
Qed.
Lemma lb_adds_rows I : wf_inst I -> forall l lb, Forall (fun s => s < i_k I) l -> rows_ok I lb -> rows_ok I (fold_left (lb_add1 I) l lb).
Proof.
  intro HW. induction l as [|s l IH]; intros lb HF H; [exact H|]. inversion HF; subst. cbn. apply IH; [assumption|]. now apply lb_add1_rows.
Qed.
Lemma lb_removes_rows I : forall l lb lb', lb_removes I lb l = Ok lb' -> rows_ok I lb -> rows_ok I lb'.
Proof.
  induction l as [|s l IH]; intros lb lb' E H; cbn [lb_removes] in E; [now injection E as <-|].
  unfold lb_remove1 in E. destruct (lookup s (lb_dict lb)) as [ids|]; [|discriminate]. cbn [rbind] in E. eapply IH; [exact E|].
  unfold rows_ok. cbn [lb_store]. apply Forall_forall. intros hc Hc. apply filter_In in Hc. unfold rows_ok in H. rewrite Forall_forall in H. now apply H.
Qed.
Lemma lb_prepare_rows I lb v scen lb' : wf_inst I -> Forall (fun s => s < i_k I) scen -> v <> PInf -> rows_ok I lb ->
  lb_prepare I lb v scen = Ok lb' -> rows_ok I lb'.
Proof.
  intros HW HF Hv H E. unfold lb_prepare in E. cbv zeta in E. destruct (lb_removes I lb _) as [lb1|] eqn:E1; [|discriminate]. cbn [rbind] in E.
  apply lb_removes_rows in E1; [|exact H].
  assert (H2 : rows_ok I (fold_left (lb_add1 I) (filter (fun s => negb (memb s (lb_scen lb))) scen) lb1)).
  { apply lb_adds_rows; [exact HW| |exact E1]. apply Forall_forall. intros s Hs. apply filter_In in Hs. rewrite Forall_forall in HF. now apply HF. }
  destruct (ext_leb _ v); injection E as <-; unfold rows_ok in *; cbn [lb_store]; [|exact H2].
  apply Forall_app. split; [exact H2|]. constructor; [|constructor]. cbn. auto.
Qed.
Lemma lb_formed I lb : wf_inst I -> rows_ok I lb -> well_formed I (lb_model I lb).
Proof.
  intros HW H. constructor; cbn; try reflexivity; try discriminate.
  - split; [apply HW|]. left. split; reflexivity.
  - unfold rows_ok in H. rewrite Forall_forall in *. intros c Hc. apply in_map_iff in Hc as (hc & <- & Hc). now apply H.
  - split; constructor.
  - intros g E. injection E as <-. discriminate.
Qed.
Lemma select_lt proba eps : forall l total done sel, select_loop proba eps total done l = Ok (Some sel) ->
  Forall (fun s => s < length proba) done -> Forall (fun s => s < length proba) sel.
Proof.
  induction l as [|s l IH]; intros total done sel E H; cbn [select_loop] in E; [discriminate|].
  destruct (geti proba s) as [p|] eqn:EG; [|discriminate]. cbn [rbind] in E. cbv zeta in E.
  assert (H' : Forall (fun s => s < length proba) (done ++ [s])).
  { apply Forall_app. split; [exact H|]. constructor; [|constructor]. eapply geti_lt; eauto. }
  destruct (Qle_bool _ _); [now injection E as <-|]. eapply IH; eauto.
Qed.
(** Loading a partition checks the scenarios. *)
Lemma load_lt I proba p V : wf_inst I -> load_partition I proba (length p) p = Ok V -> forall c S, geti p c = Ok S -> Forall (fun s => s < i_k I) S.
Proof.
  intros (_ & _ & HA & _) E c S EG. unfold load_partition in E. destruct (rmap _ (seq 0 (length p))) as [subs|] eqn:E1; [|discriminate]. cbn [rbind] in E.
  destruct (rmap (fun S => rmap (fun s => geti (i_A I) s) S) subs) as [mats|] eqn:E2; [|discriminate].
  destruct (rmap_ok_each _ _ _ E1 c) as (S' & EG' & HS); [apply in_seq; apply geti_lt in EG; lia|].
  rewrite EG in EG'. injection EG' as <-.
  destruct (rmap_ok_each _ _ _ E2 S HS) as (l & El & _). apply Forall_forall. intros s Hs. destruct (rmap_ok_each _ _ _ El s Hs) as (a & Ea & _).
  apply geti_lt in Ea. lia.
Qed.

(** ** Computations that hand only well-formed models to the solver *)
Section Safe.
  Variable I : inst.
  Variable cf : cfg.
  Variable w : world.
  Hypothesis HW : wf_inst I.
  Definition agree (f : nat -> model -> outcome) : Prop := forall t q, well_formed I q -> f t q = w_solve w t q.
  Definition safe {A} (m : world -> M A) (s : ast) : Prop := forall f, agree f -> m (with_solve w f) s = m w s.

  Lemma safe_bind {A B} (m : world -> M A) (f : world -> A -> M B) s : safe m s ->
    (forall a s', m w s = (Ok a, s') -> safe (fun w => f w a) s') -> safe (fun w => mbind (m w) (f w)) s.
  Proof.
    intros H1 H2 g Hg. unfold mbind. rewrite (H1 g Hg). destruct (m w s) as [[a|e] s'] eqn:E; [|reflexivity]. now apply (H2 a s').
  Qed.
  Lemma safe_same {A} (m : world -> M A) s : (forall f, m (with_solve w f) s = m w s) -> safe m s.
  Proof. intros H f _. apply H. Qed.
  Lemma safe_last {A B} (m : world -> M A) (f : world -> A -> M B) s : safe m s -> (forall g a s', f (with_solve w g) a s' = f w a s') ->
    safe (fun w => mbind (m w) (f w)) s.
  Proof. intros H1 H2. apply safe_bind; [exact H1|]. intros a s' _ g _. apply H2. Qed.
  Lemma safe_call q s : well_formed I q -> safe (fun w => call w q) s.
  Proof. intro H. unfold call. apply safe_bind; [apply safe_same; reflexivity|]. intros u s' _ f Hf. cbn. now rewrite Hf. Qed.
  Ltac still := apply safe_same; intro; reflexivity.
  Ltac pass := apply safe_bind; [still|].

  Lemma safe_subset S s : Forall (fun t => t < i_k I) S -> safe (fun w => subset_cost w I S) s.
  Proof. intro H. unfold subset_cost. apply safe_last; [now apply safe_call, deter_formed|reflexivity]. Qed.
  Lemma safe_mmap {A B} (f : world -> A -> M B) l : (forall a s, In a l -> safe (fun w => f w a) s) ->
    forall s, safe (fun w => mmap (f w) l) s.
  Proof.
    induction l as [|a l IH]; intros H s; cbn [mmap]; [still|]. apply safe_bind; [apply H; now left|]. intros b s' _.
    apply safe_last; [|reflexivity]. apply IH. intros c s2 Hc. apply H. now right.
  Qed.
  Lemma safe_scenarios s : safe (fun w => all_scenario_costs w I) s.
  Proof.
    unfold all_scenario_costs. apply safe_last; [|reflexivity]. apply (safe_mmap (fun w s => subset_cost w I [s])).
    intros t s1 Ht. apply in_seq in Ht. apply safe_subset. constructor; [lia|constructor].
  Qed.
  Lemma safe_construct s : safe (fun w => construct w I cf) s.
  Proof.
    unfold construct. pass. intros now s1 _. pass. intros _ s2 _. pass. intros _ s3 _. apply safe_last; [|reflexivity].
    unfold setup_initial_partition. pass. intros _ s4 _. pass. intros _ s5 _. destruct (c_init cf).
    - still.
    - apply safe_last; [apply safe_scenarios|reflexivity].
    - still.
  Qed.
  Lemma safe_prologue num s : Forall (Forall (fun t => t < i_k I)) (a_part s) -> safe (fun w => prologue w I cf num) s.
  Proof.
    intro H. unfold prologue. pass. intros s1 s2 E. injection E as <- <-. unfold partition_cost.
    apply safe_last; [|reflexivity]. apply safe_last; [|reflexivity]. apply (safe_mmap (fun w => subset_cost w I)).
    intros S s1 HS. rewrite Forall_forall in H. apply safe_subset, H, HS.
  Qed.
  Lemma safe_belotti_row V v c f : agree f -> view_ok I V -> v <> NInf -> c < v_k V -> forall l t, Forall (fun i => i < v_m V c) l ->
    belotti_row f V v c l t = belotti_row (w_solve w) V v c l t.
  Proof.
    intros Hf HV Hv Hc. induction l as [|i l IH]; intros t HF; [reflexivity|]. inversion HF; subst. cbn [belotti_row].
    rewrite Hf by now apply knapsack_formed. destruct (belotti_mip _); [|reflexivity]. now rewrite IH.
  Qed.
  Lemma safe_belotti_rows V v f : agree f -> view_ok I V -> v <> NInf -> forall l t, Forall (fun c => c < v_k V) l ->
    belotti_rows f V v l t = belotti_rows (w_solve w) V v l t.
  Proof.
    intros Hf HV Hv. induction l as [|c l IH]; intros t HF; [reflexivity|]. inversion HF; subst. cbn [belotti_rows].
    rewrite safe_belotti_row by (try assumption; apply Forall_forall; intros i Hi; apply in_seq in Hi; lia).
    destruct (belotti_row (w_solve w) V v c _ t) as [[r|e] t1]; [|reflexivity]. now rewrite IH.
  Qed.
  Lemma safe_belotti V v nb s : view_ok I (V s) -> v s <> NInf -> nb s = v_k (V s) -> safe (belotti_step V v nb) s.
  Proof.
    intros HV Hv Hn f Hf. unfold belotti_step, belotti_all. destruct (integer_vars (V s)); [|reflexivity]. cbn [w_solve with_solve].
    rewrite safe_belotti_rows; [reflexivity|assumption..|]. apply Forall_forall. intros c Hc. apply in_seq in Hc. lia.
  Qed.
  Lemma safe_cclp V u l bM z d pr t g s : view_ok I V -> (0 <= g)%Q -> safe (fun w => solve_cclp w V u l bM (get_z_start z d) pr t g) s.
  Proof.
    intros HV HG. unfold solve_cclp. pass. intros t1 s1 _. pass. intros m0 s2 _. pass. intros t2 s3 _. cbv zeta.
    destruct (Qlt_bool _ 0) eqn:EL; [still|]. pass. intros m s4 E. unfold lift in E. injection E as E _.
    apply safe_last; [|reflexivity]. apply safe_call. eapply cclp_formed; [exact HV|exact HW|exact HG| |exact E].
    apply Qlt_bool_false in EL. exact EL.
  Qed.

  (** What the models depend on. *)
  Definition fit (s : ast) : Prop := rows_ok I (a_lb s) /\ a_vUB s <> NInf /\ a_vLB s <> PInf.
  Definition fitted (s : ast) : Prop := fit s /\ view_ok I (a_view s) /\ a_nb s = v_k (a_view s).

  Lemma safe_big_M s : fitted s -> safe (fun w => big_M w I cf) s.
  Proof.
    intros ((_ & HU & _) & HV & HN). unfold big_M. pass. intros s1 s2 E. injection E as <- <-.
    destruct (c_bigM cf && (min_size I <? a_nb s)); [|still]. unfold update_big_M. pass. intros s1 s2 E. injection E as <- <-.
    destruct (c_method cf); try still.
    pass; intros u s3 E; apply put_ok in E; apply safe_last; [|reflexivity];
      apply (safe_belotti a_view a_vUB a_nb s3); rewrite E; assumption.
  Qed.
  Lemma safe_upper s : fitted s -> safe (fun w => upper_bound_step w I cf) s.
  Proof.
    intros (_ & HV & _). unfold upper_bound_step. pass. intros s1 s2 E. injection E as <- <-. apply safe_last; [|reflexivity].
    destruct (a_nb s =? min_size I); [still|]. unfold partition_bound. apply safe_bind; [still|]. intros t s1 E1.
    assert (V1 : a_view s1 = a_view s). { unfold available, mbind, clock, mget, mret in E1. now injection E1 as _ <-. }
    pass. intros s2 s3 E. injection E as <- <-. pass. intros z s4 _. apply safe_last; [|reflexivity]. rewrite V1.
    apply safe_cclp; [exact HV|discriminate].
  Qed.
  Lemma safe_lower x s : fit s -> safe (fun w => lower_bound_step w I cf x) s.
  Proof.
    intros (HR & _ & HL). unfold lower_bound_step. apply safe_last; [|reflexivity]. unfold deterministic_bound.
    pass. intros s1 s2 E. injection E as <- <-. pass. intros idx s3 _. pass. intros sel s4 E. pass. intros lb s5 E5. pass. intros _ s6 _.
    apply safe_last; [|reflexivity]. apply safe_call, lb_formed; [exact HW|].
    unfold lift in E, E5. injection E as E _. injection E5 as E5 _. eapply lb_prepare_rows; [exact HW| |exact HL|exact HR|exact E5].
    unfold selected_scenarios in E. destruct (_ <? _); [discriminate|]. destruct (select_loop _ _ _ _ _) as [[sel0|]|] eqn:ES; try discriminate.
    injection E as <-. apply select_lt in ES; [|constructor]. unfold uniform in ES. now rewrite repeat_length in ES.
  Qed.

  Lemma safe_eval_new p : (forall c S, geti p c = Ok S -> Forall (fun t => t < i_k I) S) -> forall l s, safe (fun w => eval_new w I p l) s.
  Proof.
    intro H. induction l as [|c l IH]; intro s; cbn [eval_new]; [still|]. pass. intros sub s1 E. unfold lift in E. injection E as E _.
    apply safe_bind; [apply safe_subset; eapply H; eauto|]. intros [v x] s2 _. pass. intros s3 s4 _. pass. intros u s5 _.
    apply safe_last; [apply IH|reflexivity].
  Qed.
  Lemma safe_targets p : (forall c S, geti p c = Ok S -> Forall (fun t => t < i_k I) S) -> forall l s, safe (fun w => eval_targets w I p l) s.
  Proof.
    intro H. induction l as [|c l IH]; intro s; cbn [eval_targets]; [still|]. pass. intros sub s1 E. unfold lift in E. injection E as E _.
    apply safe_bind; [apply safe_subset; eapply H; eauto|]. intros [v x] s2 _. pass. intros s3 s4 _. pass. intros u s5 _. pass. intros u' s6 _.
    pass. intros u'' s7 _. apply safe_last; [apply IH|reflexivity].
  Qed.
  Lemma safe_split s : safe (fun w => split_step w I cf) s.
  Proof.
    unfold split_step. pass. intros R s1 _. pass. intros _ s2 _. pass. intros _ s3 _. pass. intros V s4 E. unfold lift in E. injection E as E _.
    pass. intros _ s5 _. apply safe_last; [|reflexivity]. apply safe_eval_new. eapply load_lt; eauto.
  Qed.
  Lemma safe_merge x R nc s : safe (fun w => merge_step w I cf x R nc) s.
  Proof.
    unfold merge_step. pass. intros _ s1 _. destruct (c_merger cf); [|still]. pass. intros mx s2 _. pass. intros s3 s4 E.
    injection E as <- <-. destruct (ext_leb _ _); [|still]. pass. intros [[kind p] ms] s5 _.
    pass. intros u s6 E6. apply put_ok in E6. pass. intros u' s7 E7. apply put_ok in E7. pass. intros u'' s8 E8. apply put_ok in E8.
    assert (EP : a_part s8 = p /\ a_nb s8 = length p) by (subst; split; reflexivity). destruct EP as [EP EN]. clear E6 E7 E8.
    apply safe_last; [|reflexivity]. unfold post_merge. pass. intros s9 s10 E. injection E as <- <-. pass. intros V s11 E. unfold lift in E. injection E as E _.
    do 5 (pass; intros ? ? _). apply safe_last; [|reflexivity]. apply safe_targets. rewrite EP in *. rewrite EN in E. eapply load_lt; eauto.
  Qed.

  (** Preservation. *)
  Lemma fit_t s v : fit s -> fit (set_t v s). Proof. exact (fun H => H). Qed.
  Ltac pf := repeat (pres_step; try (intros; assumption)).
  Lemma fit_improve c : pres fit (improve_vlb w I c).
  Proof.
    unfold improve_vlb. apply pres_get. intro s0. destruct (incumbent_bound _ _ _ _ _ _) as [[x v]|]; [|apply pres_ret].
    apply pres_bind; [apply pres_put; [intros ? ? H; exact H|intros s H; exact H]|intros _].
    apply pres_put; [intros ? ? H; exact H|]. intros s (H1 & H2 & H3). split; [exact H1|]. split; [exact H2|discriminate].
  Qed.
End Safe.
