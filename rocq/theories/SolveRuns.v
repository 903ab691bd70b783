(** Proofs for C85: number of models solved by a run. *)
From Coq Require Import Sorting.Sorted.
From Verif Require Import Base BaseFacts Spec Instance InstanceFacts PartitionFacts OptModels Initial Bounds Refine CostRefine Merge
  MergeFacts RefineFacts RefineFacts Knapsack Violations BigM Adaptive AdaptiveSpec AdaptiveWp AdaptiveStruct Milp SolveSpec SolveFacts.

(** ** Rows of a view *)
Lemma view_size I p V : wf_inst I -> valid_partition (i_k I) p -> load_partition I (uniform (i_k I)) (length p) p = Ok V ->
  v_cont V = i_cont I /\ list_sum (map (v_m V) (seq 0 (length p))) = i_k I * i_m I.
Proof.
  intros HW HP E. assert (HF := vp_lt _ _ HP). assert (Hk : 0 < i_k I) by apply HW. assert (HP0 := vp_pos _ _ Hk HP).
  assert (Qk := Qn_pos _ Hk). assert (QP := Qn_pos _ HP0). assert (ET := total_uniform (i_k I) p HF).
  assert (Hz : ~ (qsum (map (min_proba (uniform (i_k I))) p) == 0)%Q).
  { rewrite ET. intro C. assert (0 < Qn (length p) * (1 / Qn (i_k I)))%Q; [|lra].
    apply Qmult_lt_0_compat; [assumption|]. apply Qlt_shift_div_l; lra. }
  assert (LU : length (uniform (i_k I)) = i_k I) by (unfold uniform; now rewrite repeat_length).
  split; [rewrite load_partition_ok in E by assumption; injection E as <-; reflexivity|].
  destruct (load_partition_rows I _ p V HW LU HF Hz E) as [_ H].
  assert (EL : length (concat p) = i_k I) by (rewrite (Permutation_length (proj1 HP)); apply seq_length).
  rewrite <- EL. clear - H.
  assert (G : forall d, (forall c, c < length p -> v_m V (d + c) = i_m I * length (nth c p [])) ->
    list_sum (map (v_m V) (seq d (length p))) = length (concat p) * i_m I).
  { clear H. induction p as [|S p IH]; intros d H; [reflexivity|]. cbn [length seq map concat]. rewrite app_length.
    change (list_sum (?a :: ?l)) with (a + list_sum l). rewrite (IH (Datatypes.S d)).
    - specialize (H 0). rewrite Nat.add_0_r in H. rewrite H by (cbn; lia). cbn [nth]. lia.
    - intros c Hc. specialize (H (Datatypes.S c)). rewrite Nat.add_succ_r in H. apply H. cbn. lia. }
  apply (G 0). intros c Hc. apply (H c Hc).
Qed.

(** ** New subsets of a refinement *)
Lemma add_new_length new c l : length (add_new new c l) <= length new + 2.
Proof. unfold add_new. destruct (memb c new); rewrite ?app_length; cbn; lia. Qed.
Lemma traverse_new perm flags mu nbinf : forall subsets st t st' t', traverse perm flags mu nbinf st t subsets = Ok (st', t') ->
  length (r_new st) <= 2 * r_cnt st -> length (r_new st') <= 2 * r_cnt st'.
Proof.
  induction subsets as [|c cs IH]; intros st t st' t' E H; cbn [traverse] in E; [injection E as <- <-; exact H|].
  destruct (if r_cnt st <? mu then geti nbinf c else Ok 0) as [ni|]; [|discriminate]. cbn [rbind] in E.
  destruct ((r_cnt st <? mu) && (2 <=? ni)); [|eapply IH; eauto].
  destruct (geti (r_part st) c) as [sub|]; [|discriminate]. cbn [rbind] in E. cbv zeta in E.
  destruct (split_scenarios_subset _ _ _ _) as [p'|]; [|discriminate]. cbn [rbind] in E.
  eapply IH; [exact E|]. cbn [r_new r_cnt]. pose proof (add_new_length (r_new st) c (length p' - 1)). lia.
Qed.
Lemma random_new perm flags inf mu : forall fuel st t st' t', random_loop fuel perm flags inf mu st t = Ok (st', t') ->
  length (r_new st) <= 2 * r_cnt st -> length (r_new st') <= 2 * mu.
Proof.
  induction fuel as [|fuel IH]; intros st t st' t' E H; cbn [random_loop] in E; destruct (r_cnt st <? mu).
  - discriminate.
  - unfold rassert in E. destruct (r_cnt st =? mu) eqn:EM; [|discriminate]. cbn in E. injection E as <- <-. apply Nat.eqb_eq in EM. lia.
  - cbv zeta in E. destruct (traverse _ _ _ _ _ _ _) as [[st1 t1]|] eqn:ET; [|discriminate]. cbn [rbind] in E.
    eapply IH; [exact E|]. eapply traverse_new; eauto.
  - unfold rassert in E. destruct (r_cnt st =? mu) eqn:EM; [|discriminate]. cbn in E. injection E as <- <-. apply Nat.eqb_eq in EM. lia.
Qed.
Lemma perform_new acc inf vUB st cs st' cs' : perform_accurate_split acc inf vUB st cs = Ok (st', cs') ->
  length (r_new st) <= 2 * r_cnt st -> length (r_new st') <= 2 * r_cnt st'.
Proof.
  unfold perform_accurate_split. intros E H. cbv zeta in E.
  repeat match type of E with rbind ?r _ = Ok _ => destruct r as [?|]; [cbn [rbind] in E|discriminate] end.
  injection E as <- <-. cbn [r_new r_cnt].
  match goal with |- length (add_new ?n ?c ?l) <= _ => pose proof (add_new_length n c l) end. lia.
Qed.
Lemma cost_new acc inf vUB : forall n st cs st' cs', cost_loop acc n inf vUB st cs = Ok (st', cs') ->
  length (r_new st) <= 2 * r_cnt st -> length (r_new st') <= 2 * r_cnt st'.
Proof.
  induction n as [|n IH]; intros st cs st' cs' E H; cbn [cost_loop] in E; [injection E as <- <-; exact H|].
  destruct (perform_accurate_split acc inf vUB st cs) as [[st1 cs1]|] eqn:EP; [|discriminate]. cbn [rbind] in E.
  eapply IH; [exact E|]. eapply perform_new; eauto.
Qed.
Lemma refine_with_new {X} I f old (split : nat -> rstate -> res (rstate * X)) R x :
  (forall mu st st' x, split mu st = Ok (st', x) -> length (r_new st) <= 2 * r_cnt st -> length (r_new st') <= 2 * mu) ->
  refine_with I f old split = Ok (R, x) -> length (rf_new R) <= 2 * rf_mu R.
Proof.
  intros H E. unfold refine_with in E. destruct (find_infeasible_subsets old _) as [a b].
  destruct (number_of_splits I _) as [mu|]; [|discriminate]. cbn [rbind] in E.
  destruct (split mu _) as [[st x1]|] eqn:ES; [|discriminate]. cbn [rbind] in E.
  destruct (check_final_partition _ _ _ _); [|discriminate]. cbn [rbind] in E. destruct (find_infeasible_subsets (r_part st) _) as [c d].
  injection E as <- <-. cbn [rf_new rf_mu]. eapply H; [exact ES|]. cbn. lia.
Qed.
Lemma refine_new w I cf s R s' : refine w I cf s = (Ok R, s') -> length (rf_new R) <= 2 * rf_mu R.
Proof.
  unfold refine, mbind, mget, lift. destruct (a_fe s) as [f|]; [|discriminate]. destruct (c_split cf); [|..].
  - destruct (c_acc cf); [destruct (number_of_splits _ _); discriminate|].
    destruct (refine_random _ _ _ _ _ _) as [[R1 t]|] eqn:E; [|discriminate]. unfold put, mbind, tick.
    destruct (w_intr w _); [discriminate|]. intro EQ. injection EQ as <- _.
    eapply refine_with_new; [|exact E]. cbv beta. intros mu st st' x. apply random_new.
  - destruct (refine_cost _ _ _ _ _ _ _ _) as [[R1 t]|] eqn:E; [|discriminate]. unfold put, mbind, tick.
    destruct (w_intr w _); [discriminate|]. intro EQ. injection EQ as <- _.
    eapply refine_with_new; [|exact E]. intros mu st st' x HS H. unfold split_top_mu_cost in HS.
    destruct (rassert (length _ =? _)); [|discriminate]. cbn [rbind] in HS.
    destruct (evaluate_accurate_splits _ _ _ _ _) as [cs1|]; [|discriminate]. cbn [rbind] in HS.
    destruct (cost_loop _ _ _ _ _ _) as [[st1 cs2]|] eqn:EC; [|discriminate]. cbn [rbind] in HS. unfold rassert in HS.
    destruct (r_cnt st1 =? mu) eqn:EM; [|discriminate]. cbn [rbind] in HS. injection HS as <- <-. apply Nat.eqb_eq in EM. subst mu.
    eapply cost_new; eauto.
  - discriminate.
Qed.

(** ** A merge has one target *)
Lemma merge_loop_target m : forall l p ms p' ms', merge_loop p ms m l = Ok (p', ms') -> Forall (fun c => m <= c) l ->
  ms_target ms = [] \/ ms_target ms = [m] -> ms_target ms' = [] \/ ms_target ms' = [m].
Proof.
  induction l as [|c l IH]; intros p ms p' ms' E HF H; cbn [merge_loop] in E; [injection E as <- <-; exact H|].
  inversion HF; subst. destruct (c =? m); [eapply IH; eauto|]. unfold merge_two in E. cbv zeta in E.
  destruct (geti p (Nat.min m c)); [|discriminate]. cbn [rbind] in E. destruct (geti p (Nat.max m c)); [|discriminate]. cbn [rbind] in E.
  eapply IH; [exact E|assumption|]. cbn [ms_target]. rewrite Nat.min_l by assumption.
  destruct H as [-> | ->]; [right; reflexivity|right]. cbn. now rewrite Nat.eqb_refl.
Qed.
Lemma nmin_le l m : nmin l = Ok m -> Forall (fun c => m <= c) l.
Proof.
  destruct l as [|a l]; [discriminate|]. cbn. intro E. injection E as <-.
  assert (G : forall l a, fold_left Nat.min l a <= a /\ Forall (fun c => fold_left Nat.min l a <= c) l).
  { clear. induction l as [|b l IH]; intro a; cbn; [split; [lia|constructor]|]. destruct (IH (Nat.min a b)) as [H1 H2].
    split; [lia|]. constructor; [lia|exact H2]. }
  destruct (G l a). constructor; assumption.
Qed.
Lemma merge_all_target p cands p' ms : merge_all p cands = Ok (p', ms) -> length (ms_target ms) <= 1.
Proof.
  unfold merge_all. intro E. cbv zeta in E. destruct (nmin cands) as [m|] eqn:EM; [|discriminate]. cbn [rbind] in E.
  destruct (merge_loop _ _ _ _) as [[p1 ms1]|] eqn:EL; [|discriminate]. cbn [rbind] in E.
  destruct (delete_subsets _ _); [|discriminate]. cbn [rbind] in E. destruct (rassert _); [|discriminate]. cbn [rbind] in E.
  injection E as <- <-. destruct (merge_loop_target _ _ _ _ _ _ EL (nmin_le _ _ EM) (or_introl eq_refl)) as [-> | ->]; cbn; lia.
Qed.
Lemma merge_select_target norm V p nb costs fs mu x k p' ms : merge_select norm V p nb costs fs mu x = Ok (k, p', ms) ->
  length (ms_target ms) <= 1.
Proof.
  unfold merge_select. destruct (length fs =? mu).
  - destruct (merge_candidates _ _ _) as [c|]; [|discriminate]. cbn [rbind]. destruct (merge_all p c) as [[p1 m1]|] eqn:E; [|discriminate].
    cbn [rbind]. intro EQ. injection EQ as <- <- <-. eapply merge_all_target; eauto.
  - destruct (mu + 1 <=? length fs); [|discriminate]. destruct (need x) as [y|]; [|discriminate]. cbn [rbind].
    destruct (merge_feasible _ _ _ _ _ _) as [[p1 m1]|] eqn:E; [|discriminate]. cbn [rbind]. intro EQ. injection EQ as <- <- <-.
    unfold merge_feasible in E. cbv zeta in E. destruct (rassert _); [|discriminate]. cbn [rbind] in E.
    destruct (merge_all _ _) as [[p2 m2]|] eqn:EA; [|discriminate]. cbn [rbind] in E. destruct (rassert _); [|discriminate].
    cbn [rbind] in E. injection E as <- <-. eapply merge_all_target; eauto.
Qed.

Lemma put_ok w f s s' u : put w f s = (Ok u, s') -> s' = bump (f s).
Proof. unfold put, mbind, tick. destruct (w_intr w (a_t (f s))); [discriminate|]. intro E. now injection E as _ <-. Qed.

Section Runs.
  Variable I : inst.
  Variable cf : cfg.
  Variable w : world.

  Lemma asks_cclp V u l bigM st pr t g s : asks w 1 (fun w => solve_cclp w V u l bigM st pr t g) s.
  Proof.
    unfold solve_cclp. skip. intros t1 s1 _. skip. intros m0 s2 _. skip. intros t2 s3 _. cbv zeta.
    destruct (Qlt_bool _ 0); [quiet|]. skip. intros m s4 _. apply asks_last; [apply asks_call|intro; grow|reflexivity].
  Qed.
  Lemma asks_partition_bound s : asks w 1 (fun w => partition_bound w I cf) s.
  Proof.
    unfold partition_bound, available. skip. intros t s1 _. skip. intros s2 s3 _. skip. intros z s4 _.
    apply asks_last; [apply asks_cclp|intro; grow|reflexivity].
  Qed.
  Lemma asks_upper s : asks w (if a_nb s =? min_size I then 0 else 1) (fun w => upper_bound_step w I cf) s.
  Proof.
    unfold upper_bound_step. skip. intros s1 s2 E. injection E as <- <-. destruct (a_nb s =? min_size I).
    - apply asks_last; [quiet| |reflexivity]. intro. unfold available, store_info, gap_now. grow.
    - apply asks_last; [apply asks_partition_bound| |reflexivity]. intro. unfold available, store_info, gap_now. grow.
  Qed.
  Lemma asks_lower x s : asks w 1 (fun w => lower_bound_step w I cf x) s.
  Proof.
    unfold lower_bound_step. apply asks_last; [|intro; unfold store_info, gap_now; grow|reflexivity].
    unfold deterministic_bound. skip. intros s1 s2 _. skip. intros idx s3 _. skip. intros sel s4 _. skip. intros lb s5 _.
    skip. intros _ s6 _. apply asks_last; [apply asks_call|intro; grow|reflexivity].
  Qed.
  Definition cuts : nat := knapsacks I (c_bigM cf) (c_method cf).
  Lemma asks_big_M s : (c_bigM cf = true -> c_method cf = Belotti -> v_cont (a_view s) = i_cont I /\
      list_sum (map (v_m (a_view s)) (seq 0 (a_nb s))) = i_k I * i_m I) ->
    asks w (if a_nb s =? min_size I then 0 else cuts) (fun w => big_M w I cf) s.
  Proof.
    intro HV. unfold big_M. skip. intros s1 s2 E. injection E as <- <-. unfold cuts, knapsacks.
    destruct (c_bigM cf); cbn [andb]; [|quiet].
    destruct (min_size I <? a_nb s) eqn:EM; [|quiet]. apply Nat.ltb_lt in EM. rewrite (proj2 (Nat.eqb_neq _ _)) by lia.
    unfold update_big_M. destruct (c_method cf); try quiet.
    destruct (HV eq_refl eq_refl) as [VC VS]. skip. intros s1 s2 E. injection E as <- <-. skip. intros u s3 E. apply put_ok in E.
    apply asks_last; [|intro; grow|reflexivity].
    apply (asks_belotti w a_view a_vUB a_nb s3). rewrite E. cbn [a_view a_nb bump set_t set_bigM]. unfold integer_vars. rewrite VC.
    destruct (i_cont I); cbn [negb andb]; [discriminate|]. intros _. rewrite VS. lia.
  Qed.
  Lemma asks_eval_new p : forall l s, asks w (length l) (fun w => eval_new w I p l) s.
  Proof.
    induction l as [|c l IH]; intro s; cbn [eval_new length]; [quiet|]. skip. intros sub s1 _.
    apply asks_bind with (k1 := 1) (k2 := length l); [apply asks_subset| |lia]. intros [v x] s2 _. skip. intros s3 s4 _.
    skip. intros u s5 _. apply asks_last; [apply IH|intro; grow|reflexivity].
  Qed.
  Lemma asks_split k s : (forall R s', refine w I cf s = (Ok R, s') -> length (rf_new R) <= k) -> asks w k (fun w => split_step w I cf) s.
  Proof.
    intro H. unfold split_step. apply asks_skip; [unfold refine; grow|reflexivity|]. intros R s1 ER. skip. intros _ s2 _. skip. intros _ s3 _.
    skip. intros V s4 _. skip. intros _ s5 _. apply asks_last; [eapply asks_le; [apply asks_eval_new|eapply H; eauto]| |reflexivity].
    intro. unfold improve_vlb. grow.
  Qed.
  Lemma asks_targets p : forall l s, asks w (length l) (fun w => eval_targets w I p l) s.
  Proof.
    induction l as [|c l IH]; intro s; cbn [eval_targets length]; [quiet|]. skip. intros sub s1 _.
    apply asks_bind with (k1 := 1) (k2 := length l); [apply asks_subset| |lia]. intros [v x] s2 _. skip. intros s3 s4 _.
    skip. intros u s5 _. skip. intros u' s6 _. skip. intros u'' s7 _. apply asks_last; [apply IH|intro; grow|reflexivity].
  Qed.
  Lemma asks_post_merge s : asks w (length (ms_target (a_ms s))) (fun w => post_merge w I) s.
  Proof.
    unfold post_merge. skip. intros s1 s2 E. injection E as <- <-. skip. intros V s3 _. skip. intros _ s4 _. skip. intros c s5 _.
    skip. intros so s6 _. skip. intros _ s7 _. skip. intros _ s8 _. apply asks_last; [apply asks_targets|intro; unfold improve_vlb; grow|reflexivity].
  Qed.
  Lemma asks_merge x R nc s : asks w (if c_merger cf then 1 else 0) (fun w => merge_step w I cf x R nc) s.
  Proof.
    unfold merge_step. skip. intros _ s1 _. destruct (c_merger cf); [|quiet]. skip. intros mx s2 _. skip. intros s3 s4 E.
    injection E as <- <-. destruct (ext_leb _ _); [|quiet]. apply asks_skip; [grow|reflexivity|]. intros [[kind p] ms] s5 E.
    unfold lift in E. injection E as E <-. apply merge_select_target in E. skip. intros u s6 E6. apply put_ok in E6.
    skip. intros u' s7 E7. apply put_ok in E7. skip. intros u'' s8 E8. apply put_ok in E8.
    assert (EM : a_ms s8 = ms) by (subst; reflexivity).
    apply asks_last; [eapply asks_le; [apply asks_post_merge|rewrite EM; exact E]|intro; grow|reflexivity].
  Qed.
  Lemma asks_next k s : asks w k (fun w => next_iteration w cf) s.
  Proof. unfold next_iteration, available. quiet. Qed.

  Hypothesis HO : oracles_ok w I.
  Hypothesis HW : wf_inst I.
  Hypothesis HE : (0 <= i_eps I)%Q.
  Local Notation shaped := (shaped w I).
  Local Notation fe_ok := (fe_ok w I).

  (** Models of the two bounds. *)
  Definition bound_cost (s : ast) : nat := if a_nb s =? min_size I then 1 else cuts + 2.
  Lemma asks_bounds s : shaped s -> asks w (bound_cost s) (fun w => bound_phase w I cf) s.
  Proof.
    intros SH. unfold bound_phase, bound_cost. skip. intros g s1 E.
    assert (s1 = s). { unfold gap_now, mbind, mget, lift in E. now injection E as _ <-. } subst s1. clear E.
    apply asks_bind with (k1 := if a_nb s =? min_size I then 0 else cuts) (k2 := if a_nb s =? min_size I then 1 else 2);
      [|intros u s1 E1|destruct (a_nb s =? min_size I); lia].
    { apply asks_big_M. intros _ _. pose proof (sh_view _ _ _ SH) as EV. rewrite (sh_nb _ _ _ SH) in *.
      apply view_size; [exact HW|apply (sh_valid _ _ _ SH)|exact EV]. }
    assert (N1 : a_nb s1 = a_nb s).
    { set (K := fun s' : ast => a_nb s' = a_nb s). assert (PB : pres K (big_M w I cf)) by (apply pres_big_M; unfold K; intros; assumption).
      specialize (PB s eq_refl). unfold wp in PB. rewrite E1 in PB. exact PB. }
    rewrite <- N1.
    apply asks_bind with (k1 := if a_nb s1 =? min_size I then 0 else 1) (k2 := 1); [apply asks_upper| |destruct (a_nb s1 =? min_size I); lia].
    intros [x ok] s2 _. destruct ok; [quiet|]. unfold available. skip. intros t s3 _. destruct (Qle_bool t 0); [quiet|].
    apply asks_last; [apply asks_lower|intro; grow|reflexivity].
  Qed.

  Lemma refine_fe s s1 R : refine w I cf s = (Ok R, s1) -> fe_ok s -> exists y, fe_of w I y s.
  Proof.
    intros E [H|H]; [|exact H]. unfold refine, mbind, mget, lift in E. rewrite H in E. discriminate.
  Qed.
  (** At most twice as many new subsets as splits, and at most one more than the tolerated number. *)
  Lemma refine_count s s1 R : shaped s -> fe_ok s -> refine w I cf s = (Ok R, s1) ->
    valid_partition (i_k I) (rf_part R) /\ length (rf_part R) = length (a_part s) + rf_mu R /\ 0 < rf_mu R /\
    length (rf_new R) <= 2 * rf_mu R /\ length (rf_new R) <= tolerated I + 1.
  Proof.
    intros SH FE E. destruct (refine_fe _ _ _ E FE) as (y & F). assert (RN := refine_new _ _ _ _ _ _ E).
    assert (RI := wp_run _ _ _ _ _ _ (refine_inv w I cf HO HE y s SH F) E). cbv beta iota in RI.
    destruct RI as (B & ((V1 & L1 & RF & NB1 & KP) & (D1 & D2 & D3 & D4 & D5) & HM & HF & HI & HB) & _).
    split; [exact V1|]. split; [lia|]. split; [lia|]. split; [exact RN|].
    assert (NB2 : nb_bad (violated I y) (rf_part R) = tolerated I + 1).
    { rewrite NB1, nb_bad_nunsat. lia. }
    rewrite <- NB2. rewrite <- bad_indices_length. apply NoDup_incl_length; [exact D1|]. intros c Hc.
    rewrite Forall_forall in D3, HB. unfold bad_indices. apply filter_In. split; [apply in_seq; specialize (D3 c Hc); lia|now apply HB].
  Qed.

  (** One turn, with or without merging. *)
  Lemma asks_turn s : shaped s -> fe_ok s ->
    asks w (cuts + 2 + (tolerated I + 1) + (if c_merger cf then 1 else 0)) (fun w => iteration w I cf) s.
  Proof.
    intros SH FE. unfold iteration.
    apply asks_bind with (k1 := bound_cost s) (k2 := tolerated I + 1 + (if c_merger cf then 1 else 0));
      [now apply asks_bounds| |unfold bound_cost; destruct (a_nb s =? min_size I); lia].
    intros r s1 E1. assert (G := wp_run _ _ _ _ _ _ (bound_inv w I cf s SH FE) E1). cbv beta iota in G.
    destruct G as (S1 & P1 & _ & F1). destruct r as [v|x]; [quiet|]. destruct (F1 x eq_refl) as [FE1 _].
    apply asks_bind with (k1 := tolerated I + 1) (k2 := if c_merger cf then 1 else 0); [| |lia].
    - apply asks_split. intros R s2 ER. apply (refine_count s1 s2 R S1 FE1 ER).
    - intros [R nc] s2 _. apply asks_last; [apply asks_merge|intro; unfold next_iteration, available; grow|reflexivity].
  Qed.

  (** One turn without merging: the new subsets are paid by the growth of the partition. *)
  Lemma asks_growth s : c_merger cf = false -> shaped s -> fe_ok s -> exists L, asked w L (fun w => iteration w I cf) s /\
    length L <= bound_cost s + 2 * (i_k I - length (a_part s)) /\
    forall s', iteration w I cf s = (Ok Continue, s') -> shaped s' /\ fe_ok s' /\ length (a_part s) < length (a_part s') /\
      length L + 2 * (i_k I - length (a_part s')) <= bound_cost s + 2 * (i_k I - length (a_part s)).
  Proof.
    intros HM SH FE. destruct (asks_bounds s SH) as (L1 & K1 & A1).
    destruct (bound_phase w I cf s) as [r s1] eqn:E1.
    assert (G := wp_run _ _ _ _ _ _ (bound_inv w I cf s SH FE) E1).
    assert (EI : forall c, iteration w I cf s = c -> (match r with Ok a => after_bounds w I cf a s1 | Err e => (Err e, s1) end) = c).
    { intros c <-. rewrite iteration_eq. unfold mbind. rewrite E1. destruct r; reflexivity. }
    destruct r as [[v|x]|e]; cbv beta iota in G.
    - (* the loop is left *)
      exists L1. split.
      { replace L1 with (L1 ++ []) by apply app_nil_r. unfold iteration. eapply asked_bind; [exact A1|exact E1|].
        cbv beta iota. constructor; [cbn; lia|constructor|constructor|reflexivity|intros f t mm []]. }
      split; [lia|]. intros s' Es. apply EI in Es. unfold after_bounds in Es. destruct G as (_ & _ & NC & _). exfalso. apply NC. unfold mret in Es. now injection Es as -> _.
    - destruct G as (S1 & P1 & _ & F1). destruct (F1 x eq_refl) as [FE1 _].
      set (k2 := match refine w I cf s1 with (Ok R, _) => length (rf_new R) | _ => 0 end).
      assert (A2 : asks w k2 (fun w => after_bounds w I cf (inr x)) s1).
      { unfold after_bounds. apply asks_bind with (k1 := k2) (k2 := 0); [| |lia].
        - apply asks_split. intros R s2 ER. unfold k2. rewrite ER. lia.
        - intros [R nc] s2 _. apply asks_last; [|intro; unfold next_iteration, available; grow|reflexivity].
          pose proof (asks_merge x R nc s2) as AM. rewrite HM in AM. exact AM. }
      destruct A2 as (L2 & K2 & A2). exists (L1 ++ L2). split.
      { change (fun w : world => iteration w I cf) with (fun w => mbind (bound_phase w I cf) (after_bounds w I cf)).
        eapply asked_bind; [exact A1|exact E1|exact A2]. }
      rewrite app_length. unfold k2 in K2. split.
      + destruct (refine w I cf s1) as [[R|e] s2] eqn:ER; [|lia]. destruct (refine_count s1 s2 R S1 FE1 ER) as (V & LR & _ & NR & _).
        apply vp_length in V. rewrite P1 in LR. lia.
      + intros s' Es. apply EI in Es. unfold after_bounds in Es.
        destruct (split_step w I cf s1) as [[[R nc]|e] s2] eqn:ES; [|unfold mbind in Es; rewrite ES in Es; discriminate].
        assert (HR : exists s3, refine w I cf s1 = (Ok R, s3)).
        { unfold split_step, mbind in ES. destruct (refine w I cf s1) as [[R1|e1] s3]; [|discriminate]. exists s3.
          repeat match type of ES with (match ?m with (_, _) => _ end) = _ => destruct m as [[?|?] ?]; [|discriminate] end.
          unfold mret in ES. now injection ES as -> _ _. }
        destruct HR as (s3 & ER). rewrite ER in K2. destruct (refine_fe _ _ _ ER FE1) as (y & F).
        assert (SP := wp_run _ _ _ _ _ _ (split_inv w I cf HO HW HE y s1 S1 F) ES). cbn [fst snd] in SP.
        unfold mbind at 1 in Es. rewrite ES in Es.
        assert (MI := merge_inv w I cf HW HE y x s1 s2 R nc S1 SP). unfold mbind in Es. unfold wp in MI.
        destruct (merge_step w I cf x R nc s2) as [[u|e] s4]; [|discriminate].
        assert (NM : a_merged s4 = false).
        { destruct (a_merged s4) eqn:EM; [|reflexivity]. apply (mp_when _ _ _ _ _ _ _ _ _ MI) in EM. destruct EM; congruence. }
        assert (F4 : fe_of w I y s4). { destruct F as [G1 G2]. split; [|exact G2].
          rewrite (mp_fe _ _ _ _ _ _ _ _ _ MI), (sp_fe _ _ _ _ _ _ _ SP). exact G1. }
        assert (NI := next_inv w I cf s4 (mp_shape _ _ _ _ _ _ _ _ _ MI) (or_intror (ex_intro _ y F4))).
        unfold wp in NI. rewrite Es in NI. destruct NI as (S5 & F5 & P5).
        split; [exact S5|]. split; [exact F5|].
        rewrite P5, (mp_none _ _ _ _ _ _ _ _ _ MI NM), (sp_part _ _ _ _ _ _ _ SP).
        destruct (refine_count s1 s3 R S1 FE1 ER) as (V & LR & MU & NR & _). apply vp_length in V. rewrite P1 in LR. lia.
    - exists L1. split.
      { change (fun w : world => iteration w I cf) with (fun w => mbind (bound_phase w I cf) (after_bounds w I cf)).
        eapply asked_fails; [exact A1|exact E1]. }
      split; [lia|]. intros s' Es. apply EI in Es. discriminate.
  Qed.

  (** The main loop without merging. *)
  Lemma asks_loop : c_merger cf = false -> forall fuel s, shaped s -> fe_ok s ->
    asks w (bound_cost s + (i_k I - length (a_part s)) * (cuts + 2) + 2 * (i_k I - length (a_part s)))
      (fun w => main_loop w I cf fuel) s.
  Proof.
    intro HM. induction fuel as [|fuel IH]; intros s SH FE; cbn [main_loop]; [quiet|].
    destruct (asks_growth s HM SH FE) as (L1 & A1 & K1 & HC).
    destruct (iteration w I cf s) as [[v|e] s'] eqn:E.
    - assert (A2 : asks w (match v with Continue => bound_cost s' + (i_k I - length (a_part s')) * (cuts + 2) + 2 * (i_k I - length (a_part s')) | _ => 0 end)
        (fun w => match v with Continue => main_loop w I cf fuel | _ => mret v end) s').
      { destruct v; [|quiet..]. destruct (HC s' eq_refl) as (S' & F' & _). now apply IH. }
      destruct A2 as (L2 & K2 & A2). exists (L1 ++ L2). split; [|now apply asked_bind with (a := v) (s' := s')].
      rewrite app_length. destruct v; [|nia..]. destruct (HC s' eq_refl) as (S' & F' & LT & K3).
      assert (B' : bound_cost s' <= cuts + 2) by (unfold bound_cost; destruct (a_nb s' =? min_size I); lia).
      assert (V' := vp_length _ _ (sh_valid _ _ _ S')). nia.
    - apply asks_bind with (k1 := length L1) (k2 := 0); [exists L1; auto| |nia]. intros a s2 C. congruence.
  Qed.
  (** The main loop in general. *)
  Lemma asks_turns : forall fuel s, shaped s -> fe_ok s ->
    asks w (fuel * (cuts + 2 + (tolerated I + 1) + (if c_merger cf then 1 else 0))) (fun w => main_loop w I cf fuel) s.
  Proof.
    set (c := cuts + 2 + (tolerated I + 1) + (if c_merger cf then 1 else 0)).
    induction fuel as [|fuel IH]; intros s SH FE; cbn [main_loop]; [quiet|].
    apply asks_bind with (k1 := c) (k2 := fuel * c); [now apply asks_turn| |cbn; lia].
    intros v s' E. destruct v; [|quiet..]. assert (G := wp_run _ _ _ _ _ _ (iteration_inv w I cf HO HW HE s SH FE) E). cbn in G.
    destruct G as [G1 G2]. apply IH; auto.
  Qed.

  Lemma asks_run (k fuel : nat) :
    (tolerated I < i_k I -> forall s, shaped s -> fe_ok s -> length (a_part s) = tolerated I + 1 -> asks w k (fun w => main_loop w I cf fuel) s) ->
    asks w (first_costs I (c_init cf) + (tolerated I + 1) + k)
      (fun w => mbind (construct w I cf) (fun b => solve w I cf fuel b)) (ast0 I).
  Proof.
    intro HL. apply asks_bind with (k1 := first_costs I (c_init cf)) (k2 := tolerated I + 1 + k); [apply asks_construct| |lia].
    intros b s EC. assert (CS := wp_run _ _ _ _ _ _ (construct_inv w I cf HO HE) EC). cbv beta iota in CS.
    assert (LT : tolerated I < i_k I). { pose proof (vp_length _ _ (cs_valid _ _ CS)). rewrite (cs_len _ _ CS) in H. lia. }
    unfold solve. apply asks_bind with (k1 := tolerated I + 1) (k2 := k); [| |lia].
    - rewrite <- (cs_len _ _ CS). apply asks_prologue.
    - intros v s' EP. assert (PI := wp_run _ _ _ _ _ _ (prologue_inv w I cf b s CS) EP). cbv beta iota in PI. destruct PI as (SH & FN & PP).
      apply asks_last; [|intro; unfold epilogue; grow|reflexivity].
      destruct v; [|quiet..]. apply HL; [exact LT|exact SH|now left|rewrite PP; apply (cs_len _ _ CS)].
  Qed.
End Runs.

Lemma asks_models {A} w k (m : world -> M A) s : asks w k m s -> exists L, length L <= k /\ models_solved w (fun w => m w s) L.
Proof. intros (L & K & [A1 A2 A3 A4 A5]). exists L. split; [exact K|]. split; [exact A3|]. split; assumption. Qed.

Theorem models_unmerged w I cf fuel : oracles_ok w I -> wf_inst I -> (0 <= i_eps I)%Q -> c_merger cf = false ->
  exists L, models_solved w (fun w => run w I cf fuel) L /\
    length L <= first_costs I (c_init cf) + (tolerated I + 2) +
      (i_k I - (tolerated I + 1)) * (knapsacks I (c_bigM cf) (c_method cf) + 4).
Proof.
  intros HO HW HE HM.
  destruct (asks_models w _ _ _ (asks_run I cf w HO HE (1 + (i_k I - (tolerated I + 1)) * (cuts I cf + 4)) fuel
    ltac:(intros LT s SH FE EL; eapply asks_le; [apply asks_loop; assumption|];
          rewrite EL; unfold bound_cost; rewrite (sh_nb _ _ _ SH), EL, min_size_tolerated, Nat.eqb_refl by assumption; nia))) as (L & K & H).
  exists L. split; [exact H|]. unfold cuts in K. lia.
Qed.
Theorem models_turns w I cf fuel : oracles_ok w I -> wf_inst I -> (0 <= i_eps I)%Q ->
  exists L, models_solved w (fun w => run w I cf fuel) L /\
    length L <= first_costs I (c_init cf) + (tolerated I + 1) +
      fuel * (knapsacks I (c_bigM cf) (c_method cf) + (tolerated I + 3) + (if c_merger cf then 1 else 0)).
Proof.
  intros HO HW HE.
  destruct (asks_models w _ _ _ (asks_run I cf w HO HE (fuel * (cuts I cf + 2 + (tolerated I + 1) + (if c_merger cf then 1 else 0))) fuel
    (fun _ s SH FE _ => asks_turns I cf w HO HW HE fuel s SH FE))) as (L & K & H).
  exists L. split; [exact H|]. unfold cuts in K. nia.
Qed.

(** ** The list is determined *)
Lemma model_eq_dec (m m' : model) : {m = m'} + {m <> m'}.
Proof.
  assert (DQ : forall a b : Q, {a = b} + {a <> b}) by (decide equality; [apply Pos.eq_dec|apply Z.eq_dec]).
  assert (DL : forall a b : list Q, {a = b} + {a <> b}) by (apply list_eq_dec, DQ).
  assert (DE : forall a b : ext, {a = b} + {a <> b}) by (decide equality).
  assert (DC : forall a b : cstr, {a = b} + {a <> b}) by (decide equality; apply Nat.eq_dec).
  assert (DP : forall a b : nat * Q, {a = b} + {a <> b}) by (decide equality; apply Nat.eq_dec).
  assert (DO : forall a b : option Q, {a = b} + {a <> b}) by (decide equality).
  decide equality; auto using Bool.bool_dec, Nat.eq_dec, list_eq_dec.
Qed.
Lemma sorted_pairs_eq {A} : forall L L' : list (nat * A), StronglySorted lt (map fst L) -> StronglySorted lt (map fst L') ->
  (forall q, In q L <-> In q L') -> L = L'.
Proof.
  induction L as [|[t m] L IH]; intros L' S1 S2 H.
  - destruct L' as [|q L']; [reflexivity|]. exfalso. apply (proj2 (H q)). now left.
  - destruct L' as [|[t' m'] L']; [exfalso; apply (proj1 (H (t, m))); now left|]. cbn in S1, S2.
    inversion S1 as [|? ? S1' F1]; inversion S2 as [|? ? S2' F2]; subst. rewrite Forall_forall in F1, F2.
    assert (G1 : forall q, In q L -> t < fst q) by (intros q Hq; apply F1, in_map, Hq).
    assert (G2 : forall q, In q L' -> t' < fst q) by (intros q Hq; apply F2, in_map, Hq).
    assert (E : (t, m) = (t', m')).
    { destruct (proj1 (H (t, m)) (or_introl eq_refl)) as [E|Hq]; [auto|]. destruct (proj2 (H (t', m')) (or_introl eq_refl)) as [E|Hq']; [auto|].
      apply G2 in Hq. apply G1 in Hq'. cbn in *. lia. }
    injection E as <- <-. f_equal. apply IH; auto. intro q. specialize (H q). cbn in H. split; intro Hq.
    + destruct (proj1 H (or_intror Hq)) as [<-|]; [|assumption]. apply G1 in Hq. cbn in Hq. lia.
    + destruct (proj2 H (or_intror Hq)) as [<-|]; [|assumption]. apply G2 in Hq. cbn in Hq. lia.
Qed.
Theorem models_unique {A} w (go : world -> res A * ast) L L' : fst (go w) <> Err KeyboardInterrupt ->
  models_solved w go L -> models_solved w go L' -> L = L'.
Proof.
  assert (G : forall L L', fst (go w) <> Err KeyboardInterrupt -> models_solved w go L -> models_solved w go L' -> forall q, In q L -> In q L').
  { clear. intros L L' NK (S1 & D1 & T1) (S2 & D2 & T2) [t m] Hq.
    set (f := fun t' m' => if t' =? t then if model_eq_dec m' m then Interrupted else w_solve w t' m' else w_solve w t' m').
    assert (DEC : forall q q' : nat * model, {q = q'} + {q <> q'}) by (decide equality; [apply model_eq_dec|apply Nat.eq_dec]).
    destruct (in_dec DEC (t, m) L') as [|N]; [assumption|]. exfalso. apply NK.
    rewrite <- (D2 f).
    - apply (T1 f t m Hq).
      + intros t' m' _ LT. unfold f. rewrite (proj2 (Nat.eqb_neq t' t)) by lia. reflexivity.
      + unfold f. rewrite Nat.eqb_refl. destruct (model_eq_dec m m); congruence.
    - intros t' m' Hq'. unfold f. destruct (t' =? t) eqn:ET; [|reflexivity]. apply Nat.eqb_eq in ET. subst t'.
      destruct (model_eq_dec m' m); [|reflexivity]. subst. contradiction. }
  intros NK H H'. pose proof H as (S1 & _). pose proof H' as (S2 & _). apply sorted_pairs_eq; auto. intro q. split; eapply G; eauto.
Qed.

(** ** The MILP solver *)
Theorem models_milp w I cf use method : wf_inst I ->
  exists L, models_solved w (fun w => milp_run w I cf use method) L /\
    length L <= (match method with Belotti => if use then i_k I else 0 | _ => 0 end) + knapsacks I use method + 1.
Proof.
  intro HW.
  assert (MV : list_sum (map (v_m (milp_view I)) (seq 0 (i_k I))) = i_k I * i_m I).
  { assert (G : forall l, Forall (fun c => c < i_k I) l -> list_sum (map (v_m (milp_view I)) l) = length l * i_m I).
    { destruct HW as (_ & _ & HA & HR & _). induction l as [|c l IH]; intro HF; [reflexivity|]. inversion HF; subst.
      cbn [map]. change (list_sum (?a :: ?l)) with (a + list_sum l). rewrite IH by assumption. cbn [length].
      unfold v_m, milp_view, view_inst. cbn [v_A]. rewrite Forall_forall in HR.
      assert (Hc : c < length (i_A I)) by lia. rewrite (proj1 (HR (nth c (i_A I) []) (nth_In _ _ Hc))). lia. }
    rewrite G; [now rewrite seq_length|]. apply Forall_forall. intros c Hc. apply in_seq in Hc. lia. }
  destruct (asks_models w ((match method with Belotti => if use then i_k I else 0 | _ => 0 end) + knapsacks I use method + 1)
    (fun w => mbind (milp_construct w I) (fun _ => milp_solve w I cf use method)) (ast0 I)) as (L & K & H).
  2:{ exists L. split; [exact H|exact K]. }
  apply asks_skip; [unfold milp_construct; grow|reflexivity|]. intros _ s _. unfold milp_solve.
  apply asks_bind with (k1 := (match method with Belotti => if use then i_k I else 0 | _ => 0 end) + knapsacks I use method) (k2 := 1); [| |lia].
  - unfold knapsacks. destruct use; [|quiet]. cbn [andb]. apply asks_last; [|intro; grow|reflexivity].
    unfold milp_compute_big_m. apply asks_last; [|intro; unfold available; grow|reflexivity].
    unfold milp_choose_big_m. destruct method; try quiet.
    apply asks_bind with (k1 := i_k I) (k2 := if negb (i_cont I) then i_k I * i_m I else 0); [apply asks_scenarios| |lia].
    intros costs s1 _. skip. intros [[x v]|] s2 _; [|quiet]. apply asks_last; [|intro; grow|reflexivity].
    apply (asks_belotti w (fun _ => milp_view I) (fun _ => Fin v) (fun _ => i_k I) s2). unfold integer_vars. change (v_cont (milp_view I)) with (i_cont I).
    destruct (i_cont I); cbn [negb andb]; [discriminate|]. intros _. rewrite MV. lia.
  - intros bt s1 _. unfold available. skip. intros t s2 _. skip. intros t' s3 _. skip. intros s4 s5 _.
    apply asks_last; [apply asks_cclp|intro; grow|reflexivity].
Qed.
