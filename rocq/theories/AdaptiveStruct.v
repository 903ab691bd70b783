(** Structure of the state of the adaptive partitioner: partition, subset costs, merging. *)
From Verif Require Import Base BaseFacts Spec Instance InstanceFacts OptModels OptFacts PartitionFacts Initial InitialFacts Bounds BoundsFacts
  Refine RefineFacts CostRefine CostRefineFacts Merge MergeFacts RefineSum Violations BigM Adaptive AdaptiveSpec AdaptiveWp.

(** ** Pure facts *)
Lemma random_loop_mono perm flags inf mu : forall fuel fuel' st t r, fuel <= fuel' ->
  random_loop fuel perm flags inf mu st t = Ok r -> random_loop fuel' perm flags inf mu st t = Ok r.
Proof.
  induction fuel as [|f IH]; intros fuel' st t r HF H.
  - destruct fuel'; cbn [random_loop] in *; destruct (r_cnt st <? mu); try discriminate; exact H.
  - destruct fuel' as [|f']; [lia|]. cbn [random_loop] in *. destruct (r_cnt st <? mu); [|exact H].
    destruct (traverse _ _ _ _ _ _ _) as [[st' t']|e]; cbn [rbind] in *; [|discriminate]. apply IH; [lia|exact H].
Qed.
Lemma refine_random_mono perm I f fuel fuel' t old r : fuel <= fuel' ->
  refine_random fuel perm I f t old = Ok r -> refine_random fuel' perm I f t old = Ok r.
Proof.
  intro HF. unfold refine_random, refine_with. destruct (find_infeasible_subsets old _) as [a b].
  destruct (number_of_splits I _) as [mu|e]; cbn [rbind]; [|auto].
  destruct (random_loop fuel _ _ _ _ _ _) as [[st x]|e] eqn:E; cbn [rbind]; [|discriminate].
  now rewrite (random_loop_mono _ _ _ _ _ _ _ _ _ HF E).
Qed.

Lemma refine_random_inv perm I bad fm old t fuel R t' : perm_oracle perm -> (0 <= i_eps I)%Q ->
  valid_partition (i_k I) old -> tolerated I < count bad (seq 0 (i_k I)) ->
  refine_random fuel perm I (pattern (i_k I) bad fm) t old = Ok (R, t') ->
  nb_bad bad old <= tolerated I /\ refinement_ok (i_k I) bad (tolerated I + 1 - nb_bad bad old) old R.
Proof.
  intros HP HE V HT H. destruct (le_lt_dec (nb_bad bad old) (tolerated I)) as [L|L].
  - split; [exact L|]. set (F := fuel + (tolerated I + 1 - nb_bad bad old)).
    destruct (refine_random_ok perm I bad fm old t F HP HE V L HT) as (R' & t2 & E & HR); [unfold F; lia|].
    apply refine_random_mono with (fuel' := F) in H; [|unfold F; lia]. rewrite E in H. injection H as <- _. exact HR.
  - unfold refine_random in H. rewrite refine_with_fails in H by assumption. discriminate.
Qed.
Lemma refine_cost_inv acc argsort I cs bad fm costs vUB old R cs' : acc_sound I acc ->
  (forall t s i p, acc_query I s i -> acc t s i = AccSolved p -> (- 1000000 <= ap_alpha p)%Q) ->
  argsort_ok argsort -> (0 <= i_eps I)%Q -> cost_reachable acc argsort I cs ->
  valid_partition (i_k I) old -> length costs = length old -> tolerated I < count bad (seq 0 (i_k I)) ->
  refine_cost acc argsort I (pattern (i_k I) bad fm) costs vUB cs old = Ok (R, cs') ->
  nb_bad bad old <= tolerated I /\ refinement_ok (i_k I) bad (tolerated I + 1 - nb_bad bad old) old R /\
  cost_reachable acc argsort I cs'.
Proof.
  intros HS HL HA HE HC V LC HT H. destruct (le_lt_dec (nb_bad bad old) (tolerated I)) as [L|L].
  - split; [exact L|]. assert (G := cost_refinement_sound acc argsort I HS HL HA HE cs bad fm costs vUB old HC V LC L HT).
    rewrite H in G. exact G.
  - unfold refine_cost in H. rewrite refine_with_fails in H by assumption. discriminate.
Qed.

Lemma min_size_tolerated I : (0 <= i_eps I)%Q -> min_size I = tolerated I + 1.
Proof.
  intro He. unfold min_size, tolerated.
  assert (0 <= Qfloor (i_eps I * Qn (i_k I)))%Z.
  { change 0%Z with (Qfloor 0). apply Qfloor_resp_le. apply Qmult_le_0_compat; [assumption|apply Qn_nonneg]. }
  lia.
Qed.

Lemma survivors_map {A B} (f : A -> B) D l : survivors D (map f l) = map f (survivors D l).
Proof.
  unfold survivors. rewrite map_length. generalize 0.
  induction l as [|a l IH]; intro n; cbn [length seq combine map filter fst]; [reflexivity|].
  destruct (kept D n); cbn [map snd]; rewrite IH; reflexivity.
Qed.
Lemma survivors_upd_low {A} (l : list A) m a D : m < length l -> Forall (fun i => m < i) D ->
  survivors D (upd m a l) = upd m a (survivors D l).
Proof.
  intros Hm HD. unfold survivors. rewrite upd_length.
  assert (G : forall l n m, m < length l -> (forall i, In i D -> n + m < i) ->
    map snd (filter (fun ia => kept D (fst ia)) (combine (seq n (length l)) (upd m a l))) =
    upd m a (map snd (filter (fun ia => kept D (fst ia)) (combine (seq n (length l)) l)))).
  { clear l m Hm HD. induction l as [|b l IH]; intros n m Hm HD; cbn [length] in Hm; [lia|].
    assert (K : kept D n = true).
    { unfold kept. apply negb_true_iff, memb_false. intro C. apply HD in C. lia. }
    destruct m as [|m]; cbn [length seq combine upd filter fst]; rewrite K; cbn [map snd upd]; [reflexivity|].
    f_equal. apply IH; [lia|]. intros i Hi. apply HD in Hi. lia. }
  apply G; [assumption|]. rewrite Forall_forall in HD. intros i Hi. apply HD in Hi. lia.
Qed.

(** ** Choice of the merged subsets *)
Lemma count_good_app bad (p : list (list nat)) l c : incl l (good_indices bad p) ->
  count (fun c => existsb bad (nth c p [])) (l ++ [c]) <= 1.
Proof.
  intro H. rewrite count_app.
  assert (E : count (fun c => existsb bad (nth c p [])) l = 0).
  { unfold count. rewrite filter_none; [reflexivity|]. intros i Hi. apply H in Hi. apply filter_In in Hi as [_ Hi].
    now apply negb_true_iff in Hi. }
  rewrite E. unfold count. cbn [filter]. destruct (existsb bad (nth c p [])); cbn; lia.
Qed.
Lemma count_good bad (p : list (list nat)) l : incl l (good_indices bad p) ->
  count (fun c => existsb bad (nth c p [])) l <= 1.
Proof. intro H. apply (count_good_app bad p l 0) in H. rewrite count_app in H. lia. Qed.

Lemma good_indices_facts bad p : NoDup (good_indices bad p) /\ Forall (fun c => c < length p) (good_indices bad p).
Proof.
  split; [apply NoDup_filter, seq_NoDup|]. apply Forall_forall. intros i Hi. apply filter_In in Hi as [Hi _]. apply in_seq in Hi. lia.
Qed.

Lemma merge_candidates_spec bad p costs : length costs = length p -> 0 < nb_bad bad p ->
  exists c, c < length p /\ ~ In c (good_indices bad p) /\
    merge_candidates (length p) costs (good_indices bad p) = Ok (good_indices bad p ++ [c]).
Proof.
  intros HC HB. unfold merge_candidates.
  assert (P : Permutation (sort_subset_costs (seq 0 (length p)) costs) (seq 0 (length p))) by (apply sort_costs_perm; rewrite seq_length; lia).
  destruct (filter _ _) as [|c l] eqn:EF.
  - exfalso. rewrite <- bad_indices_length in HB. destruct (bad_indices bad p) as [|b lb] eqn:EB; [cbn in HB; lia|].
    assert (Hb : In b (bad_indices bad p)) by (rewrite EB; now left). apply filter_In in Hb as [Hb1 Hb2].
    assert (In b []); [|contradiction]. rewrite <- EF. apply filter_In. split; [eapply Permutation_in; [symmetry; exact P|exact Hb1]|].
    apply negb_true_iff, memb_false. intro C. apply filter_In in C as [_ C]. rewrite Hb2 in C. discriminate.
  - exists c. assert (Hc : In c (c :: l)) by now left. rewrite <- EF in Hc. apply filter_In in Hc as [H1 H2].
    split; [|split; [|reflexivity]].
    + eapply Permutation_in in H1; [|exact P]. apply in_seq in H1. lia.
    + now apply negb_true_iff, memb_false in H2.
Qed.

Lemma merge_select_spec norm V k bad mu old R costs y :
  refinement_ok k bad mu old R -> 0 < mu -> 0 < nb_bad bad (rf_part R) -> nb_bad bad (rf_part R) <= length old ->
  length costs = length (rf_part R) ->
  exists kind p' ms cands,
    merge_select norm V (rf_part R) (length (rf_part R)) costs (rf_feasible R) (rf_mu R) (Some y) = Ok (kind, p', ms) /\
    merge_all (rf_part R) cands = Ok (p', ms) /\ NoDup cands /\ Forall (fun c => c < length (rf_part R)) cands /\ length cands = mu + 1 /\
    count (fun c => existsb bad (nth c (rf_part R) [])) cands <= 1 /\
    length p' = length old /\ (kind = MergeAll -> length p' = nb_bad bad (rf_part R)) /\ mu <= length (rf_feasible R).
Proof.
  intros (HR1 & HR2 & HM & HF & HI) Hmu Hb0 Hb HC. destruct HR1 as (V1 & L1 & _ & NB & _).
  set (p := rf_part R) in *. assert (GL := good_indices_length bad p). destruct (good_indices_facts bad p) as [ND FG].
  rewrite HF, HM. unfold merge_select. destruct (length (good_indices bad p) =? mu) eqn:E.
  - apply Nat.eqb_eq in E. destruct (merge_candidates_spec bad p costs HC Hb0) as (c & Hc & Hn & ->). cbn [rbind].
    set (cands := good_indices bad p ++ [c]).
    assert (NC : NoDup cands).
    { unfold cands. apply (Permutation_NoDup (l := c :: good_indices bad p)); [apply Permutation_cons_append|]. now constructor. }
    assert (FC : Forall (fun c => c < length p) cands) by (apply Forall_app; split; [assumption|now constructor]).
    assert (LC : length cands = mu + 1) by (unfold cands; rewrite app_length; cbn; lia).
    destruct (merge_all_valid k p cands V1 NC) as (m & p' & ms & _ & _ & EM & _ & _ & _ & LP & _); [|assumption|].
    { intro C. rewrite C in LC. cbn in LC. lia. }
    rewrite EM. cbn [rbind]. exists MergeAll, p', ms, cands.
    split; [reflexivity|]. split; [exact EM|]. split; [exact NC|]. split; [exact FC|]. split; [exact LC|].
    split; [unfold cands; apply count_good_app; intros i Hi; exact Hi|].
    split; [lia|]. split; [intros _; lia|lia].
  - apply Nat.eqb_neq in E. assert (E2 : mu + 1 <=? length (good_indices bad p) = true) by (apply Nat.leb_le; lia). rewrite E2. cbn [need rbind].
    apply Nat.leb_le in E2.
    destruct (merge_feasible_spec norm V p y (good_indices bad p) mu ND FG E2) as (top & p' & ms & EF & EM & NT & IT & LT & _).
    rewrite EF. cbn [rbind]. exists MergeMu, p', ms, top.
    assert (FT : Forall (fun c => c < length p) top). { apply Forall_forall. intros i Hi. rewrite Forall_forall in FG. now apply FG, IT. }
    destruct (merge_all_valid k p top V1 NT) as (m & p2 & ms2 & _ & _ & EM2 & _ & _ & _ & LP & _); [|assumption|].
    { intro C. rewrite C in LT. cbn in LT. lia. }
    rewrite EM in EM2. injection EM2 as <- <-.
    split; [reflexivity|]. split; [exact EM|]. split; [exact NT|]. split; [exact FT|]. split; [exact LT|].
    split; [now apply count_good|]. split; [lia|]. split; [discriminate|lia].
Qed.

(** Points that violate all the subsets that the split changed violate no more subsets before the split than after the merge. *)
Lemma merge_relaxes k bad mu old R cands p' ms f : refinement_ok k bad mu old R -> NoDup cands ->
  Forall (fun c => c < length (rf_part R)) cands -> length cands = mu + 1 -> merge_all (rf_part R) cands = Ok (p', ms) ->
  (forall c, In c (rf_new R) -> existsb f (nth c (rf_part R) []) = true) -> nb_bad f old <= nb_bad f p'.
Proof.
  intros (HR1 & (D1 & D2 & D3 & D4 & _) & _) ND FC LC EM HN. destruct HR1 as (V1 & L1 & _).
  destruct (merge_all_valid k (rf_part R) cands V1 ND) as (m & p2 & ms2 & _ & _ & EM2 & _ & _ & _ & _ & _ & _ & _ & NB); [|assumption|].
  { intro C. rewrite C in LC. cbn in LC. lia. }
  rewrite EM in EM2. injection EM2 as <- <-. specialize (NB f).
  assert (B1 : count (fun c => existsb f (nth c (rf_part R) [])) cands <= mu + (if existsb (fun c => existsb f (nth c (rf_part R) [])) cands then 1 else 0)).
  { rewrite existsb_count0. assert (L := count_le (fun c => existsb f (nth c (rf_part R) [])) cands).
    destruct (count _ cands) as [|n]; cbn [Nat.eqb negb]; lia. }
  assert (B2 : nb_bad f old + mu <= nb_bad f (rf_part R)); [|lia].
  rewrite <- !bad_indices_length. unfold bad_indices. rewrite L1, seq_app, filter_app, app_length. cbn [Nat.add].
  apply Nat.add_le_mono.
  - apply (count_mono (fun c => existsb f (nth c old [])) (fun c => existsb f (nth c (rf_part R) []))). intros c Hc E. apply in_seq in Hc. destruct (in_dec Nat.eq_dec c (rf_new R)) as [H|H]; [now apply HN|].
    rewrite D4 by (try assumption; lia). exact E.
  - assert (A : forall c, In c (seq (length old) mu) -> existsb f (nth c (rf_part R) []) = true).
    { intros c Hc. apply HN. replace mu with (length (rf_part R) - length old) in Hc by lia. rewrite <- D2 in Hc. now apply filter_In in Hc. }
    change (mu <= count (fun c => existsb f (nth c (rf_part R) [])) (seq (length old) mu)).
    clear -A. assert (E := seq_length mu (length old)). revert A E. generalize (seq (length old) mu). intro l. revert mu. induction l as [|c l IH]; intros mu A <-; [cbn; lia|].
    rewrite count_cons, (A c (or_introl eq_refl)). cbn [length]. assert (H := IH _ (fun c Hc => A c (or_intror Hc)) eq_refl). lia.
Qed.

(** ** Evaluator answers *)
Section Struct.
  Variable w : world.
  Variable I : inst.
  Variable cf : cfg.

  Local Notation answered := (answered w I).
  Local Notation aligned := (aligned w I).
  Local Notation external := (external w I).

  Lemma ext_put f (Q : unit -> ast -> Prop) s : Q tt (bump (f s)) -> wp (fun e _ => external e) (put w f) Q s.
  Proof.
    intro H. apply wp_put; [|auto]. intro E. left. split; [reflexivity|]. left. eauto.
  Qed.
  Lemma ext_cost S (Q : Q * list Q -> ast -> Prop) s :
    (forall v x t, answered S v x -> Q (v, x) (set_t t s)) -> wp (fun e _ => external e) (subset_cost w I S) Q s.
  Proof.
    intro H. unfold subset_cost. apply wp_bind, wp_call.
    - intro E. left. split; [reflexivity|]. left. eauto.
    - intro E. left. split; [reflexivity|]. right. eauto.
    - intro NE. apply wp_bind, wp_lift.
      + intros [[[x z] v] b] E. apply wp_ret. apply H. exists (Datatypes.S (a_t s)), z, b.
        destruct (w_solve w (Datatypes.S (a_t s)) (deter_model I S)); try discriminate. cbn in E. congruence.
      + intros e E. right. destruct (w_solve w (Datatypes.S (a_t s)) (deter_model I S)) eqn:ES; try discriminate; try congruence;
          (cbn in E; injection E as <-; split; [reflexivity|]; exists (Datatypes.S (a_t s)), S; rewrite ES; exact Logic.I).
  Qed.
  Lemma ext_improve cands (Q : unit -> ast -> Prop) s : 
    (forall s', (forall P : ast -> Prop, (forall s v, P s -> P (set_t v s)) -> (forall s v, P s -> P (set_xLB v s)) ->
      (forall s v np, P s -> P (set_vLB v np s)) -> P s -> P s') -> Q tt s') ->
    wp (fun e _ => external e) (improve_vlb w I cands) Q s.
  Proof.
    intro H. unfold improve_vlb. apply wp_bind, wp_get. destruct (incumbent_bound _ _ _ _ _ _) as [[x v]|].
    - apply wp_bind, ext_put, ext_put. apply H. intros P HT HX HV HP. apply HT, HV, HT, HX, HP.
    - apply wp_ret, H. auto.
  Qed.

  (** ** Split *)
  Lemma filter_S_le n l : filter (fun c => S n <=? c) l = filter (fun c => S n <=? c) (filter (fun c => n <=? c) l).
  Proof.
    induction l as [|a l IH]; [reflexivity|]. cbn [filter]. destruct (n <=? a) eqn:E1; cbn [filter]; rewrite IH; [reflexivity|].
    apply Nat.leb_gt in E1. now rewrite (proj2 (Nat.leb_gt (S n) a)) by lia.
  Qed.
  Lemma filter_seq_all a n : filter (fun c => a <=? c) (seq a n) = seq a n.
  Proof. apply filter_all. intros i Hi. apply in_seq in Hi. apply Nat.leb_le. lia. Qed.

  (** Costs and solutions during the evaluation of the changed subsets [l]. *)
  Definition evaluating (p : list (list nat)) (l : list nat) (s : ast) : Prop :=
    length (a_sols s) = length (a_costs s) /\ length (a_costs s) <= length p /\
    filter (fun c => length (a_costs s) <=? c) l = seq (length (a_costs s)) (length p - length (a_costs s)) /\
    NoDup l /\ Forall (fun c => c < length p) l /\
    forall c, c < length (a_costs s) -> ~ In c l -> answered (nth c p []) (nth c (a_costs s) 0%Q) (nth c (a_sols s) []).

  Lemma nth_app_last {A} (l : list A) a d : nth (length l) (l ++ [a]) d = a.
  Proof. rewrite app_nth2 by lia. now rewrite Nat.sub_diag. Qed.

  Lemma eval_new_aligned (P : ast -> Prop) p : (forall s t, P s -> P (set_t t s)) -> (forall s v, P s -> P (set_costs v s)) ->
    (forall s v, P s -> P (set_sols v s)) -> forall l s, P s -> evaluating p l s ->
    wp (fun e _ => external e) (eval_new w I p l) (fun r s' => P s' /\ aligned p (a_costs s') (a_sols s') /\ length r = length l /\
      Forall (fun vx => exists S, In S p /\ answered S (fst vx) (snd vx)) r) s.
  Proof.
    intros PT PC PS. induction l as [|c l IH]; intros s HP (E1 & E2 & E3 & E4 & E5 & E6); cbn [eval_new].
    - apply wp_ret. split; [exact HP|]. split; [|split; [reflexivity|constructor]]. cbn [filter] in E3.
      assert (length p - length (a_costs s) = 0) by (destruct (length p - length (a_costs s)); [reflexivity|discriminate]).
      split; [lia|]. split; [lia|]. intros c Hc. apply E6; [lia|intros []].
    - inversion E4 as [|? ? N1 N2]; subst. inversion E5 as [|? ? F1 F2]; subst.
      apply wp_bind, wp_lift; [|intros e E; unfold geti in E; rewrite (nth_error_nth' p [] F1) in E; discriminate].
      intros S ES. assert (S = nth c p []) by (unfold geti in ES; rewrite (nth_error_nth' p [] F1) in ES; congruence). subst S.
      apply wp_bind, ext_cost. intros v x t HA. apply wp_bind, wp_get.
      set (s1 := set_t t s). change (a_costs s1) with (a_costs s).
      assert (K : forall s', P s' -> evaluating p l s' ->
        wp (fun e _ => external e) (mbind (eval_new w I p l) (fun r => mret ((v, x) :: r)))
          (fun r s' => P s' /\ aligned p (a_costs s') (a_sols s') /\ length r = length (c :: l) /\
             Forall (fun vx => exists S, In S p /\ answered S (fst vx) (snd vx)) r) s').
      { intros s' HP' HE'. apply wp_bind. eapply wp_mono; [apply IH; assumption| |auto].
        intros r s2 (A1 & A2 & A3 & A4). apply wp_ret. split; [exact A1|]. split; [exact A2|]. split; [cbn; lia|].
        constructor; [|exact A4]. exists (nth c p []). split; [now apply nth_In|exact HA]. }
      apply wp_bind. destruct (c <? length (a_costs s)) eqn:EC.
      + apply Nat.ltb_lt in EC. apply wp_bind, ext_put, ext_put. apply K; [apply PT, PS, PT, PC, PT, HP|].
        unfold evaluating. cbn [a_costs a_sols set_costs set_sols set_t bump s1]. rewrite !upd_length.
        split; [exact E1|]. split; [exact E2|]. split.
        { cbn [filter] in E3. now rewrite (proj2 (Nat.leb_gt _ _) EC) in E3. }
        split; [exact N2|]. split; [exact F2|]. intros d Hd Hn. destruct (Nat.eq_dec d c) as [->|Hne].
        * rewrite !nth_upd_eq by lia. exact HA.
        * rewrite !nth_upd_neq by lia. apply E6; [exact Hd|]. intros [->|C]; contradiction.
      + apply Nat.ltb_ge in EC. cbn [filter] in E3. rewrite (proj2 (Nat.leb_le _ _) EC) in E3.
        destruct (length p - length (a_costs s)) as [|n] eqn:EN; [discriminate|]. cbn [seq] in E3. injection E3 as E3 E3'.
        apply wp_bind, ext_put, ext_put. apply K; [apply PT, PS, PT, PC, PT, HP|].
        unfold evaluating. cbn [a_costs a_sols set_costs set_sols set_t bump s1]. rewrite !app_length. cbn [length].
        split; [lia|]. split; [lia|]. split.
        { rewrite Nat.add_1_r, filter_S_le, E3'. replace (length p - S (length (a_costs s))) with n by lia. apply filter_seq_all. }
        split; [exact N2|]. split; [exact F2|]. intros d Hd Hn. destruct (Nat.eq_dec d (length (a_costs s))) as [->|Hne].
        * rewrite nth_app_last. rewrite <- E1, nth_app_last. rewrite E1, <- E3. exact HA.
        * rewrite !app_nth1 by lia. apply E6; [lia|]. intros [->|C]; [lia|contradiction].
  Qed.

  Hypothesis HO : oracles_ok w I.
  Hypothesis HW : wf_inst I.
  Hypothesis HE : (0 <= i_eps I)%Q.

  (** Partition, its size and view, costs, memory of the cost refiner. *)
  Record shaped (s : ast) : Prop := mkShaped {
    sh_valid : valid_partition (i_k I) (a_part s);
    sh_nb : a_nb s = length (a_part s);
    sh_min : tolerated I + 1 <= a_nb s;
    sh_view : load_partition I (uniform (i_k I)) (a_nb s) (a_part s) = Ok (a_view s);
    sh_costs : aligned (a_part s) (a_costs s) (a_sols s);
    sh_ref : cost_reachable (w_acc w) (w_argsort w) I (a_ref s)
  }.
  (** The infeasibility data are those of the point y, which is infeasible. *)
  Definition fe_of (y : list Q) (s : ast) : Prop :=
    a_fe s = Some (snd (check_feasibility (w_norm w) I y)) /\ fst (check_feasibility (w_norm w) I y) = false.
  Definition fe_ok (s : ast) : Prop := a_fe s = None \/ exists y, fe_of y s.

  (** What a split does. *)
  Record split_post (y : list Q) (s : ast) (R : refinement) (nc : list Q) (s' : ast) : Prop := mkSP {
    sp_before : nunsat I tol6 y (a_part s) <= tolerated I;
    sp_ref : refinement_ok (i_k I) (violated I y) (tolerated I + 1 - nunsat I tol6 y (a_part s)) (a_part s) R;
    sp_part : a_part s' = rf_part R;
    sp_after : nunsat I tol6 y (a_part s') = tolerated I + 1;
    sp_len : length nc = length (rf_new R);
    sp_shape : shaped s';
    sp_fe : a_fe s' = a_fe s
  }.

  Lemma refine_inv y s : shaped s -> fe_of y s ->
    wp (fun _ _ => True) (refine w I cf) (fun R s' =>
      nunsat I tol6 y (a_part s) <= tolerated I /\
      refinement_ok (i_k I) (violated I y) (tolerated I + 1 - nunsat I tol6 y (a_part s)) (a_part s) R /\
      cost_reachable (w_acc w) (w_argsort w) I (a_ref s') /\
      a_costs s' = a_costs s /\ a_sols s' = a_sols s /\ a_fe s' = a_fe s) s.
  Proof.
    destruct HO as (HP & HA & HN & HS & HL). intros [V NB MN VW AL RE] [F1 F2]. unfold refine. apply wp_bind, wp_get.
    destruct (check_pattern (w_norm w) I y HN) as (fm & EP). rewrite EP in F1. rewrite F1.
    remember (pattern (i_k I) (violated I y) fm) as f0 eqn:Ef.
    apply wp_bind, wp_lift; [|discriminate]. intros f E. injection E as <-. subst f0. clear EP.
    apply check_infeasible_count in F2; [|assumption]. rewrite <- nb_bad_nunsat.
    destruct (c_split cf).
    - destruct (c_acc cf); [apply wp_bind, wp_lift; [intros ? _; exact Logic.I|auto]|].
      apply wp_bind, wp_lift; [|auto]. intros [R t] ER. destruct (refine_random_inv _ _ _ _ _ _ _ _ _ HP HE V F2 ER) as [E1 E2].
      apply wp_bind, wp_put; [auto|]. intros _. apply wp_ret. exact (conj E1 (conj E2 (conj RE (conj eq_refl (conj eq_refl F1))))).
    - apply wp_bind, wp_lift; [|auto]. intros [R cs] ER. destruct (refine_cost_inv _ _ _ _ _ _ _ _ _ _ _ HS HL HA HE RE V (proj1 AL) F2 ER) as (E1 & E2 & E3).
      apply wp_bind, wp_put; [auto|]. intros _. apply wp_ret. exact (conj E1 (conj E2 (conj E3 (conj eq_refl (conj eq_refl F1))))).
    - exact Logic.I.
  Qed.

  Lemma split_inv y s : shaped s -> fe_of y s ->
    wp (fun e _ => external e \/ exists s', refine w I cf s = (Err e, s')) (split_step w I cf) (fun Rn s' => split_post y s (fst Rn) (snd Rn) s') s.
  Proof.
    intros SH FE. unfold split_step.
    assert (PK : forall f (Q : unit -> ast -> Prop) s1, Q tt (bump (f s1)) ->
      wp (fun e _ => external e \/ exists s', refine w I cf s = (Err e, s')) (put w f) Q s1).
    { intros f Q s1 H1. eapply wp_mono; [apply ext_put, H1|auto|auto]. }
    apply wp_steps; [intros e s1 ER; right; eauto|]. intros R s1 ER. assert (RI := wp_run _ _ _ _ _ _ (refine_inv y s SH FE) ER). cbv beta iota in RI. clear ER.
    destruct RI as (B & HR & RE & C1 & C2 & C3). set (mu := tolerated I + 1 - nunsat I tol6 y (a_part s)) in *.
    destruct (sh_costs _ SH) as (A1 & A2 & A3). pose proof HR as ((V1 & L1 & RF & NB1 & KP) & (D1 & D2 & D3 & D4 & D5) & HM & _).
    apply wp_bind, PK. apply wp_bind, PK.
    destruct (load_partition_uniform I (rf_part R) HW V1) as (V & EV & _).
    apply wp_bind, wp_lift; [|intros e E; rewrite EV in E; discriminate]. intros V' EV'. rewrite EV in EV'. injection EV' as <-. apply wp_bind, PK.
    set (s2 := bump _). set (p := rf_part R) in *.
    set (P := fun s' : ast => a_part s' = p /\ a_nb s' = length p /\ a_view s' = V /\ a_fe s' = a_fe s /\
      cost_reachable (w_acc w) (w_argsort w) I (a_ref s')).
    assert (P2 : P s2) by (unfold P, s2; cbn; auto).
    assert (EV2 : evaluating p (rf_new R) s2).
    { unfold evaluating. replace (a_costs s2) with (a_costs s) by (symmetry; exact C1). replace (a_sols s2) with (a_sols s) by (symmetry; exact C2).
      rewrite A1, A2. split; [reflexivity|]. split; [lia|]. split; [exact D2|]. split; [exact D1|]. split; [exact D3|].
      intros c Hc Hn. rewrite D4 by assumption. now apply A3. }
    clearbody s2. clear s1 RE C1 C2 C3. apply wp_bind.
    eapply wp_mono; [apply (eval_new_aligned P); try (intros; assumption)| |auto].
    intros r s3 (P3 & AL3 & LR & _). apply wp_bind. eapply wp_mono with (E := fun e _ => external e) (Q := fun _ s' => P s' /\ aligned p (a_costs s') (a_sols s')); [apply ext_improve| |auto].
    { intros s4 HF. apply (HF (fun s' => P s' /\ aligned p (a_costs s') (a_sols s'))); try (intros; assumption). split; assumption. }
    intros _ s4 [(B1 & B2 & B3 & B4 & B5) AL4]. apply wp_ret. cbn [fst snd].
    assert (NB2 : nunsat I tol6 y p = tolerated I + 1).
    { rewrite <- nb_bad_nunsat, NB1, nb_bad_nunsat. unfold mu. lia. }
    constructor; auto; fold p.
    - rewrite B1. exact NB2.
    - now rewrite map_length.
    - constructor; try (rewrite B1 || rewrite B2); try assumption; try reflexivity.
      + rewrite <- NB2. unfold nunsat. apply count_le.
      + rewrite B2, B3. exact EV.
  Qed.

  (** ** Merge *)
  Lemma aligned_survivors D p costs sols : aligned p costs sols ->
    aligned (survivors D p) (survivors D costs) (survivors D sols).
  Proof.
    intros (A1 & A2 & A3). set (L := combine p (combine costs sols)).
    assert (LC : length (combine costs sols) = length p) by (rewrite combine_length; lia).
    assert (E1 : p = map fst L) by (unfold L; rewrite map_fst_combine; [reflexivity|lia]).
    assert (E0 : combine costs sols = map snd L) by (unfold L; rewrite map_snd_combine; [reflexivity|lia]).
    assert (E2 : costs = map (fun e => fst (snd e)) L).
    { rewrite <- (map_map snd fst), <- E0, map_fst_combine; [reflexivity|lia]. }
    assert (E3 : sols = map (fun e => snd (snd e)) L).
    { rewrite <- (map_map snd snd), <- E0, map_snd_combine; [reflexivity|lia]. }
    assert (FL : forall e, In e L -> answered (fst e) (fst (snd e)) (snd (snd e))).
    { intros e He. apply (In_nth _ _ ([], (0%Q, []))) in He as (c & Hc & <-).
      assert (Hc' : c < length p) by (rewrite E1, map_length; exact Hc). specialize (A3 c Hc').
      rewrite E1 in A3 at 1. rewrite E2 in A3 at 1. rewrite E3 in A3 at 1.
      rewrite (map_nth fst L ([], (0%Q, []))) in A3.
      rewrite (map_nth (fun e => fst (snd e)) L ([], (0%Q, []))) in A3.
      rewrite (map_nth (fun e => snd (snd e)) L ([], (0%Q, []))) in A3. exact A3. }
    rewrite E1, E2, E3, !survivors_map. split; [now rewrite !map_length|]. split; [now rewrite !map_length|].
    rewrite map_length. intros c Hc.
    rewrite (map_nth fst (survivors D L) ([], (0%Q, []))).
    rewrite (map_nth (fun e => fst (snd e)) (survivors D L) ([], (0%Q, []))).
    rewrite (map_nth (fun e => snd (snd e)) (survivors D L) ([], (0%Q, []))).
    apply FL. eapply survivors_In, nth_In, Hc.
  Qed.
  Lemma aligned_upd m S v x p costs sols : m < length p -> answered S v x -> aligned p costs sols ->
    aligned (upd m S p) (upd m v costs) (upd m x sols).
  Proof.
    intros Hm HA (A1 & A2 & A3). rewrite <- A1 in Hm. split; [now rewrite !upd_length|]. split; [now rewrite !upd_length|].
    rewrite upd_length. intros c Hc. destruct (Nat.eq_dec c m) as [->|Hne].
    - rewrite !nth_upd_eq by lia. exact HA.
    - rewrite !nth_upd_neq by lia. now apply A3.
  Qed.

  Lemma list_max_spec l v : list_max l = Ok v -> forall b, ext_leb (Fin v) b = true <-> Forall (fun a => ext_leb (Fin a) b = true) l.
  Proof.
    destruct l as [|a l]; [discriminate|]. intro H. injection H as <-. intro b. revert a.
    induction l as [|c l IH]; intro a; cbn [fold_left].
    - split; [intro; repeat constructor; assumption|]. intro H. now inversion H.
    - rewrite IH. split.
      + intro H. inversion H as [|? ? H1 H2]; subst. repeat constructor; auto.
        * eapply ext_leb_trans; [|exact H1]. cbn. apply Qle_bool_iff. apply Q.le_max_l.
        * eapply ext_leb_trans; [|exact H1]. cbn. apply Qle_bool_iff. apply Q.le_max_r.
      + intro H. inversion H as [|? ? H1 H2]; subst. inversion H2 as [|? ? H3 H4]; subst. constructor; [|assumption].
        destruct (Q.max_spec a c) as [[_ E]|[_ E]]; (destruct b as [|q|]; cbn in *; auto; apply Qle_bool_iff; rewrite E; now apply Qle_bool_iff).
  Qed.

  (** What a merge step does after the split [R] of the partition of s0. *)
  Record merge_post (y : list Q) (s0 s : ast) (R : refinement) (nc : list Q) (s' : ast) : Prop := mkMP {
    mp_shape : shaped s';
    mp_fe : a_fe s' = a_fe s;
    mp_cut : nunsat I tol6 y (a_part s') = tolerated I + 1;
    mp_when : a_merged s' = true <-> (c_merger cf = true /\ Forall (fun v => ext_leb (Fin v) (a_vUB s) = true) nc);
    mp_size : a_merged s' = true -> length (a_part s') = length (a_part s0);
    mp_all : a_merged s' = true -> length (rf_feasible R) = rf_mu R -> length (a_part s') = min_size I;
    mp_none : a_merged s' = false -> a_part s' = a_part s;
    mp_mu : rf_mu R <= length (rf_feasible R);
    mp_z : a_zUB s' = a_zUB s;
    mp_stale : a_merged s' = false -> a_ms s' = a_ms s;
    mp_keep : a_merged s' = true -> forall f, (forall c, In c (rf_new R) -> existsb f (nth c (rf_part R) []) = true) ->
      nb_bad f (a_part s0) <= nb_bad f (a_part s');
    mp_del : a_merged s' = true -> exists m T, m < length (a_part s) /\ ~ In m (ms_deleted (a_ms s')) /\
      incl (nth m (a_part s) []) T /\ a_part s' = survivors (ms_deleted (a_ms s')) (upd m T (a_part s))
  }.

  Lemma merge_select_none norm V p nb costs fs mu r y : merge_select norm V p nb costs fs mu None = Ok r ->
    merge_select norm V p nb costs fs mu (Some y) = Ok r.
  Proof. unfold merge_select. destruct (length fs =? mu); [auto|]. destruct (mu + 1 <=? length fs); discriminate. Qed.

  Lemma post_merge_ok (P : ast -> Prop) p cands s :
    (forall s t, P s -> P (set_t t s)) -> (forall s v, P s -> P (set_costs v s)) -> (forall s v, P s -> P (set_sols v s)) ->
    (forall s v, P s -> P (set_view v s)) -> (forall s v, P s -> P (set_xLB v s)) -> (forall s v np, P s -> P (set_vLB v np s)) ->
    valid_partition (i_k I) p -> NoDup cands -> 2 <= length cands -> Forall (fun c => c < length p) cands ->
    merge_all p cands = Ok (a_part s, a_ms s) -> a_nb s = length (a_part s) -> aligned p (a_costs s) (a_sols s) ->
    P s -> wp (fun e _ => external e) (post_merge w I) (fun _ s' => P s' /\
      load_partition I (uniform (i_k I)) (length (a_part s)) (a_part s) = Ok (a_view s') /\
      aligned (a_part s) (a_costs s') (a_sols s')) s.
  Proof.
    intros PT PC PS PV PX PL VP ND LC FC EM NB AL HP. unfold post_merge. apply wp_bind, wp_get.
    destruct (merge_all_spec p cands ND) as (m & Hm & Hmin & EM'); [destruct cands; [cbn in LC; lia|discriminate]|assumption|].
    rewrite EM in EM'. injection EM' as EP EMS.
    assert (Lm : m < length p) by (rewrite Forall_forall in FC; auto).
    assert (NO : NoDup (others m cands)) by now apply NoDup_filter.
    assert (FO : Forall (fun i => m < i < length p) (others m cands)).
    { apply Forall_forall. intros i Hi. apply filter_In in Hi as [Hi Hne]. apply negb_true_iff, Nat.eqb_neq in Hne.
      rewrite Forall_forall in FC. specialize (Hmin i Hi). specialize (FC i Hi). lia. }
    assert (NM : ~ In m (others m cands)). { intro C. rewrite Forall_forall in FO. apply FO in C. lia. }
    destruct (merged_facts (i_k I) p m (others m cands) VP Lm) as (VM & _ & _ & _); [now constructor|assumption|].
    rewrite <- EP in VM.
    assert (ET : ms_target (a_ms s) = [m]).
    { rewrite EMS. cbn [ms_target]. destruct (others m cands) as [|r rs] eqn:EO; [|reflexivity]. exfalso.
      destruct cands as [|c1 [|c2 cs]]; [cbn in LC; lia|cbn in LC; lia|].
      assert (c1 = m). { destruct (Nat.eq_dec c1 m) as [|Hne]; [assumption|]. assert (In c1 (others m (c1 :: c2 :: cs))); [|rewrite EO in H; contradiction].
        apply filter_In. split; [now left|]. now apply negb_true_iff, Nat.eqb_neq. }
      assert (c2 = m). { destruct (Nat.eq_dec c2 m) as [|Hne]; [assumption|]. assert (In c2 (others m (c1 :: c2 :: cs))); [|rewrite EO in H0; contradiction].
        apply filter_In. split; [right; now left|]. now apply negb_true_iff, Nat.eqb_neq. }
      subst. inversion ND as [|? ? N1 _]; subst. apply N1. now left. }
    assert (ED : ms_deleted (a_ms s) = others m cands) by now rewrite EMS. rewrite ET, ED.
    set (rest := others m cands) in *. clear EMS.
    assert (FL : Forall (fun i => i < length p) rest) by (eapply Forall_impl; [|exact FO]; cbn; lia).
    destruct (load_partition_uniform I (a_part s) HW VM) as (V & EV & _).
    rewrite NB, EV. apply wp_bind, wp_lift; [|discriminate]. intros V' E. injection E as <-.
    apply wp_bind, ext_put. pose proof AL as (A1 & A2 & A3).
    rewrite !delete_subsets_spec by (try assumption; rewrite ?A1, ?A2; assumption).
    apply wp_bind, wp_lift; [|discriminate]. intros c' E. injection E as <-.
    apply wp_bind, wp_lift; [|discriminate]. intros c' E. injection E as <-.
    apply wp_bind, ext_put. apply wp_bind, ext_put.
    set (s1 := bump _).
    assert (P1 : P s1) by (unfold s1, bump; apply PT, PS, PT, PC, PT, PV, HP).
    assert (C1 : a_costs s1 = survivors rest (a_costs s)) by reflexivity. assert (C2 : a_sols s1 = survivors rest (a_sols s)) by reflexivity.
    assert (C3 : a_view s1 = V) by reflexivity. clearbody s1.
    assert (LS : m < length (survivors rest p)).
    { assert (K : forall n, n <= length p -> n <= m + 1 -> n <= length (survivors rest p)).
      { intros n _ Hn. assert (E := survivors_length rest p NO FL).
        assert (B : length rest <= length p - S m); [|lia].
        rewrite <- (seq_length (length p - S m) (S m)). apply NoDup_incl_length; [assumption|].
        intros i Hi. rewrite Forall_forall in FO. apply FO in Hi. apply in_seq. lia. }
      specialize (K (m + 1)). lia. }
    assert (AS := aligned_survivors rest _ _ _ AL).
    assert (EPS : a_part s = upd m (nth m p [] ++ concat (gather [] p rest)) (survivors rest p)).
    { rewrite EP. unfold merged. apply survivors_upd_low; [exact Lm|]. eapply Forall_impl; [|exact FO]. cbn. lia. }
    assert (LPS : m < length (a_part s)) by (rewrite EPS, upd_length; exact LS).
    apply wp_bind. cbn [eval_targets].
    apply wp_bind, wp_lift; [|intros e E; unfold geti in E; rewrite (nth_error_nth' _ [] LPS) in E; discriminate].
    intros S ES. assert (S = nth m (a_part s) []) by (unfold geti in ES; rewrite (nth_error_nth' _ [] LPS) in ES; congruence). subst S.
    apply wp_bind, ext_cost. intros v x t HA. apply wp_bind, wp_get.
    assert (LCS : m < length (survivors rest (a_costs s))) by (destruct AS as [-> _]; exact LS).
    apply wp_bind, wp_lift; [|intros e E; cbn [a_costs set_t] in E; rewrite C1 in E; unfold geti in E; rewrite (nth_error_nth' _ 0%Q LCS) in E; discriminate].
    intros c0 _. apply wp_bind, ext_put. apply wp_bind, ext_put. apply wp_bind. apply wp_ret. apply wp_ret.
    apply ext_improve. intros s' HF.
    refine (let K := HF (fun s' => P s' /\ a_view s' = V /\ aligned (a_part s) (a_costs s') (a_sols s')) _ _ _ _ in _).
    { destruct K as (K1 & K2 & K3). split; [exact K1|]. rewrite K2. split; [reflexivity|exact K3]. }
    Unshelve.
    - intros s2 v2 (B1 & B2 & B3). split; [now apply PT|]. split; assumption.
    - intros s2 v2 (B1 & B2 & B3). split; [now apply PX|]. split; assumption.
    - intros s2 v2 np (B1 & B2 & B3). split; [now apply PL|]. split; assumption.
    - split; [apply PT, PS, PT, PC, PT, P1|]. split; [exact C3|].
      cbn [a_costs a_sols set_costs set_sols set_t bump]. rewrite C1, C2.
      assert (EU : a_part s = upd m (nth m (a_part s) []) (survivors rest p)).
      { rewrite EPS at 1. f_equal. rewrite EPS, nth_upd_eq by exact LS. reflexivity. }
      rewrite EU at 1. now apply aligned_upd.
  Qed.

  Lemma merge_inv y x s0 s R nc : shaped s0 -> split_post y s0 R nc s ->
    wp (fun e _ => external e \/ x = None) (merge_step w I cf x R nc) (fun _ s' => merge_post y s0 s R nc s') s.
  Proof.
    intros SH [B HR EP AF LN SH' FE]. set (mu := tolerated I + 1 - nunsat I tol6 y (a_part s0)) in *.
    assert (Hmu : 0 < mu) by (unfold mu; lia).
    assert (PK : forall f (Q : unit -> ast -> Prop) s, Q tt (bump (f s)) -> wp (fun e _ => external e \/ x = None) (put w f) Q s).
    { intros f Q s1 H1. eapply wp_mono; [apply ext_put, H1|auto|auto]. }
    pose proof HR as ((V1 & L1 & RF & NB1 & KP) & (D1 & D2 & D3 & D4 & D5) & HM & HF & _).
    assert (NB2 : nb_bad (violated I y) (rf_part R) = tolerated I + 1) by (rewrite nb_bad_nunsat, <- EP; exact AF).
    assert (M0 := sh_min _ SH). rewrite (sh_nb _ SH) in M0.
    assert (LCO : length (a_costs s) = length (rf_part R)) by (rewrite <- EP; apply (sh_costs _ SH')).
    assert (MU : rf_mu R <= length (rf_feasible R)).
    { rewrite HM, HF. pose proof (good_indices_length (violated I y) (rf_part R)). lia. }
    assert (NN : nc <> []).
    { intro C. rewrite C in LN. cbn in LN. destruct (rf_new R); [|discriminate]. cbn in D2.
      replace (length (rf_part R) - length (a_part s0)) with (S (mu - 1)) in D2 by lia. discriminate. }
    unfold merge_step. apply wp_bind, PK. set (s1 := bump (set_merged false s)).
    assert (SH1 : shaped s1). { destruct SH'. constructor; assumption. }
    assert (KEEP : ~ (c_merger cf = true /\ Forall (fun v => ext_leb (Fin v) (a_vUB s) = true) nc) -> merge_post y s0 s R nc s1).
    { intro H. constructor; cbn; auto; try discriminate. split; [discriminate|]. intro H1. contradiction. }
    destruct (c_merger cf) eqn:EC; [|apply wp_ret, KEEP; intros [? _]; discriminate].
    apply wp_bind, wp_lift; [|intros e E; destruct nc; [congruence|discriminate]].
    intros mx EX. apply wp_bind, wp_get. change (a_vUB s1) with (a_vUB s).
    pose proof (list_max_spec _ _ EX (a_vUB s)) as MX.
    destruct (ext_leb (Fin mx) (a_vUB s)) eqn:EL.
    2: { apply wp_ret, KEEP. intros [_ H]. apply MX in H. discriminate. }
    assert (MX' : Forall (fun v => ext_leb (Fin v) (a_vUB s) = true) nc) by tauto. clear MX EL EX.
    change (a_view s1) with (a_view s). change (a_part s1) with (a_part s). change (a_nb s1) with (a_nb s). change (a_costs s1) with (a_costs s).
    assert (NBS := sh_nb _ SH'). rewrite NBS, EP.
    set (y' := match x with Some y' => y' | None => [] end).
    destruct (merge_select_spec (w_norm w) (a_view s) (i_k I) (violated I y) mu (a_part s0) R (a_costs s) y' HR Hmu)
      as (kind & p' & ms & cands & ES & EM & ND & FC & LC & CB & LP & LA & _); try lia.
    apply wp_bind, wp_lift.
    2: { intros e E. destruct x as [y0|]; [|now right]. cbn in y'. unfold y' in ES. rewrite ES in E. discriminate. }
    intros r Er. assert (r = (kind, p', ms)).
    { destruct x as [y0|]; [|apply merge_select_none with (y := y') in Er]; cbn in y'; unfold y' in *; rewrite ES in Er; congruence. }
    subst r. clear Er. apply wp_bind, PK. apply wp_bind, PK. apply wp_bind, PK.
    set (s2 := bump _). set (P := fun s' : ast => a_part s' = p' /\ a_nb s' = length p' /\ a_fe s' = a_fe s /\ a_ref s' = a_ref s /\ a_ms s' = ms /\ a_zUB s' = a_zUB s).
    assert (VP : valid_partition (i_k I) p' /\ nb_bad (violated I y) p' = nb_bad (violated I y) (rf_part R)).
    { destruct (merge_all_valid (i_k I) (rf_part R) cands V1 ND) as (m & p2 & ms2 & _ & _ & EM2 & _ & _ & VP & _); [intro C; rewrite C in LC; cbn in LC; lia|assumption|].
      destruct (merge_keeps_bad (i_k I) (rf_part R) cands V1 ND) with (bad := violated I y) as (p3 & ms3 & EM3 & BB); [intro C; rewrite C in LC; cbn in LC; lia|assumption|assumption|].
      rewrite EM in EM2, EM3. injection EM2 as <- <-. injection EM3 as <- <-. auto. }
    destruct VP as [VP NB3].
    apply wp_bind. eapply wp_mono; [apply (post_merge_ok P (rf_part R) cands s2); try (intros; assumption)| |auto].
    - lia.
    - reflexivity.
    - change (aligned (rf_part R) (a_costs s) (a_sols s)). rewrite <- EP. apply (sh_costs _ SH').
    - unfold P, s2. cbn. auto 10.
    - change (a_part s2) with p'. clearbody s2. clear s1 SH1 KEEP. intros _ s3 ((B1 & B2 & B3 & B4 & B5 & B6) & LV & AL3).
      apply wp_bind, wp_get.
      assert (FIN : wp (fun e _ => external e \/ x = None) (put w (set_merged true)) (fun _ s' => merge_post y s0 s R nc s') s3).
      { apply PK. constructor; cbn [a_part a_merged a_fe a_ms a_zUB set_merged set_t bump]; auto.
        - constructor; cbn [a_part a_nb a_view a_costs a_sols a_ref set_merged set_t bump]; try (rewrite B1); try (rewrite B2); try assumption.
          + reflexivity.
          + lia.
          + rewrite B4. apply (sh_ref _ SH').
        - rewrite B1, <- nb_bad_nunsat, NB3. exact NB2.
        - split; auto.
        - intros _. rewrite B1. exact LP.
        - intros _ HEQ. rewrite B1, min_size_tolerated by assumption.
          assert (kind = MergeAll).
          { unfold merge_select in ES. rewrite HEQ, Nat.eqb_refl in ES.
            destruct (merge_candidates _ _ _); [|discriminate]. cbn [rbind] in ES. destruct (merge_all _ _) as [[? ?]|]; [|discriminate].
            cbn [rbind] in ES. congruence. }
          rewrite LA by assumption. exact NB2.
        - discriminate.
        - discriminate.
        - intros _ g Hg. rewrite B1. apply (merge_relaxes _ _ _ _ _ _ _ _ g HR ND FC LC EM Hg).
        - intros _. rewrite B1, B5, EP.
          destruct (merge_all_spec (rf_part R) cands ND) as (m & Hm & Hmin & EM'); [intro C; rewrite C in LC; cbn in LC; lia|assumption|].
          rewrite EM in EM'. injection EM' as -> ->. cbn [ms_deleted].
          exists m, (nth m (rf_part R) [] ++ concat (gather [] (rf_part R) (others m cands))).
          split; [rewrite Forall_forall in FC; auto|]. split.
          { intro C. apply filter_In in C as [_ C]. rewrite Nat.eqb_refl in C. discriminate. }
          split; [intros q Hq; apply in_or_app; now left|reflexivity]. }
      apply wp_bind. destruct kind.
      + apply wp_lift; [intros _ _; exact FIN|]. intros e E. rewrite B2, LA, NB2, min_size_tolerated, Nat.eqb_refl in E by auto. discriminate.
      + apply wp_ret. exact FIN.
  Qed.

  (** ** Bounds do not touch the structure *)
  (** Upper bound: the infeasibility data are those of the returned point, unless time is up. *)
  Lemma upper_fe (P : ast -> Prop) s :
    (forall s t, P s -> P (set_t t s)) -> (forall s v, P s -> P (set_fe v s)) -> (forall s v, P s -> P (set_zUB v s)) ->
    (forall s v, P s -> P (set_xUB v s)) -> (forall s v np, P s -> P (set_vUB v np s)) -> (forall s v, P s -> P (set_lb v s)) ->
    (forall s v, P s -> P (set_log v s)) ->
    P s -> fe_ok s ->
    wp (fun _ _ => True) (upper_bound_step w I cf) (fun r s' => P s' /\
      (snd r = false -> fe_ok s' /\ ((exists y, fst r = Some y /\ fe_of y s') \/ expired w cf s'))) s.
  Proof.
    intros PT PF PZ PX PU PL PG HP HF. unfold upper_bound_step. apply wp_bind, wp_get.
    set (N := fun s : ast => P s /\ fe_ok s).
    assert (NT : forall s t, N s -> N (set_t t s)) by (intros s1 t [A1 A2]; split; [now apply PT|exact A2]).
    apply wp_bind, wp_mono with (E := fun _ => N) (Q := fun _ => N); [| |auto].
    { destruct (a_nb s =? min_size I); [apply pres_lift|apply pres_partition_bound]; try assumption; split; assumption. }
    clear s HP HF. intros [[[x z] vo] vb] s [HP HF]. apply wp_bind, wp_available.
    destruct (Qle_bool _ 0) eqn:ET.
    { apply wp_bind, wp_get, wp_ret. split; [now apply PT|]. intros _. split; [exact HF|]. right. apply Qle_bool_iff in ET. exists (a_t s).
      split; [cbn; lia|]. cbn [a_start bump set_t]. eapply Qle_trans; [apply Q.le_max_l|exact ET]. }
    destruct (check_feasibility (w_norm w) I x) as [ok f] eqn:EC.
    apply wp_bind, wp_put; intros _; [exact Logic.I|]. apply wp_bind, wp_put; intros _; [exact Logic.I|]. apply wp_bind, wp_get.
    set (K := fun s : ast => P s /\ a_fe s = Some f).
    assert (KT : forall s t, K s -> K (set_t t s)) by (intros s1 t [A1 A2]; split; [now apply PT|exact A2]).
    match goal with |- wp _ (mbind ?m _) _ ?s0 =>
      assert (PR : pres K m); [|assert (H0 : K s0) by (split; [apply PT, PZ, PT, PF, PT, HP|reflexivity])] end.
    { apply pres_if; [|apply pres_ret]. apply pres_bind; [apply pres_if; [|apply pres_ret]; apply pres_put; [assumption|]|intros _; apply pres_put; [assumption|]].
      - intros s1 [A1 A2]. split; [now apply PX|exact A2].
      - intros s1 [A1 A2]. split; [now apply PU|exact A2]. }
    eapply wp_bind_mono with (P := fun _ => K); [eapply wp_mono; [apply PR, H0|auto|auto]|].
    clear PR H0 s HP HF ET. intros _ s [HP HF]. apply wp_bind, wp_put; intros _; [exact Logic.I|]. apply wp_bind. unfold store_info. apply wp_bind.
    unfold gap_now. apply wp_bind, wp_get, wp_lift; [|auto]. intros g _. apply wp_bind, wp_clock. apply wp_put; intros _; [exact Logic.I|].
    apply wp_ret. split; [apply PT, PG, PT, PT, PL, HP|]. cbn [fst snd]. intros ->.
    assert (FO : forall s', a_fe s' = Some f -> fe_of x s'). { intros s' E. unfold fe_of. rewrite EC. auto. }
    split; [right; exists x; now apply FO|]. left. exists x. split; [reflexivity|]. apply FO. exact HF.
  Qed.

  (** Bounds: partition and costs unchanged. *)
  Lemma bound_inv s : shaped s -> fe_ok s ->
    wp (fun _ _ => True) (bound_phase w I cf) (fun r s' => shaped s' /\ a_part s' = a_part s /\ r <> inl Continue /\
      forall x, r = inr x -> fe_ok s' /\
        ((forall t t', t <= t' -> (w_clock w t <= w_clock w t')%Q) -> exists y, x = Some y /\ fe_of y s')) s.
  Proof.
    intros SH FE. set (P := fun s' : ast => shaped s' /\ a_part s' = a_part s).
    assert (P0 : P s) by (split; [exact SH|reflexivity]).
    assert (PF : forall f : ast -> ast, (forall s, a_part (f s) = a_part s /\ a_nb (f s) = a_nb s /\ a_view (f s) = a_view s /\
      a_costs (f s) = a_costs s /\ a_sols (f s) = a_sols s /\ a_ref (f s) = a_ref s) -> forall s, P s -> P (f s)).
    { intros f Hf s1 [[B1 B2 B3 B4 B5 B6] B7]. destruct (Hf s1) as (C1 & C2 & C3 & C4 & C5 & C6). split; [|congruence].
      constructor; rewrite ?C1, ?C2, ?C3, ?C4, ?C5, ?C6; assumption. }
    assert (PT : forall s t, P s -> P (set_t t s)) by (intros s1 t; apply (PF (set_t t)); cbn; auto 10).
    rewrite bound_phase_eq. set (K := fun s : ast => P s /\ fe_ok s).
    assert (KT : forall s t, K s -> K (set_t t s)) by (intros s1 t [A1 A2]; split; [now apply PT|exact A2]).
    apply wp_bind, wp_mono with (E := fun _ => K) (Q := fun _ => K); [apply pres_gap; split; assumption| |auto]. intros _ s1 H1.
    apply wp_bind, wp_mono with (E := fun _ => K) (Q := fun _ => K); [apply pres_big_M; try assumption| |auto].
    { intros s2 v [A1 A2]. split; [|exact A2]. revert A1. apply (PF (set_bigM v)). cbn; auto 10. }
    clear s1 H1. intros _ s1 [H1 F1].
    apply wp_bind. eapply wp_mono with (1 := upper_fe P s1 PT
      (fun s v => PF (set_fe v) ltac:(cbn; auto 10) s) (fun s v => PF (set_zUB v) ltac:(cbn; auto 10) s)
      (fun s v => PF (set_xUB v) ltac:(cbn; auto 10) s) (fun s v np => PF (set_vUB v np) ltac:(cbn; auto 10) s)
      (fun s v => PF (set_lb v) ltac:(cbn; auto 10) s) (fun s v => PF (set_log v) ltac:(cbn; auto 10) s) H1 F1); [|auto].
    clear s1 H1 F1. intros [x ok] s1 [H1 F1]. cbn [fst snd] in F1. unfold after_upper. destruct ok.
    { apply wp_ret. destruct H1. split; [assumption|]. split; [assumption|]. split; discriminate. }
    destruct (F1 eq_refl) as [F2 F3]. clear F1.
    apply wp_bind, wp_available. destruct (Qle_bool _ 0) eqn:ET.
    { apply wp_ret. destruct H1. split; [|split; [assumption|split; discriminate]]. destruct (PT s1 (S (a_t s1))) as [A _]; [split; assumption|exact A]. }
    assert (F4 : (forall t t', t <= t' -> (w_clock w t <= w_clock w t')%Q) -> exists y, x = Some y /\ fe_of y s1).
    { intro MC. destruct F3 as [F3 | (t & T1 & T2)]; [exact F3|]. exfalso. pose proof (MC _ _ T1).
      assert (Qle_bool (Qmax (c_limit cf - (w_clock w (a_t s1) - a_start s1)) 0) 0 = true); [|congruence].
      apply Qle_bool_iff. apply Q.max_lub; lra. }
    set (K' := fun s' : ast => P s' /\ a_fe s' = a_fe s1).
    assert (KT' : forall s t, K' s -> K' (set_t t s)) by (intros s2 t [A1 A2]; split; [now apply PT|exact A2]).
    apply wp_bind, wp_mono with (E := fun _ => K') (Q := fun _ => K'); [| |auto].
    - assert (K1 : K' (bump s1)) by (split; [now apply PT|reflexivity]). revert K1. generalize (bump s1).
      change (pres K' (lower_bound_step w I cf x)). unfold lower_bound_step.
      apply pres_bind; [apply pres_deterministic; [assumption|]|].
      { intros s2 v [A1 A2]. split; [|exact A2]. revert A1. apply (PF (set_lb v)). cbn; auto 10. }
      intros [y v]. apply pres_get. intro s2. apply pres_bind.
      { apply pres_if; [|apply pres_ret]. apply pres_bind; [apply pres_put; [assumption|]|intros _; apply pres_put; [assumption|]].
        - intros s3 [A1 A2]. split; [|exact A2]. revert A1. apply (PF (set_vLB (Fin v) false)). cbn; auto 10.
        - intros s3 [A1 A2]. split; [|exact A2]. revert A1. apply (PF (set_xLB y)). cbn; auto 10. }
      intros _. apply pres_bind; [apply pres_gap|intro g]. apply pres_bind; [|intros _; apply pres_ret].
      unfold store_info. apply pres_bind; [apply pres_gap|intro g']. apply pres_bind; [apply pres_clock; assumption|intro now].
      apply pres_put; [assumption|]. intros s3 [A1 A2]. split; [|exact A2]. cbv beta.
      apply (PF (fun s => set_log (a_log s ++ [mkLog (a_iter s) (now - a_start s)%Q (ext_opp (a_vLB s)) (ext_opp (a_vUB s)) g' (a_nb s)]) s)); [cbn; auto 10|exact A1].
    - intros g s2 [[A1 A2] A3]. destruct (gap_leb g (c_gap cf)); [apply wp_ret; split; [assumption|split; [assumption|split; discriminate]]|].
      assert (A1' : shaped (bump s2)). { destruct (PT s2 (S (a_t s2))) as [A _]; [split; assumption|exact A]. }
      apply wp_bind, wp_available. match goal with |- wp _ (if ?b then _ else _) _ _ => destruct b end.
      + apply wp_ret. split; [exact A1'|split; [exact A2|split; discriminate]].
      + apply wp_ret. split; [exact A1'|]. split; [exact A2|]. split; [discriminate|]. intros x' Ex. injection Ex as <-.
        unfold fe_ok, fe_of in *. cbn [a_fe bump set_t]. rewrite A3. auto.
  Qed.

  (** ** Iterations *)
  Lemma next_inv s : shaped s -> fe_ok s ->
    wp (fun _ _ => True) (next_iteration w cf) (fun v s' => shaped s' /\ fe_ok s' /\ a_part s' = a_part s) s.
  Proof.
    intros SH FE. set (P := fun s' : ast => shaped s' /\ fe_ok s' /\ a_part s' = a_part s).
    assert (PT : forall s t, P s -> P (set_t t s)). { intros s1 t ([A1 A2 A3 A4 A5 A6] & A7 & A8). split; [constructor; assumption|split; assumption]. }
    assert (PR : pres P (next_iteration w cf)).
    { unfold next_iteration. repeat (pres_step; auto).
      match goal with H : P _ |- _ => destruct H as ([A1 A2 A3 A4 A5 A6] & A7 & A8) end. split; [constructor; assumption|split; assumption]. }
    eapply wp_mono with (E := fun _ => P) (Q := fun _ => P); [apply PR|auto|auto]. split; [assumption|split; [assumption|reflexivity]].
  Qed.
  Lemma iteration_inv s : shaped s -> fe_ok s ->
    wp (fun _ _ => True) (iteration w I cf) (fun v s' => shaped s' /\ (v = Continue -> fe_ok s')) s.
  Proof.
    intros SH FE. rewrite iteration_eq. apply wp_bind. eapply wp_mono; [apply bound_inv; assumption| |auto].
    intros [v|x] s1 (S1 & P1 & NC & H1); unfold after_bounds.
    - apply wp_ret. split; [exact S1|]. intros ->. congruence.
    - destruct (H1 x eq_refl) as [[FN|(y & F)] _].
      { assert (E : refine w I cf s1 = (Err AttributeError, s1)) by (unfold refine, mbind, mget, lift; rewrite FN; reflexivity).
        unfold wp, mbind, split_step, mbind. rewrite E. exact Logic.I. }
      apply wp_bind. eapply wp_mono; [apply split_inv; eassumption| |auto]. intros [R nc] s2 SP. cbn [fst snd] in SP.
      apply wp_bind. eapply wp_mono; [apply (merge_inv y x s1 s2 R nc); assumption| |auto]. intros [] s3 MP.
      assert (F3 : fe_of y s3). { destruct F as [G1 G2]. split; [|exact G2]. rewrite (mp_fe _ _ _ _ _ _ MP), (sp_fe _ _ _ _ _ SP). exact G1. }
      eapply wp_mono; [apply next_inv; [exact (mp_shape _ _ _ _ _ _ MP)|right; eauto]| |auto].
      intros v s4 (A1 & A2 & _). auto.
  Qed.

  (** ** Before the loop *)
  Lemma ext_mmap_cost l (Q : list (Q * list Q) -> ast -> Prop) s :
    (forall r t, Forall2 (fun S vx => answered S (fst vx) (snd vx)) l r -> Q r (set_t t s)) ->
    wp (fun e _ => external e) (mmap (subset_cost w I) l) Q s.
  Proof.
    revert Q s. induction l as [|S l IH]; intros Q s H; cbn [mmap].
    - apply wp_ret. specialize (H [] (a_t s) (Forall2_nil _)). destruct s; exact H.
    - apply wp_bind, ext_cost. intros v x t HA. apply wp_bind, IH. intros r t' HF. apply wp_ret.
      apply (H ((v, x) :: r) t'). constructor; assumption.
  Qed.
  Lemma mmap_map {A B C} (f : B -> M C) (g : A -> B) l s : mmap (fun a => f (g a)) l s = mmap f (map g l) s.
  Proof.
    revert s. induction l as [|a l IH]; intro s; cbn [mmap map]; [reflexivity|]. unfold mbind at 1 3.
    destruct (f (g a) s) as [[b|e] s']; [|reflexivity]. unfold mbind. now rewrite IH.
  Qed.

  Lemma wp_mmap_map {A B C} (E : exn -> ast -> Prop) (f : B -> M C) (g : A -> B) l (Q : list C -> ast -> Prop) s :
    wp E (mmap f (map g l)) Q s -> wp E (mmap (fun a => f (g a)) l) Q s.
  Proof. unfold wp. rewrite (mmap_map f g l s). auto. Qed.
  Lemma Forall2_len {A B} (R : A -> B -> Prop) l r : Forall2 R l r -> length l = length r.
  Proof. induction 1; cbn; congruence. Qed.

  (** After the constructor. *)
  Record constructed (s : ast) : Prop := mkConstructed {
    cs_valid : valid_partition (i_k I) (a_part s);
    cs_len : length (a_part s) = tolerated I + 1;
    cs_nb : a_nb s = length (a_part s);
    cs_view : load_partition I (uniform (i_k I)) (a_nb s) (a_part s) = Ok (a_view s);
    cs_ref : a_ref s = cstate0;
    cs_fe : a_fe s = None
  }.
  Lemma create_random_ignores argsort perm c1 c2 k n :
    create_first_partition argsort perm c1 k n InitRandom = create_first_partition argsort perm c2 k n InitRandom.
  Proof. reflexivity. Qed.

  Lemma constructed_vUB s v np : constructed s -> constructed (bump (set_vUB v np s)).
  Proof. intros [A1 A2 A3 A4 A5 A6]. constructor; assumption. Qed.
  Lemma setup_inv s1 : a_ref s1 = cstate0 /\ a_fe s1 = None ->
    wp (fun _ _ => True) (setup_initial_partition w I cf) (fun _ s' => constructed s') s1.
  Proof.
    destruct HO as (HP & HA & _). set (P := fun s : ast => a_ref s = cstate0 /\ a_fe s = None).
    intro P1. unfold setup_initial_partition. apply wp_bind, wp_put; [auto|]. intros _.
    set (s2 := bump _). assert (P2 : P s2 /\ a_nb s2 = min_size I) by (split; [exact P1|reflexivity]). clearbody s2. clear s1 P1.
    apply wp_bind, wp_lift; [|auto]. intros [] EK. assert (LK : min_size I <= i_k I).
    { unfold rassert in EK. destruct (min_size I <=? i_k I) eqn:E; [now apply Nat.leb_le|discriminate]. }
    apply wp_bind. apply wp_mono with (E := fun _ _ => True) (Q := fun costs s => (P s /\ a_nb s = min_size I) /\ (c_init cf = InitCost -> length costs = i_k I)); [| |auto].
    { destruct (c_init cf); try (apply wp_ret; split; [exact P2|discriminate]).
      unfold all_scenario_costs. apply wp_bind. apply (wp_mmap_map _ (subset_cost w I) (fun s => [s])).
      eapply wp_mono; [apply ext_mmap_cost with (Q := fun r s => (P s /\ a_nb s = min_size I) /\ length r = i_k I)| |auto].
      - intros r t HF. split; [exact P2|]. apply Forall2_len in HF. rewrite map_length, seq_length in HF. auto.
      - intros r s3 [A1 A2]. apply wp_ret. split; [exact A1|]. intros _. now rewrite map_length. }
    intros costs s3 [[P3 N3] LC]. clear s2 P2. apply wp_bind, wp_get.
    apply wp_bind, wp_lift; [|auto]. intros p EP.
    assert (HPp : length p = min_size I /\ valid_partition (i_k I) p).
    { assert (M0 : 0 < min_size I) by (rewrite min_size_tolerated by assumption; lia).
      destruct (c_init cf) eqn:EI.
      - rewrite (create_random_ignores _ _ costs (repeat 0%Q (i_k I))) in EP.
        destruct (initial_partition (w_argsort w) (w_perm w (a_perm s3) (i_k I)) (repeat 0%Q (i_k I)) (i_k I) (min_size I) InitRandom HA)
          as (p' & E' & L' & V' & _); try assumption; [apply HP|apply repeat_length|discriminate|].
        rewrite EP in E'. injection E' as <-. auto.
      - destruct (initial_partition (w_argsort w) (w_perm w (a_perm s3) (i_k I)) costs (i_k I) (min_size I) InitCost HA)
          as (p' & E' & L' & V' & _); try assumption; [apply HP|auto|discriminate|].
        rewrite EP in E'. injection E' as <-. auto.
      - unfold create_first_partition in EP. destruct (rassert _); discriminate. }
    destruct HPp as [LP VP]. apply wp_bind, wp_put; [auto|]. intros _. apply wp_bind, wp_put; [auto|]. intros _.
    apply wp_bind, wp_lift; [|auto]. intros V EV. apply wp_bind, wp_put; [auto|]. intros _.
    set (s4 := bump _).
    assert (C4 : constructed s4).
    { destruct P3 as [P31 P32]. constructor; unfold s4; cbn [a_part a_nb a_view a_ref a_fe set_view set_part set_perm set_t bump]; try assumption.
      - rewrite LP. now apply min_size_tolerated.
      - congruence.
      - rewrite N3. exact EV. }
    clearbody s4.
    destruct (c_init cf); try (apply wp_ret; exact C4).
    apply wp_bind, wp_lift; [|auto]. intros [[i v]|] _; [|apply wp_ret, C4].
    apply wp_bind, wp_put; [auto|]. intros _. apply wp_ret. exact (constructed_vUB _ _ _ C4).
  Qed.
  Lemma construct_inv : wp (fun _ _ => True) (construct w I cf) (fun _ s' => constructed s') (ast0 I).
  Proof.
    unfold construct. apply wp_bind, wp_clock, wp_bind, wp_put; [auto|]. intros _.
    apply wp_bind, wp_lift; [|auto]. intros _ _. apply wp_bind.
    eapply wp_mono; [apply setup_inv; split; reflexivity| |auto].
    intros b s5 [A1 A2 A3 A4 A5 A6]. apply wp_bind, wp_get, wp_bind, wp_put; [auto|]. intros _. apply wp_ret. constructor; assumption.
  Qed.

  Lemma Forall2_aligned p r : Forall2 (fun S vx => answered S (fst vx) (snd vx)) p r -> aligned p (map fst r) (map snd r).
  Proof.
    intro H. induction H as [|S vx p r HA HF (B1 & B2 & B3)]; [split; [reflexivity|split; [reflexivity|cbn; lia]]|].
    unfold AdaptiveSpec.aligned. cbn [map length]. split; [now rewrite B1|]. split; [now rewrite B2|]. intros [|c] Hc; cbn [nth]; [exact HA|]. apply B3. lia.
  Qed.

  Lemma prologue_inv num s : constructed s ->
    wp (fun _ _ => True) (prologue w I cf num) (fun _ s' => shaped s' /\ a_fe s' = None /\ a_part s' = a_part s) s.
  Proof.
    intro CS. unfold prologue. apply wp_bind, wp_get, wp_bind. unfold partition_cost. apply wp_bind.
    eapply wp_mono with (E := fun e _ => external e)
      (Q := fun r s' => aligned (a_part s) (map fst r) (map snd r) /\ exists t, s' = set_t t s); [apply ext_mmap_cost| |auto].
    { intros r t HF. split; [now apply Forall2_aligned|now exists t]. }
    cbv beta. intros r s1 [AL (t & ->)]. apply wp_ret. apply wp_bind, wp_put; [auto|]. intros _. apply wp_bind, wp_put; [auto|]. intros _.
    apply wp_bind, wp_lift; [|auto]. intros _ _.
    set (s1 := bump _). set (P := fun s' : ast => shaped s' /\ a_fe s' = None /\ a_part s' = a_part s).
    assert (P1 : P s1).
    { destruct CS as [A1 A2 A3 A4 A5 A6]. split; [|split; [assumption|reflexivity]].
      constructor; unfold s1; cbn [a_part a_nb a_view a_costs a_sols a_ref set_costs set_sols set_t bump]; try assumption.
      - lia.
      - rewrite A5. constructor. }
    clearbody s1. clear t.
    assert (PF : forall f : ast -> ast, (forall s, a_part (f s) = a_part s /\ a_nb (f s) = a_nb s /\ a_view (f s) = a_view s /\
      a_costs (f s) = a_costs s /\ a_sols (f s) = a_sols s /\ a_ref (f s) = a_ref s /\ a_fe (f s) = a_fe s) -> forall s, P s -> P (f s)).
    { intros f Hf s2 ([B1 B2 B3 B4 B5 B6] & B7 & B8). destruct (Hf s2) as (C1 & C2 & C3 & C4 & C5 & C6 & C7).
      split; [constructor; rewrite ?C1, ?C2, ?C3, ?C4, ?C5, ?C6; assumption|]. split; congruence. }
    apply wp_bind. eapply wp_mono with (E := fun e _ => external e) (Q := fun _ => P); [apply ext_improve| |auto].
    { intros s' HF. apply HF; [intros s2 v; apply (PF (set_t v))|intros s2 v; apply (PF (set_xLB v))|intros s2 v np; apply (PF (set_vLB v np))|exact P1]; cbn; auto 10. }
    intros _ s2 P2. apply wp_bind, wp_put; [auto|]. intros _. apply wp_bind, wp_available. apply wp_ret.
    apply (PF bump), (PF bump), (PF (set_iter 1)); cbn; auto 10.
  Qed.

  Lemma head_inv s : head_reach w I cf s -> shaped s /\ fe_ok s.
  Proof.
    induction 1 as [b s0 s EC EP|s s' _ [IH1 IH2] EI].
    - assert (C := wp_run _ _ _ _ _ _ construct_inv EC). cbn in C.
      assert (G := wp_run _ _ _ _ _ _ (prologue_inv b s0 C) EP). cbn in G. destruct G as (G1 & G2 & _). split; [exact G1|now left].
    - assert (G := wp_run _ _ _ _ _ _ (iteration_inv s IH1 IH2) EI). cbn in G. destruct G as (G1 & G2). auto.
  Qed.

  (** ** Summary *)
  Lemma step_inv s s1 x R nc s2 : step_reach w I cf s s1 x R nc s2 -> shaped s /\ shaped s1 /\ a_part s1 = a_part s /\
    (exists y, split_post y s1 R nc s2) /\
    (clock_mono w -> exists y, x = Some y /\ fst (check_feasibility (w_norm w) I y) = false /\ split_post y s1 R nc s2).
  Proof.
    intros (HR & EB & ES). destruct (head_inv s HR) as [S0 F0].
    assert (G := wp_run _ _ _ _ _ _ (bound_inv s S0 F0) EB). cbn in G. destruct G as (S1 & P1 & _ & G).
    destruct (G x eq_refl) as [F1 F2]. split; [exact S0|]. split; [exact S1|]. split; [exact P1|].
    assert (K : forall y, fe_of y s1 -> split_post y s1 R nc s2).
    { intros y F. assert (G' := wp_run _ _ _ _ _ _ (split_inv y s1 S1 F) ES). exact G'. }
    split.
    - destruct F1 as [FN|(y & F)]; [|exists y; now apply K]. exfalso.
      assert (E : refine w I cf s1 = (Err AttributeError, s1)) by (unfold refine, mbind, mget, lift; rewrite FN; reflexivity).
      unfold split_step, mbind in ES. rewrite E in ES. discriminate.
    - intro MC. destruct (F2 MC) as (y & -> & F). exists y. split; [reflexivity|]. split; [apply F|now apply K].
  Qed.

  Lemma aligned_head s : head_reach w I cf s -> aligned (a_part s) (a_costs s) (a_sols s).
  Proof. intro H. apply (sh_costs _ (proj1 (head_inv s H))). Qed.
  Lemma aligned_step s s1 x R nc s2 : step_reach w I cf s s1 x R nc s2 ->
    aligned (a_part s2) (a_costs s2) (a_sols s2) /\
    forall s3, merge_step w I cf x R nc s2 = (Ok tt, s3) -> aligned (a_part s3) (a_costs s3) (a_sols s3).
  Proof.
    intro H. destruct (step_inv _ _ _ _ _ _ H) as (S0 & S1 & _ & (y & SP) & _).
    split; [apply (sh_costs _ (sp_shape _ _ _ _ _ SP))|]. intros s3 EM.
    assert (G := wp_run _ _ _ _ _ _ (merge_inv y x s1 s2 R nc S1 SP) EM). cbn in G. apply (sh_costs _ (mp_shape _ _ _ _ _ _ G)).
  Qed.
  Lemma partition_head s : head_reach w I cf s -> valid_partition (i_k I) (a_part s) /\ a_nb s = length (a_part s) /\ tolerated I + 1 <= a_nb s /\
    load_partition I (uniform (i_k I)) (a_nb s) (a_part s) = Ok (a_view s).
  Proof. intro H. destruct (head_inv s H) as [[A1 A2 A3 A4 _ _] _]. auto. Qed.

  Lemma merge_never_fails s s1 x R nc s2 r s3 : clock_mono w -> step_reach w I cf s s1 x R nc s2 ->
    merge_step w I cf x R nc s2 = (r, s3) ->
    match r with
    | Ok _ =>
        (a_merged s3 = true <-> c_merger cf = true /\ Forall (fun v => ext_leb (Fin v) (a_vUB s2) = true) nc) /\
        (a_merged s3 = true -> length (a_part s3) = length (a_part s)) /\
        (a_merged s3 = true -> length (rf_feasible R) = rf_mu R -> length (a_part s3) = tolerated I + 1) /\
        (a_merged s3 = false -> a_part s3 = a_part s2) /\
        valid_partition (i_k I) (a_part s3) /\ a_nb s3 = length (a_part s3)
    | Err e => external e
    end /\ rf_mu R <= length (rf_feasible R).
  Proof.
    intros MC H EM. destruct (step_inv _ _ _ _ _ _ H) as (S0 & S1 & P1 & _ & G). destruct (G MC) as (y & -> & _ & SP). clear G.
    assert (G := wp_run _ _ _ _ _ _ (merge_inv y (Some y) s1 s2 R nc S1 SP) EM).
    destruct r as [[]|e].
    - destruct G as [M1 M2 M3 M4 M5 M6 M7 M8 _ _ _]. split; [|exact M8]. split; [exact M4|]. rewrite <- P1. split; [exact M5|].
      split; [intros X1 X2; rewrite <- (min_size_tolerated I HE); now apply M6|]. split; [exact M7|].
      destruct M1. auto.
    - split; [destruct G as [G|G]; [exact G|discriminate]|].
      destruct SP as [B HR EP AF LN SH' _]. destruct HR as ((V1 & L1 & RF & NB1 & KP) & _ & HM & HF & _).
      rewrite HM, HF. pose proof (good_indices_length (violated I y) (rf_part R)) as GL. rewrite nb_bad_nunsat in GL. rewrite EP in AF. rewrite AF in GL.
      pose proof (sh_min _ S1) as M1. rewrite (sh_nb _ S1) in M1. lia.
  Qed.
  Lemma cut_off s s1 x R nc s2 : clock_mono w -> step_reach w I cf s s1 x R nc s2 ->
    exists y, x = Some y /\ tolerated I < nviol I tol6 y /\ nunsat I tol6 y (a_part s) <= tolerated I /\
      tolerated I < nunsat I tol6 y (a_part s2) /\ (forall tau, (tau <= tol6)%Q -> ~ part_feasible I (a_part s2) tau y) /\
      forall s3, merge_step w I cf x R nc s2 = (Ok tt, s3) ->
        tolerated I < nunsat I tol6 y (a_part s3) /\ (forall tau, (tau <= tol6)%Q -> ~ part_feasible I (a_part s3) tau y).
  Proof.
    intros MC H. destruct (step_inv _ _ _ _ _ _ H) as (S0 & S1 & P1 & _ & G). destruct (G MC) as (y & -> & FY & SP). clear G.
    apply check_infeasible_count in FY; [|exact HE].
    assert (K : forall p, valid_partition (i_k I) p -> nunsat I tol6 y p = tolerated I + 1 -> tolerated I < nunsat I tol6 y p /\ (forall tau, (tau <= tol6)%Q -> ~ part_feasible I p tau y)).
    { intros p Vp Hp. split; [lia|]. intros tau Ht. apply cut_not_feasible; try assumption. rewrite nb_bad_nunsat. lia. }
    exists y. split; [reflexivity|]. split; [exact FY|]. split; [rewrite <- P1; apply SP|].
    assert (V2 := sh_valid _ (sp_shape _ _ _ _ _ SP)).
    split; [apply K; [exact V2|apply SP]|]. split; [apply K; [exact V2|apply SP]|]. intros s3 EM.
    assert (G := wp_run _ _ _ _ _ _ (merge_inv y (Some y) s1 s2 R nc S1 SP) EM). cbn in G. apply K; [apply (mp_shape _ _ _ _ _ _ G)|apply G].
  Qed.
  Lemma merge_deleted s s1 x R nc s2 s3 : step_reach w I cf s s1 x R nc s2 -> merge_step w I cf x R nc s2 = (Ok tt, s3) ->
    a_zUB s3 = a_zUB s2 /\
    (a_merged s3 = true -> exists m T, m < length (a_part s2) /\ ~ In m (ms_deleted (a_ms s3)) /\
       incl (nth m (a_part s2) []) T /\ a_part s3 = survivors (ms_deleted (a_ms s3)) (upd m T (a_part s2))) /\
    (a_merged s3 = false -> a_part s3 = a_part s2 /\ a_ms s3 = a_ms s2).
  Proof.
    intros H EM. destruct (step_inv _ _ _ _ _ _ H) as (S0 & S1 & _ & (y & SP) & _).
    assert (G := wp_run _ _ _ _ _ _ (merge_inv y x s1 s2 R nc S1 SP) EM). cbn in G. destruct G. auto.
  Qed.
End Struct.
