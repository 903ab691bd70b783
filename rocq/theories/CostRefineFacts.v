(** Refinement by costs: weak duality of the split model, selection, memory. *)
From Verif Require Import Base BaseFacts Spec Instance InstanceFacts PartitionFacts OptModels OptFacts
  Bounds BoundsFacts Refine RefineFacts CostRefine Post.

(** ** Weak duality *)
Lemma qsum_swap {A B} (f : A -> B -> Q) (l : list A) (l' : list B) :
  (qsum (map (fun a => qsum (map (f a) l')) l) == qsum (map (fun b => qsum (map (fun a => f a b) l)) l'))%Q.
Proof.
  induction l as [|a l IH]; simpl.
  - induction l' as [|b l' IH']; simpl; [reflexivity|]. rewrite <- IH'. ring.
  - rewrite IH. rewrite <- qsum_map_add. reflexivity.
Qed.

Lemma wf_row I s i : wf_inst I -> s < i_k I -> i < i_m I -> length (row I s i) = i_n I.
Proof.
  intros (_ & _ & HA & HM & _) Hs Hi. unfold row. rewrite Forall_forall in HM.
  destruct (HM (nth s (i_A I) [])) as [H1 H2]; [apply nth_In; lia|].
  rewrite Forall_forall in H2. apply H2, nth_In. lia.
Qed.

Lemma duality_side I scen pi lam eta alpha x :
  wf_inst I -> Forall (fun s => s < i_k I) scen ->
  length lam = 2 * i_n I -> Forall (fun v => 0 <= v)%Q lam ->
  length eta = length scen -> Forall (fun e => length e = i_m I /\ Forall (fun v => 0 <= v)%Q e) eta ->
  acc_dual_cost I scen alpha lam eta -> acc_dual_feas I scen lam eta -> acc_assign I scen pi eta ->
  in_box (i_n I) x ->
  (forall t, t < length scen -> ~ (nth t pi 0 == 0)%Q -> sat I 0 x (nth t scen O)) ->
  (obj I x <= alpha)%Q.
Proof.
  intros HW HS Ll Pl Le Pe HC HF HA [Lx Bx] Hsat.
  assert (Lc : length (i_c I) = i_n I) by apply HW.
  assert (NN : forall t i, (0 <= nth i (nth t eta []) 0)%Q).
  { intros t i. apply nth_Forall; [lra|]. apply (nth_Forall (fun e => Forall (fun v => 0 <= v)%Q e)); [constructor|].
    eapply Forall_impl; [|exact Pe]. simpl. tauto. }
  assert (NL : forall j, (0 <= nth j lam 0)%Q) by (intro; apply nth_Forall; [lra|assumption]).
  assert (NX : forall j, (0 <= nth j x 0 /\ nth j x 0 <= 1)%Q).
  { intro j. apply (nth_Forall (fun v => 0 <= v /\ v <= 1)%Q); [lra|assumption]. }
  unfold acc_dual_cost in HC. eapply Qle_trans; [|exact HC]. clear HC.
  unfold obj. rewrite (dot_qsum (i_c I) x (i_n I) Lc Lx).
  set (G := fun j t i : nat => (nth j (row I (nth t scen O) i) 0 * nth i (nth t eta []) 0)%Q).
  assert (S1 : (qsum (map (fun j => nth j (i_c I) 0 * nth j x 0) (seq 0 (i_n I))) <=
     qsum (map (fun j => nth (i_n I + j) lam 0 +
        qsum (map (fun t => qsum (map (fun i => G j t i * nth j x 0) (seq 0 (i_m I)))) (seq 0 (length scen)))) (seq 0 (i_n I))))%Q).
  { apply qsum_map_le. intros j Hj. apply in_seq in Hj. rewrite <- (HF j) by lia.
    assert (E : (qsum (map (fun t => qsum (map (fun i => G j t i * nth j x 0) (seq 0 (i_m I)))) (seq 0 (length scen))) ==
                 nth j x 0 * qsum (map (fun t => qsum (map (fun i => G j t i) (seq 0 (i_m I)))) (seq 0 (length scen))))%Q).
    { rewrite <- qsum_map_scal. apply qsum_map_ext. intros t _. rewrite <- qsum_map_scal. apply qsum_map_ext.
      intros i _. ring. }
    rewrite E. unfold G. set (W := qsum (map _ (seq 0 (length scen)))).
    rewrite (Nat.add_comm j (i_n I)). destruct (NX j) as [X0 X1].
    assert (0 <= nth j lam 0 * nth j x 0)%Q by (apply Qmult_le_0_compat; auto).
    assert (0 <= nth (i_n I + j) lam 0 * (1 - nth j x 0))%Q by (apply Qmult_le_0_compat; [auto|lra]).
    lra. }
  eapply Qle_trans; [exact S1|]. rewrite qsum_map_add.
  apply Qplus_le_compat; [apply Qle_refl|]. rewrite qsum_swap. apply qsum_map_le. intros t Ht. apply in_seq in Ht.
  assert (Ht' : nth t scen O < i_k I).
  { rewrite Forall_forall in HS. apply HS, nth_In. lia. }
  assert (Let : length (nth t eta []) = i_m I).
  { rewrite Forall_forall in Pe. apply Pe, nth_In. lia. }
  rewrite (dot_qsum _ (nth t eta []) (i_m I)) by (rewrite ?map_length, ?seq_length; auto).
  rewrite qsum_swap. apply qsum_map_le. intros i Hi. apply in_seq in Hi.
  assert (E : (qsum (map (fun j => G j t i * nth j x 0) (seq 0 (i_n I))) ==
               nth i (nth t eta []) 0 * dot (row I (nth t scen O) i) x)%Q).
  { rewrite (dot_qsum _ x (i_n I)) by (try assumption; apply wf_row; auto; lia).
    rewrite <- qsum_map_scal. apply qsum_map_ext. intros j _. unfold G. ring. }
  rewrite E. rewrite (nth_indep (map (rhs I (nth t scen O)) (seq 0 (i_m I))) 0%Q (rhs I (nth t scen O) 0)) by (rewrite map_length, seq_length; lia).
  rewrite map_nth, seq_nth by lia. simpl plus.
  destruct (Qeq_dec (nth t pi 0%Q) 0) as [Z|NZ].
  - rewrite (HA t i) by (auto; lia). lra.
  - assert (Hs := Hsat t ltac:(lia) NZ i ltac:(lia)). assert (N := NN t i).
    assert (0 <= nth i (nth t eta []) 0 * (rhs I (nth t scen O) i - dot (row I (nth t scen O) i) x))%Q
      by (apply Qmult_le_0_compat; [assumption|lra]).
    lra.
Qed.

(** ** Reading the two sides *)
Lemma is_left_bin v : (v == 0 \/ v == 1)%Q -> acc_is_left v = negb (Qeq_bool v 0).
Proof.
  intros [E|E]; unfold acc_is_left; rewrite E; reflexivity.
Qed.

Lemma acc_subsets_spec scen p l r : acc_subsets scen p = (l, r) ->
  l = map (fun t => nth t scen O) (filter (fun t => acc_is_left (nth t (ap_piL p) 0%Q)) (seq 0 (length scen))) /\
  r = map (fun t => nth t scen O) (filter (fun t => negb (acc_is_left (nth t (ap_piL p) 0%Q))) (seq 0 (length scen))).
Proof.
  unfold acc_subsets. intro E. injection E as <- <-. split.
  - induction (seq 0 (length scen)) as [|t L IH]; [reflexivity|]. simpl.
    destruct (acc_is_left _); simpl; now rewrite IH.
  - induction (seq 0 (length scen)) as [|t L IH]; [reflexivity|]. simpl.
    destruct (acc_is_left _); simpl; now rewrite IH.
Qed.

Lemma acc_subsets_perm scen p l r : acc_subsets scen p = (l, r) -> Permutation (l ++ r) scen.
Proof.
  intro E. apply acc_subsets_spec in E as [-> ->]. rewrite <- map_app.
  rewrite (Permutation_map _ (filter_partition (fun t => acc_is_left (nth t (ap_piL p) 0%Q)) (seq 0 (length scen)))).
  now rewrite map_nth_seq.
Qed.

Lemma qsum_zero l : Forall (fun v => v == 0)%Q l -> (qsum l == 0)%Q.
Proof. induction 1 as [|v l H _ IH]; simpl; [reflexivity|]. rewrite H, IH. reflexivity. Qed.

Lemma inf_sum_witness scen inf pi : (1 <= acc_inf_sum scen inf pi)%Q ->
  exists t, t < length scen /\ In (nth t scen O) inf /\ ~ (nth t pi 0 == 0)%Q.
Proof.
  unfold acc_inf_sum. intro H.
  destruct (existsb (fun t => negb (Qeq_bool (nth t pi 0%Q) 0)) (filter (fun t => memb (nth t scen O) inf) (seq 0 (length scen)))) eqn:E.
  - apply existsb_exists in E as (t & Ht & E). apply filter_In in Ht as [Ht M]. apply in_seq in Ht.
    apply memb_In in M. exists t. split; [lia|]. split; [assumption|]. intro C. apply Qeq_bool_iff in C.
    rewrite C in E. discriminate.
  - exfalso. assert (Z : (qsum (map (fun t => nth t pi 0%Q) (filter (fun t => memb (nth t scen O) inf) (seq 0 (length scen)))) == 0)%Q).
    { apply qsum_zero. apply Forall_forall. intros v Hv. apply in_map_iff in Hv as (t & <- & Ht).
      destruct (Qeq_bool (nth t pi 0%Q) 0) eqn:B; [now apply Qeq_bool_iff|].
      assert (existsb (fun t => negb (Qeq_bool (nth t pi 0%Q) 0)) (filter (fun t => memb (nth t scen O) inf) (seq 0 (length scen))) = true); [|congruence].
      apply existsb_exists. exists t. now rewrite B. }
    rewrite Z in H. lra.
Qed.

Lemma acc_sides I scen inf p l r : acc_feasible I scen inf p -> acc_subsets scen p = (l, r) ->
  Permutation (l ++ r) scen /\ (exists s, In s l /\ In s inf) /\ (exists s, In s r /\ In s inf).
Proof.
  intros (L1 & L2 & B1 & B2 & _ & _ & _ & _ & _ & _ & _ & _ & _ & _ & _ & _ & _ & _ & HS & W1 & W2) E.
  split; [now apply acc_subsets_perm in E|]. apply acc_subsets_spec in E as [-> ->].
  assert (Bt : forall t, (nth t (ap_piL p) 0 == 0 \/ nth t (ap_piL p) 0 == 1)%Q).
  { intro t. apply (nth_Forall (fun v => v == 0 \/ v == 1)%Q); [now left|assumption]. }
  split.
  - apply inf_sum_witness in W1 as (t & Ht & Hin & NZ). exists (nth t scen O). split; [|assumption].
    apply in_map_iff. exists t. split; [reflexivity|]. apply filter_In. split; [apply in_seq; lia|].
    rewrite is_left_bin by apply Bt. destruct (Qeq_bool _ 0) eqn:Z; [apply Qeq_bool_iff in Z; contradiction|reflexivity].
  - apply inf_sum_witness in W2 as (t & Ht & Hin & NZ). exists (nth t scen O). split; [|assumption].
    apply in_map_iff. exists t. split; [reflexivity|]. apply filter_In. split; [apply in_seq; lia|].
    rewrite is_left_bin by apply Bt. rewrite negb_involutive. apply Qeq_bool_iff.
    assert (Bt2 : (nth t (ap_piR p) 0 == 0 \/ nth t (ap_piR p) 0 == 1)%Q).
    { apply (nth_Forall (fun v => v == 0 \/ v == 1)%Q); [now left|assumption]. }
    specialize (HS t Ht). destruct Bt2; [contradiction|]. lra.
Qed.

Lemma acc_cost_bound I scen inf p l r x : wf_inst I -> Forall (fun s => s < i_k I) scen ->
  acc_feasible I scen inf p -> acc_subsets scen p = (l, r) -> in_box (i_n I) x ->
  subset_sat I 0 x l \/ subset_sat I 0 x r -> (obj I x <= ap_alpha p)%Q.
Proof.
  intros HW HS (L1 & L2 & B1 & B2 & Ll & Lr & P1 & P2 & E1 & E2 & Q1 & Q2 & C1 & C2 & D1 & D2 & A1 & A2 & HP & _ & _) E Hx Hsat.
  apply acc_subsets_spec in E as [-> ->].
  assert (Bt : forall t, (nth t (ap_piL p) 0 == 0 \/ nth t (ap_piL p) 0 == 1)%Q).
  { intro t. apply (nth_Forall (fun v => v == 0 \/ v == 1)%Q); [now left|assumption]. }
  destruct Hsat as [Hsat|Hsat].
  - eapply (duality_side I scen (ap_piL p) (ap_lamL p) (ap_etaL p)); eauto.
    intros t Ht NZ. apply Hsat. apply in_map_iff. exists t. split; [reflexivity|].
    apply filter_In. split; [apply in_seq; lia|]. rewrite is_left_bin by apply Bt.
    destruct (Qeq_bool _ 0) eqn:Z; [apply Qeq_bool_iff in Z; contradiction|reflexivity].
  - eapply (duality_side I scen (ap_piR p) (ap_lamR p) (ap_etaR p)); eauto.
    intros t Ht NZ. apply Hsat. apply in_map_iff. exists t. split; [reflexivity|].
    apply filter_In. split; [apply in_seq; lia|]. rewrite is_left_bin by apply Bt. rewrite negb_involutive.
    apply Qeq_bool_iff. specialize (HP t Ht).
    assert (Bt2 : (nth t (ap_piR p) 0 == 0 \/ nth t (ap_piR p) 0 == 1)%Q).
    { apply (nth_Forall (fun v => v == 0 \/ v == 1)%Q); [now left|assumption]. }
    destruct Bt2; [contradiction|]. lra.
Qed.

Lemma packing_zero I s : packing I -> sat I 0 (repeat 0%Q (i_n I)) s.
Proof.
  intros (_ & _ & Hb) i _. rewrite dot_repeat0. unfold rhs.
  assert (0 <= nth i (nth s (i_b I) []) 0)%Q; [|lra].
  apply (nth_Forall (fun a => 0 <= a)%Q); [lra|]. apply (nth_Forall (Forall (fun a => 0 <= a)%Q)); [constructor|assumption].
Qed.
Lemma acc_alpha_nonneg I scen inf p : wf_inst I -> packing I -> Forall (fun s => s < i_k I) scen ->
  acc_feasible I scen inf p -> (0 <= ap_alpha p)%Q.
Proof.
  intros HW HPk HS HF. destruct (acc_subsets scen p) as [l r] eqn:E.
  assert (obj I (repeat 0%Q (i_n I)) <= ap_alpha p)%Q.
  { eapply acc_cost_bound; try eassumption.
    - split; [apply repeat_length|]. apply Forall_forall. intros v Hv. apply repeat_spec in Hv as ->. lra.
    - left. intros s _. now apply packing_zero. }
  unfold obj in H. rewrite dot_repeat0 in H. assumption.
Qed.

(** ** Selection *)
Definition freeb (vUB : ext) (cv : nat * Q) : bool := ext_leb (Fin (snd cv)) vUB.

Lemma select_free_spec l : forall best v,
  match select_free l best v with
  | r => (r = best /\ Forall (fun cv => snd cv < v)%Q l) \/
         (exists c w pre post, r = Some c /\ l = pre ++ (c, w) :: post /\ (v <= w)%Q /\
            Forall (fun cv => snd cv <= w)%Q pre /\ Forall (fun cv => snd cv < w)%Q post)
  end.
Proof.
  induction l as [|[c w] l IH]; intros best v; cbn [select_free].
  - left. auto.
  - destruct (Qle_bool v w) eqn:E; qb.
    + right. destruct (IH (Some c) w) as [[-> H]|(c' & w' & pre & post & -> & -> & H1 & H2 & H3)].
      * exists c, w, [], l. auto.
      * exists c', w', ((c, w) :: pre), post. split; [reflexivity|]. split; [reflexivity|]. split; [lra|].
        split; [constructor; [exact H1|assumption]|assumption].
    + destruct (IH best v) as [[-> H]|(c' & w' & pre & post & -> & -> & H1 & H2 & H3)].
      * left. split; [reflexivity|]. constructor; assumption.
      * right. exists c', w', ((c, w) :: pre), post. split; [reflexivity|]. split; [reflexivity|]. split; [lra|].
        split; [constructor; [simpl; lra|assumption]|assumption].
Qed.

Lemma dmin_aux_spec l : forall c v, exists pre post w, (c, v) :: l = pre ++ (dmin_aux l c v, w) :: post /\
  Forall (fun cv => w < snd cv)%Q pre /\ Forall (fun cv => w <= snd cv)%Q post.
Proof.
  induction l as [|[c' v'] l IH]; intros c v; cbn [dmin_aux].
  - exists [], [], v. auto.
  - destruct (Qlt_bool v' v) eqn:E; qb.
    + destruct (IH c' v') as (pre & post & w & E2 & H1 & H2).
      exists ((c, v) :: pre), post, w. rewrite E2. split; [reflexivity|]. split; [|assumption].
      constructor; [|assumption]. simpl.
      destruct pre as [|a pre]; simpl in E2.
      * injection E2 as _ E3 _. subst w. assumption.
      * injection E2 as <- E4. inversion H1; subst. simpl in *. lra.
    + destruct (IH c v) as (pre & post & w & E2 & H1 & H2).
      destruct pre as [|a pre]; simpl in E2.
      * injection E2 as E3 E4 E5. exists [], ((c', v') :: post), w. rewrite <- E3. simpl. rewrite E4, E5.
        split; [reflexivity|]. split; [constructor|]. constructor; [simpl; rewrite <- E4; assumption|assumption].
      * injection E2 as <- E2. exists ((c, v) :: (c', v') :: pre), post, w. simpl.
        split; [now rewrite E2 at 1|]. split; [|assumption]. inversion H1 as [|? ? H3 H4]; subst. simpl in H3.
        constructor; [simpl; lra|]. constructor; [simpl; lra|assumption].
Qed.

Lemma filter_app_inv {A} (f : A -> bool) l : forall u a w, filter f l = u ++ a :: w ->
  exists u' w', l = u' ++ a :: w' /\ filter f u' = u /\ filter f w' = w.
Proof.
  induction l as [|b l IH]; intros u a w E; simpl in E; [destruct u; discriminate|].
  destruct (f b) eqn:Fb.
  - destruct u as [|b' u]; simpl in E; injection E as -> E.
    + exists [], l. auto.
    + destruct (IH _ _ _ E) as (u' & w' & -> & E1 & E2). exists (b' :: u'), w'. simpl. rewrite Fb, E1. auto.
  - destruct (IH _ _ _ E) as (u' & w' & -> & E1 & E2). exists (b :: u'), w'. simpl. rewrite Fb. auto.
Qed.

Lemma Forall_filter_iff {A} (f : A -> bool) (P : A -> Prop) l :
  Forall P (filter f l) <-> forall a, In a l -> f a = true -> P a.
Proof.
  rewrite Forall_forall. split.
  - intros H a Ha Fa. apply H, filter_In. auto.
  - intros H a Ha. apply filter_In in Ha as [H1 H2]. auto.
Qed.

Lemma select_split_free cost vUB :
  (exists c v, In (c, v) cost /\ ext_leb (Fin v) vUB = true /\ - 1000000 <= v)%Q ->
  exists c v pre post, select_split cost vUB = Ok c /\ cost = pre ++ (c, v) :: post /\
    ext_leb (Fin v) vUB = true /\
    (forall c' v', In (c', v') pre -> ext_leb (Fin v') vUB = true -> (v' <= v)%Q) /\
    (forall c' v', In (c', v') post -> ext_leb (Fin v') vUB = true -> (v' < v)%Q).
Proof.
  intros (c0 & v0 & Hin & Hf & H6). unfold select_split.
  change (fun cv => ext_leb (Fin (snd cv)) vUB) with (freeb vUB).
  assert (Hin' : In (c0, v0) (filter (freeb vUB) cost)) by (apply filter_In; auto).
  destruct (filter (freeb vUB) cost) as [|a l] eqn:E; [destruct Hin'|]. rewrite <- E in *.
  destruct (select_free_spec (filter (freeb vUB) cost) None (- 1000000)) as [[_ H]|(c & v & pre & post & -> & E2 & H1 & H2 & H3)].
  - rewrite Forall_forall in H. apply H in Hin'. simpl in Hin'. lra.
  - assert (Fv : freeb vUB (c, v) = true).
    { assert (Hx : In (c, v) (filter (freeb vUB) cost)) by (rewrite E2; apply in_app_iff; right; now left).
      now apply filter_In in Hx. }
    apply filter_app_inv in E2 as (pre' & post' & -> & <- & <-).
    rewrite Forall_filter_iff in H2, H3.
    exists c, v, pre', post'. split; [reflexivity|]. split; [reflexivity|]. split; [exact Fv|].
    split; intros c' v' Hc Fc; [apply (H2 (c', v'))|apply (H3 (c', v'))]; assumption.
Qed.

Lemma select_split_none cost vUB : cost <> [] ->
  (forall c v, In (c, v) cost -> ext_leb (Fin v) vUB = false) ->
  exists c v pre post, select_split cost vUB = Ok c /\ cost = pre ++ (c, v) :: post /\
    (forall c' v', In (c', v') pre -> (v < v')%Q) /\ (forall c' v', In (c', v') post -> (v <= v')%Q).
Proof.
  intros Hne Hn. unfold select_split. rewrite filter_none by (intros [c v] H; now apply (Hn c)).
  destruct cost as [|[c v] l]; [congruence|]. cbn [dmin].
  destruct (dmin_aux_spec l c v) as (pre & post & w & E & H1 & H2). rewrite Forall_forall in H1, H2.
  exists (dmin_aux l c v), w, pre, post. split; [reflexivity|]. split; [assumption|].
  split; intros c' v' H; [apply (H1 _ H)|apply (H2 _ H)].
Qed.

Lemma select_split_keyerror cost vUB :
  (exists c v, In (c, v) cost /\ ext_leb (Fin v) vUB = true) ->
  (forall c v, In (c, v) cost -> ext_leb (Fin v) vUB = true -> (v < - 1000000)%Q) ->
  select_split cost vUB = Err KeyError.
Proof.
  intros (c0 & v0 & Hin & Hf) H. unfold select_split.
  change (fun cv => ext_leb (Fin (snd cv)) vUB) with (freeb vUB).
  assert (Hin' : In (c0, v0) (filter (freeb vUB) cost)) by (apply filter_In; auto).
  destruct (filter (freeb vUB) cost) as [|a l] eqn:E; [destruct Hin'|]. rewrite <- E in *.
  destruct (select_free_spec (filter (freeb vUB) cost) None (- 1000000)) as [[-> _]|(c & v & pre & post & _ & E2 & H1 & _)]; [reflexivity|].
  assert (Hx : In (c, v) (filter (freeb vUB) cost)) by (rewrite E2; apply in_app_iff; right; now left).
  apply filter_In in Hx as [Hx Fx]. specialize (H c v Hx Fx). lra.
Qed.

(** The chosen key, when all costs are at least -1e6. *)
Lemma select_split_In cost vUB : cost <> [] -> Forall (fun cv => - 1000000 <= snd cv)%Q cost ->
  exists c, select_split cost vUB = Ok c /\ In c (map fst cost).
Proof.
  intros Hne H6. rewrite Forall_forall in H6.
  destruct (existsb (freeb vUB) cost) eqn:E.
  - apply existsb_exists in E as ([c v] & Hin & Hf).
    destruct (select_split_free cost vUB) as (c' & v' & pre & post & E1 & E2 & _).
    { exists c, v. split; [assumption|]. split; [assumption|]. now apply (H6 (c, v)). }
    exists c'. split; [assumption|]. rewrite E2, map_app. apply in_app_iff. right. now left.
  - destruct (select_split_none cost vUB Hne) as (c' & v' & pre & post & E1 & E2 & _).
    { intros c v Hin. destruct (ext_leb (Fin v) vUB) eqn:F; [|reflexivity].
      assert (existsb (freeb vUB) cost = true); [|congruence]. apply existsb_exists. exists (c, v). auto. }
    exists c'. split; [assumption|]. rewrite E2, map_app. apply in_app_iff. right. now left.
Qed.

(** ** Dictionaries *)
Lemma dget_dset {B} k k' (v : B) d : dget k' (dset k v d) = if Nat.eqb k' k then Ok v else dget k' d.
Proof.
  induction d as [|[a b] d IH]; simpl.
  - destruct (Nat.eqb k' k); reflexivity.
  - destruct (Nat.eqb k a) eqn:E; simpl.
    + apply Nat.eqb_eq in E as ->. destruct (Nat.eqb k' a); reflexivity.
    + rewrite IH. destruct (Nat.eqb k' a) eqn:E2; [|reflexivity]. apply Nat.eqb_eq in E2 as ->.
      rewrite Nat.eqb_sym in E. now rewrite E.
Qed.
Lemma dset_keys {B} k (v : B) d c : In c (map fst (dset k v d)) <-> c = k \/ In c (map fst d).
Proof.
  induction d as [|[a b] d IH]; simpl; [intuition|].
  destruct (Nat.eqb k a) eqn:E; simpl; [apply Nat.eqb_eq in E as ->; intuition|]. rewrite IH. intuition.
Qed.
Lemma dset_Forall {B} (P : nat * B -> Prop) k v d : Forall P d -> P (k, v) -> Forall P (dset k v d).
Proof.
  intros H Hk. induction H as [|[a b] d H1 H2 IH]; simpl; [constructor; [assumption|constructor]|].
  destruct (Nat.eqb k a); constructor; assumption.
Qed.
Lemma dset_NoDup {B} k (v : B) d : NoDup (map fst d) -> NoDup (map fst (dset k v d)).
Proof.
  induction d as [|[a b] d IH]; simpl; intro H; [constructor; [intros []|constructor]|].
  inversion H as [|? ? H1 H2]; subst. destruct (Nat.eqb k a) eqn:E; simpl.
  - apply Nat.eqb_eq in E as ->. constructor; assumption.
  - constructor; [|auto]. rewrite dset_keys. intros [->|C]; [|contradiction]. now rewrite Nat.eqb_refl in E.
Qed.
Lemma dpop_keys {B} k (d : list (nat * B)) c : In c (map fst (dpop k d)) <-> In c (map fst d) /\ c <> k.
Proof.
  unfold dpop. rewrite !in_map_iff. split.
  - intros ([a b] & <- & H). apply filter_In in H as [H E]. simpl in *.
    apply negb_true_iff, Nat.eqb_neq in E. split; [exists (a, b); auto|congruence].
  - intros [([a b] & <- & H) Hn]. exists (a, b). split; [reflexivity|]. apply filter_In. split; [assumption|].
    apply negb_true_iff, Nat.eqb_neq. simpl in *. congruence.
Qed.
Lemma Forall_filter' {A} (f : A -> bool) (P : A -> Prop) l : Forall P l -> Forall P (filter f l).
Proof. intro H. apply Forall_filter_iff. rewrite Forall_forall in H. auto. Qed.

Lemma dget_dpop {A} c i (d : list (nat * A)) : i <> c -> dget i (dpop c d) = dget i d.
Proof.
  intro Ne. unfold dpop. induction d as [|[a b] d IH]; [reflexivity|]. cbn [filter fst]. destruct (Nat.eqb_spec c a) as [<-|N]; cbn [negb dget].
  - rewrite IH. now replace (Nat.eqb i c) with false by (symmetry; apply Nat.eqb_neq; congruence).
  - now rewrite IH.
Qed.
(** ** Invariants *)
Section Cost.
  Variable acc : nat -> list nat -> list nat -> acc_outcome.
  Variable E : exn -> Prop.
  Variable k : nat.
  Hypothesis Hacc : forall t s i, NoDup s -> Forall (fun a => a < k) s -> NoDup i -> incl i s -> 2 <= length i ->
    match acc t s i with
    | AccSolved p => (- 1000000 <= ap_alpha p)%Q /\ forall l r, acc_subsets s p = (l, r) ->
        Permutation (l ++ r) s /\ (exists a, In a l /\ In a i) /\ (exists a, In a r /\ In a i)
    | AccNoSolution => E AttributeError
    | AccInterrupted => E KeyboardInterrupt
    end.

  Definition query (s i : list nat) : Prop := NoDup s /\ Forall (fun a => a < k) s /\ NoDup i /\ incl i s /\ 2 <= length i.
  (** Every entry of the memory is the answer to an earlier split model of its key. *)
  Definition entry_ok (n : nat) (e : (list nat * list nat) * (Q * list nat * list nat)) : Prop :=
    let '((s, i), (v, l, r)) := e in
    query s i /\ (- 1000000 <= v)%Q /\ Permutation (l ++ r) s /\
    (exists a, In a l /\ In a i) /\ (exists a, In a r /\ In a i) /\
    exists t, t < n /\ acc_read s (acc t s i) = Ok (v, l, r).
  Definition mem_inv (cs : cstate) : Prop := Forall (entry_ok (c_calls cs)) (c_mem cs).

  Lemma entry_mono n n' e : n <= n' -> entry_ok n e -> entry_ok n' e.
  Proof.
    destruct e as [[s i] [[v l] r]]. intros H (H1 & H2 & H3 & H4 & H5 & t & Ht & H6).
    split; [exact H1|]. repeat split; try assumption. exists t. split; [lia|assumption].
  Qed.

  (** The memory answers with a split of the same sets. *)
  Lemma mem_get_spec n m s i v l r : Forall (entry_ok n) m -> mem_get m s i = Some (v, l, r) -> NoDup s ->
    (- 1000000 <= v)%Q /\ Permutation (l ++ r) s /\ (exists a, In a l /\ In a i) /\ (exists a, In a r /\ In a i) /\
    exists t s' i', t < n /\ query s' i' /\ set_eqb s' s = true /\ set_eqb i' i = true /\ acc_read s' (acc t s' i') = Ok (v, l, r).
  Proof.
    induction 1 as [|[[s' i'] [[v' l'] r']] m H Hm IH]; [discriminate|]. cbn [mem_get]. intros HG ND.
    destruct (set_eqb s' s && set_eqb i' i) eqn:Eq; [|now apply IH].
    injection HG as -> -> ->. apply andb_prop in Eq as [E1 E2].
    destruct H as (H1 & H2 & H3 & (a & A1 & A2) & (b & B1 & B2) & t & Ht & H6).
    assert (E2' := E2). rewrite set_eqb_iff in E2'.
    repeat split; try assumption.
    - rewrite H3. apply set_eqb_NoDup; [apply H1|assumption|assumption].
    - exists a. split; [assumption|now apply E2'].
    - exists b. split; [assumption|now apply E2'].
    - exists t, s', i'. repeat split; auto; apply H1.
  Qed.

  Variable bad : nat -> bool.
  Notation inf := (filter bad (seq 0 k)).

  Definition side_ok (p : list (list nat)) (cs : cstate) (c : nat) : Prop :=
    exists l r, dget c (c_left cs) = Ok l /\ dget c (c_right cs) = Ok r /\
      Permutation (l ++ r) (nth c p []) /\ existsb bad l = true /\ existsb bad r = true /\
      (* with the cost of the answer *)
      exists v t s i, dget c (c_cost cs) = Ok v /\ query s i /\ (forall a, In a s <-> In a (nth c p [])) /\
        (forall a, In a i <-> In a (nth c p []) /\ bad a = true) /\ acc_read s (acc t s i) = Ok (v, l, r).

  (** [done c]: the indices evaluated so far. *)
  Definition cinv (p : list (list nat)) (cs : cstate) (done : nat -> Prop) : Prop :=
    NoDup (map fst (c_cost cs)) /\
    (forall c, In c (map fst (c_cost cs)) <-> done c) /\
    (forall c, In c (map fst (c_cost cs)) -> side_ok p cs c) /\
    Forall (fun cv => - 1000000 <= snd cv)%Q (c_cost cs) /\
    mem_inv cs.

  Lemma eval_split_spec p cs c done : valid_partition k p -> c < length p -> 2 <= count bad (nth c p []) ->
    (* the other entries are already correct for p *)
    NoDup (map fst (c_cost cs)) ->
    (forall a, a = c \/ In a (map fst (c_cost cs)) <-> done a) ->
    (forall a, In a (map fst (c_cost cs)) -> a <> c -> side_ok p cs a) ->
    Forall (fun cv => - 1000000 <= snd cv)%Q (c_cost cs) -> mem_inv cs ->
    post E (fun cs' => cinv p cs' done) (eval_split acc inf p cs c).
  Proof.
    intros V Hc H2b ND HD HS H6 HM. unfold eval_split. rewrite (geti_ok _ _ [] Hc). cbn [rbind]. cbv zeta.
    set (s := nth c p []). set (i := filter (fun a => memb a inf) s).
    assert (NDs : NoDup s) by (eapply vp_nth_NoDup; eassumption).
    assert (Hi : forall a, In a i -> bad a = true).
    { intros a Ha. apply filter_In in Ha as [_ Ha]. apply memb_In in Ha. now apply filter_In in Ha. }
    assert (K : forall v l r m n, (- 1000000 <= v)%Q -> Permutation (l ++ r) s ->
      (exists a, In a l /\ In a i) -> (exists a, In a r /\ In a i) -> Forall (entry_ok n) m ->
      (exists t s' i', query s' i' /\ (forall a, In a s' <-> In a s) /\ (forall a, In a i' <-> In a i) /\ acc_read s' (acc t s' i') = Ok (v, l, r)) ->
      cinv p (mkC (dset c v (c_cost cs)) (dset c l (c_left cs)) (dset c r (c_right cs)) m n) done).
    { intros v l r m n Hv HP (a & A1 & A2) (b & B1 & B2) Hm (t & s' & i' & T1 & T2 & T3 & T4). split; [|split; [|split; [|split]]]; cbn [c_cost c_mem c_calls].
      - now apply dset_NoDup.
      - intro c'. rewrite dset_keys. apply HD.
      - intros c' Hc'. rewrite dset_keys in Hc'. destruct (Nat.eq_dec c' c) as [->|Ne].
        + exists l, r. cbn [c_left c_right]. rewrite !dget_dset, !Nat.eqb_refl. repeat split; try assumption.
          * apply existsb_exists. exists a. auto.
          * apply existsb_exists. exists b. auto.
          * exists v, t, s', i'. cbn [c_cost]. rewrite dget_dset, Nat.eqb_refl. split; [reflexivity|]. split; [exact T1|]. split; [exact T2|]. split; [|exact T4].
            intro a'. rewrite T3. split; [intro Ha; split; [now apply filter_In in Ha|now apply Hi]|]. intros [Ha1 Ha2]. apply filter_In. split; [exact Ha1|].
            rewrite memb_pattern; [exact Ha2|]. eapply vp_nth_lt; eassumption.
        + destruct (HS c') as (l' & r' & D1 & D2 & D3); [tauto|assumption|].
          exists l', r'. cbn [c_left c_right c_cost]. rewrite !dget_dset. apply Nat.eqb_neq in Ne. rewrite Ne. auto.
      - apply dset_Forall; assumption.
      - assumption. }
    destruct (mem_get (c_mem cs) s i) as [[[v l] r]|] eqn:EM.
    - destruct (mem_get_spec _ _ _ _ _ _ _ HM EM NDs) as (H1 & H2 & H3 & H4 & t & s' & i' & H5 & H5' & H6' & H7 & H8). simpl. apply K; try assumption.
      exists t, s', i'. rewrite set_eqb_iff in H6', H7. auto.
    - assert (Hs1 : Forall (fun a => a < k) s).
      { apply Forall_forall. intros a Ha. eapply vp_nth_lt; eassumption. }
      assert (Hi2 : 2 <= length i).
      { replace (length i) with (count bad s); [assumption|]. unfold i. apply (count_ext bad (fun a => memb a inf)).
        intros a Ha. rewrite Forall_forall in Hs1. symmetry. apply memb_pattern. now apply Hs1. }
      assert (Hinc : incl i s) by (intros a Ha; now apply filter_In in Ha).
      assert (HA := Hacc (c_calls cs) s i NDs Hs1 (NoDup_filter _ NDs) Hinc Hi2).
      destruct (acc (c_calls cs) s i) as [pt| |] eqn:EA; cbn [acc_read rbind post].
      + destruct HA as [Hv HA].
        destruct (acc_subsets s pt) as [l r] eqn:ES. destruct (HA l r eq_refl) as (H1 & H2 & H3).
        assert (HQ : query s i) by (repeat split; try assumption; now apply NoDup_filter).
        cbn [rbind post]. apply K; try assumption. apply Forall_app. split.
        * eapply Forall_impl; [|exact HM]. intros e. apply entry_mono. lia.
        * constructor; [|constructor]. split; [exact HQ|]. repeat split; try assumption.
          exists (c_calls cs). split; [lia|]. rewrite EA. cbn [acc_read]. now rewrite ES.
        * exists (c_calls cs), s, i. split; [exact HQ|]. split; [tauto|]. split; [tauto|]. rewrite EA. cbn [acc_read]. now rewrite ES.
      + exact HA.
      + exact HA.
  Qed.

  Definition splittable (p : list (list nat)) (c : nat) : Prop := c < length p /\ 2 <= count bad (nth c p []).

  Lemma eval_splits_spec p : valid_partition k p -> forall L cs done,
    (forall c, In c L -> splittable p c) -> cinv p cs done ->
    post E (fun cs' => cinv p cs' (fun c => done c \/ In c L)) (eval_splits acc inf p cs L).
  Proof.
    intros V. induction L as [|c L IH]; intros cs done HL HC; cbn [eval_splits].
    - simpl. destruct HC as (H1 & H2 & H3 & H4 & H5). repeat split; try assumption; intro H; rewrite H2 in *; tauto.
    - destruct HC as (H1 & H2 & H3 & H4 & H5).
      eapply post_bind.
      + destruct (HL c (in_eq _ _)) as [HLc HL2].
        apply (eval_split_spec p cs c (fun a => a = c \/ done a)); auto.
        intro a. rewrite H2. tauto.
      + intros cs' HC'. eapply post_impl; [apply (IH cs' _ (fun a Ha => HL a (or_intror Ha)) HC')|].
        intros cs2 (G1 & G2 & G3 & G4 & G5). repeat split; try assumption; intro H; rewrite G2 in *; simpl in *; intuition.
  Qed.

  Lemma cinv_ext p cs done done' : (forall c, done c <-> done' c) -> cinv p cs done -> cinv p cs done'.
  Proof.
    intros H (H1 & H2 & H3 & H4 & H5). repeat split; try assumption; intro Hc; [apply H, H2, Hc|apply H2, H, Hc].
  Qed.

  Lemma evaluate_spec p cs sorted : valid_partition k p -> Permutation sorted (seq 0 (length p)) -> mem_inv cs ->
    post E (fun cs' => cinv p cs' (splittable p)) (evaluate_accurate_splits acc inf p cs sorted).
  Proof.
    intros V HP HM. unfold evaluate_accurate_splits. cbv zeta.
    rewrite (rmap_ok _ (fun c => (c, count bad (nth c p [])))).
    2:{ intros c Hc. apply (Permutation_in _ HP), in_seq in Hc.
        rewrite (geti_ok _ _ 0) by (unfold count_infeasible; rewrite map_length; lia).
        cbn [rbind]. now rewrite (count_infeasible_nth k bad). }
    cbn [rbind].
    set (L := map fst (filter (fun cn => 2 <=? snd cn) (map (fun c => (c, count bad (nth c p []))) sorted))).
    assert (HL : forall c, In c L <-> splittable p c).
    { intro c. unfold L. rewrite in_map_iff. split.
      - intros ([c' n] & <- & H). apply filter_In in H as [H1 H2]. apply in_map_iff in H1 as (c2 & E2 & H1).
        injection E2 as <- <-. apply (Permutation_in _ HP), in_seq in H1. cbn [snd fst] in *. apply Nat.leb_le in H2.
        split; [lia|assumption].
      - intros [H1 H2]. exists (c, count bad (nth c p [])). split; [reflexivity|]. apply filter_In.
        split; [|now apply Nat.leb_le]. apply in_map_iff. exists c. split; [reflexivity|].
        apply (Permutation_in (l := seq 0 (length p))); [now symmetry|]. apply in_seq. lia. }
    eapply post_impl; [apply (eval_splits_spec p V L _ (fun _ => False))|].
    - intros c Hc. now apply HL in Hc.
    - repeat split; simpl; try tauto; constructor || exact HM.
    - intros cs'. apply cinv_ext. intro c. rewrite HL. tauto.
  Qed.

  Lemma perform_spec old vUB st cs : rinv k bad old st -> cinv (r_part st) cs (splittable (r_part st)) ->
    nb_bad bad (r_part st) < count bad (seq 0 k) ->
    post E (fun '(st', cs') => rinv k bad old st' /\ cinv (r_part st') cs' (splittable (r_part st')) /\
              r_cnt st' = S (r_cnt st)) (perform_accurate_split acc inf vUB st cs).
  Proof.
    intros HR (ND & HK & HSd & H6 & HM) Hb. unfold perform_accurate_split.
    assert (V : valid_partition k (r_part st)) by apply HR. set (p := r_part st) in *.
    destruct (pigeonhole k bad p V Hb) as (c0 & Hc0 & B0).
    assert (Hne : c_cost cs <> []).
    { intro C. assert (Hin : In c0 (map fst (c_cost cs))) by (apply HK; split; assumption). rewrite C in Hin. destruct Hin. }
    destruct (select_split_In (c_cost cs) vUB Hne H6) as (c & -> & Hc). cbn [rbind].
    assert (Hsp := Hc). apply HK in Hsp as [Hcp H2].
    destruct (HSd c Hc) as (l & r & -> & -> & HP & Bl & Br & _). cbn [rbind].
    rewrite (geti_ok _ _ [] Hcp). cbn [rbind]. cbv zeta.
    assert (HR' := rinv_split k bad old st c l r HR Hcp HP Bl Br). cbv zeta in HR'. fold p in HR'.
    set (p' := upd c l p ++ [r]) in *.
    assert (V' : valid_partition k p') by apply HR'.
    assert (Lp : length p' = S (length p)) by (unfold p'; rewrite app_length, upd_length; simpl; lia).
    assert (Ln : length p' - 1 = length p) by lia.
    rewrite !(geti_ok _ _ 0) by (unfold count_infeasible; rewrite map_length; lia).
    cbn [rbind]. rewrite !(count_infeasible_nth k bad) by assumption. rewrite Ln in *.
    assert (Nth : forall i, i <> c -> i < length p -> nth i p' [] = nth i p []).
    { intros i Hi Hip. unfold p'. rewrite app_nth1 by (rewrite upd_length; lia). now apply nth_upd_neq; auto. }
    assert (Sd : forall cs1 i, c_left cs1 = c_left cs -> c_right cs1 = c_right cs -> dget i (c_cost cs1) = dget i (c_cost cs) ->
              In i (map fst (c_cost cs)) -> i <> c -> side_ok p' cs1 i).
    { intros cs1 i E1 E2 E3 Hi Ne. destruct (HSd i Hi) as (l' & r' & D1 & D2 & D3).
      exists l', r'. rewrite E1, E2, E3, Nth; [auto|assumption|]. apply HK in Hi. apply Hi. }
    apply post_bind with (P := fun cs1 => cinv p' cs1 (fun i => splittable p' i /\ i < length p)).
    - destruct (2 <=? count bad (nth c p' [])) eqn:E2.
      + apply Nat.leb_le in E2. apply eval_split_spec; try assumption; [lia| |].
        * intro i. rewrite HK. unfold splittable. split.
          -- intros [->|[A1 A2]]; [repeat split; lia|].
             destruct (Nat.eq_dec i c) as [->|Ne]; [repeat split; lia|]. rewrite Nth by assumption. repeat split; lia.
          -- intros [[A1 A2] A3]. destruct (Nat.eq_dec i c) as [->|Ne]; [now left|]. rewrite Nth in A2 by assumption. auto.
        * intros i Hi Ne. now apply Sd.
      + apply Nat.leb_gt in E2. cbn [post]. split; [|split; [|split; [|split]]]; cbn [c_cost].
        * unfold dpop. clear - ND. induction (c_cost cs) as [|[a b] d IH]; simpl; [constructor|].
          inversion ND as [|? ? N1 N2]; subst. destruct (negb _); simpl; [|auto]. constructor; [|auto].
          intro C. apply N1. apply in_map_iff in C as (x & <- & Hx). apply filter_In in Hx as [Hx _]. now apply in_map.
        * intro i. rewrite dpop_keys, HK. unfold splittable. split.
          -- intros [[A1 A2] Ne]. rewrite Nth by assumption. repeat split; lia.
          -- intros [[A1 A2] A3]. destruct (Nat.eq_dec i c) as [->|Ne]; [lia|]. rewrite Nth in A2 by assumption. auto.
        * intros i Hi. apply dpop_keys in Hi as [Hi Ne]. apply Sd; auto. cbn [c_cost]. now apply dget_dpop.
        * now apply Forall_filter'.
        * exact HM.
    - intros cs1 (G1 & G2 & G3 & G4 & G5).
      apply post_bind with (P := fun cs2 => cinv p' cs2 (splittable p')).
      + destruct (2 <=? count bad (nth (length p) p' [])) eqn:E2.
        * apply Nat.leb_le in E2. apply eval_split_spec; try assumption; [lia| |].
          -- intro i. rewrite G2. unfold splittable. split.
             ++ intros [->|[A1 A2]]; [split; [lia|assumption]|assumption].
             ++ intros [A1 A2]. destruct (Nat.eq_dec i (length p)) as [->|Ne]; [now left|]. right. repeat split; lia.
          -- intros i Hi _. now apply G3.
        * apply Nat.leb_gt in E2. cbn [post]. split; [|split; [|split; [|split]]]; try assumption.
          intro i. rewrite G2. unfold splittable. split; [tauto|]. intros [A1 A2].
          destruct (Nat.eq_dec i (length p)) as [->|Ne]; [lia|]. repeat split; lia.
      + intros cs2 HC2. cbn [post]. split; [exact HR'|]. split; [exact HC2|reflexivity].
  Qed.

  Lemma cost_loop_spec old vUB : forall n st cs, rinv k bad old st -> cinv (r_part st) cs (splittable (r_part st)) ->
    nb_bad bad old + r_cnt st + n <= count bad (seq 0 k) ->
    post E (fun '(st', cs') => rinv k bad old st' /\ mem_inv cs' /\ r_cnt st' = r_cnt st + n)
      (cost_loop acc n inf vUB st cs).
  Proof.
    induction n as [|n IH]; intros st cs HR HC Hb; cbn [cost_loop].
    - simpl. split; [assumption|]. split; [apply HC|lia].
    - eapply post_bind; [apply (perform_spec old vUB st cs HR HC)|].
      + destruct HR as ((_ & _ & _ & HB & _) & _). lia.
      + intros [st' cs'] (HR' & HC' & E'). eapply post_impl; [apply (IH st' cs' HR' HC'); lia|].
        intros [st2 cs2] (A & B & C). split; [assumption|]. split; [assumption|lia].
  Qed.

  Lemma split_top_spec argsort costs old vUB cs mu : argsort_ok argsort -> valid_partition k old ->
    length costs = length old -> mem_inv cs -> nb_bad bad old + mu <= count bad (seq 0 k) ->
    post E (fun '(st', cs') => rinv k bad old st' /\ mem_inv cs' /\ r_cnt st' = mu)
      (split_top_mu_cost acc argsort costs vUB inf cs mu (mkR old [] 0)).
  Proof.
    intros HA V HL HM Hb. unfold split_top_mu_cost. cbn [r_part r_cnt]. rewrite HL, Nat.eqb_refl. cbn [rassert rbind].
    rewrite Nat.sub_0_r. destruct (HA costs) as [HP _]. rewrite HL in HP.
    eapply post_bind; [apply (evaluate_spec old cs (argsort costs) V HP HM)|]. intros cs1 HC.
    eapply post_bind; [apply (cost_loop_spec old vUB mu (mkR old [] 0) cs1 (rinv_init k bad old V) HC)|].
    - simpl. lia.
    - intros [st' cs'] (A & B & C). simpl in C. rewrite C, Nat.eqb_refl. simpl. auto.
  Qed.
End Cost.

Lemma refine_with_post {X} (E : exn -> Prop) I bad fm old (split : nat -> rstate -> res (rstate * X)) (P : X -> Prop) :
  (0 <= i_eps I)%Q -> valid_partition (i_k I) old -> nb_bad bad old <= tolerated I ->
  post E (fun '(st, x) => rinv (i_k I) bad old st /\ P x /\ r_cnt st = tolerated I + 1 - nb_bad bad old)
    (split (tolerated I + 1 - nb_bad bad old) (mkR old [] 0)) ->
  post E (fun '(R, x) => refinement_ok (i_k I) bad (tolerated I + 1 - nb_bad bad old) old R /\ P x)
    (refine_with I (pattern (i_k I) bad fm) old split).
Proof.
  intros He V Hb HS. destruct (split _ _) as [[st x]|e] eqn:ES.
  - destruct HS as (HR & HP & HC).
    destruct (refine_with_ok I bad fm old split st x He V Hb ES HR HC) as (R & -> & HRR). simpl. auto.
  - simpl in HS. unfold refine_with. cbn [f_infeasible pattern].
    rewrite (find_infeasible_spec (i_k I) bad old V), bad_indices_length, number_of_splits_spec by assumption.
    rewrite (proj2 (Nat.leb_le _ _) Hb). cbn [rbind]. rewrite ES. exact HS.
Qed.

Lemma refine_cost_post acc E argsort I bad fm costs vUB cs old :
  (forall t s i, NoDup s -> Forall (fun a => a < i_k I) s -> NoDup i -> incl i s -> 2 <= length i ->
    match acc t s i with
    | AccSolved p => (- 1000000 <= ap_alpha p)%Q /\ forall l r, acc_subsets s p = (l, r) ->
        Permutation (l ++ r) s /\ (exists a, In a l /\ In a i) /\ (exists a, In a r /\ In a i)
    | AccNoSolution => E AttributeError
    | AccInterrupted => E KeyboardInterrupt
    end) ->
  argsort_ok argsort -> (0 <= i_eps I)%Q -> valid_partition (i_k I) old -> length costs = length old ->
  nb_bad bad old <= tolerated I -> tolerated I < count bad (seq 0 (i_k I)) -> mem_inv acc (i_k I) cs ->
  post E (fun '(R, cs') => refinement_ok (i_k I) bad (tolerated I + 1 - nb_bad bad old) old R /\ mem_inv acc (i_k I) cs')
    (refine_cost acc argsort I (pattern (i_k I) bad fm) costs vUB cs old).
Proof.
  intros Hacc HA He V HL Hb Ht HM. unfold refine_cost.
  apply (refine_with_post E I bad fm old _ (mem_inv acc (i_k I))); try assumption.
  cbn [f_infeasible pattern]. apply split_top_spec; try assumption. lia.
Qed.

(** ** Every history of refinements *)
Definition acc_exn (e : exn) : Prop := e = AttributeError \/ e = KeyboardInterrupt.

Lemma acc_hyp I acc : acc_sound I acc -> (forall t s i p, acc_query I s i -> acc t s i = AccSolved p -> - 1000000 <= ap_alpha p)%Q ->
  forall t s i, NoDup s -> Forall (fun a => a < i_k I) s -> NoDup i -> incl i s -> 2 <= length i ->
    match acc t s i with
    | AccSolved p => (- 1000000 <= ap_alpha p)%Q /\ forall l r, acc_subsets s p = (l, r) ->
        Permutation (l ++ r) s /\ (exists a, In a l /\ In a i) /\ (exists a, In a r /\ In a i)
    | AccNoSolution => acc_exn AttributeError
    | AccInterrupted => acc_exn KeyboardInterrupt
    end.
Proof.
  intros HS HL t s i H1 H2 H3 H4 H5. assert (HQ : acc_query I s i) by (repeat split; assumption).
  specialize (HS t s i HQ). destruct (acc t s i) as [p| |] eqn:E.
  - split; [now apply (HL t s i)|]. intros l r El. simpl in HS. exact (acc_sides I _ _ _ _ _ HS El).
  - now left.
  - now right.
Qed.
Lemma acc_hyp_total I acc : acc_total I acc -> (forall t s i p, acc_query I s i -> acc t s i = AccSolved p -> - 1000000 <= ap_alpha p)%Q ->
  forall t s i, NoDup s -> Forall (fun a => a < i_k I) s -> NoDup i -> incl i s -> 2 <= length i ->
    match acc t s i with
    | AccSolved p => (- 1000000 <= ap_alpha p)%Q /\ forall l r, acc_subsets s p = (l, r) ->
        Permutation (l ++ r) s /\ (exists a, In a l /\ In a i) /\ (exists a, In a r /\ In a i)
    | AccNoSolution => no_exn AttributeError
    | AccInterrupted => no_exn KeyboardInterrupt
    end.
Proof.
  intros HS HL t s i H1 H2 H3 H4 H5. assert (HQ : acc_query I s i) by (repeat split; assumption).
  destruct (HS t s i HQ) as (p & E & HF). rewrite E. split; [now apply (HL t s i)|].
  intros l r El. exact (acc_sides I _ _ _ _ _ HF El).
Qed.
Lemma acc_total_sound I acc : acc_total I acc -> acc_sound I acc.
Proof. intros H t s i HQ. destruct (H t s i HQ) as (p & -> & HF). exact HF. Qed.

Section Reach.
  Variable acc : nat -> list nat -> list nat -> acc_outcome.
  Variable argsort : list Q -> list nat.
  Variable I : inst.
  Hypothesis HS : acc_sound I acc.
  Hypothesis HL : forall t s i p, acc_query I s i -> acc t s i = AccSolved p -> (- 1000000 <= ap_alpha p)%Q.
  Hypothesis HA : argsort_ok argsort.
  Hypothesis He : (0 <= i_eps I)%Q.

  Lemma reachable_mem cs : cost_reachable acc argsort I cs -> mem_inv acc (i_k I) cs.
  Proof.
    induction 1 as [|cs bad fm costs vUB old R cs' _ IH V HLc Hb Ht HR]; [constructor|].
    assert (P := refine_cost_post acc acc_exn argsort I bad fm costs vUB cs old (acc_hyp I acc HS HL) HA He V HLc Hb Ht IH).
    rewrite HR in P. apply P.
  Qed.

  Lemma cost_refinement_sound cs bad fm costs vUB old : cost_reachable acc argsort I cs ->
    valid_partition (i_k I) old -> length costs = length old ->
    nb_bad bad old <= tolerated I -> tolerated I < count bad (seq 0 (i_k I)) ->
    match refine_cost acc argsort I (pattern (i_k I) bad fm) costs vUB cs old with
    | Ok (R, cs') => refinement_ok (i_k I) bad (tolerated I + 1 - nb_bad bad old) old R /\
                     cost_reachable acc argsort I cs'
    | Err e => e = AttributeError \/ e = KeyboardInterrupt
    end.
  Proof.
    intros HC V HLc Hb Ht.
    assert (P := refine_cost_post acc acc_exn argsort I bad fm costs vUB cs old (acc_hyp I acc HS HL) HA He V HLc Hb Ht (reachable_mem cs HC)).
    destruct (refine_cost _ _ _ _ _ _ _ _) as [[R cs']|e] eqn:E; [|exact P].
    split; [apply P|]. eapply CR_step; eassumption.
  Qed.

  Lemma reachable_memory cs s i v l r : cost_reachable acc argsort I cs -> NoDup s ->
    mem_get (c_mem cs) s i = Some (v, l, r) ->
    Permutation (l ++ r) s /\ (exists a, In a l /\ In a i) /\ (exists a, In a r /\ In a i) /\
    exists t s' i', t < c_calls cs /\ acc_query I s' i' /\ (forall a, In a s' <-> In a s) /\ (forall a, In a i' <-> In a i) /\
      acc_read s' (acc t s' i') = Ok (v, l, r).
  Proof.
    intros HC ND HG. assert (HM := reachable_mem cs HC).
    destruct (mem_get_spec acc _ _ _ _ _ _ _ _ HM HG ND) as (_ & H2 & H3 & H4 & t & s' & i' & H5 & HQ & H6 & H7 & H8).
    split; [assumption|]. split; [assumption|]. split; [assumption|]. exists t, s', i'.
    rewrite set_eqb_iff in H6, H7. auto.
  Qed.
End Reach.

Lemma cost_refinement_total acc argsort I cs bad fm costs vUB old : acc_total I acc ->
  (forall t s i p, acc_query I s i -> acc t s i = AccSolved p -> (- 1000000 <= ap_alpha p)%Q) ->
  argsort_ok argsort -> (0 <= i_eps I)%Q -> cost_reachable acc argsort I cs ->
  valid_partition (i_k I) old -> length costs = length old ->
  nb_bad bad old <= tolerated I -> tolerated I < count bad (seq 0 (i_k I)) ->
  exists R cs', refine_cost acc argsort I (pattern (i_k I) bad fm) costs vUB cs old = Ok (R, cs') /\
    refinement_ok (i_k I) bad (tolerated I + 1 - nb_bad bad old) old R /\ cost_reachable acc argsort I cs'.
Proof.
  intros HT HL HA He HC V HLc Hb Ht.
  assert (HM := reachable_mem acc argsort I (acc_total_sound I acc HT) HL HA He cs HC).
  assert (P := refine_cost_post acc no_exn argsort I bad fm costs vUB cs old (acc_hyp_total I acc HT HL) HA He V HLc Hb Ht HM).
  apply post_ok in P as ([R cs'] & E & P). exists R, cs'. split; [assumption|]. split; [apply P|].
  eapply CR_step; eassumption.
Qed.
Lemma packing_low I acc : wf_inst I -> packing I -> acc_sound I acc ->
  forall t s i p, acc_query I s i -> acc t s i = AccSolved p -> (- 1000000 <= ap_alpha p)%Q.
Proof.
  intros HW HP HS t s i p HQ E. specialize (HS t s i HQ). rewrite E in HS. simpl in HS.
  assert (0 <= ap_alpha p)%Q; [|lra]. apply (acc_alpha_nonneg I s i p HW HP); [apply HQ|assumption].
Qed.
