(** Meaning of the optimisation models. *)
From Verif Require Import Base BaseFacts Spec Instance InstanceFacts PartitionFacts OptModels.

Lemma Forall_flat_map {A B} (P : B -> Prop) (f : A -> list B) l :
  Forall P (flat_map f l) <-> Forall (fun a => Forall P (f a)) l.
Proof.
  induction l as [|a l IH]; simpl.
  - split; constructor.
  - rewrite Forall_app, Forall_cons_iff, IH. reflexivity.
Qed.
Lemma Forall_map_iff {A B} (P : B -> Prop) (f : A -> B) l :
  Forall P (map f l) <-> Forall (fun a => P (f a)) l.
Proof. rewrite Forall_map. reflexivity. Qed.
Lemma Forall_seq (P : nat -> Prop) a n : Forall P (seq a n) <-> forall i, a <= i < a + n -> P i.
Proof.
  rewrite Forall_forall. split; intros H i Hi; apply H; apply in_seq; assumption.
Qed.

(** DeterModel accepts exactly the points of the deterministic problem. *)
Lemma deter_model_ok I S tau x :
  model_ok tau (deter_model I S) x [] <-> det_feasible I S tau x.
Proof.
  unfold model_ok, det_feasible, deter_model, in_dom; simpl.
  rewrite Forall_flat_map, Forall_forall.
  assert (G : forall s, Forall (cstr_ok tau x []) (scenario_cstrs I s) <-> sat I tau x s).
  { intro s. unfold scenario_cstrs. rewrite Forall_map_iff, Forall_seq. unfold sat. simpl.
    split; intros H i Hi; apply H; lia. }
  split.
  - intros (D & _ & _ & H). split; [exact D|]. intros s Hs. now apply G, H.
  - intros (D & H). repeat split; try apply D; [constructor|]. intros s Hs. apply G. now apply H.
Qed.
Lemma deter_model_nil I S tau x z : model_ok tau (deter_model I S) x z -> z = [].
Proof. intros (_ & H & _). simpl in H. now apply length_zero_iff_nil. Qed.
Lemma deter_model_val I S x : (m_val (deter_model I S) x == obj I x)%Q.
Proof. unfold m_val, obj; simpl. ring. Qed.

Lemma deter_bound I S tau x z v b : outcome_ok tau (deter_model I S) (Solved x z v b) ->
  det_feasible I S tau x /\ (v == obj I x)%Q /\ (v <= b)%Q /\
  (forall y, det_feasible I S 0 y -> obj I y <= b)%Q.
Proof.
  intros (H1 & H2 & H3 & H4). pose proof (deter_model_nil _ _ _ _ _ H1) as ->.
  rewrite deter_model_val in H2. apply deter_model_ok in H1.
  split; [assumption|]. split; [assumption|]. split; [assumption|].
  intros y Hy. rewrite <- (deter_model_val I S). apply (H4 y []). now apply deter_model_ok.
Qed.
Lemma deter_exact I S x z v b : outcome_exact (deter_model I S) (Solved x z v b) ->
  det_feasible I S 0 x /\ (v == obj I x)%Q /\ (v == b)%Q /\
  (forall y, det_feasible I S 0 y -> obj I y <= v)%Q.
Proof.
  intros (H1 & H2 & H3 & H4). pose proof (deter_model_nil _ _ _ _ _ H1) as ->.
  rewrite deter_model_val in H2. apply deter_model_ok in H1.
  split; [assumption|]. split; [assumption|]. split; [assumption|].
  intros y Hy. rewrite <- (deter_model_val I S), H3. apply (H4 y []). now apply deter_model_ok.
Qed.
Lemma deter_exact_opt I S x z v b : outcome_exact (deter_model I S) (Solved x z v b) -> det_opt I S v.
Proof.
  intro H. apply deter_exact in H as (H1 & H2 & _ & H3). split; [|assumption].
  exists x. split; [assumption|]. now symmetry.
Qed.
Lemma exact_is_ok tau m o : (0 <= tau)%Q -> outcome_exact m o -> outcome_ok tau m o.
Proof.
  intros Ht. destruct o as [x z v b| | |]; simpl; try tauto.
  intros ((D & L & B & C) & Hv & Hb & Hd). repeat split; try assumption; try apply D; [|lra].
  eapply Forall_impl; [|exact C]. intros [a q|a [|q|]|a q M s|s a q|p r|s]; simpl; try tauto; intros; try lra.
Qed.

(** Monotonicity of subset costs. *)
Lemma cost_monotone I S T x z v b x' z' v' b' : incl T S ->
  outcome_exact (deter_model I S) (Solved x z v b) ->
  outcome_exact (deter_model I T) (Solved x' z' v' b') -> (v <= v')%Q.
Proof.
  intros Hi H1 H2. apply deter_exact in H1 as (F & Hv & _ & _). apply deter_exact in H2 as (_ & _ & _ & U).
  rewrite Hv. apply U. destruct F as [D F]. split; [exact D|]. intros s Hs. apply F, Hi, Hs.
Qed.
Lemma cost_infeasible_mono I S T : incl T S ->
  outcome_exact (deter_model I T) Infeasible -> forall x z, ~ model_ok 0 (deter_model I S) x z.
Proof.
  intros Hi H x z C. pose proof (deter_model_nil _ _ _ _ _ C) as ->. apply (H x []).
  apply deter_model_ok in C as [D F]. apply deter_model_ok. split; [exact D|].
  intros s Hs. apply F, Hi, Hs.
Qed.

(** ** Rows of a loaded partition *)
Lemma uniform_total_nz I p : wf_inst I -> valid_partition (i_k I) p ->
  ~ (qsum (map (min_proba (uniform (i_k I))) p) == 0)%Q.
Proof.
  intros HW Hp. assert (HF := vp_lt _ _ Hp).
  assert (Hk : 0 < i_k I) by apply HW. assert (HP := vp_pos _ _ Hk Hp).
  assert (Qk := Qn_pos _ Hk). assert (QP := Qn_pos _ HP).
  rewrite (total_uniform (i_k I) p HF). intro C.
  assert (0 < Qn (length p) * (1 / Qn (i_k I)))%Q; [|lra].
  apply Qmult_lt_0_compat; [assumption|]. apply Qlt_shift_div_l; lra.
Qed.

Lemma view_subset_sat I p V : wf_inst I -> valid_partition (i_k I) p ->
  load_partition I (uniform (i_k I)) (length p) p = Ok V ->
  forall tau x c, c < length p ->
  (subset_sat I tau x (nth c p []) <->
   forall j, j < v_m V c -> (dot (v_row V c j) x <= v_rhs V c j + tau)%Q).
Proof.
  intros HW Hp HL tau x c Hc.
  destruct (load_partition_rows I (uniform (i_k I)) p V HW) as [_ H]; try assumption.
  - apply repeat_length.
  - exact (vp_lt _ _ Hp).
  - now apply uniform_total_nz.
  - symmetry. apply (H c Hc).
Qed.

Lemma view_data I p V : wf_inst I -> valid_partition (i_k I) p ->
  load_partition I (uniform (i_k I)) (length p) p = Ok V ->
  v_n V = i_n I /\ v_cont V = i_cont I /\ v_c V = i_c I /\ v_k V = length p.
Proof.
  intros HW Hp HL. rewrite load_partition_ok in HL; try assumption.
  - injection HL as <-. auto.
  - apply repeat_length.
  - exact (vp_lt _ _ Hp).
  - now apply uniform_total_nz.
Qed.
