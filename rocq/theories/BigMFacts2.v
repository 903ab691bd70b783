(** Naive, Belotti and Song big M's; equivalence of the two CCLP models. *)
From Verif Require Import Base BaseFacts Spec Instance InstanceFacts PartitionFacts OptModels OptFacts
  BoundsFacts CostRefineFacts Knapsack KnapsackFacts Violations ViolationsFacts ViolTable BigM BigMFacts.

(** The two kinds of instances handed to the models. *)
Definition is_view (I : inst) (V : view) : Prop :=
  (exists proba, V = view_inst I proba) \/
  (exists p, valid_partition (i_k I) p /\ load_partition I (uniform (i_k I)) (length p) p = Ok V).

(** Big M's valid on a set of points. *)
Definition bigM_valid (V : view) (Ms : list (list Q)) (R : list Q -> Prop) : Prop :=
  forall x s i, R x -> s < v_k V -> i < v_m V s ->
  (dot (v_row V s i) x - v_rhs V s i <= nth i (nth s Ms []) 0)%Q.

(** One big M per constraint. *)
Definition bigM_shape (V : view) {A} (Ms : list (list A)) : Prop :=
  length Ms = v_k V /\ forall s, s < v_k V -> length (nth s Ms []) = v_m V s.

Lemma view_rows_of I V : wf_inst I -> is_view I V ->
  v_n V = i_n I /\ v_cont V = i_cont I /\ v_c V = i_c I /\ 
  forall s i, s < v_k V -> i < v_m V s ->
    exists t l, t < i_k I /\ l < i_m I /\ v_row V s i = row I t l /\ v_rhs V s i = rhs I t l.
Proof.
  intros HW [(proba & ->)|(p & Hp & HL)].
  - repeat (split; [reflexivity|]). intros s i Hs Hi. exists s, i. cbn in Hs. split; [assumption|].
    destruct HW as (_ & _ & L & F & _). rewrite Forall_forall in F. unfold v_m in Hi. cbn [v_A view_inst] in Hi.
    destruct (F (nth s (i_A I) [])) as [L1 F1]; [apply nth_In; lia|]. split; [lia|]. split; reflexivity.
  - destruct (view_data I p V HW Hp HL) as (E1 & E2 & E3 & E4).
    split; [assumption|]. split; [assumption|]. split; [assumption|]. intros s i Hs Hi.
    destruct (load_partition_rows I (uniform (i_k I)) p V HW) as [_ H]; try assumption.
    + apply repeat_length.
    + exact (vp_lt _ _ Hp).
    + now apply uniform_total_nz.
    + rewrite E4 in Hs. destruct (H s Hs) as (M1 & _ & M3 & _). destruct (M3 i Hi) as [R1 R2].
      assert (P0 : 0 < i_m I) by (destruct (i_m I); lia).
      assert (J : i / i_m I < length (nth s p [])) by (apply Nat.div_lt_upper_bound; lia).
      exists (nth (i / i_m I) (nth s p []) 0), (i mod i_m I).
      split; [|split; [apply Nat.mod_upper_bound; lia|now split]].
      assert (F := vp_lt _ _ Hp). rewrite Forall_forall in F. destruct (F (nth s p [])) as [_ F2]; [now apply nth_In|].
      rewrite Forall_forall in F2. apply F2. now apply nth_In.
Qed.

Lemma view_row_facts I V : wf_inst I -> packing I -> is_view I V ->
  forall s i, s < v_k V -> i < v_m V s ->
  length (v_row V s i) = i_n I /\ nonneg (v_row V s i) /\ (0 <= v_rhs V s i)%Q.
Proof.
  intros HW HP HV s i Hs Hi. destruct (view_rows_of I V HW HV) as (_ & _ & _ & H).
  destruct (H s i Hs Hi) as (t & l & Ht & Hl & -> & ->).
  split; [now apply wf_row|]. split; [now apply pk_row|now apply pk_rhs].
Qed.

(** ** C29 *)
Lemma box_max_naive r d : nonneg r -> box_max r d (qsum r - d).
Proof.
  intro HN. split.
  - exists (repeat 1%Q (length r)). split; [|rewrite dot_repeat1; reflexivity].
    split; [apply repeat_length|]. apply Forall_forall. intros q Hq. apply repeat_spec in Hq. subst q. lra.
  - intros x [XL XF]. assert (dot r x <= qsum r)%Q; [|lra].
    revert x XL XF. induction HN as [|a r Ha HN IH]; intros [|y x] XL XF; simpl in XL; try lia; cbn [dot qsum]; try lra.
    inversion XF as [|? ? Hy XF']; subst. specialize (IH x ltac:(lia) XF').
    assert (0 <= a * (1 - y))%Q by (apply Qmult_le_0_compat; lra). lra.
Qed.

Lemma naive_nth V nb s i : s < nb -> i < v_m V s ->
  nth i (nth s (naive_all V nb) []) 0%Q = (qsum (v_row V s i) - v_rhs V s i)%Q.
Proof.
  intros Hs Hi. unfold naive_all. rewrite (nth_indep _ [] (naive_bigM V 0)) by (rewrite map_length, seq_length; lia).
  rewrite map_nth, seq_nth by lia. unfold naive_bigM. cbn [plus].
  set (f := fun i => (qsum (v_row V s i) - v_rhs V s i)%Q).
  rewrite (nth_indep _ 0%Q (f 0)) by (rewrite map_length, seq_length; lia).
  rewrite map_nth, seq_nth by lia. reflexivity.
Qed.
Lemma naive_shape V : bigM_shape V (naive_all V (v_k V)).
Proof.
  unfold naive_all. split; [now rewrite map_length, seq_length|]. intros s Hs.
  rewrite (nth_indep _ [] (naive_bigM V 0)) by (rewrite map_length, seq_length; lia).
  rewrite map_nth, seq_nth by lia. unfold naive_bigM. now rewrite map_length, seq_length.
Qed.

Lemma naive_max I V : wf_inst I -> packing I -> is_view I V ->
  bigM_shape V (naive_all V (v_k V)) /\
  forall s i, s < v_k V -> i < v_m V s ->
  box_max (v_row V s i) (v_rhs V s i) (nth i (nth s (naive_all V (v_k V)) []) 0%Q).
Proof.
  intros HW HP HV. split; [apply naive_shape|]. intros s i Hs Hi. rewrite naive_nth by assumption.
  apply box_max_naive. now apply (view_row_facts I V HW HP HV).
Qed.

(** Every point of the box is allowed by naive big M's. *)
Lemma naive_valid I V : wf_inst I -> packing I -> is_view I V ->
  bigM_valid V (naive_all V (v_k V)) (in_box (i_n I)).
Proof.
  intros HW HP HV x s i Hx Hs Hi. destruct (naive_max I V HW HP HV) as [_ H]. destruct (H s i Hs Hi) as [_ U].
  apply U. now rewrite (proj1 (view_row_facts I V HW HP HV s i Hs Hi)).
Qed.

(** ** C36 *)
Lemma rmap_Forall {A B} (f : A -> res B) l l' : rmap f l = Ok l' -> Forall2 (fun a b => f a = Ok b) l l'.
Proof.
  revert l'. induction l as [|a l IH]; intros l' H; simpl in H.
  - injection H as <-. constructor.
  - destruct (f a) as [b|] eqn:E; cbn [rbind] in H; [|discriminate].
    destruct (rmap f l) as [bs|]; cbn [rbind] in H; [|discriminate]. injection H as <-. constructor; auto.
Qed.
Lemma Forall_concat {A} (P : A -> Prop) ll : Forall P (concat ll) <-> Forall (Forall P) ll.
Proof.
  induction ll as [|l ll IH]; simpl; [split; constructor|]. rewrite Forall_app, Forall_cons_iff, IH. reflexivity.
Qed.
Lemma Forall2_iff {A B} (R : A -> B -> Prop) (P : A -> Prop) (P' : B -> Prop) l l' :
  Forall2 R l l' -> (forall a b, In a l -> R a b -> (P a <-> P' b)) -> (Forall P l <-> Forall P' l').
Proof.
  induction 1 as [|a b l l' H HF IH]; intro HI; [split; constructor|].
  rewrite !Forall_cons_iff, (HI a b (or_introl eq_refl) H), IH; [reflexivity|]. intros; apply HI; [now right|assumption].
Qed.

Lemma bigM_rows_equiv V Ms tau x z s M rows : (0 <= tau)%Q -> is_bin z ->
  (forall i, i < v_m V s -> (dot (v_row V s i) x - v_rhs V s i <= nth i M 0)%Q) ->
  nth s Ms [] = M -> big_m_rows V s M = Ok rows -> s < length z ->
  (Forall (cstr_ok tau x z) rows <->
   Forall (cstr_ok tau x z) (map (fun i => CInd s (v_row V s i) (v_rhs V s i)) (seq 0 (v_m V s)))).
Proof.
  intros HT HZ HV _ HR Hz. unfold big_m_rows in HR.
  destruct (rmap _ _) as [rr|] eqn:E; cbn [rbind] in HR; [|discriminate]. injection HR as <-.
  apply rmap_Forall in E. rewrite Forall_concat, Forall_map_iff. symmetry. eapply Forall2_iff; [exact E|].
  intros i r Hi Hr. apply in_seq in Hi. cbv beta in Hr. destruct (geti M i) as [q|] eqn:EG; cbn [rbind] in Hr; [|discriminate].
  apply (geti_inv _ _ _ 0%Q) in EG. destruct EG as [_ EG]. specialize (HV i ltac:(lia)). rewrite EG in HV.
  assert (Z : (nth s z 0 == 0 \/ nth s z 0 == 1)%Q).
  { unfold is_bin in HZ. rewrite Forall_forall in HZ. apply HZ. now apply nth_In. }
  destruct (Qle_bool big_m_threshold q) eqn:EQ.
  - injection Hr as <-. rewrite Forall_cons_iff. cbn [cstr_ok]. destruct Z as [Z|Z].
    + split; [intros _; split; [|constructor]|intros _ H1; lra]. rewrite Z. lra.
    + split; [intro H; split; [|constructor]; specialize (H Z); rewrite Z; lra|intros [H _] _; rewrite Z in H; lra].
  - apply Qle_bool_false in EQ. unfold big_m_threshold in EQ. cbn [cstr_ok].
    destruct (all_continuous V); injection Hr as <-.
    + split; [constructor|]. intros _ _. lra.
    + rewrite Forall_cons_iff. cbn [cstr_ok]. split; [intros _; split; [lra|constructor]|intros _ _; lra].
Qed.

Lemma bigM_equiv V Ms Ms' lz st pr g t m1 m0 tau x z : (0 <= tau)%Q ->
  (forall s i, s < v_k V -> i < v_m V s -> (dot (v_row V s i) x - v_rhs V s i <= nth i (nth s Ms []) 0)%Q) ->
  cclp_model V true lz Ms st pr g t = Ok m1 -> cclp_model V false lz Ms' st pr g t = Ok m0 ->
  (model_ok tau m1 x z <-> model_ok tau m0 x z).
Proof.
  intros HT HV H1 H0.
  apply cclp_shape in H1 as (r1 & E1 & -> & _). apply cclp_shape in H0 as (r0 & E0 & -> & _). injection E0 as <-.
  unfold model_ok; cbn [m_n m_cont m_nz m_cstrs].
  rewrite !Forall_app.
  assert (EQ : length z = v_k V -> is_bin z -> (Forall (cstr_ok tau x z) r1 <-> Forall (cstr_ok tau x z) (all_indicator_rows V))).
  { intros LZ BZ. unfold all_big_m_rows in E1. destruct (rmap _ _) as [rr|] eqn:E; cbn [rbind] in E1; [|discriminate].
    injection E1 as <-. apply rmap_Forall in E. unfold all_indicator_rows.
    rewrite Forall_concat, Forall_flat_map. symmetry. eapply Forall2_iff; [exact E|].
    intros s r Hs Hr. apply in_seq in Hs. cbv beta in Hr. destruct (geti Ms s) as [M|] eqn:EG; cbn [rbind] in Hr; [|discriminate].
    apply (geti_inv _ _ _ []) in EG. destruct EG as [_ EG]. symmetry.
    apply (bigM_rows_equiv V Ms tau x z s M r); auto; [|lia].
    intros i Hi. rewrite <- EG. apply HV; [lia|assumption]. }
  split; intros (D & L & B & R & C); (split; [assumption|split; [assumption|split; [assumption|split; [|assumption]]]]); now apply EQ.
Qed.

(** Building the model succeeds when there is one big M per constraint. *)
Lemma bigM_builds V Ms Ms' lz st pr g t m0 : bigM_shape V Ms ->
  cclp_model V false lz Ms' st pr g t = Ok m0 -> exists m1, cclp_model V true lz Ms st pr g t = Ok m1.
Proof.
  intros [SL SR] H. unfold cclp_model in *. destruct (negb _); [discriminate|]. cbn [rbind] in *.
  assert (E : exists rows, all_big_m_rows V Ms = Ok rows).
  { unfold all_big_m_rows.
    set (g1 := fun s i => let M := nth i (nth s Ms []) 0%Q in
       if Qle_bool big_m_threshold M then [CBigM (v_row V s i) (v_rhs V s i) M s]
       else if all_continuous V then [] else [CLe (v_row V s i) (v_rhs V s i + M)%Q]).
    rewrite (rmap_ok _ (fun s => concat (map (g1 s) (seq 0 (v_m V s))))); [cbn [rbind]; eauto|].
    intros s Hs. apply in_seq in Hs. rewrite (geti_ok _ _ []) by lia. cbn [rbind]. unfold big_m_rows.
    rewrite (rmap_ok _ (g1 s)); [reflexivity|]. intros i Hi. apply in_seq in Hi.
    rewrite (geti_ok _ _ 0%Q) by (rewrite SR; lia). cbn [rbind]. unfold g1.
    destruct (Qle_bool _ _); [reflexivity|]. destruct (all_continuous V); reflexivity. }
  destruct E as (rows & ->). cbn [rbind]. destruct (negb (forallb (fun s => s <? v_k V) pr)); [discriminate|]. eauto.
Qed.

(** ** C31 *)
Lemma map_nth_lt {A B} (f : A -> B) l d d' i : i < length l -> nth i (map f l) d' = f (nth i l d).
Proof. intro H. rewrite (nth_indep _ d' (f d)) by (now rewrite map_length). apply map_nth. Qed.

Lemma rmap2_exists {B} (f : nat -> nat -> res B) (P : nat -> nat -> B -> Prop) (w : nat -> nat) nb d :
  (forall s i, s < nb -> i < w s -> exists v, f s i = Ok v /\ P s i v) ->
  exists T, rmap (fun s => rmap (f s) (seq 0 (w s))) (seq 0 nb) = Ok T /\ length T = nb /\
    (forall s, s < nb -> length (nth s T []) = w s) /\
    (forall s i, s < nb -> i < w s -> P s i (nth i (nth s T []) d)).
Proof.
  intro H. set (g := fun s i => match f s i with Ok v => v | Err _ => d end).
  exists (map (fun s => map (g s) (seq 0 (w s))) (seq 0 nb)). split; [|split; [|split]].
  - apply rmap_ok. intros s Hs. apply rmap_ok. intros i Hi. apply in_seq in Hs, Hi.
    destruct (H s i) as (v & E & _); [lia..|]. unfold g. now rewrite E.
  - now rewrite map_length, seq_length.
  - intros s Hs. rewrite (map_nth_lt _ _ 0) by (rewrite seq_length; lia). rewrite map_length, !seq_length.
    now rewrite seq_nth by lia.
  - intros s i Hs Hi. rewrite (map_nth_lt _ _ 0) by (rewrite seq_length; lia). rewrite seq_nth by lia. cbn [plus].
    rewrite (map_nth_lt _ _ 0) by (rewrite seq_length; lia). rewrite seq_nth by lia. cbn [plus].
    destruct (H s i Hs Hi) as (v & E & HP). unfold g. now rewrite E.
Qed.

Lemma belotti_continuous argsort solve I V vUB t : argsort_ok argsort -> wf_inst I -> packing I -> is_view I V ->
  i_cont I = true -> ext_leb (Fin 0) vUB = true ->
  exists Ms, belotti_all argsort solve V vUB (v_k V) t = (Ok Ms, t) /\ bigM_shape V Ms /\
  forall s i, s < v_k V -> i < v_m V s ->
    knap_max (v_row V s i) (v_rhs V s i) (i_c I) vUB (nth i (nth s Ms []) 0%Q) /\
    (nth i (nth s Ms []) 0 <= nth i (nth s (naive_all V (v_k V)) []) 0)%Q.
Proof.
  intros HA HW HP HV HC HU. destruct (view_rows_of I V HW HV) as (E1 & E2 & E3 & _).
  unfold belotti_all, integer_vars. rewrite E2, HC. cbn [negb andb].
  destruct (rmap2_exists (fun s i => belotti_cont argsort V s i vUB)
     (fun s i v => knap_max (v_row V s i) (v_rhs V s i) (i_c I) vUB v) (v_m V) (v_k V) 0%Q) as (T & ET & L1 & L2 & HT).
  { intros s i Hs Hi. destruct (view_row_facts I V HW HP HV s i Hs Hi) as (F1 & F2 & _).
    unfold belotti_cont. rewrite E3. apply knapsack_exact; auto.
    - rewrite F1. apply HW.
    - apply HP.
    - apply nonneg_F2; [rewrite F1; apply HW|assumption]. }
  exists T. rewrite ET. split; [reflexivity|]. split; [split; assumption|]. intros s i Hs Hi. split; [now apply HT|].
  destruct (HT s i Hs Hi) as [(x & X1 & _ & X3) _]. destruct (naive_max I V HW HP HV) as [_ N]. destruct (N s i Hs Hi) as [_ U].
  specialize (U x X1). lra.
Qed.

Lemma knapsack_model_ok V vUB s i tau x : model_ok tau (big_m_knapsack_model V vUB s i) x [] <->
  dom (v_n V) (v_cont V) x /\
  match vUB with Fin v => (dot (v_c V) x <= v + tau)%Q | PInf => True | NInf => False end.
Proof.
  unfold model_ok, big_m_knapsack_model; cbn [m_n m_cont m_nz m_cstrs]. destruct vUB; split.
  - intros (_ & _ & _ & F). inversion F; subst. contradiction.
  - tauto.
  - intros (D & _ & _ & F). inversion F; subst. split; [assumption|]. exact H1.
  - intros (D & F). split; [assumption|]. split; [reflexivity|]. split; [constructor|]. constructor; [exact F|constructor].
  - tauto.
  - intros (D & _). split; [assumption|]. split; [reflexivity|]. split; constructor.
Qed.

Section Mip.
  Variables (solve : nat -> model -> outcome) (V : view) (vUB : ext).

  Lemma belotti_row_spec (P : nat -> nat -> Q -> Prop) s :
    (forall t i b, belotti_mip (solve t (big_m_knapsack_model V vUB s i)) = Ok b -> P s i b) ->
    forall l t r t', belotti_row solve V vUB s l t = (Ok r, t') -> Forall2 (fun i b => P s i b) l r.
  Proof.
    intro HP. induction l as [|i l IH]; intros t r t' H; cbn [belotti_row] in H.
    - injection H as <- _. constructor.
    - destruct (belotti_mip _) as [b|] eqn:E; [|discriminate].
      destruct (belotti_row solve V vUB s l (S t)) as [rr t1] eqn:E2.
      destruct rr as [bs|]; cbn [rbind] in H; [|discriminate]. injection H as <- _.
      constructor; [now apply (HP t)|]. eapply IH. exact E2.
  Qed.
  Lemma belotti_rows_spec (P : nat -> nat -> Q -> Prop) :
    (forall t s i b, belotti_mip (solve t (big_m_knapsack_model V vUB s i)) = Ok b -> P s i b) ->
    forall l t r t', belotti_rows solve V vUB l t = (Ok r, t') ->
      Forall2 (fun s row => Forall2 (fun i b => P s i b) (seq 0 (v_m V s)) row) l r.
  Proof.
    intro HP. induction l as [|s l IH]; intros t r t' H; cbn [belotti_rows] in H.
    - injection H as <- _. constructor.
    - destruct (belotti_row solve V vUB s _ t) as [rr t1] eqn:E. destruct rr as [row|]; [|discriminate].
      destruct (belotti_rows solve V vUB l t1) as [rs t2] eqn:E2.
      destruct rs as [rs'|]; cbn [rbind] in H; [|discriminate]. injection H as <- _.
      constructor; [|eapply IH; exact E2]. eapply belotti_row_spec; [|exact E]. intros; eapply HP; eassumption.
  Qed.
  Lemma belotti_row_total s l : (forall t i, exists b, belotti_mip (solve t (big_m_knapsack_model V vUB s i)) = Ok b) ->
    forall t, exists r, belotti_row solve V vUB s l t = (Ok r, t + length l).
  Proof.
    intro H. induction l as [|i l IH]; intro t; cbn [belotti_row length].
    - exists []. f_equal. lia.
    - destruct (H t i) as (b & ->). destruct (IH (S t)) as (r & ->). exists (b :: r). cbn [rbind]. f_equal. lia.
  Qed.
  Lemma belotti_rows_total l : (forall t s i, exists b, belotti_mip (solve t (big_m_knapsack_model V vUB s i)) = Ok b) ->
    forall t, exists r t', belotti_rows solve V vUB l t = (Ok r, t').
  Proof.
    intro H. induction l as [|s l IH]; intro t; cbn [belotti_rows].
    - eauto.
    - destruct (belotti_row_total s (seq 0 (v_m V s)) (fun t i => H t s i) t) as (r & ->).
      destruct (IH (t + length (seq 0 (v_m V s)))) as (rs & t' & ->). cbn [rbind]. eauto.
  Qed.
End Mip.

Lemma Forall2_nth {A B} (R : A -> B -> Prop) l l' d d' : Forall2 R l l' ->
  length l = length l' /\ forall i, i < length l -> R (nth i l d) (nth i l' d').
Proof.
  induction 1 as [|a b l l' H HF [IL IH]]; [split; [reflexivity|simpl; lia]|].
  split; [simpl; lia|]. intros [|i] Hi; simpl in *; [assumption|]. apply IH. lia.
Qed.
Lemma rows_Forall2 (P : nat -> nat -> Q -> Prop) w nb r :
  Forall2 (fun s row => Forall2 (fun i b => P s i b) (seq 0 (w s)) row) (seq 0 nb) r ->
  length r = nb /\ (forall s, s < nb -> length (nth s r []) = w s) /\
  forall s i, s < nb -> i < w s -> P s i (nth i (nth s r []) 0%Q).
Proof.
  intro H. destruct (Forall2_nth _ _ _ 0 [] H) as [L1 H1]. rewrite seq_length in *.
  split; [lia|]. split.
  - intros s Hs. specialize (H1 s Hs). rewrite seq_nth in H1 by lia. destruct (Forall2_nth _ _ _ 0 0%Q H1) as [L2 _].
    rewrite seq_length in L2. cbn in L2. lia.
  - intros s i Hs Hi. specialize (H1 s Hs). rewrite seq_nth in H1 by lia. destruct (Forall2_nth _ _ _ 0 0%Q H1) as [L2 H2].
    rewrite seq_length in *. cbn [plus] in *. specialize (H2 i Hi). now rewrite seq_nth in H2 by lia.
Qed.

(** Any kind of variables, any solver that meets its specification: the big M's are valid. *)
Lemma belotti_valid tau argsort solve I V vUB t Ms t' : argsort_ok argsort -> wf_inst I -> packing I -> is_view I V ->
  ext_leb (Fin 0) vUB = true -> (forall t m, outcome_ok tau m (solve t m)) ->
  belotti_all argsort solve V vUB (v_k V) t = (Ok Ms, t') ->
  bigM_shape V Ms /\
  bigM_valid V Ms (fun x => in_dom I x /\ ext_leb (Fin (obj I x)) vUB = true).
Proof.
  intros HA HW HP HV HU HO H. destruct (view_rows_of I V HW HV) as (E1 & E2 & E3 & _).
  destruct (integer_vars V) eqn:EI.
  - assert (H' := H). unfold belotti_all in H. rewrite EI in H.
    set (P := fun s i b => forall x, in_dom I x -> ext_leb (Fin (obj I x)) vUB = true -> (dot (v_row V s i) x - v_rhs V s i <= b)%Q).
    apply (belotti_rows_spec solve V vUB P) in H.
    + apply rows_Forall2 in H. destruct H as (L1 & L2 & H3). split; [split; assumption|].
      intros x s i [X1 X2] Hs Hi. now apply H3.
    + intros t0 s i b E x X1 X2. unfold belotti_mip in E. specialize (HO t0 (big_m_knapsack_model V vUB s i)).
      destruct (solve t0 _) as [y z v b'| | |]; cbn in E; try discriminate. injection E as <-.
      destruct HO as (_ & _ & _ & HB). specialize (HB x []).
      assert (M : model_ok 0 (big_m_knapsack_model V vUB s i) x []).
      { apply knapsack_model_ok. rewrite E1, E2, E3. split; [exact X1|]. destruct vUB; cbn in X2; try congruence; auto.
        apply Qle_bool_iff in X2. unfold obj in X2. lra. }
      specialize (HB M). unfold m_val in HB. cbn [m_obj m_const big_m_knapsack_model] in HB. lra.
  - unfold belotti_all in H. rewrite EI in H.
    destruct (rmap2_exists (fun s i => belotti_cont argsort V s i vUB)
     (fun s i v => knap_max (v_row V s i) (v_rhs V s i) (i_c I) vUB v) (v_m V) (v_k V) 0%Q) as (T & ET & L1 & L2 & HT).
    { intros s i Hs Hi. destruct (view_row_facts I V HW HP HV s i Hs Hi) as (F1 & F2 & _).
      unfold belotti_cont. rewrite E3. apply knapsack_exact; auto.
      - rewrite F1. apply HW.
      - apply HP.
      - apply nonneg_F2; [rewrite F1; apply HW|assumption]. }
    rewrite ET in H. injection H as <- _. split; [split; assumption|].
    intros x s i [X1 X2] Hs Hi. destruct (HT s i Hs Hi) as [_ U]. apply U; [|exact X2].
    rewrite (proj1 (view_row_facts I V HW HP HV s i Hs Hi)). apply X1.
Qed.

Lemma zero_point n : in_box n (repeat 0%Q n) /\ is_bin (repeat 0%Q n).
Proof.
  split; [split; [apply repeat_length|]|]; apply Forall_forall; intros q Hq; apply repeat_spec in Hq; subst q.
  - lra.
  - left. reflexivity.
Qed.

(** Exact solver, binary variables: the big M's are the exact maxima over the binary points. *)
Lemma belotti_binary argsort solve I V vUB t : wf_inst I -> packing I -> is_view I V ->
  i_cont I = false -> 0 < i_n I -> ext_leb (Fin 0) vUB = true -> (forall t m, m_cont m = false -> outcome_exact m (solve t m)) ->
  exists Ms t', belotti_all argsort solve V vUB (v_k V) t = (Ok Ms, t') /\ bigM_shape V Ms /\
  forall s i, s < v_k V -> i < v_m V s ->
    (exists x, in_dom I x /\ ext_leb (Fin (obj I x)) vUB = true /\
       (dot (v_row V s i) x - v_rhs V s i == nth i (nth s Ms []) 0)%Q) /\
    (forall x, in_dom I x -> ext_leb (Fin (obj I x)) vUB = true ->
       (dot (v_row V s i) x - v_rhs V s i <= nth i (nth s Ms []) 0)%Q) /\
    (nth i (nth s Ms []) 0 <= nth i (nth s (naive_all V (v_k V)) []) 0)%Q.
Proof.
  intros HW HP HV HC Hn HU HO'. destruct (view_rows_of I V HW HV) as (E1 & E2 & E3 & _).
  assert (HO : forall t s i, outcome_exact (big_m_knapsack_model V vUB s i) (solve t (big_m_knapsack_model V vUB s i))).
  { intros. apply HO'. cbn [m_cont big_m_knapsack_model]. now rewrite E2. }
  assert (EI : integer_vars V = true).
  { unfold integer_vars. rewrite E2, E1, HC. cbn [negb andb]. now apply Nat.ltb_lt. }
  unfold belotti_all. rewrite EI.
  assert (FE : forall s i tau x, model_ok tau (big_m_knapsack_model V vUB s i) x [] <-> in_dom I x /\
     match vUB with Fin v => (obj I x <= v + tau)%Q | PInf => True | NInf => False end).
  { intros. rewrite knapsack_model_ok, E1, E2, E3. reflexivity. }
  assert (TOT : forall t s i, exists b, belotti_mip (solve t (big_m_knapsack_model V vUB s i)) = Ok b).
  { intros t0 s i. specialize (HO t0 s i). unfold belotti_mip.
    destruct (solve t0 _) as [y z v b'| | |]; cbn; eauto; [|contradiction|contradiction].
    exfalso. apply (HO (repeat 0%Q (i_n I)) []). apply FE. destruct (zero_point (i_n I)) as [Z1 Z2].
    split; [split; auto|]. unfold obj. destruct vUB; cbn in HU; try congruence; auto. apply Qle_bool_iff in HU. rewrite dot_repeat0. lra. }
  destruct (belotti_rows_total solve V vUB (seq 0 (v_k V)) TOT t) as (Ms & t' & E). exists Ms, t'. split; [assumption|].
  set (P := fun s i b => (exists x, in_dom I x /\ ext_leb (Fin (obj I x)) vUB = true /\
       (dot (v_row V s i) x - v_rhs V s i == b)%Q) /\
    (forall x, in_dom I x -> ext_leb (Fin (obj I x)) vUB = true -> (dot (v_row V s i) x - v_rhs V s i <= b)%Q)).
  apply (belotti_rows_spec solve V vUB P) in E.
  - apply rows_Forall2 in E. destruct E as (L1 & L2 & H3). split; [split; assumption|].
    intros s i Hs Hi. destruct (H3 s i Hs Hi) as [PA PB]. split; [assumption|]. split; [assumption|].
    destruct PA as (x & X1 & _ & X3). assert (NV := naive_valid I V HW HP HV x s i (proj1 X1) Hs Hi). lra.
  - intros t0 s i b EB. unfold belotti_mip in EB. specialize (HO t0 s i).
    destruct (solve t0 _) as [y z v b'| | |]; cbn in EB; try discriminate. injection EB as <-.
    destruct HO as (HM & HVl & HE & HB).
    assert (z = []) by (destruct HM as (_ & L & _); cbn in L; now apply length_zero_iff_nil). subst z.
    apply FE in HM. destruct HM as [D1 D2]. unfold m_val in *. cbn [m_obj m_const big_m_knapsack_model] in *. split.
    + exists y. split; [assumption|]. split; [|lra]. destruct vUB; try tauto. cbn. apply Qle_bool_iff. lra.
    + intros x X1 X2. specialize (HB x []). rewrite FE in HB.
      assert (dot (v_row V s i) x + - v_rhs V s i <= b')%Q; [apply HB; split; [assumption|]|lra].
      destruct vUB; cbn in X2; try congruence; auto. apply Qle_bool_iff in X2. lra.
Qed.
