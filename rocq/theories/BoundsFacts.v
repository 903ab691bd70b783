(** Facts on the bounding components. *)
From Verif Require Import Base BaseFacts Spec Instance InstanceFacts PartitionFacts OptModels OptFacts
  Initial Bounds InitialFacts.

(** ** argmax and the first iteration *)
Lemma argmax_aux_spec l : forall pre best v,
  best < length pre -> nth best pre 0%Q = v ->
  (forall j, j < length pre -> (nth j pre 0 <= v)%Q) ->
  let r := argmax_aux l (length pre) best v in
  r < length (pre ++ l) /\
  (forall j, j < length (pre ++ l) -> (nth j (pre ++ l) 0 <= nth r (pre ++ l) 0)%Q).
Proof.
  induction l as [|a l IH]; intros pre best v Hb Hv Hmax; simpl.
  - rewrite app_nil_r. split; [assumption|]. intros j Hj. rewrite Hv. auto.
  - replace (pre ++ a :: l) with ((pre ++ [a]) ++ l) by (rewrite <- app_assoc; reflexivity).
    assert (HS : S (length pre) = length (pre ++ [a])) by (rewrite app_length; simpl; lia).
    destruct (Qlt_bool v a) eqn:E; qb; rewrite HS; apply IH.
    + rewrite <- HS; lia.
    + rewrite app_nth2, Nat.sub_diag by lia. reflexivity.
    + intros j Hj. rewrite <- HS in Hj. destruct (Nat.eq_dec j (length pre)) as [->|].
      * rewrite app_nth2, Nat.sub_diag by lia. simpl. lra.
      * rewrite app_nth1 by lia. specialize (Hmax j ltac:(lia)). lra.
    + rewrite <- HS; lia.
    + rewrite app_nth1 by lia. assumption.
    + intros j Hj. rewrite <- HS in Hj. destruct (Nat.eq_dec j (length pre)) as [->|].
      * rewrite app_nth2, Nat.sub_diag by lia. simpl. lra.
      * rewrite app_nth1 by lia. apply Hmax; lia.
Qed.

Lemma argmax_spec l c : argmax l = Ok c ->
  c < length l /\ forall j, j < length l -> (nth j l 0 <= nth c l 0)%Q.
Proof.
  destruct l as [|a l]; simpl; [discriminate|]. intro H; injection H as <-.
  apply (argmax_aux_spec l [a] 0 a); simpl; [lia|reflexivity|].
  intros j Hj. destruct j; [lra|lia].
Qed.

Lemma nunsat_le_pred I tau x p c : c < length p -> subset_satb I tau x (nth c p []) = true ->
  nunsat I tau x p <= length p - 1.
Proof.
  intros Hc Hs. unfold nunsat.
  pose proof (count_negb (fun S => subset_satb I tau x S) p) as N.
  assert (0 < count (fun S => subset_satb I tau x S) p).
  { apply count_pos. exists (nth c p []). split; [now apply nth_In|assumption]. }
  lia.
Qed.

Lemma count_exists_false {A} (f : A -> bool) l : count (fun a => negb (f a)) l < length l ->
  exists a, In a l /\ f a = true.
Proof.
  intro H. apply count_pos. pose proof (count_negb f l). lia.
Qed.

Lemma tolerated_le I n : (0 <= i_eps I)%Q -> ((Qn n <= i_eps I * Qn (i_k I))%Q <-> n <= tolerated I).
Proof.
  intro He. unfold tolerated. rewrite le_floor. split; [tauto|].
  intro H; split; [|assumption]. apply Qmult_le_0_compat; [assumption|apply Qn_nonneg].
Qed.

Lemma first_iteration I tau p costs sols x z v b :
  (0 <= i_eps I)%Q -> length p = tolerated I + 1 ->
  length costs = length p -> length sols = length p ->
  (forall c, c < length p -> det_feasible I (nth c p []) tau (nth c sols []) /\
                             (obj I (nth c sols []) == nth c costs 0)%Q) ->
  (forall c y, c < length p -> det_feasible I (nth c p []) 0 y -> (obj I y <= nth c costs 0)%Q) ->
  first_iteration_bound costs sols = Ok (x, z, v, b) ->
  part_feasible I p tau x /\ (obj I x == v)%Q /\ b = v /\
  (forall y, part_feasible I p 0 y -> (obj I y <= v)%Q) /\
  length z = length p /\ is_bin z /\
  (forall c, c < length p -> (nth c z 0 == 1)%Q -> subset_sat I tau x (nth c p [])) /\
  (Qn (count (fun w => Qeq_bool w 0) z) <= i_eps I * Qn (i_k I))%Q.
Proof.
  intros He Hp HC HS Hsol Hdom H. unfold first_iteration_bound in H.
  destruct (argmax costs) as [c|] eqn:EA; cbn [rbind] in H; [|discriminate].
  apply argmax_spec in EA as [Hc Hmax].
  rewrite (geti_ok sols c []) in H by lia. cbn [rbind] in H.
  rewrite (geti_ok costs c 0%Q) in H by lia. cbn [rbind] in H. injection H as <- <- <- <-.
  destruct (Hsol c ltac:(lia)) as [HF HO].
  split; [|split; [assumption|split; [reflexivity|split; [|split; [|split; [|split]]]]]].
  - split; [apply HF|]. apply tolerated_le; [assumption|].
    assert (nunsat I tau (nth c sols []) p <= length p - 1); [|lia].
    eapply nunsat_le_pred; [rewrite <- HC; eassumption|]. apply subset_satb_iff, HF.
  - intros y [Dy Hy]. apply tolerated_le in Hy; [|assumption].
    destruct (count_exists_false (subset_satb I 0 y) p) as (S & HIn & HSat).
    { unfold nunsat in Hy. lia. }
    apply In_nth with (d := []) in HIn as (d & Hd & <-).
    eapply Qle_trans; [apply (Hdom d); [assumption|split; [assumption|now apply subset_satb_iff]]|].
    apply Hmax. lia.
  - rewrite upd_length, repeat_length. assumption.
  - apply Forall_forall. intros w Hw. apply In_nth with (d := 0%Q) in Hw as (d & Hd & <-).
    rewrite upd_length, repeat_length in Hd.
    destruct (Nat.eq_dec c d) as [->|Hne].
    + rewrite nth_upd_eq by (now rewrite repeat_length). right. reflexivity.
    + rewrite nth_upd_neq, nth_repeat_lt by assumption. left. reflexivity.
  - intros d Hd Hz. destruct (Nat.eq_dec c d) as [->|Hne]; [apply HF|].
    rewrite nth_upd_neq, nth_repeat_lt in Hz by (assumption || lia). discriminate.
  - apply tolerated_le; [assumption|].
    assert (HL : length (repeat 0%Q (length costs)) = length costs) by apply repeat_length.
    destruct (upd_split c 1%Q (repeat 0%Q (length costs)) ltac:(lia)) as (u & w & d & E1 & E2 & E3).
    rewrite E3, count_app, count_cons. rewrite E1, app_length in HL. simpl in HL.
    replace (Qeq_bool 1 0) with false by reflexivity.
    pose proof (count_le (fun w => Qeq_bool w 0) u). pose proof (count_le (fun w => Qeq_bool w 0) w). lia.
Qed.

Lemma first_iteration_some costs sols : 0 < length costs -> length sols = length costs ->
  exists x z v, first_iteration_bound costs sols = Ok (x, z, v, v).
Proof.
  intros Hc Hs. unfold first_iteration_bound.
  destruct (argmax costs) as [c|e] eqn:EA.
  - apply argmax_spec in EA as [Hlt _]. cbn [rbind].
    rewrite (geti_ok sols c []) by lia. cbn [rbind]. rewrite (geti_ok costs c 0%Q) by lia.
    cbn [rbind]. eauto.
  - destruct costs; simpl in *; [lia|discriminate].
Qed.

(** Cost partition, first iteration (C12). *)
Lemma cost_start argsort I costs p s v pcosts sols :
  argsort_ok argsort -> 0 < i_k I -> (0 <= i_eps I)%Q -> length costs = i_k I ->
  tolerated I + 1 <= i_k I ->
  (forall t y, t < i_k I -> det_feasible I [t] 0 y -> (obj I y <= nth t costs 0)%Q) ->
  create_first_partition argsort [] costs (i_k I) (tolerated I + 1) InitCost = Ok p ->
  ahmed_bound argsort costs (uniform (i_k I)) (i_eps I) = Ok (Some (s, v)) ->
  length pcosts = length p -> length sols = length p ->
  (forall c, c < length p -> det_opt I (nth c p []) (nth c pcosts 0)%Q) ->
  Forall (fun w => w <= v)%Q pcosts /\
  forall x z vo vb, first_iteration_bound pcosts sols = Ok (x, z, vo, vb) -> (vo <= v /\ vb <= v)%Q.
Proof.
  intros HA Hk He HC Hn Hdom HCr HB Hlen Hlens Hopt.
  assert (HF : Forall (fun w => w <= v)%Q pcosts).
  { apply Forall_forall. intros w Hw. apply In_nth with (d := 0%Q) in Hw as (c & Hc & <-).
    destruct (cost_partition_below argsort I costs p s v HA Hk He HC Hn HCr HB (nth c p []))
      as (t & Ht & Htk & Hle).
    { apply nth_In. lia. }
    destruct (Hopt c ltac:(lia)) as [(x & [Dx Fx] & Ex) _]. rewrite <- Ex.
    eapply Qle_trans; [|exact Hle]. apply Hdom; [assumption|].
    split; [assumption|]. intros u [<-|[]]. now apply Fx. }
  split; [assumption|]. intros x z vo vb H. unfold first_iteration_bound in H.
  destruct (argmax pcosts) as [c|] eqn:EA; cbn [rbind] in H; [|discriminate].
  apply argmax_spec in EA as [Hc _].
  rewrite (geti_ok sols c []) in H by lia. cbn [rbind] in H.
  rewrite (geti_ok pcosts c 0%Q) in H by lia. cbn [rbind] in H. injection H as <- <- <- <-.
  rewrite Forall_forall in HF. split; apply HF; now apply nth_In.
Qed.

(** ** Pruning (C28) *)
Lemma prune_In costs vLB c : In c (prune_indices costs vLB) <->
  c < length costs /\ match vLB with Fin v => (nth c costs 0 <= v - (1 # 1000))%Q
                                | NInf => False | PInf => True end.
Proof.
  unfold prune_indices. rewrite filter_In, in_seq. destruct vLB as [|v|]; simpl.
  - split; [intros [_ H]; discriminate|tauto].
  - rewrite Qle_bool_iff. unfold Qminus. split; intros [H1 H2]; (split; [lia|]); exact H2.
  - split; intros [H1 _]; split; auto; lia.
Qed.

Lemma prune_sound I p costs v x z : length costs = length p -> in_dom I x -> length z = length p ->
  is_bin z ->
  (forall c y, c < length p -> det_feasible I (nth c p []) 0 y -> (obj I y <= nth c costs 0)%Q) ->
  (forall c, c < length p -> (nth c z 0 == 1)%Q -> subset_sat I 0 x (nth c p [])) ->
  (v - (1 # 1000) < obj I x)%Q ->
  forall c, In c (prune_indices costs (Fin v)) -> (nth c z 0 == 0)%Q.
Proof.
  intros HL Dx Hz Hb Hdom Hsat Hv c Hc. apply prune_In in Hc as [Hc Hcost].
  assert (Hbc : (nth c z 0 == 0 \/ nth c z 0 == 1)%Q).
  { unfold is_bin in Hb. rewrite Forall_forall in Hb. apply Hb, nth_In. lia. }
  destruct Hbc as [|H1]; [assumption|]. exfalso.
  assert (obj I x <= nth c costs 0)%Q.
  { apply Hdom; [lia|]. split; [assumption|]. apply Hsat; [lia|assumption]. }
  lra.
Qed.

(** Shape of a CCLP model. *)
Lemma cclp_shape V um lz bM st pr g t m : cclp_model V um lz bM st pr g t = Ok m ->
  exists rows, (if um then all_big_m_rows V bM else Ok (all_indicator_rows V)) = Ok rows /\
    m = mkModel (v_n V) (v_cont V) (v_k V) (v_c V) 0
               (rows ++ chance_row V :: map CFix0 pr) st (Some g) (Some t) lz /\
    Forall (fun s => s < v_k V) pr.
Proof.
  unfold cclp_model. destruct (negb _); [discriminate|].
  destruct (if um then _ else _) as [rows|]; cbn [rbind]; [|discriminate].
  destruct (negb (forallb (fun s => s <? v_k V) pr)) eqn:E; [discriminate|]. intro H; injection H as <-.
  exists rows. repeat split. apply negb_false_iff in E. rewrite forallb_forall in E.
  apply Forall_forall. intros s Hs. apply E in Hs. now apply Nat.ltb_lt.
Qed.

Lemma cclp_indicator_sat I p V lz bM st pr g t m tau x z :
  wf_inst I -> valid_partition (i_k I) p ->
  load_partition I (uniform (i_k I)) (length p) p = Ok V ->
  cclp_model V false lz bM st pr g t = Ok m -> model_ok tau m x z ->
  forall c, c < length p -> (nth c z 0 == 1)%Q -> subset_sat I tau x (nth c p []).
Proof.
  intros HW Hp HL HM (D & Lz & Bz & C) c Hc Hz.
  apply cclp_shape in HM as (rows & HR & -> & _). injection HR as <-. cbn [m_cstrs] in C.
  apply Forall_app in C as [C _]. unfold all_indicator_rows in C.
  rewrite Forall_flat_map, Forall_seq in C.
  destruct (view_data _ _ _ HW Hp HL) as (_ & _ & _ & Hk).
  specialize (C c ltac:(lia)). rewrite Forall_map_iff, Forall_seq in C.
  apply (view_subset_sat I p V HW Hp HL); [assumption|].
  intros j Hj. apply (C j); [lia|assumption].
Qed.

Lemma prune_model V um lz bM st pr g t m0 m1 x z :
  cclp_model V um lz bM st [] g t = Ok m0 -> cclp_model V um lz bM st pr g t = Ok m1 ->
  (model_ok 0 m1 x z <-> model_ok 0 m0 x z /\ forall c, In c pr -> (nth c z 0 == 0)%Q).
Proof.
  intros H0 H1. apply cclp_shape in H0 as (r0 & E0 & -> & _). apply cclp_shape in H1 as (r1 & E1 & -> & _).
  rewrite E0 in E1. injection E1 as <-. unfold model_ok; cbn [m_n m_cont m_nz m_cstrs].
  rewrite !Forall_app, !Forall_cons_iff, Forall_map_iff. simpl map. rewrite (Forall_forall _ pr).
  split.
  - intros (D & L & B & (R & Ch & F)). split; [|exact F]. repeat split; try apply D; auto.
  - intros ((D & L & B & (R & Ch & _)) & F). repeat split; try apply D; auto.
Qed.

Lemma prune_indicator I p V lz bM st costs v g t m0 m1 x z :
  wf_inst I -> valid_partition (i_k I) p ->
  load_partition I (uniform (i_k I)) (length p) p = Ok V ->
  length costs = length p ->
  (forall c y, c < length p -> det_feasible I (nth c p []) 0 y -> (obj I y <= nth c costs 0)%Q) ->
  cclp_model V false lz bM st [] g t = Ok m0 ->
  cclp_model V false lz bM st (prune_indices costs (Fin v)) g t = Ok m1 ->
  (model_ok 0 m1 x z -> model_ok 0 m0 x z) /\
  (model_ok 0 m0 x z -> ~ model_ok 0 m1 x z -> (obj I x <= v - (1 # 1000))%Q).
Proof.
  intros HW Hp HL HC Hdom H0 H1. split.
  - intro H. now apply (prune_model _ _ _ _ _ _ _ _ _ _ _ _ H0 H1) in H.
  - intros H Hn. apply Qnot_lt_le. intro Hv. apply Hn.
    apply (prune_model _ _ _ _ _ _ _ _ _ _ _ _ H0 H1). split; [assumption|].
    destruct (view_data _ _ _ HW Hp HL) as (N1 & N2 & N3 & N4).
    pose proof (cclp_indicator_sat I p V lz bM st [] g t m0 0 x z HW Hp HL H0 H) as HS.
    destruct H as (D & L & B & C). apply cclp_shape in H0 as (r0 & E0 & -> & _).
    cbn [m_n m_cont m_nz] in *. rewrite N1, N2 in D. rewrite N4 in L.
    eapply prune_sound; eassumption.
Qed.

(** ** Selection of the scenarios of the lower bound (C37) *)
Lemma select_loop_spec proba eps : forall l total done r, Forall (fun s => s < length proba) l ->
  select_loop proba eps total done l = r ->
  match r with
  | Ok (Some sel) =>
      exists pre s post, l = pre ++ s :: post /\ sel = done ++ pre ++ [s] /\
        (1 - eps - (1 # 10000000) <= total + qsum (map (fun t => nth t proba 0) (pre ++ [s])))%Q /\
        (forall a b, pre = a ++ b -> a <> [] ->
           (total + qsum (map (fun t => nth t proba 0) a) < 1 - eps - (1 # 10000000))%Q)
  | Ok None => l = [] \/ (total + qsum (map (fun t => nth t proba 0) l) < 1 - eps - (1 # 10000000))%Q
  | Err _ => False
  end.
Proof.
  induction l as [|s l IH]; intros total done r HF <-; simpl; [now left|].
  inversion HF as [|? ? H1 H2]; subst.
  rewrite (geti_ok proba s 0%Q) by assumption. cbn [rbind].
  destruct (Qle_bool _ _) eqn:E.
  - qb. exists [], s, l. repeat split; simpl; [lra|].
    intros a b Hab Ha. destruct a; [congruence|discriminate].
  - qb. specialize (IH (total + nth s proba 0)%Q (done ++ [s]) _ H2 eq_refl).
    destruct (select_loop _ _ _ _ l) as [[sel|]|]; [| |assumption].
    + destruct IH as (pre & u & post & -> & -> & Hge & Hlt). exists (s :: pre), u, post.
      repeat split; [now rewrite <- app_assoc|simpl; lra|].
      intros a b Hab Ha. destruct a as [|a0 a]; [congruence|]. injection Hab as <- Hab.
      destruct a as [|a1 a]; [simpl; lra|].
      specialize (Hlt (a1 :: a) b Hab ltac:(discriminate)). simpl in *. lra.
    + right. destruct IH as [->|IH]; simpl; lra.
Qed.

Lemma argsort_lt' argsort (l : list Q) k : argsort_ok argsort -> length l = k ->
  Forall (fun s => s < k) (argsort l).
Proof.
  intros HA <-. destruct (HA l) as [H _]. rewrite H. apply Forall_forall. intros s Hs.
  apply in_seq in Hs. lia.
Qed.

Lemma selected_spec argsort proba eps k index sel :
  argsort_ok argsort -> length proba = k -> length index = k ->
  selected_scenarios argsort proba eps k index = Ok (Some sel) ->
  (1 - eps - (1 # 10000000) <= qsum (map (fun t => nth t proba 0) sel))%Q /\
  (forall a b, sel = a ++ b -> a <> [] -> b <> [] ->
     (qsum (map (fun t => nth t proba 0) a) < 1 - eps - (1 # 10000000))%Q) /\
  NoDup sel /\ Forall (fun s => s < k) sel /\
  StronglySorted (fun i j => nth i index 0 <= nth j index 0)%Q sel /\
  (forall s t, In s sel -> t < k -> ~ In t sel -> (nth s index 0 <= nth t index 0)%Q).
Proof.
  intros HA HP HI H. unfold selected_scenarios in H.
  destruct (length index <? k) eqn:E; [discriminate|].
  pose proof (select_loop_spec proba eps (argsort index) 0 [] _
    ltac:(rewrite HP; apply argsort_lt'; assumption) H) as S.
  cbn in S. destruct S as (pre & s & post & EL & -> & Hge & Hlt).
  destruct (HA index) as [HPm HS]. rewrite HI in HPm. rewrite EL in HPm, HS.
  replace (pre ++ s :: post) with ((pre ++ [s]) ++ post) in HPm, HS by (rewrite <- app_assoc; reflexivity).
  apply StronglySorted_app in HS as (S1 & S2 & S3).
  assert (ND : NoDup ((pre ++ [s]) ++ post)).
  { eapply Permutation_NoDup; [symmetry; exact HPm|apply seq_NoDup]. }
  split; [lra|]. split; [|split; [|split; [|split]]].
  - intros a b Hab Ha Hb. destruct (exists_last Hb) as (b' & u & ->).
    rewrite app_assoc in Hab. apply app_inj_tail in Hab as [Hab _].
    specialize (Hlt a b' Hab Ha). lra.
  - apply NoDup_app_inv in ND. apply ND.
  - apply Forall_forall. intros u Hu. assert (In u (seq 0 k)).
    { eapply Permutation_in; [exact HPm|]. apply in_or_app. now left. }
    apply in_seq in H0. lia.
  - exact S1.
  - intros u t Hu Ht Hn. apply S3; [assumption|].
    assert (In t ((pre ++ [s]) ++ post)).
    { eapply Permutation_in; [symmetry; exact HPm|]. apply in_seq. lia. }
    apply in_app_or in H0 as [|]; [contradiction|assumption].
Qed.

Lemma selected_exists argsort eps k index :
  argsort_ok argsort -> 0 < k -> length index = k -> (- (1 # 10000000) <= eps)%Q ->
  exists sel, selected_scenarios argsort (uniform k) eps k index = Ok (Some sel).
Proof.
  intros HA Hk HI He. unfold selected_scenarios.
  replace (length index <? k) with false by (symmetry; apply Nat.ltb_ge; lia).
  pose proof (select_loop_spec (uniform k) eps (argsort index) 0 [] _
    ltac:(rewrite uniform_length; apply argsort_lt'; assumption) eq_refl) as S.
  destruct (HA index) as [HPm _]. rewrite HI in HPm.
  destruct (select_loop _ _ _ _ _) as [[sel|]|]; [eauto| |destruct S].
  exfalso. destruct S as [E|S].
  - rewrite E in HPm. apply Permutation_length in HPm. rewrite seq_length in HPm. simpl in HPm. lia.
  - rewrite (qsum_perm _ _ (Permutation_map _ HPm)) in S.
    rewrite qsum_uniform_sub, seq_length in S by (apply Forall_seq; lia).
    assert (Qn k / Qn k == 1)%Q by (field; pose proof (Qn_pos k Hk); lra). lra.
Qed.

(** Points satisfying a selection of mass at least 1-eps' violate at most eps'*k scenarios. *)
Lemma selection_nviol I tau x sel : 0 < i_k I -> NoDup sel -> Forall (fun s => s < i_k I) sel ->
  subset_sat I tau x sel -> nviol I tau x + length sel <= i_k I.
Proof.
  intros Hk ND HF HS. unfold nviol.
  pose proof (count_negb (satb I tau x) (seq 0 (i_k I))) as N. rewrite seq_length in N.
  assert (length sel <= count (satb I tau x) (seq 0 (i_k I))); [|lia].
  unfold count. apply NoDup_incl_length; [assumption|]. intros s Hs. apply filter_In.
  rewrite Forall_forall in HF. split; [apply in_seq; specialize (HF s Hs); lia|].
  apply satb_iff. now apply HS.
Qed.

Lemma selected_feasible argsort I index sel tau x :
  argsort_ok argsort -> 0 < i_k I -> length index = i_k I ->
  selected_scenarios argsort (uniform (i_k I)) (i_eps I) (i_k I) index = Ok (Some sel) ->
  det_feasible I sel tau x ->
  (Qn (nviol I tau x) <= i_eps I * Qn (i_k I) + (1 # 10000000) * Qn (i_k I))%Q.
Proof.
  intros HA Hk HI HSel [Dx HS].
  apply selected_spec in HSel as (Hge & _ & ND & HF & _ & _); [|assumption|apply uniform_length|assumption].
  rewrite qsum_uniform_sub in Hge by assumption.
  pose proof (selection_nviol I tau x sel Hk ND HF HS) as N.
  assert (Hkp := Qn_pos _ Hk).
  assert (HQ : ((1 - i_eps I - (1 # 10000000)) * Qn (i_k I) <= Qn (length sel))%Q).
  { apply (Qmult_le_compat_r _ _ (Qn (i_k I))) in Hge; [|lra].
    unfold Qdiv in Hge. rewrite <- (Qmult_assoc (Qn (length sel))), (Qmult_comm (/ _)), Qmult_inv_r, Qmult_1_r in Hge; lra. }
  apply Qn_le in N. rewrite Qn_add in N. lra.
Qed.

Lemma selected_cc_feasible argsort I index sel tau x :
  argsort_ok argsort -> 0 < i_k I -> length index = i_k I ->
  (0 <= i_eps I)%Q ->
  Qfloor (i_eps I * Qn (i_k I) + (1 # 10000000) * Qn (i_k I)) = Qfloor (i_eps I * Qn (i_k I)) ->
  selected_scenarios argsort (uniform (i_k I)) (i_eps I) (i_k I) index = Ok (Some sel) ->
  det_feasible I sel tau x -> cc_feasible I tau x.
Proof.
  intros HA Hk HI He Hfl HSel HD.
  pose proof (selected_feasible argsort I index sel tau x HA Hk HI HSel HD) as H.
  split; [apply HD|]. apply le_floor in H as [_ H]. rewrite Hfl in H.
  apply tolerated_le; assumption.
Qed.

(** ** Incumbent heuristic (C39) *)
Lemma incumbent_loop_spec norm I cands objs vUB vLB :
  objs = map (obj I) cands ->
  forall l, Forall (fun i => i < length cands) l ->
  StronglySorted (fun i j => nth j objs 0 <= nth i objs 0)%Q l ->
  match incumbent_loop norm I cands objs vUB vLB l with
  | Some (x, v) => exists i, In i l /\ x = nth i cands [] /\ v = obj I x /\ improving I vUB vLB x /\
       forall j, In j l -> improving I vUB vLB (nth j cands []) -> (obj I (nth j cands []) <= v)%Q
  | None => forall j, In j l -> ~ improving I vUB vLB (nth j cands [])
  end.
Proof.
  intros ->. induction l as [|i l IH]; intros HF HS; cbn [incumbent_loop In]; cbv zeta; [tauto|].
  inversion HF as [|? ? Hi HF']; subst. inversion HS as [|? ? HS' Hle]; subst.
  specialize (IH HF' HS'). rewrite Forall_forall in Hle.
  assert (Hn : forall j, j < length cands -> nth j (map (obj I) cands) 0%Q = obj I (nth j cands [])).
  { intros j Hj. rewrite (nth_indep _ 0%Q (obj I [])) by (rewrite map_length; lia). apply map_nth. }
  rewrite Hn by assumption.
  assert (Hcontinue : ~ improving I vUB vLB (nth i cands []) ->
    match incumbent_loop norm I cands (map (obj I) cands) vUB vLB l with
    | Some (x, v) => exists i0, (i = i0 \/ In i0 l) /\ x = nth i0 cands [] /\ v = obj I x /\ improving I vUB vLB x /\
       forall j, i = j \/ In j l -> improving I vUB vLB (nth j cands []) -> (obj I (nth j cands []) <= v)%Q
    | None => forall j, i = j \/ In j l -> ~ improving I vUB vLB (nth j cands [])
    end).
  { intro Hno. destruct (incumbent_loop _ _ _ _ _ _ l) as [[x v]|].
    - destruct IH as (i0 & A1 & A2 & A3 & A4 & A5). exists i0. repeat split; auto; try apply A4.
      intros j [<-|Hj] Hj'; [contradiction|]. auto.
    - intros j [<-|Hj]; auto. }
  destruct (ext_leb (Fin (obj I (nth i cands []))) vUB &&
            ext_leb (ext_add vLB (1 # 100000000)) (Fin (obj I (nth i cands [])))) eqn:E.
  - apply andb_prop in E as [E1 E2].
    destruct (fst (fst (fst (fst (is_feasible norm I (nth i cands [])))))) eqn:EF.
    + apply is_feasible_verdict in EF. exists i. split; [now left|]. split; [reflexivity|].
      split; [reflexivity|]. split; [repeat split; assumption|].
      intros j [<-|Hj] _; [lra|]. specialize (Hle j Hj). rewrite Forall_forall in HF'.
      rewrite !Hn in Hle by auto. exact Hle.
    + apply Hcontinue. intros (_ & _ & C). apply (is_feasible_verdict norm) in C. congruence.
  - apply Hcontinue. intros (C1 & C2 & _). rewrite C1, C2 in E. discriminate.
Qed.

Lemma incumbent_spec norm argsort I cands vUB vLB : argsort_ok argsort ->
  match incumbent_bound norm argsort I cands vUB vLB with
  | Some (x, v) => In x cands /\ v = obj I x /\ improving I vUB vLB x /\
       forall y, In y cands -> improving I vUB vLB y -> (obj I y <= v)%Q
  | None => forall y, In y cands -> ~ improving I vUB vLB y
  end.
Proof.
  intro HA. destruct cands as [|c0 cs] eqn:EC; [simpl; tauto|].
  unfold incumbent_bound. rewrite <- EC. clear EC c0 cs.
  set (objs := map (fun x => dot (i_c I) x) cands).
  destruct (HA (map Qopp objs)) as [HP HS]. rewrite map_length in HP. unfold objs in HP at 2. rewrite map_length in HP.
  assert (HF : Forall (fun i => i < length cands) (argsort (map Qopp objs))).
  { rewrite HP. apply Forall_seq. lia. }
  assert (HI : forall j, In j (argsort (map Qopp objs)) <-> j < length cands).
  { intro j. split.
    - rewrite Forall_forall in HF. apply HF.
    - intro Hj. eapply Permutation_in; [symmetry; exact HP|]. apply in_seq. lia. }
  assert (HS' : StronglySorted (fun i j => nth j objs 0 <= nth i objs 0)%Q (argsort (map Qopp objs))).
  { assert (G : forall l, StronglySorted (fun i j => nth i (map Qopp objs) 0 <= nth j (map Qopp objs) 0)%Q l ->
       StronglySorted (fun i j => nth j objs 0 <= nth i objs 0)%Q l).
    { intro l. apply StronglySorted_impl. intros a b H.
      assert (Hn : forall j, (nth j (map Qopp objs) 0 == - nth j objs 0)%Q).
      { intro j. change 0%Q with (Qopp 0) at 1. rewrite map_nth. reflexivity. }
      rewrite !Hn in H. lra. }
    apply G. exact HS. }
  pose proof (incumbent_loop_spec norm I cands objs vUB vLB eq_refl _ HF HS') as S.
  destruct (incumbent_loop _ _ _ _ _ _ _) as [[x v]|].
  - destruct S as (i & A1 & -> & A3 & A4 & A5). apply HI in A1.
    split; [now apply nth_In|]. split; [assumption|]. split; [assumption|].
    intros y Hy Hi. apply In_nth with (d := []) in Hy as (j & Hj & <-). apply A5; [now apply HI|assumption].
  - intros y Hy. apply In_nth with (d := []) in Hy as (j & Hj & <-). apply S. now apply HI.
Qed.

(** ** Warm start (C27) *)
Lemma survivors_nth {A} deleted (l : list A) i d : i < length l -> memb i deleted = false ->
  nth (new_index deleted i) (survivors deleted l) d = nth i l d /\
  new_index deleted i < length (survivors deleted l).
Proof.
  unfold survivors, new_index.
  assert (G : forall a i, i < length l -> kept deleted (a + i) = true ->
    nth (count (kept deleted) (seq a i)) (map snd (filter (fun ia => kept deleted (fst ia)) (combine (seq a (length l)) l))) d = nth i l d /\
    count (kept deleted) (seq a i) < length (map snd (filter (fun ia => kept deleted (fst ia)) (combine (seq a (length l)) l)))).
  { induction l as [|v l IH]; intros a j Hj Hk; simpl in *; [lia|].
    destruct j as [|j].
    - rewrite Nat.add_0_r in Hk. rewrite Hk. unfold count. simpl. split; [reflexivity|lia].
    - cbn [seq]. rewrite count_cons. replace (a + S j) with (S a + j) in Hk by lia.
      destruct (IH (S a) j ltac:(lia) Hk) as [A1 A2].
      destruct (kept deleted a); simpl; [split; [assumption|lia]|split; assumption]. }
  intros Hi Hm. apply (G 0 i Hi). unfold kept. simpl. now rewrite Hm.
Qed.

Lemma z_start_loop_In zUB deleted : forall i cnt j v,
  In (j, v) (z_start_loop zUB i cnt deleted) <->
  v = 1%Q /\ exists t, t < length zUB /\ memb (i + t) deleted = false /\ (nth t zUB 0 == 1)%Q /\
    j = cnt + count (kept deleted) (seq i t).
Proof.
  induction zUB as [|z zs IH]; intros i cnt j v; simpl.
  - split; [tauto|]. intros (_ & t & Ht & _). lia.
  - destruct (memb i deleted) eqn:E.
    + rewrite IH. split.
      * intros (-> & t & Ht & Hm & Hz & ->). split; [reflexivity|]. exists (S t).
        replace (i + S t) with (S i + t) by lia. repeat split; auto; [lia|].
        cbn [seq]. rewrite count_cons. unfold kept at 2. rewrite E. reflexivity.
      * intros (-> & t & Ht & Hm & Hz & ->). split; [reflexivity|]. destruct t as [|t].
        { rewrite Nat.add_0_r in Hm. congruence. }
        exists t. replace (i + S t) with (S i + t) in Hm by lia. repeat split; auto; [lia|].
        cbn [seq]. rewrite count_cons. unfold kept at 1. rewrite E. reflexivity.
    + rewrite in_app_iff, IH. split.
      * intros [H|H].
        { destruct (Qeq_bool z 1) eqn:EZ; [|destruct H]. destruct H as [H|[]]. injection H as <- <-.
          apply Qeq_bool_iff in EZ. split; [reflexivity|]. exists 0.
          rewrite Nat.add_0_r. split; [lia|]. split; [assumption|]. split; [assumption|]. unfold count; simpl; lia. }
        { destruct H as (-> & t & Ht & Hm & Hz & ->). split; [reflexivity|]. exists (S t).
          replace (i + S t) with (S i + t) by lia. repeat split; auto; [lia|].
          cbn [seq]. rewrite count_cons. unfold kept at 2. rewrite E. simpl. lia. }
      * intros (-> & t & Ht & Hm & Hz & ->). destruct t as [|t].
        { left. simpl in Hz. apply Qeq_bool_iff in Hz. rewrite Hz. left. f_equal. unfold count; simpl; lia. }
        { right. split; [reflexivity|]. exists t. replace (i + S t) with (S i + t) in Hm by lia.
          repeat split; auto; [lia|]. cbn [seq]. rewrite count_cons. unfold kept at 1. rewrite E. simpl. lia. }
Qed.

Lemma z_start_spec zUB deleted j v : In (j, v) (get_z_start zUB deleted) <->
  v = 1%Q /\ exists i, i < length zUB /\ ~ In i deleted /\ (nth i zUB 0 == 1)%Q /\ j = new_index deleted i.
Proof.
  unfold get_z_start. rewrite z_start_loop_In. unfold new_index. simpl.
  split; intros (H & t & H1 & H2 & H3 & H4); (split; [assumption|]); exists t;
    repeat split; auto; now apply memb_false.
Qed.

Lemma new_index_le deleted i : new_index deleted i <= i.
Proof. unfold new_index. rewrite <- (seq_length i 0) at 2. apply count_le. Qed.

Lemma z_start_follows {A} (p : list A) zUB deleted d : length zUB <= length p ->
  forall j v, In (j, v) (get_z_start zUB deleted) <->
  v = 1%Q /\ exists i, i < length p /\ ~ In i deleted /\ (nth i zUB 0 == 1)%Q /\
     j = new_index deleted i /\ j < length (survivors deleted p) /\
     nth j (survivors deleted p) d = nth i p d.
Proof.
  intros HL j v. rewrite z_start_spec. split; intros (H & i & H1 & H2 & H3 & H4); (split; [assumption|]); exists i.
  - destruct (survivors_nth deleted p i d) as [N1 N2]; [lia|now apply memb_false|]. subst j. split; [lia|auto 10].
  - destruct H4 as (-> & _). split; [|auto]. destruct (le_lt_dec (length zUB) i) as [L|L]; [|exact L].
    rewrite nth_overflow in H3 by exact L. discriminate.
Qed.

(** ** Time budget (C46) *)
Lemma remaining_range t0 limit now : (0 <= limit)%Q -> (t0 <= now)%Q ->
  exists r, tm_remaining now (tm_set t0 limit tm0) = Ok r /\ (0 <= r <= limit)%Q.
Proof.
  intros Hl Hn. eexists; split; [reflexivity|]. split; [apply Q.le_max_r|]. apply Q.max_lub; lra.
Qed.
Lemma remaining_decreasing t now now' r r' : (now <= now')%Q ->
  tm_remaining now t = Ok r -> tm_remaining now' t = Ok r' -> (r' <= r)%Q.
Proof.
  unfold tm_remaining. destruct (tm_start t) as [s|], (tm_limit t) as [l|]; try discriminate.
  intros H E E'; injection E as <-; injection E' as <-. apply Q.max_le_compat_r. lra.
Qed.

(** ** The reused deterministic model (C38) *)
Lemma filter_perm {A} (f : A -> bool) l l' : Permutation l l' -> Permutation (filter f l) (filter f l').
Proof.
  induction 1; simpl; auto.
  - destruct (f x); auto.
  - destruct (f x), (f y); auto. constructor.
  - now transitivity (filter f l').
Qed.
Lemma NoDup_app {A} (u v : list A) : NoDup u -> NoDup v -> (forall a, In a u -> ~ In a v) -> NoDup (u ++ v).
Proof.
  induction u as [|a u IH]; intros Hu Hv H; simpl; [assumption|].
  inversion Hu as [|? ? H1 H2]; subst. constructor.
  - rewrite in_app_iff. intros [|C]; [contradiction|]. apply (H a); [now left|assumption].
  - apply IH; auto. intros b Hb. apply H. now right.
Qed.
Lemma filter_all {A} (f : A -> bool) l : (forall a, In a l -> f a = true) -> filter f l = l.
Proof.
  induction l as [|a l IH]; intro H; simpl; [reflexivity|].
  rewrite (H a) by (now left). f_equal. apply IH. intros; apply H; now right.
Qed.
Lemma filter_none {A} (f : A -> bool) l : (forall a, In a l -> f a = false) -> filter f l = [].
Proof.
  induction l as [|a l IH]; intro H; simpl; [reflexivity|].
  rewrite (H a) by (now left). apply IH. intros; apply H; now right.
Qed.
Lemma filter_flat_map {A B} (f : B -> bool) (g : A -> list B) (h : A -> bool) l :
  (forall a, In a l -> filter f (g a) = if h a then g a else []) ->
  filter f (flat_map g l) = flat_map g (filter h l).
Proof.
  induction l as [|a l IH]; intro H; simpl; [reflexivity|].
  rewrite filter_app, H by (now left). rewrite IH by (intros; apply H; now right).
  destruct (h a); reflexivity.
Qed.
Lemma filter_filter {A} (f g : A -> bool) l : filter f (filter g l) = filter (fun a => g a && f a) l.
Proof.
  induction l as [|a l IH]; simpl; [reflexivity|]. destruct (g a); simpl; [destruct (f a)|]; now rewrite IH.
Qed.
Lemma map_fst_combine {A B} (l : list A) (l' : list B) : length l = length l' -> map fst (combine l l') = l.
Proof.
  revert l'; induction l as [|a l IH]; intros [|b l'] H; simpl in *; try discriminate; auto.
  now rewrite IH by lia.
Qed.
Lemma map_snd_combine {A B} (l : list A) (l' : list B) : length l = length l' -> map snd (combine l l') = l'.
Proof.
  revert l'; induction l as [|a l IH]; intros [|b l'] H; simpl in *; try discriminate; auto.
  now rewrite IH by lia.
Qed.

Definition lb_ids (lb : lbst) (s : nat) : list nat :=
  match lookup s (lb_dict lb) with Some ids => ids | None => [] end.
Definition lb_rows (I : inst) (lb : lbst) (s : nat) : list (nat * cstr) :=
  combine (lb_ids lb s) (scenario_cstrs I s).

(** The store holds the rows of the scenarios [L] and the objective cuts [cuts]. *)
Definition lb_inv (I : inst) (L : list nat) (cuts : list ext) (lb : lbst) : Prop :=
  NoDup L /\
  (forall s, In s L -> exists ids, lookup s (lb_dict lb) = Some ids /\ length ids = i_m I) /\
  NoDup (map fst (lb_store lb)) /\
  Forall (fun h => h < lb_next lb) (map fst (lb_store lb)) /\
  exists cutrows, map snd cutrows = map (CGe (i_c I)) cuts /\
    Permutation (lb_store lb) (flat_map (lb_rows I lb) L ++ cutrows).

Lemma lb_ids_length I L cuts lb s : lb_inv I L cuts lb -> In s L -> length (lb_ids lb s) = i_m I.
Proof. intros (_ & H & _) Hs. destruct (H s Hs) as (ids & E & HL). unfold lb_ids. now rewrite E. Qed.
Lemma scenario_cstrs_length I s : length (scenario_cstrs I s) = i_m I.
Proof. unfold scenario_cstrs. now rewrite map_length, seq_length. Qed.

Lemma lb_remove_inv I L cuts lb s : lb_inv I L cuts lb -> In s L ->
  exists lb', lb_remove1 I lb s = Ok lb' /\
    lb_inv I (filter (fun t => negb (Nat.eqb t s)) L) cuts lb' /\
    lb_scen lb' = lb_scen lb /\ lb_prev lb' = lb_prev lb /\ lb_counter lb' = lb_counter lb.
Proof.
  intros Inv Hs. pose proof Inv as (ND & HD & NF & HF & cr & EC & EP).
  destruct (HD s Hs) as (ids & Eids & Lids). unfold lb_remove1. rewrite Eids.
  eexists; split; [reflexivity|]. split; [|auto].
  set (f := fun hc : nat * cstr => negb (memb (fst hc) ids)).
  assert (EP' : Permutation (filter f (lb_store lb)) (filter f (flat_map (lb_rows I lb) L ++ cr)))
    by (now apply filter_perm).
  assert (NDp : NoDup (map fst (flat_map (lb_rows I lb) L ++ cr))).
  { eapply Permutation_NoDup; [apply Permutation_map; exact EP|assumption]. }
  assert (Hrows : map fst (lb_rows I lb s) = ids).
  { unfold lb_rows, lb_ids. rewrite Eids. apply map_fst_combine. now rewrite scenario_cstrs_length. }
  destruct (in_split _ _ Hs) as (L1 & L2 & EL).
  assert (HL1 : ~ In s L1 /\ ~ In s L2).
  { rewrite EL in ND. apply NoDup_remove_2 in ND. rewrite in_app_iff in ND. tauto. }
  assert (Hd : forall h c, In (h, c) (flat_map (lb_rows I lb) L1 ++ flat_map (lb_rows I lb) L2 ++ cr) ->
               ~ In h ids).
  { intros h c Hin Hids. rewrite EL, flat_map_app in NDp. cbn [flat_map] in NDp.
    rewrite <- !app_assoc in NDp.
    assert (NDq : NoDup (map fst (lb_rows I lb s ++ flat_map (lb_rows I lb) L1 ++ flat_map (lb_rows I lb) L2 ++ cr))).
    { eapply Permutation_NoDup; [|exact NDp]. apply Permutation_map. apply Permutation_app_swap_app. }
    rewrite map_app in NDq. apply NoDup_app_inv in NDq as (_ & _ & Dj).
    apply (Dj h); [now rewrite Hrows|]. change h with (fst (h, c)). now apply in_map. }
  assert (Hkeep : forall h c, In (h, c) (flat_map (lb_rows I lb) L1 ++ flat_map (lb_rows I lb) L2 ++ cr) ->
               f (h, c) = true).
  { intros h c Hin. unfold f. cbn [fst]. apply negb_true_iff, memb_false. eapply Hd; eassumption. }
  assert (EF : filter f (flat_map (lb_rows I lb) L ++ cr) =
               flat_map (lb_rows I lb) (filter (fun t => negb (Nat.eqb t s)) L) ++ cr).
  { rewrite filter_app. f_equal.
    - apply filter_flat_map. intros t Ht. destruct (Nat.eqb_spec t s) as [->|Hne]; simpl.
      + apply filter_none. intros [h c] Hin. unfold f. cbn [fst]. apply negb_false_iff, memb_In.
        rewrite <- Hrows. change h with (fst (h, c)). now apply in_map.
      + apply filter_all. intros [h c] Hin. apply (Hkeep h c). rewrite app_assoc. apply in_or_app. left.
        rewrite <- flat_map_app. apply in_flat_map. exists t. split; [|assumption].
        rewrite EL in Ht. rewrite in_app_iff in *. simpl in Ht. destruct Ht as [|[|]]; auto. congruence.
    - apply filter_all. intros [h c] Hin. apply (Hkeep h c). rewrite !in_app_iff. auto. }
  rewrite EF in EP'.
  split; [now apply NoDup_filter|]. split; [|split; [|split]].
  - intros t Ht. apply filter_In in Ht as [Ht _]. apply HD, Ht.
  - cbn [lb_store]. clear -NF. induction (lb_store lb) as [|hc l IH]; simpl in *; [constructor|].
    inversion NF as [|? ? H1 H2]; subst. destruct (f hc); simpl; auto. constructor; auto.
    intro H. apply H1. apply in_map_iff in H as (y & Ey & Hy). apply filter_In in Hy as [Hy _].
    rewrite <- Ey. now apply in_map.
  - cbn [lb_store lb_next]. rewrite Forall_forall in *. intros h Hh. apply HF.
    apply in_map_iff in Hh as (y & Ey & Hy). apply filter_In in Hy as [Hy _]. rewrite <- Ey. now apply in_map.
  - exists cr. split; [assumption|]. exact EP'.
Qed.

Lemma lb_removes_inv I cuts : forall l L lb, lb_inv I L cuts lb -> NoDup l -> incl l L ->
  exists lb', lb_removes I lb l = Ok lb' /\
    lb_inv I (filter (fun t => negb (memb t l)) L) cuts lb' /\
    lb_scen lb' = lb_scen lb /\ lb_prev lb' = lb_prev lb /\ lb_counter lb' = lb_counter lb.
Proof.
  induction l as [|s l IH]; intros L lb Inv ND Hi; simpl.
  - exists lb. split; [reflexivity|]. split; [|auto]. rewrite filter_all; auto.
  - inversion ND as [|? ? N1 N2]; subst.
    destruct (lb_remove_inv I L cuts lb s Inv) as (lb1 & E1 & I1 & S1 & P1 & C1); [apply Hi; now left|].
    rewrite E1. cbn [rbind].
    destruct (IH _ lb1 I1 N2) as (lb2 & E2 & I2 & S2 & P2 & C2).
    { intros t Ht. apply filter_In. split; [apply Hi; now right|]. apply negb_true_iff, Nat.eqb_neq.
      intros ->. contradiction. }
    exists lb2. split; [assumption|]. split; [|split; [congruence|split; congruence]].
    rewrite filter_filter in I2. erewrite filter_ext; [exact I2|].
    intro t. simpl. unfold memb. simpl. now rewrite negb_orb.
Qed.

Lemma lb_add_inv I L cuts lb s : lb_inv I L cuts lb -> ~ In s L ->
  lb_inv I (L ++ [s]) cuts (lb_add1 I lb s).
Proof.
  intros (ND & HD & NF & HF & cr & EC & EP) Hs. unfold lb_add1.
  assert (Hl : length (seq (lb_next lb) (i_m I)) = length (scenario_cstrs I s)).
  { now rewrite seq_length, scenario_cstrs_length. }
  split; [|split; [|split; [|split]]].
  - apply (Permutation_NoDup (Permutation_cons_append L s)). now constructor.
  - intros t Ht. cbn [lb_dict lookup]. destruct (Nat.eqb_spec t s) as [->|Hne].
    + eexists; split; [reflexivity|apply seq_length].
    + apply HD. apply in_app_or in Ht as [|[|[]]]; [assumption|congruence].
  - cbn [lb_store]. rewrite map_app, map_fst_combine by assumption.
    apply NoDup_app; [assumption|apply seq_NoDup|].
    intros h Hh Hin. rewrite Forall_forall in HF. apply HF in Hh. apply in_seq in Hin. lia.
  - cbn [lb_store lb_next]. rewrite map_app, map_fst_combine by assumption. apply Forall_app. split.
    + eapply Forall_impl; [|exact HF]. simpl; intros; lia.
    + apply Forall_seq. intros; lia.
  - exists cr. split; [assumption|]. cbn [lb_store].
    assert (E : flat_map (lb_rows I (lb_add1 I lb s)) (L ++ [s]) =
                flat_map (lb_rows I lb) L ++ combine (seq (lb_next lb) (i_m I)) (scenario_cstrs I s)).
    { rewrite flat_map_app. f_equal.
      - rewrite !flat_map_concat_map. f_equal. apply map_ext_in. intros t Ht.
        unfold lb_rows, lb_ids, lb_add1. cbn [lb_dict lookup].
        destruct (Nat.eqb_spec t s) as [->|]; [contradiction|reflexivity].
      - simpl. rewrite app_nil_r. unfold lb_rows, lb_ids, lb_add1. cbn [lb_dict lookup].
        now rewrite Nat.eqb_refl. }
    fold (lb_add1 I lb s). rewrite E. rewrite EP, <- !app_assoc. apply Permutation_app_head.
    apply Permutation_app_comm.
Qed.

Lemma lb_adds_inv I cuts : forall l L lb, lb_inv I L cuts lb -> NoDup (L ++ l) ->
  let lb' := fold_left (lb_add1 I) l lb in
  lb_inv I (L ++ l) cuts lb' /\ lb_scen lb' = lb_scen lb /\ lb_prev lb' = lb_prev lb /\
  lb_counter lb' = lb_counter lb.
Proof.
  induction l as [|s l IH]; intros L lb Inv ND; cbn [fold_left].
  - rewrite app_nil_r. auto.
  - assert (Hs : ~ In s L). { apply NoDup_remove_2 in ND. rewrite in_app_iff in ND. tauto. }
    assert (I1 := lb_add_inv I L cuts lb s Inv Hs).
    replace (L ++ s :: l) with ((L ++ [s]) ++ l) in * by (rewrite <- app_assoc; reflexivity).
    destruct (IH _ _ I1 ND) as (A & B & C & D). split; [exact A|]. rewrite B, C, D. auto.
Qed.

Lemma lb_inv_perm I L L' cuts lb : Permutation L L' -> lb_inv I L cuts lb -> lb_inv I L' cuts lb.
Proof.
  intros HP (ND & HD & NF & HF & cr & EC & EP).
  split; [eapply Permutation_NoDup; eassumption|]. split; [|split; [assumption|split; [assumption|]]].
  - intros s Hs. apply HD. eapply Permutation_in; [symmetry; exact HP|assumption].
  - exists cr. split; [assumption|]. rewrite EP. apply Permutation_app_tail. now apply Permutation_flat_map.
Qed.

Definition lb_good (I : inst) (cuts : list ext) (lb : lbst) : Prop := lb_inv I (lb_scen lb) cuts lb.

Lemma lb_init_good I : lb_good I [] (lb_init I).
Proof.
  unfold lb_good, lb_init. change (lb_scen (lb_add1 _ _ _)) with ([] ++ [0]). apply lb_add_inv; [|intros []].
  split; [constructor|]. split; [intros s []|]. split; [constructor|]. split; [constructor|].
  exists []. split; constructor.
Qed.

Lemma lb_prepare_good I cuts lb vLB scen : lb_good I cuts lb -> NoDup scen ->
  exists lb', lb_prepare I lb vLB scen = Ok lb' /\
    lb_good I (cuts ++ (if ext_leb (lb_prev lb) vLB then [vLB] else [])) lb' /\
    lb_scen lb' = scen /\ lb_prev lb' = vLB /\ lb_counter lb' = lb_counter lb.
Proof.
  intros Inv ND. unfold lb_good in Inv. assert (NL := proj1 Inv). unfold lb_prepare.
  set (unused := filter (fun s => negb (memb s scen)) (lb_scen lb)).
  set (fresh := filter (fun s => negb (memb s (lb_scen lb))) scen).
  destruct (lb_removes_inv I cuts unused _ lb Inv) as (lb1 & E1 & I1 & S1 & P1 & C1).
  { now apply NoDup_filter. } { intros s Hs. now apply filter_In in Hs. }
  rewrite E1. cbn [rbind].
  set (L1 := filter (fun t => negb (memb t unused)) (lb_scen lb)) in *.
  assert (HL1 : forall s, In s L1 <-> In s (lb_scen lb) /\ In s scen).
  { intro s. unfold L1, unused. rewrite filter_In, negb_true_iff, memb_false, filter_In, negb_true_iff, memb_false.
    split; intros [A B]; (split; [assumption|]).
    - destruct (in_dec Nat.eq_dec s scen); tauto.
    - tauto. }
  assert (Hfr : forall s, In s fresh <-> In s scen /\ ~ In s (lb_scen lb)).
  { intro s. unfold fresh. rewrite filter_In, negb_true_iff, memb_false. reflexivity. }
  assert (ND1 : NoDup (L1 ++ fresh)).
  { apply NoDup_app; [now apply NoDup_filter|now apply NoDup_filter|].
    intros s H1 H2. apply HL1 in H1. apply Hfr in H2. tauto. }
  destruct (lb_adds_inv I cuts fresh L1 lb1 I1 ND1) as (I2 & S2 & P2 & C2).
  set (lb2 := fold_left (lb_add1 I) fresh lb1) in *.
  assert (HP : Permutation (L1 ++ fresh) scen).
  { apply NoDup_Permutation; [assumption|assumption|]. intro s. rewrite in_app_iff, HL1, Hfr.
    destruct (in_dec Nat.eq_dec s (lb_scen lb)); tauto. }
  apply (lb_inv_perm I _ _ cuts lb2 HP) in I2. rewrite P2, P1.
  destruct (ext_leb (lb_prev lb) vLB).
  - eexists; split; [reflexivity|]. split; [|cbn; rewrite C2, C1; auto].
    unfold lb_good. cbn [lb_scen]. destruct I2 as (A1 & A2 & A3 & A4 & cr & EC & EP).
    split; [assumption|]. split; [exact A2|]. split; [|split].
    + cbn [lb_store]. rewrite map_app. apply NoDup_app; [assumption|repeat constructor; intros []|].
      intros h Hh [<-|[]]. rewrite Forall_forall in A4. apply A4 in Hh. cbn in Hh. lia.
    + cbn [lb_store lb_next]. rewrite map_app. apply Forall_app. split.
      * eapply Forall_impl; [|exact A4]. simpl; intros; lia.
      * repeat constructor.
    + exists (cr ++ [(lb_next lb2, CGe (i_c I) vLB)]). split.
      * rewrite !map_app, EC. reflexivity.
      * cbn [lb_store]. rewrite app_assoc. apply Permutation_app_tail. exact EP.
  - eexists; split; [reflexivity|]. rewrite app_nil_r. split; [|cbn; rewrite C2, C1; auto].
    exact I2.
Qed.

Lemma last_default {A} (l : list A) a d : match l with [] => a | _ :: _ => last l d end = last l a.
Proof.
  destruct l as [|b l]; [reflexivity|]. revert b. induction l as [|c l IH]; intro b; [reflexivity|].
  exact (IH c).
Qed.

Lemma lb_history_good I : forall calls cuts lb, lb_good I cuts lb -> Forall (fun c => NoDup (snd c)) calls ->
  exists lb' cuts', lb_history I lb calls = Ok lb' /\ lb_good I (cuts ++ cuts') lb' /\
    incl cuts' (map fst calls) /\
    lb_scen lb' = last (map snd calls) (lb_scen lb) /\ lb_prev lb' = last (map fst calls) (lb_prev lb).
Proof.
  induction calls as [|[v scen] calls IH]; intros cuts lb Inv ND; simpl.
  - exists lb, []. rewrite app_nil_r. repeat split; auto; try apply Inv. intros a [].
  - inversion ND as [|? ? N1 N2]; subst. cbn [snd] in N1.
    destruct (lb_prepare_good I cuts lb v scen Inv N1) as (lb1 & E1 & I1 & S1 & P1 & _).
    rewrite E1. cbn [rbind].
    destruct (IH _ lb1 I1 N2) as (lb2 & cuts2 & E2 & I2 & H2 & S2 & P2).
    rewrite <- app_assoc in I2. eexists lb2, _. split; [exact E2|]. split; [exact I2|]. split; [|split].
    + intros a Ha. apply in_app_or in Ha as [Ha|Ha]; [|right; now apply H2].
      destruct (ext_leb _ _); [destruct Ha as [<-|[]]; now left|destruct Ha].
    + rewrite S2, S1. symmetry. apply last_default.
    + rewrite P2, P1. symmetry. apply last_default.
Qed.

Lemma Forall_perm_iff {A} (P : A -> Prop) l l' : Permutation l l' -> (Forall P l <-> Forall P l').
Proof. intro H. split; intro F; [rewrite <- H|rewrite H]; exact F. Qed.

Lemma lb_good_model I cuts lb tau x : lb_good I cuts lb ->
  (model_ok tau (lb_model I lb) x [] <->
   det_feasible I (lb_scen lb) tau x /\ Forall (fun v => cstr_ok tau x [] (CGe (i_c I) v)) cuts).
Proof.
  intros (ND & HD & _ & _ & cr & EC & EP).
  assert (E : Permutation (map snd (lb_store lb))
                (flat_map (scenario_cstrs I) (lb_scen lb) ++ map (CGe (i_c I)) cuts)).
  { rewrite (Permutation_map snd EP), map_app, EC. apply Permutation_app_tail.
    rewrite !flat_map_concat_map, concat_map, map_map. rewrite (map_ext_in _ (scenario_cstrs I)); [reflexivity|].
    intros s Hs. destruct (HD s Hs) as (ids & Ei & Hl). unfold lb_rows, lb_ids. rewrite Ei.
    apply map_snd_combine. now rewrite scenario_cstrs_length. }
  unfold model_ok, lb_model. cbn [m_n m_cont m_nz m_cstrs]. rewrite (Forall_perm_iff _ _ _ E), Forall_app, Forall_map_iff.
  assert (D := deter_model_ok I (lb_scen lb) tau x). unfold model_ok, deter_model in D.
  cbn [m_n m_cont m_nz m_cstrs] in D. rewrite <- D.
  split; [intros (A1 & A2 & A3 & A4 & A5); auto|intros ((A1 & A2 & A3 & A4) & A5); auto].
Qed.

Lemma lb_history_model I calls : Forall (fun c => NoDup (snd c)) calls ->
  exists lb cuts, lb_history I (lb_init I) calls = Ok lb /\
    lb_scen lb = last (map snd calls) [0] /\
    incl cuts (map fst calls) /\
    Permutation (map snd (lb_store lb))
      (flat_map (fun s => map (fun i => CLe (row I s i) (rhs I s i)) (seq 0 (i_m I)))
         (last (map snd calls) [0]) ++ map (CGe (i_c I)) cuts) /\
    (forall tau x, model_ok tau (lb_model I lb) x [] -> det_feasible I (last (map snd calls) [0]) tau x) /\
    (forall x, det_feasible I (last (map snd calls) [0]) 0 x ->
       (forall v, In v (map fst calls) -> ext_leb v (Fin (obj I x)) = true) ->
       model_ok 0 (lb_model I lb) x []).
Proof.
  intro H. destruct (lb_history_good I calls [] (lb_init I) (lb_init_good I) H)
    as (lb & cuts & E & G & Hi & Hs & _).
  change (lb_scen (lb_init I)) with [0] in Hs. simpl in G.
  exists lb, cuts. split; [assumption|]. split; [assumption|]. split; [assumption|].
  assert (M := fun tau x => lb_good_model I cuts lb tau x G).
  split; [|split].
  - destruct G as (ND & HD & _ & _ & cr & EC & EP). rewrite <- Hs.
    rewrite (Permutation_map snd EP), map_app, EC. apply Permutation_app_tail.
    rewrite !flat_map_concat_map, concat_map, map_map. rewrite (map_ext_in _ (scenario_cstrs I)); [reflexivity|].
    intros s Hsc. destruct (HD s Hsc) as (ids & Ei & Hl). unfold lb_rows, lb_ids. rewrite Ei.
    apply map_snd_combine. now rewrite scenario_cstrs_length.
  - intros tau x Hx. apply M in Hx as [Hx _]. now rewrite <- Hs.
  - intros x Hx Hv. apply M. rewrite Hs. split; [assumption|].
    apply Forall_forall. intros v Hc. apply Hi, Hv in Hc. unfold obj in Hc.
    destruct v as [|q|]; simpl in *; [exact Logic.I| |discriminate]. qb. lra.
Qed.

Lemma survivors_nil {A} (p : list A) : survivors [] p = p.
Proof.
  unfold survivors. rewrite filter_all by reflexivity. apply map_snd_combine. apply seq_length.
Qed.

(** Witness for C37: ten scenarios, eps = 0.29999995. *)
Definition sel_inst : inst :=
  mkInst 1 1 10 false (29999995 # 100000000) [1]%Q
    (repeat [[0]]%Q 7 ++ repeat [[1]]%Q 3) (repeat [0]%Q 10).

Lemma selected_infeasible : exists I index sel x,
  wf_inst I /\ packing I /\
  length index = i_k I /\ (0 <= i_eps I < 1)%Q /\
  selected_scenarios argsort_ref (uniform (i_k I)) (i_eps I) (i_k I) index = Ok (Some sel) /\
  det_feasible I sel 0 x /\ ~ cc_feasible I 0 x.
Proof.
  exists sel_inst, (repeat 0%Q 10), (seq 0 7), [1%Q].
  split; [repeat split; repeat constructor|]. split.
  { repeat split; repeat constructor; vm_compute; discriminate. }
  split; [reflexivity|]. split; [split; [discriminate|reflexivity]|].
  split; [vm_compute; reflexivity|]. split.
  - split.
    + split; [split; [reflexivity|repeat constructor; discriminate]|].
      intros _. constructor; [right; reflexivity|constructor].
    + apply subset_satb_iff. vm_compute. reflexivity.
  - intros [_ H]. revert H. apply Qlt_not_le. vm_compute. reflexivity.
Qed.

(** ** Time budget *)
Lemma time_budget t0 limit now now' : (0 <= limit)%Q -> (t0 <= now)%Q -> (now <= now')%Q ->
  forall t, exists r r', tm_remaining now (tm_set t0 limit t) = Ok r /\
    tm_remaining now' (tm_set t0 limit t) = Ok r' /\
    (0 <= r' /\ r' <= r /\ r <= limit)%Q /\
    (r' == 0 <-> limit <= now' - t0)%Q.
Proof.
  intros Hl H1 H2 t. do 2 eexists. split; [reflexivity|]. split; [reflexivity|].
  split; [split; [apply Q.le_max_r|split]|].
  - apply Q.max_le_compat_r. lra.
  - apply Q.max_lub; lra.
  - destruct (Q.max_spec (limit - (now' - t0)) 0) as [[A E]|[A E]]; rewrite E; split; intro; lra.
Qed.

Lemma time_total t0 limit fin t : tm_total (tm_finish fin (tm_set t0 limit t)) = Ok (fin - t0)%Q.
Proof. reflexivity. Qed.

Lemma time_global t1 l1 t2 l2 now t :
  tm_remaining now (tm_set t2 l2 (tm_set t1 l1 t)) = tm_remaining now (tm_set t2 l2 t).
Proof. reflexivity. Qed.

Lemma time_unset now : tm_remaining now tm0 = Err TypeError /\ tm_total tm0 = Err TypeError.
Proof. split; reflexivity. Qed.

Lemma grb_limit_negative t0 limit now d : (t0 <= now)%Q -> (0 <= limit)%Q -> forall t r,
  tm_remaining now (tm_set t0 limit t) = Ok r ->
  ((grb_time_limit r now (now + d) < 0)%Q <-> (r < d)%Q).
Proof. intros _ _ t r _. unfold grb_time_limit. split; intro; lra. Qed.
