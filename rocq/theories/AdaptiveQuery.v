(** The relaxation solved in an iteration: what is asked, and which subsets the warm start selects. *)
From Verif Require Import Base BaseFacts Spec Instance InstanceFacts OptModels OptFacts PartitionFacts Initial InitialFacts Bounds BoundsFacts
  Refine RefineFacts RefineSum CostRefine CostRefineFacts Merge MergeFacts Adaptive AdaptiveSpec AdaptiveWp AdaptiveStruct
  AdaptiveEnd ContFacts.

Lemma partition_index k (p : list (list nat)) i j s : valid_partition k p -> i < length p -> j < length p ->
  In s (nth i p []) -> In s (nth j p []) -> i = j.
Proof.
  intros V Hi Hj Si Sj. assert (E : nth i p [] = nth j p []) by (apply (vp_disjoint k p _ _ s V); auto; now apply nth_In).
  apply (NoDup_nth p []); auto. now apply vp_NoDup in V.
Qed.

Section Query.
  Variable w : world.
  Variable I : inst.
  Variable cf : cfg.

  Ltac pt := repeat (pres_step; auto).

  Lemma asked s x z vo vb s' : clock_mono w -> partition_bound w I cf s = (Ok (x, z, vo, vb), s') ->
    exists zUB m limit t, a_zUB s = Some zUB /\ relaxation_of cf s zUB limit m /\ w_solve w t m = Solved x z vo vb /\
      (0 <= limit)%Q /\ (limit <= Qmax (c_limit cf - (w_clock w (a_t s) - a_start s)) 0)%Q.
  Proof.
    intros MC E.
    assert (W : wp (fun _ _ => True) (partition_bound w I cf) (fun r _ => exists zUB m limit t, a_zUB s = Some zUB /\ relaxation_of cf s zUB limit m /\
      w_solve w t m = Solved (fst (fst (fst r))) (snd (fst (fst r))) (snd (fst r)) (snd r) /\
      (0 <= limit)%Q /\ (limit <= Qmax (c_limit cf - (w_clock w (a_t s) - a_start s)) 0)%Q) s).
    2:{ apply (wp_run _ _ _ _ _ _ W) in E. exact E. }
    clear E x z vo vb s'. unfold partition_bound. apply wp_bind, wp_available. set (time := Qmax _ 0). apply wp_bind, wp_get.
    apply wp_bind, wp_lift; [|auto]. intros zUB EZ. change (a_zUB (bump s)) with (a_zUB s) in EZ.
    assert (EZ' : a_zUB s = Some zUB) by (destruct (a_zUB s); cbn in EZ; [injection EZ as <-; reflexivity|discriminate]). clear EZ.
    change (a_view (bump s)) with (a_view s). change (a_bigM (bump s)) with (a_bigM s). change (a_costs (bump s)) with (a_costs s).
    change (a_vLB (bump s)) with (a_vLB s). change (a_ms (bump s)) with (a_ms s).
    eapply wp_bind_mono with (P := fun r _ => exists m limit t, relaxation_of cf s zUB limit m /\
      w_solve w t m = Solved (fst (fst (fst r))) (snd (fst (fst r))) (snd (fst r)) (snd r) /\ (0 <= limit)%Q /\ (limit <= time)%Q).
    - unfold solve_cclp. apply wp_bind, wp_clock. apply wp_bind, wp_lift; [|auto]. intros m0 _. apply wp_bind, wp_clock.
      unfold grb_time_limit. set (limit := (time - _)%Q). assert (LT : (limit <= time)%Q).
      { unfold limit. assert (M := MC (a_t (bump s)) (a_t (bump (bump s))) ltac:(cbn; lia)). lra. }
      clearbody limit. destruct (Qlt_bool limit 0) eqn:EL; [exact Logic.I|]. unfold Qlt_bool in EL. apply negb_false_iff, Qle_bool_iff in EL.
      apply wp_bind, wp_lift; [|auto]. intros m EM. apply wp_bind, wp_call; auto. intros _.
      apply wp_lift; [|auto]. intros [[[x z] vo] vb] EG.
      destruct (w_solve w _ m) as [x' z' vo' vb'| | |] eqn:EW; cbn [get_solution] in EG; try discriminate. injection EG as -> -> -> ->.
      exists m, limit. eexists. split; [|split; [exact EW|split; assumption]].
      apply cclp_shape in EM as (rows & ER & -> & _). unfold relaxation_of. cbn [m_cstrs m_start m_n m_cont m_nz m_obj m_const m_gap m_time m_lazy].
      split; [|split; [|repeat split]].
      + exists rows, (prune_indices (a_costs s) (a_vLB s)). split; [destruct (c_bigM cf); [exact ER|now injection ER as <-]|]. split; [reflexivity|].
        intro c. rewrite prune_In. destruct (a_vLB s); split; intros [H1 H2]; split; auto; lra.
      + intros j v. rewrite z_start_spec. split; intros (-> & c & H1 & H2 & H3 & H4); (split; [reflexivity|]); exists c; auto.
    - intros [[[x z] vo] vb] s' (m & limit & t & H). apply wp_bind, wp_get. apply wp_bind, wp_lift; [|auto]. intros _ _. apply wp_ret.
      exists zUB, m, limit, t. split; [exact EZ'|exact H].
  Qed.

  (** ** Selected subsets *)
  Variable tau : Q.
  Hypothesis HT : (tau <= tol6)%Q.
  Hypothesis HO : oracles_ok w I.
  Hypothesis HW : wf_inst I.
  Hypothesis HE : (0 <= i_eps I)%Q.
  Hypothesis HS : forall t m, outcome_ok tau m (w_solve w t m).
  Hypothesis HB : c_bigM cf = true -> i_cont I = false /\ 0 < i_n I.
  Hypothesis MC : clock_mono w.

  Lemma sat_tau x S : subset_sat I tau x S -> subset_sat I tol6 x S.
  Proof. intros H s Hs i Hi. specialize (H s Hs i Hi). lra. Qed.

  Lemma model_selects p V lz Ms st pr g t m x z : valid_partition (i_k I) p -> load_partition I (uniform (i_k I)) (length p) p = Ok V ->
    cclp_model V (c_bigM cf) lz Ms st pr g t = Ok m -> model_ok tau m x z -> selects I x z p.
  Proof.
    intros VP HL EM HM. destruct (view_data _ _ _ HW VP HL) as (N1 & N2 & N3 & N4). split.
    - apply cclp_shape in EM as (rows & _ & -> & _). destruct HM as (_ & LZ & _). cbn [m_nz] in LZ. congruence.
    - intros c Hc HZ. apply sat_tau. apply (view_subset_sat I p V HW VP HL tau x c Hc). intros j Hj.
      destruct (c_bigM cf) eqn:EB.
      + destruct (HB eq_refl) as [B1 B2]. refine (cclp_row V true lz Ms st pr g t m tau x z c j _ EM HM _ Hj HZ); [|lia].
        unfold all_continuous. rewrite N1, N2, B1. destruct (i_n I); [lia|reflexivity].
      + apply cclp_shape in EM as (rows & ER & -> & _). injection ER as <-. destruct HM as (_ & _ & _ & F). cbn [m_cstrs] in F.
        apply Forall_app in F as [F _]. unfold all_indicator_rows in F. rewrite Forall_forall in F.
        apply (F (CInd c (v_row V c j) (v_rhs V c j))); [|exact HZ]. apply in_flat_map. exists c. split; [apply in_seq; lia|].
        apply in_map_iff. exists j. split; [reflexivity|apply in_seq; lia].
  Qed.

  Lemma first_selects p costs sols x z v b : aligned w I p costs sols -> first_iteration_bound costs sols = Ok (x, z, v, b) -> selects I x z p.
  Proof.
    intros (A1 & A2 & A3) E. unfold first_iteration_bound in E. destruct (argmax costs) as [c|] eqn:EA; cbn [rbind] in E; [|discriminate].
    apply argmax_spec in EA as [Hc _].
    rewrite (geti_ok sols c []) in E by lia. cbn [rbind] in E. rewrite (geti_ok costs c 0%Q) in E by lia. cbn [rbind] in E. injection E as <- <- <- <-.
    split; [now rewrite upd_length, repeat_length|]. intros d Hd Hz. destruct (Nat.eq_dec c d) as [->|Hne].
    - destruct (A3 d Hd) as (t & z & b & EW). assert (H := HS t (deter_model I (nth d p []))). rewrite EW in H. destruct H as (HM & _).
      apply sat_tau. destruct HM as (_ & _ & _ & F). cbn [deter_model m_cstrs] in F. intros s Hs i Hi. rewrite Forall_forall in F.
      apply (F (CLe (row I s i) (rhs I s i))). apply in_flat_map. exists s. split; [exact Hs|]. apply in_map_iff. exists i.
      split; [reflexivity|apply in_seq; lia].
    - rewrite nth_upd_neq, nth_repeat_lt in Hz by (assumption || lia). discriminate.
  Qed.

  Definition chosen (y : list Q) (p : list (list nat)) (s : ast) : Prop := exists z, a_zUB s = Some z /\ selects I y z p.
  Lemma answer_selects s : shaped w I s ->
    wp (fun _ _ => True) (if a_nb s =? min_size I then lift (first_iteration_bound (a_costs s) (a_sols s)) else partition_bound w I cf)
      (fun r _ => selects I (fst (fst (fst r))) (snd (fst (fst r))) (a_part s)) s.
  Proof.
    intros [V NB MN VW AL RE]. destruct (a_nb s =? min_size I).
    - apply wp_lift; [|auto]. intros [[[x z] vo] vb] E. cbn [fst snd]. exact (first_selects _ _ _ _ _ _ _ AL E).
    - unfold partition_bound. apply wp_bind, wp_available. apply wp_bind, wp_get. apply wp_bind, wp_lift; [|auto]. intros zUB _.
      eapply wp_bind_mono with (P := fun r _ => selects I (fst (fst (fst r))) (snd (fst (fst r))) (a_part s)).
      + unfold solve_cclp. apply wp_bind, wp_clock. apply wp_bind, wp_lift; [|auto]. intros m0 _. apply wp_bind, wp_clock.
        match goal with |- wp _ (if ?b then _ else _) _ _ => destruct b end; [exact Logic.I|].
        apply wp_bind, wp_lift; [|auto]. intros m EM. apply wp_bind, wp_call; auto. intros _. apply wp_lift; [|auto].
        intros [[[x z] vo] vb] EG. destruct (w_solve w _ m) as [x' z' vo' vb'| | |] eqn:EW; cbn [get_solution] in EG; try discriminate.
        injection EG as -> -> -> ->. cbn [fst snd]. match type of EW with w_solve w ?t _ = _ => assert (H := HS t m) end. rewrite EW in H.
        destruct H as (HM & _). rewrite NB in VW. exact (model_selects _ _ _ _ _ _ _ _ _ _ _ V VW EM HM).
      + intros [[[x z] vo] vb] s' H. apply wp_bind, wp_get. apply wp_bind, wp_lift; [|auto]. intros _ _. apply wp_ret. exact H.
  Qed.
  Lemma upper_selects s : shaped w I s ->
    wp (fun _ _ => True) (upper_bound_step w I cf) (fun r s' =>
      (snd r = false /\ expired w cf s') \/ exists y, fst r = Some y /\ chosen y (a_part s) s') s.
  Proof.
    intro SH. unfold upper_bound_step. apply wp_bind, wp_get.
    eapply wp_bind_mono; [apply (answer_selects s SH)|]. set (p := a_part s). clearbody p. clear s SH.
    intros [[[x z] vo] vb] s Hs. cbn [fst snd] in Hs. apply wp_bind, wp_available.
    destruct (Qle_bool _ 0) eqn:ET.
    { apply wp_bind, wp_get, wp_ret. left. split; [reflexivity|]. apply Qle_bool_iff in ET. exists (a_t s).
      split; [cbn; lia|]. cbn [a_start bump set_t]. eapply Qle_trans; [apply Q.le_max_l|exact ET]. }
    destruct (check_feasibility (w_norm w) I x) as [ok f].
    eapply wp_bind_mono with (P := fun _ _ => True); [apply wp_put; intros _; exact Logic.I|]. clear s ET. intros _ s _.
    set (K := fun s : ast => chosen x p s).
    eapply wp_bind_mono with (P := fun _ => K); [apply wp_put; intros _; [exact Logic.I|exists z; split; [reflexivity|exact Hs]]|]. clear s Hs. intros _ s Hs.
    apply wp_bind, wp_get.
    match goal with |- wp _ ?m _ _ => assert (PR : wp (fun _ _ => True) m (fun r s' => fst r = Some x /\ K s') s) end.
    { eapply wp_bind_mono with (P := fun _ => K).
      { match goal with |- wp _ ?m _ ?s0 => assert (PR : pres K m) by pt end. eapply wp_mono; [apply PR, Hs|auto|auto]. }
      clear s Hs. intros _ s Hs. eapply wp_bind_mono with (P := fun _ => K); [apply wp_put; intros _; [exact Logic.I|exact Hs]|].
      clear s Hs. intros _ s Hs. eapply wp_bind_mono with (P := fun _ => K).
      { assert (PR : pres K (store_info w)) by (unfold store_info; pt). eapply wp_mono; [apply PR, Hs|auto|auto]. }
      intros _ s' H'. apply wp_ret. split; [reflexivity|exact H']. }
    eapply wp_mono; [exact PR| |auto]. intros r s' [E H]. right. exists x. split; assumption.
  Qed.
  Lemma bound_selects s : shaped w I s ->
    wp (fun _ _ => True) (bound_phase w I cf) (fun r s' => forall o, r = inr o -> exists y, o = Some y /\ chosen y (a_part s) s') s.
  Proof.
    intros SH. rewrite bound_phase_eq. set (P := fun s' : ast => shaped w I s' /\ a_part s' = a_part s).
    assert (P0 : P s) by (split; [exact SH|reflexivity]). set (p := a_part s) in *. clearbody p.
    assert (PT : forall s t, P s -> P (set_t t s)) by (intros s1 t [[B1 B2 B3 B4 B5 B6] B7]; split; [constructor; assumption|assumption]).
    assert (PM : forall s t, P s -> P (set_bigM t s)) by (intros s1 t [[B1 B2 B3 B4 B5 B6] B7]; split; [constructor; assumption|assumption]).
    apply wp_bind, wp_mono with (1 := pres_gap P s P0); [|auto]. clear s SH P0. intros _ s1 H1.
    apply wp_bind, wp_mono with (E := fun _ => P) (Q := fun _ => P); [apply pres_big_M; auto| |auto]. clear s1 H1.
    intros _ s2 [H2 E2]. apply wp_bind, wp_mono with (1 := upper_selects s2 H2); [|auto]. rewrite E2. clear s2 H2 E2 PT PM. clear P.
    intros [x ok] s1 H1. unfold after_upper. destruct ok; [apply wp_ret; discriminate|].
    apply wp_bind, wp_available. destruct (Qle_bool _ 0) eqn:ET; [apply wp_ret; discriminate|].
    destruct H1 as [[_ (t & T1 & T2)] | (y & E1 & H1)].
    { exfalso. pose proof (MC _ _ T1). assert (Qle_bool (Qmax (c_limit cf - (w_clock w (a_t s1) - a_start s1)) 0) 0 = true).
      { apply Qle_bool_iff. apply Q.max_lub; lra. } congruence. }
    cbn [fst] in E1. subst x. set (K := chosen y p) in *.
    apply wp_bind. apply wp_mono with (E := fun _ _ => True) (Q := fun (_ : gapv) => K); [| |auto].
    - assert (PR : pres K (lower_bound_step w I cf (Some y))).
      { unfold lower_bound_step. apply pres_bind; [apply pres_deterministic; auto|]. intros [y' v]. unfold store_info. pt. }
      eapply wp_mono; [apply PR; exact H1|auto|auto].
    - clear s1 H1 ET. intros g s1 HG. destruct (gap_leb g (c_gap cf)); [apply wp_ret; discriminate|].
      apply wp_bind, wp_available. destruct (Qle_bool _ 0); [apply wp_ret; discriminate|].
      apply wp_ret. intros o E. injection E as <-. exists y. split; [reflexivity|]. exact HG.
  Qed.

  (** A subset selected by the relaxation is not split. *)
  Lemma selected_kept s s1 x R nc s2 : step_reach w I cf s s1 x R nc s2 ->
    exists y z, x = Some y /\ a_zUB s2 = Some z /\ selects I y z (a_part s) /\
      forall c, c < length (a_part s) -> (nth c z 0 == 1)%Q -> nth c (a_part s2) [] = nth c (a_part s) [].
  Proof.
    intro H. destruct (step_inv w I cf HO HW HE _ _ _ _ _ _ H) as (S0 & S1 & P1 & _ & G). destruct (G MC) as (y & -> & _ & SP). clear G.
    destruct H as (HR & EB & ES). apply (wp_run _ _ _ _ _ _ (bound_selects s S0)) in EB. destruct (EB _ eq_refl) as (y' & Ey & z & Z1 & Z2).
    injection Ey as <-. exists y, z. split; [reflexivity|].
    assert (PR : pres (fun s => a_zUB s = Some z) (split_step w I cf)) by (apply pres_split0; auto; intro; apply pres_improve0; auto).
    assert (Z3 := wp_run _ _ _ _ _ _ (PR s1 Z1) ES). cbn in Z3. split; [exact Z3|]. split; [exact Z2|].
    intros c Hc HZ. destruct SP as [B RF EP _ _ _ _]. rewrite EP. destruct RF as ((_ & _ & _ & _ & KP) & _). rewrite <- P1 in *.
    destruct (KP c Hc) as [_ K]. apply K. apply not_true_is_false. intro C. apply existsb_exists in C as (t & T1 & T2).
    unfold violated in T2. apply negb_true_iff in T2. assert (T3 := proj2 Z2 c Hc HZ t T1). apply satb_iff in T3. congruence.
  Qed.

  (** The start of the next relaxation selects the subsets selected by the previous one, wherever they are now. *)
  Lemma start_follows s s1 x R nc s2 s3 s4 s5 x' z' vo vb s6 : step_reach w I cf s s1 x R nc s2 -> merge_step w I cf x R nc s2 = (Ok tt, s3) ->
    a_merged s3 = true \/ ms_deleted (a_ms s3) = [] -> next_iteration w cf s3 = (Ok Continue, s4) -> big_M w I cf s4 = (Ok tt, s5) ->
    partition_bound w I cf s5 = (Ok (x', z', vo, vb), s6) ->
    exists y z m t, x = Some y /\ a_zUB s1 = Some z /\ selects I y z (a_part s) /\ w_solve w t m = Solved x' z' vo vb /\
      forall j, In (j, 1%Q) (m_start m) <-> j < length (a_part s4) /\
        exists c, c < length (a_part s) /\ (nth c z 0 == 1)%Q /\ ~ In c (ms_deleted (a_ms s3)) /\ incl (nth c (a_part s) []) (nth j (a_part s4) []).
  Proof.
    intros H EM HD EN EG EQ. assert (H' := H). destruct (selected_kept _ _ _ _ _ _ H) as (y & z & -> & Z2 & SEL & KEEP).
    destruct (merge_deleted w I cf HO HW HE _ _ _ _ _ _ _ H EM) as (ZM & MD & ND).
    destruct (step_inv w I cf HO HW HE _ _ _ _ _ _ H) as (S0 & S1 & P1 & _ & G). destruct (G MC) as (y0 & Ey & _ & SP). injection Ey as <-. clear G.
    assert (LE : length (a_part s) <= length (a_part s2)).
    { rewrite <- P1. destruct SP as [_ ((_ & LL & _) & _) -> _ _ _ _]. lia. }
    assert (Z1 : a_zUB s1 = Some z).
    { destruct H as (_ & _ & ES).
      assert (W : wp (fun _ _ => True) (split_step w I cf) (fun _ s' => a_zUB s' = a_zUB s1) s1).
      { assert (PR : pres (fun s => a_zUB s = a_zUB s1) (split_step w I cf)) by (apply pres_split0; auto; intro; apply pres_improve0; auto).
        eapply wp_mono; [apply PR; reflexivity|auto|auto]. }
      apply (wp_run _ _ _ _ _ _ W) in ES. congruence. }
    assert (V3 : valid_partition (i_k I) (a_part s3)).
    { assert (G := wp_run _ _ _ _ _ _ (merge_inv w I cf HW HE y (Some y) s1 s2 R nc S1 SP) EM). cbn in G. apply (mp_shape _ _ _ _ _ _ _ _ _ G). }
    set (K := fun s' : ast => a_part s' = a_part s3 /\ a_zUB s' = Some z /\ a_ms s' = a_ms s3).
    assert (K3 : K s3) by (repeat split; congruence).
    assert (K4 : K s4).
    { assert (PR : pres K (next_iteration w cf)) by (unfold next_iteration; pt). apply (wp_run _ _ _ _ _ _ (PR s3 K3)) in EN. exact EN. }
    assert (K5 : K s5).
    { assert (PR : pres K (big_M w I cf)) by (apply pres_big_M; auto). apply (wp_run _ _ _ _ _ _ (PR s4 K4)) in EG. exact EG. }
    destruct (asked _ _ _ _ _ _ MC EQ) as (z5 & m & limit & t & E5 & RX & EW & _). destruct K5 as (Q1 & Q2 & Q3). rewrite Q2 in E5. injection E5 as <-.
    exists y, z, m, t. split; [reflexivity|]. split; [exact Z1|]. split; [exact SEL|]. split; [exact EW|].
    destruct RX as (_ & ST & _). rewrite Q3 in ST. destruct K4 as (Q4 & _). rewrite Q4. set (D := ms_deleted (a_ms s3)) in *.
    assert (LZ : length z = length (a_part s)) by apply SEL.
    (* position of a surviving subset in the new partition *)
    assert (POS : forall c, c < length (a_part s2) -> ~ In c D -> new_index D c < length (a_part s3) /\
      incl (nth c (a_part s2) []) (nth (new_index D c) (a_part s3) [])).
    { intros c Hc Hn. destruct (a_merged s3) eqn:EMg.
      - destruct (MD eq_refl) as (k & T & M1 & M2 & M3 & M4). fold D in M2, M4. rewrite M4.
        destruct (survivors_nth D (upd k T (a_part s2)) c []) as [N1 N2]; [now rewrite upd_length|destruct (memb c D) eqn:EMb; [apply memb_In in EMb; contradiction|reflexivity]|].
        split; [exact N2|]. rewrite N1. destruct (Nat.eq_dec k c) as [->|NE]; [rewrite nth_upd_eq by exact Hc; exact M3|].
        rewrite nth_upd_neq by exact NE. apply incl_refl.
      - destruct HD as [HD|HD]; [discriminate|]. fold D in HD. destruct (ND eq_refl) as [N1 _]. rewrite N1, HD.
        replace (new_index [] c) with c; [split; [exact Hc|apply incl_refl]|]. unfold new_index, count. rewrite filter_all; [now rewrite seq_length|reflexivity]. }
    intro j. rewrite ST. split.
    - intros (_ & c & C1 & C2 & C3 & ->). change (length (filter _ (seq 0 c))) with (new_index D c).
      destruct (POS c ltac:(lia) C3) as [N1 N2]. split; [exact N1|]. exists c. split; [lia|]. split; [exact C2|]. split; [exact C3|].
      rewrite <- KEEP by (lia || assumption). exact N2.
    - intros (J1 & c & C1 & C2 & C3 & C4). split; [reflexivity|]. exists c. split; [lia|]. split; [exact C2|]. split; [exact C3|].
      change (length (filter _ (seq 0 c))) with (new_index D c). destruct (POS c ltac:(lia) C3) as [N1 N2].
      assert (NE : nth c (a_part s2) [] <> []).
      { rewrite KEEP by assumption. destruct S0 as [[_ V] _ _ _ _ _]. rewrite Forall_forall in V. apply V, nth_In, C1. }
      destruct (nth c (a_part s2) []) as [|e l] eqn:EL; [congruence|].
      apply (partition_index (i_k I) (a_part s3) j (new_index D c) e V3 J1 N1).
      + apply C4. rewrite <- KEEP by assumption. rewrite EL. now left.
      + apply N2. now left.
  Qed.
End Query.
