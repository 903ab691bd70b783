(** One refinement by cost with split models solved within d of their optimum. *)
From Verif Require Import Base BaseFacts Spec Instance InstanceFacts OptModels Refine RefineFacts Post CostRefine CostRefineFacts RefineSum AccRef SplitSpec SplitDual SplitSelect NearSplitSpec.

Lemma ext_leb_low v w u : (v <= w)%Q -> ext_leb (Fin w) u = true -> ext_leb (Fin v) u = true.
Proof. intro E. destruct u as [|q|]; cbn; auto. rewrite !Qle_bool_iff. intro H. now apply Qle_trans with w. Qed.
Lemma near_sets I d s s' i i' l r v : NoDup s -> NoDup s' -> (forall a, In a s' <-> In a s) -> (forall a, In a s -> (In a i' <-> In a i)) ->
  near_split I d s' i' l r v -> near_split I d s i l r v.
Proof.
  intros N1 N2 HS HI (A & B & C). split; [now apply (admissible_sets s s' i i')|]. split; [exact B|]. intros l' r' v' A' B'. apply (C l' r'); [|exact B'].
  apply (admissible_sets s' s i' i); auto; [intro a; now rewrite HS|]. intros a Ha. rewrite HI; [reflexivity|now apply HS].
Qed.
Lemma near_model I d scen inf p l r : wf_inst I -> acc_query I scen inf -> acc_within I d scen inf p -> acc_subsets scen p = (l, r) ->
  near_split I d scen inf l r (ap_alpha p).
Proof.
  intros W HQ [HF HO] ES. destruct (subset_within I scen inf p l r W (proj1 (proj2 HQ)) HF ES) as [A B]. split; [exact A|]. split; [exact B|].
  intros l' r' v' A' [C' _]. destruct (split_any I scen inf l' r' v' W (proj1 (proj2 HQ)) (proj1 HQ) A' C') as (q & _ & _ & Q1 & Q2 & _).
  rewrite <- Q2. now apply HO.
Qed.
Lemma exact_near I d acc : (0 <= d)%Q -> acc_exact I acc -> acc_near I d acc.
Proof. intros D X t s i HQ. destruct (X t s i HQ) as (p & E & HF & HO). exists p. split; [exact E|]. split; [exact HF|]. intros q Hq. specialize (HO q Hq). lra. Qed.

Section NearSelect.
  Variable d : Q.
  Variable acc : nat -> list nat -> list nat -> acc_outcome.
  Variable argsort : list Q -> list nat.
  Variable I : inst.
  Hypothesis W : wf_inst I.
  Hypothesis P : packing I.
  Hypothesis X : acc_near I d acc.
  Hypothesis HA : argsort_ok argsort.
  Hypothesis He : (0 <= i_eps I)%Q.

  Lemma near_total : acc_total I acc.
  Proof. intros t s i HQ. destruct (X t s i HQ) as (p & E & H & _). now exists p. Qed.
  Lemma near_low t s i p : acc_query I s i -> acc t s i = AccSolved p -> (- 1000000 <= ap_alpha p)%Q.
  Proof. apply (packing_low I acc W P). apply acc_total_sound, near_total. Qed.

  Lemma near_answer t s i v l r : acc_query I s i -> acc_read s (acc t s i) = Ok (v, l, r) -> near_split I d s i l r v.
  Proof.
    intros HQ E. destruct (X t s i HQ) as (p & EA & HW). rewrite EA in E. cbn [acc_read] in E. destruct (acc_subsets s p) as [l0 r0] eqn:ES. injection E as <- <- <-.
    now apply near_model.
  Qed.

  Variables (bad : nat -> bool) (costs : list Q) (vUB : ext) (cs0 : cstate) (old : list (list nat)).
  Hypothesis HC : cost_reachable acc argsort I cs0.
  Hypothesis V : valid_partition (i_k I) old.
  Hypothesis HL : length costs = length old.
  Hypothesis Hb : nb_bad bad old <= tolerated I.
  Hypothesis Ht : tolerated I < count bad (seq 0 (i_k I)).
  Notation round := (cost_round acc argsort I bad costs vUB cs0 old).
  Notation Hacc := (acc_hyp I acc (acc_total_sound I acc near_total) near_low).

  Lemma near_round_inv st cs : round st cs -> rinv (i_k I) bad old st /\ r_cnt st <= tolerated I + 1 - nb_bad bad old /\ cinv acc (i_k I) bad (r_part st) cs (splittable bad (r_part st)).
  Proof.
    induction 1 as [cs1 E|st cs st' cs' _ (IH1 & IH2 & IH3) HLt E].
    - split; [now apply rinv_init|]. split; [cbn; lia|]. cbn [r_part].
      assert (HP : Permutation (argsort costs) (seq 0 (length old))) by (destruct (HA costs) as [H _]; now rewrite HL in H).
      assert (HM := reachable_mem acc argsort I (acc_total_sound I acc near_total) near_low HA He cs0 HC).
      assert (G := evaluate_spec acc acc_exn (i_k I) Hacc bad old cs0 (argsort costs) V HP HM). now rewrite E in G.
    - assert (HB : nb_bad bad (r_part st) < count bad (seq 0 (i_k I))) by (destruct IH1 as ((_ & _ & _ & HB & _) & _); lia).
      assert (G := perform_spec acc acc_exn (i_k I) Hacc bad old vUB st cs IH1 IH3 HB). rewrite E in G. destruct G as (G1 & G2 & G3). split; [exact G1|]. split; [lia|exact G2].
  Qed.

  (** The table holds a best split of every subset with two infeasible scenarios, and its cost. *)
  Lemma near_round_table st cs : round st cs -> forall c, In c (map fst (c_cost cs)) <-> c < length (r_part st) /\ 2 <= count bad (nth c (r_part st) []).
  Proof. intro R. destruct (near_round_inv st cs R) as (_ & _ & _ & HK & _). exact HK. Qed.
  Lemma near_round_costs st cs : round st cs -> forall c v, dget c (c_cost cs) = Ok v ->
    exists l r, dget c (c_left cs) = Ok l /\ dget c (c_right cs) = Ok r /\ near_split I d (nth c (r_part st) []) (filter bad (nth c (r_part st) [])) l r v.
  Proof.
    intros R c v E. destruct (near_round_inv st cs R) as (HR & _ & ND & HK & HSd & _). assert (Hc : In c (map fst (c_cost cs))).
    { apply dget_In in E; [|exact ND]. now apply (in_map fst) in E. }
    destruct (HSd c Hc) as (l & r & D1 & D2 & _ & _ & _ & v' & t & s & i & D3 & D4 & D5 & D6 & D7). rewrite E in D3. injection D3 as <-.
    exists l, r. split; [exact D1|]. split; [exact D2|]. assert (Vp : valid_partition (i_k I) (r_part st)) by apply HR.
    assert (B := near_answer t s i v l r D4 D7). apply (near_sets I d (nth c (r_part st) []) s (filter bad (nth c (r_part st) [])) i l r v); auto.
    - now apply (vp_nth_NoDup (i_k I)).
    - apply D4.
    - intros a Ha. rewrite D6, filter_In. tauto.
  Qed.

  Lemma near_round_step st cs : round st cs -> r_cnt st < tolerated I + 1 - nb_bad bad old ->
    exists st' cs' c v l r, perform_accurate_split acc (filter bad (seq 0 (i_k I))) vUB st cs = Ok (st', cs') /\
      c < length (r_part st) /\ r_part st' = upd c l (r_part st) ++ [r] /\ near_split I d (nth c (r_part st) []) (filter bad (nth c (r_part st) [])) l r v /\
      ((ext_leb (Fin v) vUB = true /\ forall c' l' r' v', c' < length (r_part st) -> best_split I (nth c' (r_part st) []) (filter bad (nth c' (r_part st) [])) l' r' v' ->
          ext_leb (Fin (v' + d)) vUB = true -> (v' <= v)%Q) \/
       (forall c' l' r' v', c' < length (r_part st) -> best_split I (nth c' (r_part st) []) (filter bad (nth c' (r_part st) [])) l' r' v' ->
          ext_leb (Fin (v' + d)) vUB = false /\ (v <= v' + d)%Q)).
  Proof.
    intros R HLt. destruct (near_round_inv st cs R) as (HR & _ & HCI). assert (HCI' := HCI). destruct HCI' as (ND & HK & HSd & H6 & HM).
    assert (HB : nb_bad bad (r_part st) < count bad (seq 0 (i_k I))) by (destruct HR as ((_ & _ & _ & HB & _) & _); lia).
    assert (Vp : valid_partition (i_k I) (r_part st)) by apply HR.
    assert (G := perform_spec acc no_exn (i_k I) (acc_hyp_total I acc near_total near_low) bad old vUB st cs HR HCI HB).
    apply post_ok in G as ([st' cs'] & E & _). exists st', cs'.
    destruct (perform_selected acc _ _ _ _ _ _ E) as (c & l & r & S1 & S2 & S3 & S4 & S5 & S6).
    assert (TB : forall c' l' r' v', c' < length (r_part st) -> best_split I (nth c' (r_part st) []) (filter bad (nth c' (r_part st) [])) l' r' v' ->
      exists w, In (c', w) (c_cost cs) /\ (v' <= w)%Q /\ (w <= v' + d)%Q).
    { intros c' l' r' v' Hc' B. assert (NDc : NoDup (nth c' (r_part st) [])) by (eapply vp_nth_NoDup; eassumption).
      assert (Hin : In c' (map fst (c_cost cs))).
      { apply HK. split; [exact Hc'|]. destruct B as ((PB & (a & A1 & A2) & (b & B1 & B2)) & _). apply filter_In in A2 as [A2 A3]. apply filter_In in B2 as [B2 B3].
        unfold count. assert (Nab : a <> b).
        { intros ->. assert (N := Permutation_NoDup (Permutation_sym PB) NDc). destruct (NoDup_app_inv l' r' N) as (_ & _ & Dj). exact (Dj b A1 B1). }
        assert (IN : incl [a; b] (filter bad (nth c' (r_part st) []))) by (intros z [<-|[<-|[]]]; apply filter_In; auto).
        assert (N2 : NoDup [a; b]) by (constructor; [intros [C|[]]; congruence|constructor; [intros []|constructor]]).
        exact (NoDup_incl_length N2 IN). }
      apply in_map_iff in Hin as ([c2 w] & E2 & Hin). cbn in E2. subst c2. exists w. split; [exact Hin|]. apply dget_In in Hin; [|exact ND].
      destruct (near_round_costs st cs R c' w Hin) as (l2 & r2 & _ & _ & B2). destruct B as (BA & BC & BL), B2 as (A2 & W2 & L2). split; [|now apply (L2 l' r')].
      assert (RG : Forall (fun s => s < i_k I) (nth c' (r_part st) [])).
      { apply Forall_forall. intros s Hs. exact (vp_nth_lt (i_k I) (r_part st) c' s Vp Hs). }
      assert (RL : Forall (fun s => s < i_k I) (l2 ++ r2)).
      { rewrite Forall_forall in RG |- *. intros s Hs. apply RG. eapply Permutation_in; [apply A2|exact Hs]. }
      apply Forall_app in RL as [RL RR]. destruct (split_cost_exists I l2 r2 W RL RR (packing_relax I _ _ P l2 r2 A2)) as (u & Hu).
      eapply Qle_trans; [apply (BL l2 r2 u A2 Hu)|]. destruct Hu as (_ & x & X1 & X2). rewrite <- X2. now apply W2. }
    assert (Hne : c_cost cs <> []).
    { intro C. rewrite C in S1. discriminate. }
    rewrite Forall_forall in H6. destruct (existsb (freeb vUB) (c_cost cs)) eqn:EF.
    - apply existsb_exists in EF as ([c0 v0] & Hin & Hf). destruct (select_split_free (c_cost cs) vUB) as (c1 & v & pre & post & T1 & T2 & T3 & T4 & T5).
      { exists c0, v0. split; [exact Hin|]. split; [exact Hf|]. now apply (H6 (c0, v0)). }
      rewrite S1 in T1. injection T1 as <-. assert (Hin2 : In (c, v) (c_cost cs)) by (rewrite T2; apply in_app_iff; right; now left).
      assert (Hg := proj2 (dget_In c v _ ND) Hin2). destruct (near_round_costs st cs R c v Hg) as (l2 & r2 & D1 & D2 & B2). rewrite S3 in D1. rewrite S4 in D2. injection D1 as <-. injection D2 as <-.
      exists c, v, l, r. split; [exact E|]. split; [exact S2|]. split; [exact S5|]. split; [exact B2|]. left. split; [exact T3|]. intros c' l' r' v' Hc' B' F'.
      destruct (TB c' l' r' v' Hc' B') as (w & Hw & Ew & Ew'). apply (ext_leb_low w (v' + d)%Q vUB Ew') in F'. eapply Qle_trans; [exact Ew|]. rewrite T2 in Hw. apply in_app_iff in Hw as [Hw|[Hw|Hw]].
      + now apply (T4 c').
      + injection Hw as -> ->. apply Qle_refl.
      + apply Qlt_le_weak. now apply (T5 c').
    - assert (NF : forall c' v', In (c', v') (c_cost cs) -> ext_leb (Fin v') vUB = false).
      { intros c' v' Hin. destruct (ext_leb (Fin v') vUB) eqn:F; [|reflexivity]. assert (existsb (freeb vUB) (c_cost cs) = true); [|congruence]. apply existsb_exists. exists (c', v'). auto. }
      destruct (select_split_none (c_cost cs) vUB Hne NF) as (c1 & v & pre & post & T1 & T2 & T3 & T4).
      rewrite S1 in T1. injection T1 as <-. assert (Hin2 : In (c, v) (c_cost cs)) by (rewrite T2; apply in_app_iff; right; now left).
      assert (Hg := proj2 (dget_In c v _ ND) Hin2). destruct (near_round_costs st cs R c v Hg) as (l2 & r2 & D1 & D2 & B2). rewrite S3 in D1. rewrite S4 in D2. injection D1 as <-. injection D2 as <-.
      exists c, v, l, r. split; [exact E|]. split; [exact S2|]. split; [exact S5|]. split; [exact B2|]. right. intros c' l' r' v' Hc' B'.
      destruct (TB c' l' r' v' Hc' B') as (w & Hw & Ew & Ew'). split.
      + destruct (ext_leb (Fin (v' + d)) vUB) eqn:F; [|reflexivity]. apply (ext_leb_low w (v' + d)%Q vUB Ew') in F. rewrite (NF c' w Hw) in F. discriminate.
      + eapply Qle_trans; [|exact Ew']. rewrite T2 in Hw. apply in_app_iff in Hw as [Hw|[Hw|Hw]].
        * apply Qlt_le_weak. now apply (T3 c').
        * injection Hw as -> ->. apply Qle_refl.
        * now apply (T4 c').
  Qed.
End NearSelect.
Lemma near_zero I acc : acc_near I 0 acc <-> acc_exact I acc.
Proof.
  split; intros X t s i HQ; destruct (X t s i HQ) as (p & E & HF & HO); exists p; split; auto; split; auto; intros q Hq; specialize (HO q Hq); lra.
Qed.
