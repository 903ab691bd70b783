(** Facts about MilpSolver (C47). *)
From Verif Require Import Base BaseFacts Spec Instance InstanceFacts OptModels OptFacts PartitionFacts Initial InitialFacts Bounds BoundsFacts
  Refine CostRefine Merge MergeFacts Violations ViolTable BigM BigMFacts2 SongFacts Adaptive AdaptiveSpec AdaptiveWp AdaptiveStruct AdaptiveStart
  AdaptiveBounds Milp.

Section Plain.
  Variable I : inst.
  Hypothesis HW : wf_inst I.
  Local Notation V := (milp_view I).

  Lemma mv_is : is_view I V.
  Proof. left. now exists (uniform (i_k I)). Qed.
  Lemma mv_k : v_k V = i_k I. Proof. reflexivity. Qed.
  Lemma mv_m s : s < i_k I -> v_m V s = i_m I.
  Proof.
    intro H. unfold v_m. cbn [milp_view view_inst v_A]. destruct HW as (_ & _ & L & F & _). rewrite Forall_forall in F.
    apply (F (nth s (i_A I) [])). apply nth_In. lia.
  Qed.
  Lemma mv_row s i : v_row V s i = row I s i. Proof. reflexivity. Qed.
  Lemma mv_rhs s i : v_rhs V s i = rhs I s i. Proof. reflexivity. Qed.

  Lemma chance_plain z : length z = i_k I -> is_bin z ->
    (1 - i_eps I <= dot (uniform (i_k I)) z <-> Qn (count (fun v => Qeq_bool v 0) z) <= i_eps I * Qn (i_k I))%Q.
  Proof.
    intros HL HB. assert (K := Qn_pos _ (proj1 HW)).
    rewrite (dot_uniform_z (1 / Qn (i_k I))).
    2: { now rewrite uniform_length. }
    2: { unfold uniform. apply Forall_forall. intros q Hq. apply repeat_spec in Hq. now rewrite Hq. }
    2: { exact HB. }
    rewrite HL. set (P := Qn (i_k I)) in *. set (u := Qn (count _ z)).
    assert (E : (1 / P * (P - u) == 1 - u / P)%Q) by (field; lra). rewrite E.
    assert (D : (u / P * P == u)%Q) by (field; lra). split; intro H.
    - rewrite <- D. apply Qmult_le_compat_r; lra.
    - assert (u / P <= i_eps I)%Q; [|lra]. apply Qle_shift_div_r; lra.
  Qed.

  (** Indicators of the satisfied scenarios. *)
  Definition z_scen (x : list Q) : list Q := map (fun s => if satb I 0 x s then 1%Q else 0%Q) (seq 0 (i_k I)).
  Lemma z_scen_bin x : is_bin (z_scen x).
  Proof. unfold is_bin, z_scen. rewrite Forall_map. apply Forall_forall. intros s _. destruct (satb I 0 x s); [right|left]; reflexivity. Qed.
  Lemma z_scen_nth x s : s < i_k I -> nth s (z_scen x) 0%Q = if satb I 0 x s then 1%Q else 0%Q.
  Proof.
    intro H. unfold z_scen. rewrite (map_nth_lt _ _ 0 0%Q) by (now rewrite seq_length). now rewrite seq_nth.
  Qed.
  Lemma z_scen_count x : count (fun v => Qeq_bool v 0) (z_scen x) = nviol I 0 x.
  Proof.
    unfold nviol, z_scen. generalize (seq 0 (i_k I)). induction l as [|s l IH]; [reflexivity|]. cbn [map]. rewrite !count_cons, IH.
    destruct (satb I 0 x s); reflexivity.
  Qed.

  (** Enough satisfied scenarios: the indicators at one are satisfied. *)
  Lemma zeros_viol tau x z n : length z = n -> (forall s, s < n -> (nth s z 0 == 1)%Q -> sat I tau x s) -> is_bin z ->
    count (fun s => negb (satb I tau x s)) (seq 0 n) <= count (fun v => Qeq_bool v 0) z.
  Proof.
    intros HL HS HB.
    assert (G : forall a, (forall s, s < n -> (nth s z 0 == 1)%Q -> sat I tau x (a + s)) ->
              count (fun s => negb (satb I tau x s)) (seq a n) <= count (fun v => Qeq_bool v 0) z).
    { clear HS. revert n HL. induction HB as [|v z Hv HB IH]; intros n HL a HS; cbn [length] in HL; subst n; [cbn; lia|].
      cbn [seq]. rewrite !count_cons. assert (IH' := IH (length z) eq_refl (S a)). 
      assert (H' : forall s, s < length z -> (nth s z 0 == 1)%Q -> sat I tau x (S a + s)).
      { intros s Hs Hz. replace (S a + s) with (a + S s) by lia. apply HS; [lia|exact Hz]. }
      specialize (IH' H'). destruct Hv as [Hv|Hv].
      - apply Qeq_bool_iff in Hv. rewrite Hv. destruct (negb _); lia.
      - assert (HZ : sat I tau x (a + 0)) by (apply HS; [lia|exact Hv]). rewrite Nat.add_0_r in HZ. apply satb_iff in HZ. rewrite HZ. cbn. lia. }
    now apply G.
  Qed.
  Lemma chance_slack tau z : length z = i_k I -> is_bin z -> eps_within I tau -> (1 - i_eps I <= dot (uniform (i_k I)) z + tau)%Q ->
    (Qn (count (fun v => Qeq_bool v 0) z) <= i_eps I * Qn (i_k I))%Q.
  Proof.
    intros HL HB HWi H. assert (K := Qn_pos _ (proj1 HW)).
    rewrite (dot_uniform_z (1 / Qn (i_k I))) in H.
    2: { now rewrite uniform_length. }
    2: { unfold uniform. apply Forall_forall. intros q Hq. apply repeat_spec in Hq. now rewrite Hq. }
    2: { exact HB. }
    rewrite HL in H. unfold eps_within in HWi. set (P := Qn (i_k I)) in *. set (c := count _ z) in *.
    assert (E : (1 / P * (P - Qn c) == 1 - Qn c / P)%Q) by (field; lra). rewrite E in H.
    assert (D : (Qn c / P * P == Qn c)%Q) by (field; lra).
    assert (U : (Qn c <= i_eps I * P + tau * P)%Q).
    { assert (A : (Qn c / P * P <= (i_eps I + tau) * P)%Q) by (apply Qmult_le_compat_r; lra). lra. }
    apply Qfloor_resp_le in U. rewrite HWi in U. unfold Qn in U at 1. rewrite Qfloor_Z in U.
    eapply Qle_trans; [|apply Qfloor_le]. unfold Qn. now rewrite <- Zle_Qle.
  Qed.
  Lemma z_feasible tau x z : in_dom I x -> length z = i_k I -> is_bin z -> (Qn (count (fun v => Qeq_bool v 0) z) <= i_eps I * Qn (i_k I))%Q ->
    (forall s, s < i_k I -> (nth s z 0 == 1)%Q -> sat I tau x s) -> cc_feasible I tau x.
  Proof.
    intros D HL HB HC HS. split; [exact D|]. eapply Qle_trans; [|exact HC].
    apply Qn_le. now apply zeros_viol.
  Qed.

  (** Every feasible point is admitted. *)
  Lemma milp_admits um lz Ms g t m y : cclp_model V um lz Ms [] [] g t = Ok m -> cc_feasible I 0 y ->
    (um = true -> forall s i, s < i_k I -> i < i_m I -> (dot (row I s i) y - rhs I s i <= nth i (nth s Ms []) 0)%Q) ->
    (m_val m y == obj I y)%Q /\ model_ok 0 m y (z_scen y).
  Proof.
    intros EM [Dy Fy] HM. split.
    { apply cclp_shape in EM as (r & _ & -> & _). unfold m_val, obj. cbn. lra. }
    destruct (cclp_indicator _ _ _ _ _ _ _ _ _ EM) as (m0 & E0).
    assert (H0 : model_ok 0 m0 y (z_scen y)).
    { apply cclp_shape in E0 as (rows & ER & -> & PK). injection ER as <-. unfold model_ok. cbn [m_n m_cont m_nz m_cstrs milp_view view_inst v_n v_cont v_k].
      split; [exact Dy|]. split; [unfold z_scen; now rewrite map_length, seq_length|]. split; [apply z_scen_bin|].
      apply Forall_app. split; [|constructor; [|constructor]].
      - unfold all_indicator_rows. rewrite Forall_flat_map, Forall_seq. intros s Hs. rewrite Forall_map_iff, Forall_seq. intros i Hi.
        cbn [milp_view view_inst v_k] in Hs. cbn [cstr_ok]. rewrite z_scen_nth by lia. destruct (satb I 0 y s) eqn:ES; [|intro HH; cbv in HH; discriminate HH]. intros _.
        apply satb_iff in ES. rewrite mv_m in Hi by lia. apply ES. lia.
      - cbn [cstr_ok chance_row]. rewrite Qplus_0_r. apply chance_plain; [unfold z_scen; now rewrite map_length, seq_length|apply z_scen_bin|].
        rewrite z_scen_count. exact Fy. }
    destruct um.
    - apply (bigM_equiv V Ms Ms lz [] [] g t m m0); auto; [lra|]. intros s i Hs Hi. cbn [milp_view view_inst v_k] in Hs. rewrite mv_m in Hi by lia.
      now apply HM.
    - rewrite EM in E0. injection E0 as <-. exact H0.
  Qed.

  (** Rows of the model, one by one. *)
  Lemma model_row lz Ms g t m tau x z s i : cclp_model V true lz Ms [] [] g t = Ok m -> model_ok tau m x z ->
    s < i_k I -> i < i_m I -> (nth s z 0 == 1)%Q -> let M := nth i (nth s Ms []) 0%Q in
    ((- (1 # 1000000) <= M)%Q /\ (dot (row I s i) x <= rhs I s i + tau)%Q) \/
    ((M < - (1 # 1000000))%Q /\ (all_continuous V = false -> (dot (row I s i) x <= rhs I s i + tau)%Q)).
  Proof.
    intros EM HO Hs Hi HZ M. apply cclp_shape in EM as (rows & ER & -> & _). destruct HO as (_ & _ & _ & F). cbn [m_cstrs] in F.
    apply Forall_app in F as [F _]. unfold all_big_m_rows in ER. destruct (rmap _ _) as [rs|] eqn:E; cbn [rbind] in ER; [|discriminate].
    injection ER as <-. rewrite Forall_concat in F. assert (LR := rmap_length _ _ _ E). rewrite seq_length in LR.
    assert (ES := rmap_nth _ _ _ 0 [] s E ltac:(rewrite seq_length; exact Hs)). cbv beta in ES. rewrite seq_nth in ES by exact Hs. cbn [Nat.add] in ES.
    destruct (geti Ms s) as [Mr|] eqn:EG; cbn [rbind] in ES; [|discriminate]. apply (geti_inv _ _ _ []) in EG as [_ EG].
    rewrite Forall_forall in F. assert (FS : Forall (cstr_ok tau x z) (nth s rs [])) by (apply F, nth_In; rewrite LR; exact Hs). clear F.
    unfold big_m_rows in ES. destruct (rmap (fun i => _) _) as [rr|] eqn:E2 in ES; cbn [rbind] in ES; [|discriminate].
    injection ES as ES. rewrite <- ES in FS. rewrite Forall_concat, Forall_forall in FS.
    assert (LR2 := rmap_length _ _ _ E2). rewrite seq_length, mv_m in LR2 by exact Hs.
    assert (EI := rmap_nth _ _ _ 0 [] i E2 ltac:(rewrite seq_length, mv_m by exact Hs; exact Hi)). cbv beta in EI.
    rewrite seq_nth in EI by (rewrite mv_m by exact Hs; exact Hi). cbn [Nat.add] in EI.
    destruct (geti Mr i) as [q|] eqn:EG2; cbn [rbind] in EI; [|discriminate]. apply (geti_inv _ _ _ 0%Q) in EG2 as [_ EG2].
    assert (EQM : M = q) by (unfold M; rewrite EG; exact EG2). clearbody M. subst M.
    assert (FI : Forall (cstr_ok tau x z) (nth i rr [])) by (apply FS, nth_In; lia).
    destruct (Qle_bool big_m_threshold q) eqn:EQ.
    - left. apply Qle_bool_iff in EQ. unfold big_m_threshold in EQ. split; [lra|]. injection EI as EI. rewrite <- EI in FI.
      inversion FI as [|? ? H _]; subst. cbn [cstr_ok] in H. rewrite HZ, mv_row, mv_rhs in H. lra.
    - right. apply Qle_bool_false in EQ. unfold big_m_threshold in EQ. split; [lra|]. intro EA. rewrite EA in EI. injection EI as EI.
      rewrite <- EI in FI. inversion FI as [|? ? H _]; subst. cbn [cstr_ok] in H. rewrite mv_row, mv_rhs in H. lra.
  Qed.

  Lemma model_dom um lz Ms g t m tau x z : cclp_model V um lz Ms [] [] g t = Ok m -> model_ok tau m x z ->
    in_dom I x /\ length z = i_k I /\ is_bin z /\ (1 - i_eps I <= dot (uniform (i_k I)) z + tau)%Q.
  Proof.
    intros EM HO. apply cclp_shape in EM as (rows & _ & -> & _). destruct HO as (D & L & B & F). cbn [m_cstrs] in F.
    apply Forall_app in F as [_ F]. inversion F as [|? ? H _]; subst. split; [exact D|]. split; [exact L|]. split; [exact B|exact H].
  Qed.

  Lemma indicator_feasible lz Ms g t m tau x z : cclp_model V false lz Ms [] [] g t = Ok m -> model_ok tau m x z -> eps_within I tau -> cc_feasible I tau x.
  Proof.
    intros EM HO HWi. destruct (model_dom _ _ _ _ _ _ _ _ _ EM HO) as (D & L & B & C). apply chance_slack in C; try assumption. apply (z_feasible tau x z); try assumption.
    intros s Hs HZ i Hi. apply cclp_shape in EM as (rows & ER & -> & _). injection ER as <-. destruct HO as (_ & _ & _ & F). cbn [m_cstrs] in F.
    apply Forall_app in F as [F _]. unfold all_indicator_rows in F. rewrite Forall_flat_map, Forall_seq in F. specialize (F s ltac:(cbn; lia)). cbv beta in F. rewrite Forall_map_iff, Forall_seq in F. specialize (F i ltac:(rewrite mv_m by exact Hs; lia)). exact (F HZ).
  Qed.

  Lemma exists_min (l : list Q) : l <> [] -> exists a, In a l /\ forall b, In b l -> (a <= b)%Q.
  Proof.
    induction l as [|a l IH]; [congruence|]. intros _. destruct l as [|b l].
    - exists a. split; [now left|]. intros b [<-|[]]. lra.
    - destruct IH as (c & Hc & HC); [discriminate|]. destruct (Qlt_le_dec c a) as [L|L].
      + exists c. split; [now right|]. intros d [<-|Hd]; [lra|auto].
      + exists a. split; [now left|]. intros d [<-|Hd]; [lra|]. specialize (HC d Hd). lra.
  Qed.

  Lemma dot_scale a x lam : (dot a (map (Qmult lam) x) == lam * dot a x)%Q.
  Proof. revert x. induction a as [|q a IH]; intros [|v x]; cbn [dot map]; try ring. rewrite IH. ring. Qed.
  Hypothesis HP : packing I.
  Lemma mv_nonneg s i x : s < i_k I -> i < i_m I -> in_box (i_n I) x -> (0 <= dot (row I s i) x)%Q /\ (0 <= rhs I s i)%Q.
  Proof.
    intros Hs Hi [_ HX]. destruct (view_row_facts I V HW HP mv_is s i Hs ltac:(rewrite mv_m by exact Hs; exact Hi)) as (_ & N & R). split; [|exact R].
    apply dot_nonneg; [exact N|]. eapply Forall_impl; [|exact HX]. cbv beta. intros; lra.
  Qed.
  Lemma box_scale lam x : (0 <= lam)%Q -> (lam <= 1)%Q -> in_box (i_n I) x -> in_box (i_n I) (map (Qmult lam) x).
  Proof.
    intros L0 L1 [HL HX]. split; [now rewrite map_length|]. rewrite Forall_map. eapply Forall_impl; [|exact HX]. cbv beta. intros v [V0 V1]. split; [now apply Qmult_le_0_compat|].
    assert (lam * v <= 1 * v)%Q by (apply Qmult_le_compat_r; assumption). lra.
  Qed.

  (** Violated pairs. *)
  Definition bad (x z : list Q) : list (nat * nat) :=
    filter (fun p => Qeq_bool (nth (fst p) z 0%Q) 1%Q && Qlt_bool (rhs I (fst p) (snd p)) (dot (row I (fst p) (snd p)) x))
      (flat_map (fun s => map (fun i => (s, i)) (seq 0 (i_m I))) (seq 0 (i_k I))).
  Lemma bad_in x z s i : In (s, i) (bad x z) <->
    s < i_k I /\ i < i_m I /\ (nth s z 0 == 1)%Q /\ (rhs I s i < dot (row I s i) x)%Q.
  Proof.
    unfold bad. rewrite filter_In, in_flat_map. cbn [fst snd]. rewrite andb_true_iff, Qlt_bool_iff. split.
    - intros ((t & Ht & H) & H1 & H2). apply in_map_iff in H as (j & E & Hj). injection E as -> ->. apply in_seq in Ht, Hj.
      apply Qeq_bool_iff in H1. repeat split; try assumption; lia.
    - intros (H1 & H2 & H3 & H4). apply Qeq_bool_iff in H3. repeat split; try assumption. exists s. split; [apply in_seq; lia|].
      apply in_map_iff. exists i. split; [reflexivity|apply in_seq; lia].
  Qed.

  Lemma all_cont_n : all_continuous V = true -> i_n I = 0 \/ i_cont I = true.
  Proof.
    unfold all_continuous. cbn [milp_view view_inst v_cont v_n]. destruct (i_n I) as [|n]; [now left|]. cbn [seq forallb]. rewrite andb_true_iff. now right.
  Qed.

  Lemma bigm_feasible lz Ms g t m tau x z : cclp_model V true lz Ms [] [] g t = Ok m -> model_ok tau m x z -> (0 <= tau)%Q -> eps_within I tau ->
    (forall y, cc_feasible I 0 y -> forall s i, s < i_k I -> i < i_m I -> (dot (row I s i) y - rhs I s i <= nth i (nth s Ms []) 0)%Q) ->
    (i_cont I = false \/ Ms = naive_all V (i_k I) \/ (tau == 0)%Q) -> cc_feasible I tau x.
  Proof.
    intros EM HO HT HWi HM HCase. destruct (model_dom _ _ _ _ _ _ _ _ _ EM HO) as (D & L & B & C). apply chance_slack in C; try assumption.
    assert (R := fun s i Hs Hi HZ => model_row _ _ _ _ _ _ _ _ s i EM HO Hs Hi HZ). cbv zeta in R.
    destruct HCase as [HC|[HN|H0]].
    - apply (z_feasible tau x z); try assumption. intros s Hs HZ i Hi. destruct (R s i Hs Hi HZ) as [[_ H]|[_ H]]; [exact H|].
      destruct (all_continuous V) eqn:EA; [|auto]. destruct (all_cont_n EA) as [N0|N0]; [|congruence].
      destruct D as [[LX HX] _]. rewrite N0 in LX. destruct x; [|discriminate]. rewrite dot_nil_r.
      destruct (mv_nonneg s i [] Hs Hi ltac:(split; [now rewrite N0|constructor])) as [_ RR]. lra.
    - apply (z_feasible tau x z); try assumption. intros s Hs HZ i Hi. destruct (R s i Hs Hi HZ) as [[_ H]|[H _]]; [exact H|].
      assert (NV := naive_valid I V HW HP mv_is x s i (proj1 D) Hs ltac:(rewrite mv_m by exact Hs; exact Hi)). subst Ms. rewrite mv_k, mv_row, mv_rhs in NV. lra.
    - assert (G : bad x z = []).
      { destruct (bad x z) as [|p0 l0] eqn:EB; [reflexivity|exfalso].
        destruct (exists_min (map (fun p => rhs I (fst p) (snd p) / dot (row I (fst p) (snd p)) x)%Q (bad x z))) as (lam & HI & HMin).
        { rewrite EB. discriminate. }
        apply in_map_iff in HI as ([s i] & EL & HI). cbn [fst snd] in EL. apply bad_in in HI as (Hs & Hi & HZ & HV).
        destruct (mv_nonneg s i x Hs Hi (proj1 D)) as [ND NR].
        assert (PD : (0 < dot (row I s i) x)%Q) by lra.
        assert (L0 : (0 <= lam)%Q). { rewrite <- EL. apply Qle_shift_div_l; lra. }
        assert (L1 : (lam <= 1)%Q). { rewrite <- EL. apply Qle_shift_div_r; lra. }
        assert (EA : all_continuous V = true). { destruct (R s i Hs Hi HZ) as [[_ H]|[_ H]]; [lra|]. destruct (all_continuous V); [reflexivity|]. specialize (H eq_refl). lra. }
        assert (CO : i_cont I = true).
        { destruct (all_cont_n EA) as [N0|N0]; [|exact N0]. destruct D as [[LX _] _]. rewrite N0 in LX. destruct x; [|discriminate]. rewrite dot_nil_r in PD. lra. }
        assert (F : cc_feasible I 0 (map (Qmult lam) x)).
        { apply (z_feasible 0 _ z); try assumption.
          - split; [now apply box_scale; [| |apply D]|congruence].
          - intros s' Hs' HZ' i' Hi'. rewrite dot_scale. destruct (mv_nonneg s' i' x Hs' Hi' (proj1 D)) as [ND' NR'].
            destruct (Qlt_le_dec (rhs I s' i') (dot (row I s' i') x)) as [LT|LE].
            + assert (HI' : In (s', i') (bad x z)) by (apply bad_in; auto). 
              assert (HQ := HMin _ (in_map (fun p => rhs I (fst p) (snd p) / dot (row I (fst p) (snd p)) x)%Q _ _ HI')). cbn [fst snd] in HQ.
              assert (E2 : (rhs I s' i' / dot (row I s' i') x * dot (row I s' i') x == rhs I s' i')%Q) by (field; lra).
              assert (lam * dot (row I s' i') x <= rhs I s' i' / dot (row I s' i') x * dot (row I s' i') x)%Q by (apply Qmult_le_compat_r; lra). lra.
            + assert (lam * dot (row I s' i') x <= 1 * dot (row I s' i') x)%Q by (apply Qmult_le_compat_r; lra). lra. }
        assert (HQ := HM _ F s i Hs Hi). rewrite dot_scale in HQ.
        assert (E2 : (lam * dot (row I s i) x == rhs I s i)%Q) by (rewrite <- EL; field; lra).
        destruct (R s i Hs Hi HZ) as [[_ H]|[H _]]; lra. }
      apply (z_feasible tau x z); try assumption. intros s Hs HZ i Hi. destruct (Qlt_le_dec (rhs I s i) (dot (row I s i) x)) as [LT|LE]; [|lra].
      assert (HI : In (s, i) (bad x z)) by (apply bad_in; auto). rewrite G in HI. destruct HI.
  Qed.
End Plain.

(** ** C47 *)
Section Run.
  Variable w : world.
  Variable I : inst.
  Variable cf : cfg.
  Variable tau : Q.
  Hypothesis HA : argsort_ok (w_argsort w).
  Hypothesis HS : sort_spec (w_sort w).
  Hypothesis HW : wf_inst I.
  Hypothesis HP : packing I.
  Hypothesis HE : (0 <= i_eps I)%Q.
  Hypothesis HT : (0 <= tau)%Q.
  Hypothesis HO : forall t m, outcome_ok tau m (w_solve w t m).
  (** The single-scenario costs dominate the points of their scenario. *)
  Definition costs_dominate : Prop := forall S v x, answered w I S v x -> forall y, det_feasible I S 0 y -> (obj I y <= v)%Q.
  Local Notation V := (milp_view I).
  Local Notation E0 := (fun (_ : exn) (_ : ast) => True).

  Definition Ms_ok (Ms : list (list Q)) : Prop :=
    forall y, cc_feasible I 0 y -> forall s i, s < i_k I -> i < i_m I -> (dot (row I s i) y - rhs I s i <= nth i (nth s Ms []) 0)%Q.

  Lemma zero_ub v : upper_bound I v -> (exists y, cc_feasible I 0 y) -> (0 <= v)%Q.
  Proof. intros U (y & Hy). eapply Qle_trans; [|exact (U y Hy)]. apply obj_nonneg; [exact HP|apply Hy]. Qed.

  Lemma zero_feasible : cc_feasible I 0 (repeat 0%Q (i_n I)).
  Proof.
    split.
    - split; [split; [apply repeat_length|]|intros _]; apply Forall_forall; intros q Hq; apply repeat_spec in Hq; subst q; [lra|left; lra].
    - assert (E : nviol I 0 (repeat 0%Q (i_n I)) = 0).
      { unfold nviol. assert (G : forall l, (forall s, In s l -> s < i_k I) -> count (fun s => negb (satb I 0 (repeat 0%Q (i_n I)) s)) l = 0).
        { induction l as [|s l IH]; intro Hl; [reflexivity|]. rewrite count_cons, IH by (intros; apply Hl; now right).
          assert (S1 : satb I 0 (repeat 0%Q (i_n I)) s = true).
          { apply satb_iff. intros i Hi. assert (B : in_box (i_n I) (repeat 0%Q (i_n I))).
            { split; [apply repeat_length|]. apply Forall_forall. intros q Hq. apply repeat_spec in Hq. subst q. lra. }
            destruct (mv_nonneg I HW HP s i _ (Hl s ltac:(now left)) Hi B) as [_ R].
            assert (Z : (dot (row I s i) (repeat 0 (i_n I)) == 0)%Q).
            { generalize (i_n I). induction (row I s i) as [|a l' IH']; intros [|n]; cbn [repeat dot]; try reflexivity. rewrite IH'. ring. }
            rewrite Z. lra. }
          now rewrite S1. }
        apply G. intros s Hs. apply in_seq in Hs. lia. }
      rewrite E. apply Qmult_le_0_compat; [exact HE|apply Qn_nonneg].
  Qed.

  Lemma choose_spec meth s : (meth = Belotti -> costs_dominate) -> a_bigM s = naive_all V (i_k I) ->
    wp E0 (milp_choose_big_m w I meth) (fun _ s' => Ms_ok (a_bigM s') /\ (meth = Naive -> a_bigM s' = naive_all V (i_k I))) s.
  Proof.
    intros HV EB. destruct meth; cbn [milp_choose_big_m].
    - (* Belotti *)
      apply wp_bind. unfold all_scenario_costs. apply wp_bind. apply (wp_mmap_map _ (subset_cost w I) (fun s => [s])).
      eapply wp_mono with (E := fun e _ => external w I e)
        (Q := fun r s => Forall2 (fun S vx => answered w I S (fst vx) (snd vx)) (map (fun s => [s]) (seq 0 (i_k I))) r);
        [apply ext_mmap_cost; auto| |auto].
      intros r s' HF. apply wp_ret. apply wp_bind, wp_lift; [|auto]. intros [[i v]|] EA; [|exact Logic.I].
      assert (UB : upper_bound I v).
      { apply (ahmed_upper_bound (w_argsort w) I (map fst r) i v); try assumption; [apply HW| |].
        - apply Forall2_len in HF. rewrite map_length, seq_length in HF. now rewrite map_length.
        - intros t y Ht Hy. destruct (Forall2_nth_singletons w I (i_k I) 0 r HF t Ht) as (x & Hx). exact (HV eq_refl _ _ _ Hx y Hy). }
      apply wp_bind. unfold wp at 1.
      destruct (belotti_all (w_argsort w) (w_solve w) V (Fin v) (i_k I) (a_t s')) as [[Ms|e] t'] eqn:EM; [|exact Logic.I].
      apply wp_put; [auto|]. intros _. cbn [a_bigM bump set_t set_bigM]. split; [|discriminate].
      assert (Z : ext_leb (Fin 0) (Fin v) = true). { cbn. apply Qle_bool_iff. apply zero_ub; [exact UB|]. eexists. apply zero_feasible. }
      destruct (belotti_valid tau (w_argsort w) (w_solve w) I V (Fin v) (a_t s') Ms t' HA HW HP (mv_is I) Z HO EM) as [_ BV].
      intros y Hy s0 i0 Hs Hi. apply (BV y s0 i0); [|exact Hs|rewrite mv_m by assumption; exact Hi].
      split; [apply Hy|]. cbn. apply Qle_bool_iff. now apply UB.
    - (* Song *)
      apply wp_bind, wp_lift; [|auto]. intros Ms EM. apply wp_put; [auto|]. intros _. cbn [a_bigM bump set_t set_bigM]. split; [|discriminate].
      intros y [Dy Fy] s0 i0 Hs Hi. apply tolerated_le in Fy; [|exact HE].
      destruct (song_plain (w_sort w) HS I HW (proj1 (proj2 HP)) HE) as [G1 G2].
      destruct (le_lt_dec (i_k I) (tolerated I + 1)) as [LE|LT].
      + rewrite G1 in EM by lia. discriminate.
      + destruct (G2 LT) as (Ms' & EM' & _ & _ & G). rewrite EM' in EM. cbn [rbind] in EM. rewrite to_floats_fin in EM. injection EM as <-.
        apply G; auto. apply Dy.
    - (* Naive *)
      apply wp_ret. split; [|auto]. rewrite EB. intros y Hy s0 i0 Hs Hi.
      apply (naive_valid I V HW HP (mv_is I) y s0 i0); [apply Hy|exact Hs|rewrite mv_m by assumption; exact Hi].
    - exact Logic.I.
  Qed.

  Definition milp_ok (um : bool) (meth : bigm_method) (s : ast) : Prop :=
    exists x v u, a_xLB s = Some x /\ a_vLB s = Fin v /\ a_vUB s = Fin u /\ in_dom I x /\ (v == obj I x)%Q /\ (v <= u)%Q /\ upper_bound I u /\
      (eps_within I tau -> um = false \/ meth = Naive \/ i_cont I = false \/ (tau == 0)%Q -> cc_feasible I tau x).

  Lemma solve_plain um lz Ms st pr time gap s :
    wp E0 (solve_cclp w V um lz Ms st pr time gap) (fun r _ =>
      exists m limit t, cclp_model V um lz Ms st pr gap limit = Ok m /\
        w_solve w t m = Solved (fst (fst (fst r))) (snd (fst (fst r))) (snd (fst r)) (snd r)) s.
  Proof.
    unfold solve_cclp. apply wp_bind, wp_clock. apply wp_bind, wp_lift; [|auto]. intros m0 _.
    apply wp_bind, wp_clock. match goal with |- wp _ (if ?b then _ else _) _ _ => destruct b end; [apply wp_raise; exact Logic.I|].
    apply wp_bind, wp_lift; [|auto]. intros m EM. apply wp_bind, wp_call; try (intros; exact Logic.I). intro NI.
    apply wp_lift; [|auto]. intros [[[x z] vo] vb] E. cbn [fst snd].
    destruct (w_solve w _ m) as [x' z' vo' vb'| | |] eqn:EW; try discriminate. injection E as -> -> -> ->.
    do 3 eexists. split; [exact EM|exact EW].
  Qed.

  Lemma milp_solve_spec um meth s : (um = true -> meth = Belotti -> costs_dominate) -> a_bigM s = naive_all V (i_k I) ->
    wp E0 (milp_solve w I cf um meth) (fun _ s' => milp_ok um meth s') s.
  Proof.
    intros HV EB. unfold milp_solve. apply wp_bind.
    eapply wp_mono with (E := E0) (Q := fun _ s' => um = true -> Ms_ok (a_bigM s') /\ (meth = Naive -> a_bigM s' = naive_all V (i_k I))); [| |auto].
    { destruct um; [|apply wp_ret; discriminate]. unfold milp_compute_big_m. apply wp_bind. apply wp_bind.
      eapply wp_mono; [apply (choose_spec meth s (HV eq_refl) EB)| |auto]. intros [] s' G. apply wp_bind, wp_available. apply wp_ret. apply wp_ret. intros _. exact G. }
    intros bt s1 G. clear s EB. apply wp_bind, wp_available. apply wp_bind, wp_available. apply wp_bind, wp_get.
    set (s2 := bump (bump s1)). assert (G2 : um = true -> Ms_ok (a_bigM s2) /\ (meth = Naive -> a_bigM s2 = naive_all V (i_k I))) by exact G.
    clearbody s2. clear G. apply wp_bind. eapply wp_mono; [apply solve_plain| |auto].
    intros [[[x z] vo] vb] s3 (m & limit & t & EM & EW). cbn [fst snd] in EW. assert (OK := HO t m). rewrite EW in OK. destruct OK as (MO & EV & LE & UB).
    apply wp_bind, wp_put; [auto|]. intros _. apply wp_bind, wp_put; [auto|]. intros _. apply wp_bind, wp_put; [auto|]. intros _. apply wp_ret.
    exists x, vo, vb. split; [reflexivity|]. split; [reflexivity|]. split; [reflexivity|].
    destruct (model_dom I um false (a_bigM s2) _ _ m tau x z EM MO) as (D & _).
    split; [exact D|]. split.
    { rewrite EV. apply cclp_shape in EM as (r & _ & -> & _). unfold m_val, obj. cbn. lra. }
    split; [exact LE|]. split.
    - intros y Hy. destruct (milp_admits I HW um false (a_bigM s2) _ _ m y EM Hy) as [E1 E2].
      { intros -> s0 i0. apply (proj1 (G2 eq_refl)). exact Hy. }
      rewrite <- E1. apply (UB _ _ E2).
    - intros HWi HC. destruct um.
      + destruct (G2 eq_refl) as [G3 G4]. apply (bigm_feasible I HW HP false (a_bigM s2) _ _ m tau x z EM MO HT HWi G3).
        destruct HC as [HC|[HC|[HC|HC]]]; [discriminate|right; left; auto|now left|right; now right].
      + exact (indicator_feasible I HW false _ _ _ m tau x z EM MO HWi).
  Qed.

  Lemma milp_run_spec um meth bt s : (um = true -> meth = Belotti -> costs_dominate) -> milp_run w I cf um meth = (Ok bt, s) -> milp_ok um meth s.
  Proof.
    intros HV H. unfold milp_run in H.
    assert (G : wp E0 (milp_construct w I;;; milp_solve w I cf um meth) (fun _ s' => milp_ok um meth s') (ast0 I)).
    { unfold milp_construct. apply wp_bind, wp_bind, wp_clock. apply wp_bind, wp_put; [auto|]. intros _. apply wp_put; [auto|]. intros _.
      apply milp_solve_spec; [exact HV|reflexivity]. }
    unfold wp in G. rewrite H in G. exact G.
  Qed.
End Run.
