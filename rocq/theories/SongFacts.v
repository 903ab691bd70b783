(** Song big M's: quantiles of the violation table. *)
From Verif Require Import Base BaseFacts Spec Instance InstanceFacts PartitionFacts OptModels OptFacts
  BoundsFacts CostRefineFacts Knapsack KnapsackFacts Violations ViolationsFacts ViolTable BigM BigMFacts BigMFacts2.

Lemma ext_leb_total a b : ext_leb a b = true \/ ext_leb b a = true.
Proof. destruct a, b; cbn; auto. rewrite !Qle_bool_iff. destruct (Qlt_le_dec q q0); [left|right]; lra. Qed.

(** At most [f] values are below [a]: the sorted list is above [a] from position [f] on. *)
Lemma quantile_valid a L f q M : count (fun e => negb (ext_leb a e)) L <= f -> f <= q ->
  geti (ext_sort L) q = Ok M -> ext_leb a M = true.
Proof.
  intros HC HQ HG. apply (geti_inv _ _ _ PInf) in HG. destruct HG as [HL HN].
  destruct (ext_leb a M) eqn:E; [reflexivity|exfalso].
  assert (S := isort_sorted ext_leb ext_leb_total ext_leb_trans L). fold (ext_sort L) in S.
  assert (K : q + 1 <= count (fun e => negb (ext_leb a e)) (ext_sort L)).
  { apply (count_prefix _ _ PInf); [lia|]. intros i Hi. apply negb_true_iff.
    destruct (ext_leb a (nth i (ext_sort L) PInf)) eqn:E2; [|reflexivity].
    assert (LE : ext_leb (nth i (ext_sort L) PInf) M = true).
    { destruct (Nat.eq_dec i q) as [-> |N]; [rewrite HN; apply ext_leb_refl|].
      rewrite <- HN. apply (StronglySorted_nth _ _ PInf S); lia. }
    rewrite (ext_leb_trans _ _ _ E2 LE) in E. discriminate. }
  rewrite (count_perm _ _ L) in K by apply isort_perm. lia.
Qed.

Lemma min_list_spec l : l <> [] -> exists e, ext_min_list l = Ok e /\ In e l /\ forall a, In a l -> ext_leb e a = true.
Proof.
  destruct l as [|a l]; [congruence|]. intros _. cbn [ext_min_list]. revert a.
  induction l as [|b l IH]; intro a; cbn [fold_left].
  - exists a. split; [reflexivity|]. split; [now left|]. intros c [<- |[]]. apply ext_leb_refl.
  - destruct (IH (ext_min a b)) as (e & E1 & E2 & E3). exists e. split; [assumption|].
    assert (M : ext_leb (ext_min a b) a = true /\ ext_leb (ext_min a b) b = true /\ (ext_min a b = a \/ ext_min a b = b)).
    { unfold ext_min. destruct (ext_leb a b) eqn:E; [auto using ext_leb_refl|].
      destruct (ext_leb_total a b); [congruence|]. auto using ext_leb_refl. }
    destruct M as (M1 & M2 & M3). split.
    + destruct E2 as [<- |E2]; [|right; now right]. destruct M3 as [-> | ->]; [now left|right; now left].
    + assert (T := E3 _ (or_introl eq_refl)).
      intros c [<- |[<- |Hc]]; [eapply ext_leb_trans; eauto|eapply ext_leb_trans; eauto|apply E3; now right].
Qed.

Section Song.
  Variable sort : (nat -> nat -> bool) -> list nat -> list nat.
  Hypothesis HSo : sort_spec sort.
  Variable I : inst.
  Hypothesis HW : wf_inst I.
  Hypothesis HA : Forall (Forall nonneg) (i_A I).
  Let tab := compute_all_violations sort I.

  (** Entry seen from (s,i) for a list of scenarios. *)
  Definition is_fin (e : ext) : Prop := exists q, e = Fin q.

  (** One big M, for a list of groups of scenarios. *)
  Lemma group_values s i p : s < i_k I -> i < i_m I -> Forall (fun S => S <> [] /\ Forall (fun s => s < i_k I) S) p ->
    exists L, rmap (fun sub => do l <- rmap (fun t => geti (map (fun t => vget tab (i_k I) (i_m I) s t i) (seq 0 (i_k I))) t) sub ;; ext_min_list l) p = Ok L /\
      Forall2 (fun sub e => is_fin e /\ forall x, in_box (i_n I) x -> subset_sat I 0 x sub ->
         ext_leb (Fin (dot (row I s i) x - rhs I s i)) e = true) p L.
  Proof.
    intros Hs Hi HF. induction HF as [|S p [HN HS] HF IH].
    - exists []. split; [reflexivity|constructor].
    - rewrite Forall_forall in HS. cbn [rmap].
      rewrite (rmap_ok _ (fun t => vget tab (i_k I) (i_m I) s t i)).
      2:{ intros t Ht. rewrite (geti_ok _ _ PInf) by (rewrite map_length, seq_length; auto).
          rewrite (map_nth_lt _ _ 0) by (rewrite seq_length; auto). rewrite seq_nth by auto. reflexivity. }
      cbn [rbind]. destruct (min_list_spec (map (fun t => vget tab (i_k I) (i_m I) s t i) S)) as (e & E1 & E2 & _).
      { destruct S; [congruence|discriminate]. }
      rewrite E1. cbn [rbind]. destruct IH as (L & -> & HL). cbn [rbind]. exists (e :: L). split; [reflexivity|].
      constructor; [|assumption]. apply in_map_iff in E2. destruct E2 as (t & <- & Ht).
      destruct (compiled_finite sort I HSo HW HA s t i Hs (HS t Ht) Hi) as (v & Ev & V). unfold tab. rewrite Ev.
      split; [now exists v|]. intros x Hx Hsat. cbn. apply Qle_bool_iff. apply V; [assumption|]. now apply Hsat.
  Qed.

  Lemma quantile_finite eps nb L M : Forall is_fin L -> quantile_big_m eps nb L = Ok M -> is_fin M.
  Proof.
    intros HF H. unfold quantile_big_m in H. apply (geti_inv _ _ _ PInf) in H. destruct H as [HL <-].
    rewrite Forall_forall in HF. apply HF. apply (Permutation_in _ (isort_perm ext_leb L)). now apply nth_In.
  Qed.

  Lemma unsat_count x p L a : Forall2 (fun sub e => is_fin e /\ forall x, in_box (i_n I) x -> subset_sat I 0 x sub -> ext_leb (a x) e = true) p L ->
    in_box (i_n I) x -> count (fun e => negb (ext_leb (a x) e)) L <= nunsat I 0 x p.
  Proof.
    intros HF Hx. unfold nunsat. induction HF as [|sub e p L [_ H] HF IH]; [reflexivity|]. rewrite !count_cons.
    destruct (subset_satb I 0 x sub) eqn:E; cbn [negb].
    - rewrite H; [cbn [negb]; lia|assumption|]. apply subset_satb_iff. assumption.
    - destruct (negb (ext_leb (a x) e)); lia.
  Qed.

  (** The index in the sorted list. *)
  Definition qindex (eps : Q) (nb : nat) : nat := Z.to_nat (Qfloor (eps * Qn nb) + 1).
  Lemma qindex_S eps nb : (0 <= eps)%Q -> qindex eps nb = S (Z.to_nat (Qfloor (eps * Qn nb))).
  Proof.
    intro H. unfold qindex.
    assert (0 <= Qfloor (eps * Qn nb))%Z.
    { apply Qfloor_le_iff. cbn. apply Qmult_le_0_compat; [assumption|apply Qn_nonneg]. }
    lia.
  Qed.

  (** C35 on a list of groups. *)
  Lemma song_groups p eps s i : s < i_k I -> i < i_m I -> (0 <= eps)%Q ->
    Forall (fun S => S <> [] /\ Forall (fun s => s < i_k I) S) p ->
    let f := Z.to_nat (Qfloor (eps * Qn (length p))) in
    (length p <= f + 1 -> song_big_m I tab (Some p) eps (length p) s i = Err IndexError) /\
    (f + 1 < length p -> exists M, song_big_m I tab (Some p) eps (length p) s i = Ok (Fin M) /\
       forall x, in_box (i_n I) x -> nunsat I 0 x p <= f -> (dot (row I s i) x - rhs I s i <= M)%Q).
  Proof.
    intros Hs Hi He HF f. unfold song_big_m.
    destruct (group_values s i p Hs Hi HF) as (L & EL & HL). rewrite EL. cbn [rbind].
    assert (LL : length L = length p) by (symmetry; apply (Forall2_nth _ _ _ [] PInf HL)).
    assert (QI := qindex_S eps (length p) He). unfold qindex in QI. fold f in QI. split.
    - intro H. unfold quantile_big_m. rewrite QI. unfold geti.
      rewrite (proj2 (nth_error_None _ _)); [reflexivity|]. unfold ext_sort. rewrite isort_length. lia.
    - intro H. unfold quantile_big_m. rewrite QI.
      assert (FE : exists M, geti (ext_sort L) (S f) = Ok M).
      { rewrite (geti_ok _ _ PInf) by (unfold ext_sort; rewrite isort_length; lia). eauto. }
      destruct FE as (M & EM).
      assert (FM : is_fin M).
      { apply (quantile_finite eps (length p) L); [|unfold quantile_big_m; now rewrite QI].
        clear - HL. induction HL as [|a b l l' [H _] HF IH]; constructor; auto. }
      destruct FM as (m & ->). exists m. split; [assumption|]. intros x Hx HU.
      assert (C := unsat_count x p L (fun x => Fin (dot (row I s i) x - rhs I s i)%Q) HL Hx).
      assert (T := quantile_valid (Fin (dot (row I s i) x - rhs I s i)%Q) L f (S f) (Fin m) ltac:(lia) ltac:(lia) EM).
      cbn in T. now apply Qle_bool_iff.
  Qed.

  (** Plain instance: groups of one scenario. *)
  Definition singles : list (list nat) := map (fun t => [t]) (seq 0 (i_k I)).
  Lemma song_plain_groups eps nb s i : song_big_m I tab None eps nb s i = song_big_m I tab (Some singles) eps nb s i.
  Proof.
    unfold song_big_m. f_equal. symmetry. unfold singles.
    set (all := map (fun t => vget tab (i_k I) (i_m I) s t i) (seq 0 (i_k I))).
    assert (G : forall l, Forall (fun t => t < i_k I) l ->
      rmap (fun sub => do l0 <- rmap (fun t => geti all t) sub ;; ext_min_list l0) (map (fun t => [t]) l) = Ok (map (fun t => vget tab (i_k I) (i_m I) s t i) l)).
    { induction 1 as [|t l Ht HF IH]; [reflexivity|]. cbn [map rmap].
      rewrite (geti_ok all t PInf) by (unfold all; rewrite map_length, seq_length; assumption). cbn [rbind ext_min_list fold_left].
      rewrite IH. cbn [rbind]. unfold all. rewrite (map_nth_lt _ _ 0) by (rewrite seq_length; assumption). rewrite seq_nth by assumption. reflexivity. }
    apply G. apply Forall_forall. intros t Ht. apply in_seq in Ht. lia.
  Qed.
  Lemma singles_ok : Forall (fun S => S <> [] /\ Forall (fun s => s < i_k I) S) singles.
  Proof.
    unfold singles. apply Forall_forall. intros S HS. apply in_map_iff in HS. destruct HS as (t & <- & Ht). apply in_seq in Ht.
    split; [discriminate|]. constructor; [lia|constructor].
  Qed.
  Lemma singles_length : length singles = i_k I.
  Proof. unfold singles. now rewrite map_length, seq_length. Qed.
  Lemma singles_nunsat x : nunsat I 0 x singles = nviol I 0 x.
  Proof.
    unfold nunsat, nviol, singles. rewrite count_map. apply count_ext. intros t _. unfold subset_satb. cbn. now rewrite andb_true_r.
  Qed.

  Lemma Err_first {B} (f : nat -> res B) n e : 0 < n -> f 0 = Err e -> rmap f (seq 0 n) = Err e.
  Proof. intros H E. destruct n; [lia|]. cbn [seq rmap]. rewrite E. reflexivity. Qed.

  (** C35, scenarios. *)
  Lemma song_plain : (0 <= i_eps I)%Q ->
    (0 < i_m I -> i_k I <= tolerated I + 1 -> song_all I tab None (i_eps I) (i_k I) = Err IndexError) /\
    (tolerated I + 1 < i_k I -> exists Ms, song_all I tab None (i_eps I) (i_k I) = Ok (map (map Fin) Ms) /\
       length Ms = i_k I /\ (forall s, s < i_k I -> length (nth s Ms []) = i_m I) /\
       forall s i x, s < i_k I -> i < i_m I -> in_box (i_n I) x -> nviol I 0 x <= tolerated I ->
         (dot (row I s i) x - rhs I s i <= nth i (nth s Ms []) 0)%Q).
  Proof.
    intro He. assert (G := fun s i Hs Hi => song_groups singles (i_eps I) s i Hs Hi He singles_ok).
    rewrite singles_length in G. fold (tolerated I) in G. cbv zeta in G. cbn [song_all].
    split.
    - intros Hm Hk. assert (K0 : 0 < i_k I) by apply HW. apply Err_first; [assumption|]. apply Err_first; [assumption|].
      rewrite song_plain_groups. now apply (G 0 0).
    - intro Hk.
      destruct (rmap2_exists (fun s i => song_big_m I tab None (i_eps I) (i_k I) s i)
        (fun s i e => is_fin e /\ forall x, in_box (i_n I) x -> nviol I 0 x <= tolerated I -> ext_leb (Fin (dot (row I s i) x - rhs I s i)) e = true)
        (fun _ => i_m I) (i_k I) PInf) as (T & ET & L1 & L2 & HT).
      { intros s i Hs Hi. destruct (G s i Hs Hi) as [_ G2]. destruct (G2 Hk) as (M & E & V). exists (Fin M).
        rewrite song_plain_groups. split; [assumption|]. split; [now exists M|]. intros x X1 X2. cbn. apply Qle_bool_iff. apply V; [assumption|]. now rewrite singles_nunsat. }
      set (f := fun e => match e with Fin q => q | _ => 0%Q end). exists (map (map f) T).
      assert (NT : forall s i, s < i_k I -> i < i_m I -> Fin (nth i (nth s (map (map f) T) []) 0%Q) = nth i (nth s T []) PInf).
      { intros s i Hs Hi. rewrite (map_nth_lt _ _ []) by lia. rewrite (map_nth_lt _ _ PInf) by (rewrite L2; assumption).
        destruct (HT s i Hs Hi) as [(q & E) _]. rewrite E. reflexivity. }
      split; [|split; [now rewrite map_length|split]].
      + rewrite ET. f_equal. rewrite map_map. apply (nth_ext_len _ _ []); [now rewrite map_length|].
        intros s Hs. rewrite (map_nth_lt _ _ []) by lia. rewrite L1 in Hs.
        apply (nth_ext_len _ _ PInf); [now rewrite !map_length|]. intros i Hi. rewrite (L2 s Hs) in Hi.
        rewrite map_map, (map_nth_lt _ _ PInf) by (rewrite L2; assumption).
        destruct (HT s i Hs Hi) as [(q & E) _]. rewrite E. reflexivity.
      + intros s Hs. rewrite (map_nth_lt _ _ []) by lia. rewrite map_length. now apply L2.
      + intros s i x Hs Hi Hx Hv. destruct (HT s i Hs Hi) as [_ V]. specialize (V x Hx Hv). rewrite <- NT in V by assumption.
        cbn [ext_leb] in V. now apply Qle_bool_iff.
  Qed.

  (** C35, subsets. *)
  Lemma part_qindex p V : valid_partition (i_k I) p -> load_partition I (uniform (i_k I)) (length p) p = Ok V ->
    Z.to_nat (Qfloor (v_eps V * Qn (length p))) = tolerated I /\ ((0 <= i_eps I)%Q -> (0 <= v_eps V)%Q).
  Proof.
    intros Hp HL. assert (HF := vp_lt _ _ Hp). assert (K0 : 0 < i_k I) by apply HW. assert (P0 := vp_pos _ _ K0 Hp).
    rewrite load_partition_ok in HL; [|assumption|apply repeat_length|exact HF|now apply uniform_total_nz].
    injection HL as <-. cbn [v_eps]. assert (T := total_uniform (i_k I) p HF). set (tot := qsum _) in *.
    assert (QK := Qn_pos _ K0). assert (QP := Qn_pos _ P0).
    assert (T0 : (0 < tot)%Q).
    { rewrite T. apply Qmult_lt_0_compat; [assumption|]. apply Qlt_shift_div_l; lra. }
    split.
    - unfold tolerated. f_equal. apply Qfloor_comp. transitivity (i_eps I / (Qn (length p) * (1 / Qn (i_k I))) * Qn (length p))%Q.
      + rewrite T. reflexivity.
      + field. split; [lra|]. intro Z. lra.
    - intro He. apply Qle_shift_div_l; lra.
  Qed.

  Lemma song_part p V : valid_partition (i_k I) p -> load_partition I (uniform (i_k I)) (length p) p = Ok V -> (0 <= i_eps I)%Q ->
    (0 < i_m I -> length p <= tolerated I + 1 -> song_all I tab (Some p) (v_eps V) (length p) = Err IndexError) /\
    (tolerated I + 1 < length p -> exists Ms, song_all I tab (Some p) (v_eps V) (length p) = Ok (map (map Fin) Ms) /\
       bigM_shape V Ms /\
       bigM_valid V Ms (fun x => in_box (i_n I) x /\ nunsat I 0 x p <= tolerated I)).
  Proof.
    intros Hp HL He. assert (HF := vp_lt _ _ Hp). assert (K0 : 0 < i_k I) by apply HW. assert (P0 := vp_pos _ _ K0 Hp).
    destruct (part_qindex p V Hp HL) as [EQ E0]. specialize (E0 He).
    assert (G := fun s i Hs Hi => song_groups p (v_eps V) s i Hs Hi E0 HF). rewrite EQ in G. cbv zeta in G.
    destruct (view_data I p V HW Hp HL) as (_ & _ & _ & VK).
    destruct (load_partition_rows I (uniform (i_k I)) p V HW) as [_ HR]; try assumption; [apply repeat_length|now apply uniform_total_nz|].
    assert (SC : forall c j, c < length p -> j < length (nth c p []) * i_m I ->
      exists s, geti (nth c p []) (j / i_m I) = Ok s /\ s < i_k I /\ j mod i_m I < i_m I /\ s = nth (j / i_m I) (nth c p []) 0).
    { intros c j Hc Hj. assert (M0 : 0 < i_m I) by (destruct (i_m I); lia).
      assert (J : j / i_m I < length (nth c p [])) by (apply Nat.div_lt_upper_bound; lia).
      exists (nth (j / i_m I) (nth c p []) 0). split; [now apply geti_ok|]. split; [|split; [apply Nat.mod_upper_bound; lia|reflexivity]].
      rewrite Forall_forall in HF. destruct (HF (nth c p [])) as [_ F2]; [now apply nth_In|]. rewrite Forall_forall in F2. apply F2. now apply nth_In. }
    cbn [song_all]. split.
    - intros Hm Hk. apply Err_first; [assumption|]. rewrite (geti_ok p 0 []) by assumption. cbn [rbind].
      assert (L0 : 0 < length (nth 0 p [])).
      { rewrite Forall_forall in HF. destruct (HF (nth 0 p [])) as [F1 _]; [now apply nth_In|]. destruct (nth 0 p []); [congruence|simpl; lia]. }
      apply Err_first; [nia|]. destruct (SC 0 0 P0 ltac:(nia)) as (s & E1 & E2 & E3 & _). rewrite E1. cbn [rbind].
      destruct (G s (0 mod i_m I) E2 E3) as [G1 _]. now apply G1.
    - intro Hk.
      destruct (rmap2_exists (fun c j => do sub <- geti p c ;; do s <- geti sub (j / i_m I) ;; song_big_m I tab (Some p) (v_eps V) (length p) s (j mod i_m I))
        (fun c j e => is_fin e /\ forall x, in_box (i_n I) x -> nunsat I 0 x p <= tolerated I -> ext_leb (Fin (dot (v_row V c j) x - v_rhs V c j)) e = true)
        (fun c => length (nth c p []) * i_m I) (length p) PInf) as (T & ET & L1 & L2 & HT).
      { intros c j Hc Hj. destruct (SC c j Hc Hj) as (s & E1 & E2 & E3 & E4). rewrite (geti_ok p c []) by assumption. cbn [rbind]. rewrite E1. cbn [rbind].
        destruct (G s (j mod i_m I) E2 E3) as [_ G2]. destruct (G2 Hk) as (M & E & VV). exists (Fin M). split; [assumption|].
        split; [now exists M|]. intros x X1 X2. destruct (HR c Hc) as (M1 & _ & M3 & _). destruct (M3 j) as [R1 R2]; [lia|].
        rewrite R1, R2, <- E4. cbn. apply Qle_bool_iff. now apply VV. }
      set (f := fun e => match e with Fin q => q | _ => 0%Q end). exists (map (map f) T).
      assert (NT : forall s i, s < length p -> i < length (nth s p []) * i_m I -> Fin (nth i (nth s (map (map f) T) []) 0%Q) = nth i (nth s T []) PInf).
      { intros s i Hs Hi. rewrite (map_nth_lt _ _ []) by lia. rewrite (map_nth_lt _ _ PInf) by (rewrite L2; assumption).
        destruct (HT s i Hs Hi) as [(q & E) _]. rewrite E. reflexivity. }
      assert (VM : forall c, c < length p -> v_m V c = length (nth c p []) * i_m I).
      { intros c Hc. destruct (HR c Hc) as (M1 & _). lia. }
      split; [|split; [split|]].
      + transitivity (Ok T).
        * rewrite <- ET. assert (EX : forall (f g : nat -> res (list ext)) l, (forall a, In a l -> f a = g a) -> rmap f l = rmap g l).
          { intros f0 g0 l H. induction l as [|a l IH]; [reflexivity|]. cbn [rmap]. rewrite H, IH; auto with datatypes. }
          apply EX. intros c Hc. apply in_seq in Hc. rewrite (geti_ok p c []) by lia. reflexivity.
        * f_equal. rewrite map_map. apply (nth_ext_len _ _ []); [now rewrite map_length|].
          intros s Hs. rewrite (map_nth_lt _ _ []) by lia. rewrite L1 in Hs.
          apply (nth_ext_len _ _ PInf); [now rewrite !map_length|]. intros i Hi. rewrite (L2 s Hs) in Hi.
          rewrite map_map, (map_nth_lt _ _ PInf) by (rewrite L2; assumption).
          destruct (HT s i Hs Hi) as [(q & E) _]. rewrite E. reflexivity.
      + rewrite map_length. lia.
      + intros s Hs. rewrite VK in Hs. rewrite (map_nth_lt _ _ []) by lia. rewrite map_length, VM by assumption. now apply L2.
      + intros x c j [X1 X2] Hc Hj. rewrite VK in Hc. rewrite VM in Hj by assumption.
        destruct (HT c j Hc Hj) as [_ VV]. specialize (VV x X1 X2). rewrite <- NT in VV by assumption.
        cbn [ext_leb] in VV. now apply Qle_bool_iff.
  Qed.
End Song.
