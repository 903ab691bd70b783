(** Big M's. *)
From Verif Require Import Base BaseFacts Spec Instance InstanceFacts PartitionFacts OptModels OptFacts
  BoundsFacts CostRefineFacts Knapsack KnapsackFacts Violations ViolationsFacts ViolTable BigM.

(** ** Python table *)
Section Py.
  Variable argsort : list Q -> list nat.
  Hypothesis HS : argsort_ok argsort.
  Variable I : inst.
  Hypothesis HWF : wf_inst I.
  Hypothesis HP : packing I.

  Lemma pk_row s i : nonneg (row I s i).
  Proof. apply row_nonneg. apply HP. Qed.
  Lemma pk_rhs s i : (0 <= rhs I s i)%Q.
  Proof.
    destruct HP as (_ & _ & HB). unfold rhs. apply nth_nonneg.
    destruct (nth_in_or_default s (i_b I) []) as [H'|H']; [|rewrite H'; constructor]. rewrite Forall_forall in HB. now apply HB.
  Qed.
  Lemma pk_len s i : s < i_k I -> i < i_m I -> length (row I s i) = i_n I.
  Proof. now apply row_len. Qed.

  Lemma nonneg_F2 w r : length w = length r -> nonneg r -> Forall2 (fun a b => a == 0 -> 0 <= b)%Q w r.
  Proof.
    revert r. induction w as [|a w IH]; intros [|b r] HL HN; simpl in HL; try lia; [constructor|].
    inversion HN; subst. constructor; auto.
  Qed.

  Lemma pair_max s i t l : s < i_k I -> t < i_k I -> i < i_m I -> l < i_m I ->
    exists v, solve_continuous_knapsack argsort (row I s i) (rhs I s i) (row I t l) (Fin (rhs I t l)) = Ok v /\
      knap_max (row I s i) (rhs I s i) (row I t l) (Fin (rhs I t l)) v.
  Proof.
    intros Hs Ht Hi Hl. assert (L1 := pk_len s i Hs Hi). assert (L2 := pk_len t l Ht Hl).
    apply knapsack_exact; auto; [lia|apply pk_row|apply nonneg_F2; [lia|apply pk_row]|].
    cbn. apply Qle_bool_iff, pk_rhs.
  Qed.

  Lemma min_viol_loop s i t : s < i_k I -> t < i_k I -> i < i_m I -> forall L acc,
    (forall l, In l L -> l < i_m I) ->
    exists e, fold_left (fun acc i' =>
      do v <- acc ;;
      do t <- solve_continuous_knapsack argsort (row I s i) (rhs I s i) (row I t i') (Fin (rhs I t i')) ;;
      Ok (ext_min v (Fin t))) L (Ok acc) = Ok e /\ ext_leb e acc = true /\
      (e = acc \/ exists l v, In l L /\ e = Fin v /\ knap_max (row I s i) (rhs I s i) (row I t l) (Fin (rhs I t l)) v) /\
      (forall l v, In l L -> knap_max (row I s i) (rhs I s i) (row I t l) (Fin (rhs I t l)) v -> ext_leb e (Fin v) = true).
  Proof.
    intros Hs Ht Hi. induction L as [|l L IH]; intros acc HL; cbn [fold_left].
    - exists acc. split; [reflexivity|]. split; [apply ext_leb_refl|]. split; [now left|]. intros ? ? [].
    - destruct (pair_max s i t l Hs Ht Hi (HL l (or_introl eq_refl))) as (v & E & M). cbn [rbind]. rewrite E. cbn [rbind].
      destruct (IH (ext_min acc (Fin v)) (fun l' H => HL l' (or_intror H))) as (e & E1 & E2 & E3 & E4).
      exists e. split; [assumption|].
      assert (EM1 : ext_leb (ext_min acc (Fin v)) acc = true /\ ext_leb (ext_min acc (Fin v)) (Fin v) = true).
      { unfold ext_min. destruct (ext_leb acc (Fin v)) eqn:EL; [split; [apply ext_leb_refl|assumption]|].
        split; [|apply ext_leb_refl]. destruct acc; cbn in *; try congruence. apply Qle_bool_false in EL. apply Qle_bool_iff. lra. }
      split; [eapply ext_leb_trans; [exact E2|apply EM1]|]. split.
      + destruct E3 as [-> |(l' & v' & H1 & H2 & H3)].
        * unfold ext_min. destruct (ext_leb acc (Fin v)); [now left|]. right. exists l, v. split; [now left|]. auto.
        * right. exists l', v'. split; [now right|]. auto.
      + intros l' v' [<- |Hl] HK; [|now apply (E4 l' v')].
        eapply ext_leb_trans; [exact E2|]. eapply ext_leb_trans; [apply EM1|].
        cbn. apply Qle_bool_iff. assert (T := knap_max_unique _ _ _ _ _ _ M HK). lra.
  Qed.

  Lemma song_min_spec s i t : s < i_k I -> t < i_k I -> i < i_m I -> 
    exists v, song_min_violation argsort I s i t = Ok (Fin v) /\ min_violation I s t i v.
  Proof.
    intros Hs Ht Hi. unfold song_min_violation.
    destruct (min_viol_loop s i t Hs Ht Hi (seq 0 (i_m I)) PInf) as (e & E1 & _ & E3 & E4).
    { intros l Hl. apply in_seq in Hl. lia. }
    assert (I0 : In i (seq 0 (i_m I))) by (apply in_seq; lia).
    destruct E3 as [-> |(l & v & H1 & -> & H3)].
    - destruct (pair_max s i t i Hs Ht Hi Hi) as (v & _ & M). specialize (E4 i v I0 M). discriminate.
    - exists v. split; [assumption|]. apply in_seq in H1. split; [exists l; split; [lia|assumption]|].
      intros l' w Hl' HK. assert (I1 : In l' (seq 0 (i_m I))) by (apply in_seq; lia). assert (T := E4 l' w I1 HK). cbn in T. now apply Qle_bool_iff.
  Qed.

  Lemma python_table : exists T, python_violations argsort I = Ok T /\ length T = i_k I * i_k I * i_m I /\
    forall s t i, s < i_k I -> t < i_k I -> i < i_m I ->
    exists v, vget T (i_k I) (i_m I) s t i = Fin v /\ min_violation I s t i v.
  Proof.
    set (g := fun s i t => match song_min_violation argsort I s i t with Ok e => e | Err _ => PInf end).
    unfold python_violations.
    rewrite (rmap_ok _ (fun s => map (fun t => map (fun i => g s i t) (seq 0 (i_m I))) (seq 0 (i_k I)))).
    2:{ intros s Hs. apply rmap_ok. intros t Ht. apply rmap_ok. intros i Hi. apply in_seq in Hs, Ht, Hi.
        unfold g. destruct (song_min_spec s i t) as (v & E & _); try lia. now rewrite E. }
    cbn [rbind]. eexists. split; [reflexivity|].
    set (F := fun s => flat_map (fun t => map (fun i => g s i t) (seq 0 (i_m I))) (seq 0 (i_k I))).
    assert (E : concat (map (@concat _) (map (fun s => map (fun t => map (fun i => g s i t) (seq 0 (i_m I))) (seq 0 (i_k I))) (seq 0 (i_k I)))) = flat_map F (seq 0 (i_k I))).
    { rewrite map_map, flat_map_concat_map. f_equal. apply map_ext. intro s. unfold F. now rewrite flat_map_concat_map. }
    rewrite E.
    assert (L1 : forall s t, length (map (fun i => g s i t) (seq 0 (i_m I))) = i_m I) by (intros; now rewrite map_length, seq_length).
    assert (L2 : forall s, length (F s) = i_k I * i_m I).
    { intro s. unfold F. rewrite (flat_map_length _ _ (i_m I)); [now rewrite seq_length|]. intros; apply L1. }
    split; [rewrite (flat_map_length _ _ (i_k I * i_m I)); [rewrite seq_length; lia|intros; apply L2]|].
    intros s t i Hs Ht Hi. destruct (song_min_spec s i t Hs Ht Hi) as (v & E1 & M). exists v. split; [|assumption].
    unfold vget. replace (s * i_k I * i_m I + t * i_m I + i) with (s * (i_k I * i_m I) + (t * i_m I + i)) by lia.
    rewrite (nth_flat_map F _ (i_k I * i_m I) _ 0); [|intros; apply L2|now rewrite seq_length|nia].
    rewrite seq_nth by lia. unfold F. rewrite (nth_flat_map _ _ (i_m I) _ 0); [|intros; apply L1|now rewrite seq_length|assumption].
    rewrite seq_nth by lia. rewrite (nth_indep _ PInf (g (0 + s) 0 (0 + t))) by (rewrite L1; assumption).
    rewrite (map_nth (fun i => g (0 + s) i (0 + t))), seq_nth by lia. cbn [plus]. unfold g. now rewrite E1.
  Qed.
End Py.

(** ** C32, C34 *)
Lemma dot_repeat r a : (dot r (repeat a (length r)) == a * qsum r)%Q.
Proof. induction r as [|b r IH]; cbn [length repeat dot qsum]; [ring|]. rewrite IH. ring. Qed.

Lemma update_not_pinf p ls w C mv o r : update p ls w C mv o r <> PInf.
Proof.
  unfold update. set (v := fill _ _ _ _ _ _ _). destruct (ext_ltb (Fin v) mv) eqn:E; [discriminate|].
  intros ->. cbn in E. discriminate.
Qed.

Lemma compiled_not_pinf sort I : sort_spec sort -> wf_inst I -> Forall (Forall nonneg) (i_A I) ->
  forall s t i, s < i_k I -> t < i_k I -> i < i_m I ->
  vget (compute_all_violations sort I) (i_k I) (i_m I) s t i <> PInf.
Proof.
  intros HSo HW HA s t i Hs Ht Hi.
  destruct (Nat.eq_dec s t) as [-> |N].
  - intro E. assert (D := compiled_nonpos_diag sort HSo I HW HA t i Ht Hi). rewrite E in D. discriminate.
  - set (post := fun (c : nat * nat * nat * nat) (st : vstate) => let '(s, t, i, l) := c in
        s < i_k I -> t < i_k I -> i < i_m I -> l < i_m I ->
        vget (fst st) (i_k I) (i_m I) s t i <> PInf /\ vget (fst st) (i_k I) (i_m I) t s l <> PInf).
    destruct (fold_calls sort HSo I HW HA post (call_list (i_k I) (i_m I)) (incl_refl _)) with (st := (init_table (i_k I) (i_m I), seq 0 (i_n I))) as (_ & _ & P).
    + intros a b j l [tb ind] (HL & HI & _) HC. apply in_calls in HC. destruct HC as (Ha & Hb & Hj & Hl & HO). intros _ _ _ _.
      assert (Hne : (a, j) <> (b, l)) by (intro E; inversion E; lia). cbn [fst snd] in *.
      destruct (compute_get sort I a b j l tb ind HL Ha Hb Hj Hl Hne) as (E1 & E2 & E3 & E4 & E5).
      rewrite E3, E4. split; apply update_not_pinf.
    + intros [[[a b] j] l] st st' H HM Ha Hb Hj Hl. destruct (H Ha Hb Hj Hl) as [H1 H2].
      assert (G : forall e e', e <> PInf -> ext_leb e' e = true -> e' <> PInf).
      { intros e e' He Hle ->. destruct e; cbn in Hle; congruence. }
      split; [eapply G; [exact H1|now apply HM]|eapply G; [exact H2|now apply HM]].
    + apply init_valid.
    + assert (C : In (s, t, i, i) (call_list (i_k I) (i_m I)) \/ In (t, s, i, i) (call_list (i_k I) (i_m I))).
      { rewrite !in_calls. destruct (lt_eq_lt_dec s t) as [[?|E]|?]; [left; lia|lia|right; lia]. }
      destruct C as [C|C].
      * destruct (P _ C Hs Ht Hi Hi) as [G _]. exact G.
      * destruct (P _ C Ht Hs Hi Hi) as [_ G]. exact G.
Qed.

(** C32 *)
Lemma compiled_finite sort I : sort_spec sort -> wf_inst I -> Forall (Forall nonneg) (i_A I) ->
  forall s t i, s < i_k I -> t < i_k I -> i < i_m I ->
  exists v, vget (compute_all_violations sort I) (i_k I) (i_m I) s t i = Fin v /\
    forall x, in_box (i_n I) x -> sat I 0 x t -> (dot (row I s i) x - rhs I s i <= v)%Q.
Proof.
  intros HSo HW HA s t i Hs Ht Hi.
  assert (NP := compiled_not_pinf sort I HSo HW HA s t i Hs Ht Hi).
  destruct (compiled_valid sort HSo I HW HA s t i Hs Ht Hi) as [E|(v & l & E & Hl & K)]; [congruence|].
  exists v. split; [assumption|]. intros x Hx Hsat. apply K.
  - now rewrite (wf_row I s i HW Hs Hi).
  - cbn. apply Qle_bool_iff. specialize (Hsat l Hl). lra.
Qed.

(** C34 *)
Lemma tables_agree argsort sort I rho : argsort_ok argsort -> sort_spec sort -> wf_inst I -> packing I ->
  2 <= i_m I -> Forall (Forall no_tiny) (i_A I) -> (0 <= rho)%Q ->
  (forall s t i l j, s < i_k I -> t < i_k I -> i < i_m I -> l < i_m I -> j < i_n I ->
     (0 < nth j (row I t l) 0)%Q -> (nth j (row I s i) 0 <= rho * nth j (row I t l) 0)%Q) ->
  exists T, python_violations argsort I = Ok T /\
  forall s t i, s < i_k I -> t < i_k I -> i < i_m I ->
  exists u v, vget T (i_k I) (i_m I) s t i = Fin u /\
    vget (compute_all_violations sort I) (i_k I) (i_m I) s t i = Fin v /\
    (u <= v /\ v <= u + rho * (1 # 1000000))%Q.
Proof.
  intros HAr HSo HW HP Hm HT R0 HR.
  destruct (python_table argsort HAr I HW HP) as (T & E & _ & HTb). exists T. split; [assumption|].
  assert (HA : Forall (Forall nonneg) (i_A I)) by apply HP. assert (HB : Forall nonneg (i_b I)) by apply HP.
  intros s t i Hs Ht Hi. destruct (HTb s t i Hs Ht Hi) as (u & Eu & (l0 & Hl0 & K0) & Kmin).
  assert (NP := compiled_not_pinf sort I HSo HW HA s t i Hs Ht Hi).
  destruct (compiled_valid sort HSo I HW HA s t i Hs Ht Hi) as [E'|(v & l & Ev & Hl & K)]; [congruence|].
  exists u, v. split; [assumption|]. split; [assumption|]. split.
  - destruct (pair_max argsort HAr I HW HP s i t l Hs Ht Hi Hl) as (w & _ & KW).
    assert (u <= w)%Q by (now apply (Kmin l)). destruct KW as [(x & X1 & X2 & X3) _].
    specialize (K x X1 X2). lra.
  - assert (LI := wf_row I s i HW Hs Hi).
    assert (Up := compiled_upper sort HSo I HW HA rho HT HB R0 HR).
    destruct (Nat.eq_dec s t) as [-> |N].
    + destruct (Nat.eq_dec i l0) as [<- |N].
      * (* the diagonal: minimum of 0 and of the naive value *)
        assert (D0 := compiled_nonpos_diag sort HSo I HW HA t i Ht Hi). rewrite Ev in D0. cbn in D0. apply Qle_bool_iff in D0.
        set (l' := if i =? 0 then 1 else 0).
        assert (L' : l' < i_m I /\ i <> l') by (unfold l'; destruct (Nat.eqb_spec i 0); lia). destruct L' as [L1 L2].
        destruct (Up t t i l' Ht Ht Hi L1 ltac:(intro X; inversion X; lia)) as (x & X1 & X2 & X3).
        rewrite Ev in X3. cbn in X3. apply Qle_bool_iff in X3.
        assert (RN := pk_row I HP t i).
        assert (DN : (dot (row I t i) x <= qsum (row I t i))%Q).
        { rewrite <- dot_repeat1. apply dot_mono; [exact RN|]. rewrite LI. destruct X1 as [XL XF]. subst.
          rewrite <- XL. clear - XF. induction XF as [|a x Ha XF IH]; simpl; constructor; [lra|assumption]. }
        (* the exact value *)
        destruct (Qlt_le_dec (rhs I t i) (qsum (row I t i))) as [LT|LE].
        -- assert (u >= 0)%Q.
           { destruct K0 as [_ KU].
             assert (B0 := pk_rhs I HP t i).
             set (a := (rhs I t i / qsum (row I t i))%Q).
             assert (A0 : (0 <= a)%Q) by (apply Qle_shift_div_l; lra). assert (A1 : (a <= 1)%Q) by (apply Qle_shift_div_r; lra).
             assert (DA : (dot (row I t i) (repeat a (length (row I t i))) == rhs I t i)%Q).
             { transitivity (a * qsum (row I t i))%Q; [apply dot_repeat|unfold a; field; lra]. }
             assert (BX : in_box (length (row I t i)) (repeat a (length (row I t i)))).
             { split; [apply repeat_length|]. apply Forall_forall. intros q Hq. apply repeat_spec in Hq. subst q. lra. }
             specialize (KU _ BX ltac:(cbn; apply Qle_bool_iff; lra)). lra. }
           assert (0 <= rho * (1 # 1000000))%Q by (apply Qmult_le_0_compat; lra). lra.
        -- assert (u >= qsum (row I t i) - rhs I t i)%Q.
           { destruct K0 as [_ KU].
             assert (BX : in_box (length (row I t i)) (repeat 1%Q (length (row I t i)))).
             { split; [apply repeat_length|]. apply Forall_forall. intros q Hq. apply repeat_spec in Hq. subst q. lra. }
             specialize (KU _ BX ltac:(cbn; apply Qle_bool_iff; rewrite dot_repeat1; lra)). rewrite dot_repeat1 in KU. lra. }
           unfold wtol in X3. lra.
      * destruct (Up t t i l0 Ht Ht Hi Hl0 ltac:(intro X; inversion X; lia)) as (x & X1 & X2 & X3).
        rewrite Ev in X3. cbn in X3. apply Qle_bool_iff in X3. destruct K0 as [_ KU]. rewrite <- LI in X1.
        specialize (KU x X1 ltac:(cbn; now apply Qle_bool_iff)). unfold wtol in X3. lra.
    + destruct (Up s t i l0 Hs Ht Hi Hl0 ltac:(intro X; inversion X; lia)) as (x & X1 & X2 & X3).
      rewrite Ev in X3. cbn in X3. apply Qle_bool_iff in X3. destruct K0 as [_ KU]. rewrite <- LI in X1.
      specialize (KU x X1 ltac:(cbn; now apply Qle_bool_iff)). unfold wtol in X3. lra.
Qed.

Lemma compiled_dominates argsort sort I : argsort_ok argsort -> sort_spec sort -> wf_inst I -> packing I ->
  exists T, python_violations argsort I = Ok T /\
  forall s t i, s < i_k I -> t < i_k I -> i < i_m I ->
  exists u v, vget T (i_k I) (i_m I) s t i = Fin u /\
    vget (compute_all_violations sort I) (i_k I) (i_m I) s t i = Fin v /\ (u <= v)%Q.
Proof.
  intros HAr HSo HW HP.
  destruct (python_table argsort HAr I HW HP) as (T & E & _ & HTb). exists T. split; [assumption|].
  assert (HA : Forall (Forall nonneg) (i_A I)) by apply HP.
  intros s t i Hs Ht Hi. destruct (HTb s t i Hs Ht Hi) as (u & Eu & _ & Kmin).
  assert (NP := compiled_not_pinf sort I HSo HW HA s t i Hs Ht Hi).
  destruct (compiled_valid sort HSo I HW HA s t i Hs Ht Hi) as [E'|(v & l & Ev & Hl & K)]; [congruence|].
  exists u, v. split; [assumption|]. split; [assumption|].
  destruct (pair_max argsort HAr I HW HP s i t l Hs Ht Hi Hl) as (w & _ & KW).
  assert (u <= w)%Q by (now apply (Kmin l)). destruct KW as [(x & X1 & X2 & X3) _].
  specialize (K x X1 X2). lra.
Qed.

(** One constraint per scenario: the diagonal of the compiled table keeps its initial 0. *)
Definition one_row (D : Q) : inst := mkInst 1 1 1 true 0 [1%Q] [[[1%Q]]] [[(1 + D)%Q]].
Lemma diagonal_differs D : (0 <= D)%Q ->
  wf_inst (one_row D) /\ packing (one_row D) /\
  forall argsort sort, argsort_ok argsort -> sort_spec sort ->
  exists T u, python_violations argsort (one_row D) = Ok T /\
    vget T 1 1 0 0 0 = Fin u /\ (u == - D)%Q /\
    vget (compute_all_violations sort (one_row D)) 1 1 0 0 0 = Fin 0.
Proof.
  intro HD.
  assert (W : wf_inst (one_row D)) by (unfold wf_inst; cbn; repeat split; auto; repeat constructor).
  assert (P : packing (one_row D)).
  { unfold packing; cbn. split; [|split]; repeat constructor; try lra. }
  split; [assumption|]. split; [assumption|]. intros argsort sort HA HSo.
  destruct (python_table argsort HA _ W P) as (T & E & _ & HT). destruct (HT 0 0 0) as (u & Eu & (l & Hl & K) & _); [cbn; lia..|].
  exists T, u. split; [assumption|]. split; [assumption|]. split; [|reflexivity].
  cbn in Hl. assert (l = 0) by lia. subst l. destruct K as [(x & [X1 X2] & X3 & X4) KU]. cbn in X1, X4.
  destruct x as [|a [|]]; try discriminate. inversion X2; subst. cbn in X4.
  specialize (KU [1%Q]). cbn in KU. assert (1 * 1 + 0 - (1 + D) <= u)%Q.
  { apply KU; [split; [reflexivity|constructor; [lra|constructor]]|apply Qle_bool_iff; lra]. }
  lra.
Qed.
