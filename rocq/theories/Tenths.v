(** The table of violations on data in tenths: exact values, Song's big M's against the naive ones. *)
From Verif Require Import Base BaseFacts Spec Instance InstanceFacts PartitionFacts OptModels OptFacts CostRefineFacts Knapsack KnapsackFacts Violations ViolationsFacts ViolTable BigM BigMFacts SongFacts BigMFacts2.
From Coq Require Import Lqa.

Definition tenths (I : inst) : Prop :=
  Forall (Forall (Forall tenth)) (i_A I) /\ Forall (Forall tenth) (i_b I).

Lemma tenth_0 : tenth 0. Proof. exists 0%Z. reflexivity. Qed.
Lemma tenth_plus a b : tenth a -> tenth b -> tenth (a + b).
Proof. intros [z E] [w F]. exists (z + w)%Z. rewrite E, F, inject_Z_plus. field. Qed.
Lemma tenth_sub a b : tenth a -> tenth b -> tenth (a - b).
Proof. intros [z E] [w F]. exists (z - w)%Z. rewrite E, F. unfold Zminus. rewrite inject_Z_plus, inject_Z_opp. field. Qed.
(** Between two tenths the tolerance makes no difference. *)
Lemma tenth_tol a b : tenth a -> tenth b -> (a - wtol <= b)%Q -> (a <= b)%Q.
Proof.
  intros Ha Hb H. apply tenth_le_tol; [assumption|assumption|]. unfold tol6. unfold wtol in H. lra.
Qed.
Lemma tenth_heavy a : tenth a -> (0 <= a)%Q -> (a == 0 \/ wtol < a)%Q.
Proof.
  intros Ha H. destruct (Qlt_le_dec wtol a) as [L|L]; [now right|left].
  assert (a <= 0)%Q; [|lra]. apply tenth_tol; [assumption|exact tenth_0|]. lra.
Qed.

(** The value of the loop is attained. *)
Lemma fill_exact p w C mv o : forall viol weight, NoDup o -> tenth C -> tenth weight -> (forall i, tenth (nth i w 0%Q)) ->
  (forall i, In i o -> 0 <= nth i p 0)%Q -> (weight <= C)%Q ->
  exists y, unit y o /\ (isum (fun i => nth i w 0 * y i) (filter (heavy w) o) <= C - weight)%Q /\
    (fill p w C mv o viol weight <= viol + isum (fun i => nth i p 0 * y i) (filter (heavy w) o))%Q.
Proof.
  intros viol weight ND TC TW TI. revert viol weight ND TW. induction o as [|i o IH]; intros viol weight ND TW HP HC.
  - exists (fun _ => 0%Q). split; [intros ? []|]. unfold isum. simpl. split; lra.
  - assert (HP' : forall j, In j o -> (0 <= nth j p 0)%Q) by (intros; apply HP; now right).
    inversion ND as [|? ? Hni ND']; subst. cbn [fill filter].
    assert (HE : heavy w i = negb (Qle_bool (nth i w 0%Q) wtol)) by reflexivity. rewrite !HE.
    destruct (Qle_bool (nth i w 0%Q) wtol) eqn:EW; cbn [negb].
    + destruct (IH viol weight ND' TW HP' HC) as (y & Hu & H1 & H2).
      exists (fun j => if j =? i then 0%Q else y j).
      assert (EX : forall f, (isum (fun j => f j * (if j =? i then 0 else y j)) (filter (heavy w) o) == isum (fun j => f j * y j) (filter (heavy w) o))%Q).
      { intro f. apply isum_ext. intros j Hj. destruct (j =? i) eqn:E; [|reflexivity]. apply Nat.eqb_eq in E. subst.
        apply filter_In in Hj. tauto. }
      split; [|split; [rewrite (EX (fun j => nth j w 0%Q)); assumption|rewrite (EX (fun j => nth j p 0%Q)); assumption]].
      intros j Hj. destruct (j =? i) eqn:E; [lra|]. apply Hu. destruct Hj as [-> |Hj]; [now rewrite Nat.eqb_refl in E|assumption].
    + assert (Hv : heavy w i = true) by (unfold heavy; now rewrite EW).
      assert (Wi := heavy_pos w i Hv). assert (W0 : (0 < nth i w 0)%Q) by (unfold wtol in Wi; lra).
      assert (Pi := HP i (or_introl eq_refl)). assert (Ti := TI i).
      assert (Step : forall q y, (0 <= q /\ q <= 1)%Q -> unit y o ->
        exists y', unit y' (i :: o) /\ forall f, (isum (fun j => f j * y' j) (i :: filter (heavy w) o) == f i * q + isum (fun j => f j * y j) (filter (heavy w) o))%Q).
      { intros q y Hq Hu. exists (fun j => if j =? i then q else y j). split.
        - intros j Hj. destruct (j =? i) eqn:E; [assumption|]. apply Hu. destruct Hj as [-> |Hj]; [now rewrite Nat.eqb_refl in E|assumption].
        - intro f. rewrite isum_cons, Nat.eqb_refl. apply Qplus_comp; [reflexivity|]. apply isum_ext.
          intros j Hj. destruct (j =? i) eqn:E; [|reflexivity]. apply Nat.eqb_eq in E. subst. apply filter_In in Hj. tauto. }
      assert (Z : forall f l, (isum (fun j => f j * 0) l == 0)%Q).
      { intros f l. rewrite (isum_ext _ (fun j => 0 * f j)%Q) by (intros; lra). rewrite isum_scal. lra. }
      assert (U0 : unit (fun _ => 0%Q) o) by (intros ? _; lra).
      set (wi := nth i w 0%Q) in *. set (pi := nth i p 0%Q) in *.
      destruct (Qle_bool (C - wtol) (weight + wi)) eqn:EC.
      * apply Qle_bool_iff in EC.
        assert (L : (C <= weight + wi)%Q) by (apply tenth_tol; auto using tenth_plus).
        assert (E : (pi * (C - (weight + wi - wi)) / wi == pi * ((C - weight) / wi))%Q) by (field; lra).
        assert (Q1 : ((C - weight) / wi <= 1)%Q) by (apply Qle_shift_div_r; lra).
        assert (Q0 : (0 <= (C - weight) / wi)%Q) by (apply Qle_shift_div_l; lra).
        destruct (Step ((C - weight) / wi)%Q (fun _ => 0%Q) (conj Q0 Q1) U0) as (y & Hu & HY). exists y. split; [assumption|].
        rewrite (HY (fun j => nth j w 0%Q)), (HY (fun j => nth j p 0%Q)), !Z. fold wi pi.
        split; [rewrite Qmult_div_r by lra; lra|]. rewrite E. lra.
      * apply Qle_bool_false in EC. assert (HT : (0 < wtol)%Q) by reflexivity.
        destruct (ext_leb (ext_add mv wtol) (Fin (viol + pi))) eqn:ES.
        -- destruct (Step 1%Q (fun _ => 0%Q) ltac:(lra) U0) as (y & Hu & HY). exists y. split; [assumption|].
           rewrite (HY (fun j => nth j w 0%Q)), (HY (fun j => nth j p 0%Q)), !Z. fold wi pi. split; lra.
        -- destruct (IH (viol + pi)%Q (weight + wi)%Q ND' (tenth_plus _ _ TW Ti) HP' ltac:(lra)) as (y & Hu & H1 & H2).
           destruct (Step 1%Q y ltac:(lra) Hu) as (y' & Hu' & HY). exists y'. split; [assumption|].
           rewrite (HY (fun j => nth j w 0%Q)), (HY (fun j => nth j p 0%Q)). fold wi pi. split; lra.
Qed.

Lemma update_exact p w n loss C indices rv mv : nonneg p -> length p = n -> length w = n ->
  Permutation indices (seq 0 n) -> nonneg w -> Forall tenth w -> tenth C -> (0 <= C)%Q ->
  exists x, in_box n x /\ (dot w x <= C)%Q /\
    ext_leb (update p loss w C mv indices rv) (Fin (dot p x - loss)%Q) = true.
Proof.
  intros HP LP LW HI HW TWs TC HC. set (v0 := (- loss + zero_profit p w indices)%Q).
  set (o := if rv then rev indices else indices).
  assert (order_perm : Permutation o (seq 0 n)).
  { unfold o. destruct rv; [|assumption]. rewrite <- HI. symmetry. apply Permutation_rev. }
  assert (order_in : forall i, In i o -> i < n) by (intros i H; apply (Permutation_in _ order_perm) in H; apply in_seq in H; lia).
  assert (ON : NoDup o) by (apply (Permutation_NoDup (Permutation_sym order_perm)), seq_NoDup).
  assert (TI : forall i, tenth (nth i w 0%Q)) by (intro; apply nth_Forall; [exact tenth_0|assumption]).
  destruct (fill_exact p w C mv o v0 0 ON TC tenth_0 TI) as (y & Hu & H1 & H2); auto.
  - intros i _. now apply nth_nonneg.
  - set (z := fun j => if heavy w j then y j else 1%Q). exists (map z (seq 0 n)).
    assert (Lz : length (map z (seq 0 n)) = n) by (now rewrite map_length, seq_length).
    assert (NZ : forall i, i < n -> nth i (map z (seq 0 n)) 0%Q = z i).
    { intros i Hi. rewrite (nth_indep _ 0%Q (z 0)) by lia. rewrite map_nth, seq_nth by lia. reflexivity. }
    split; [|].
    { split; [assumption|]. apply Forall_forall. intros q Hq. apply in_map_iff in Hq. destruct Hq as (i & <- & Hi).
      unfold z. destruct (heavy w i); [|lra]. apply Hu. apply (Permutation_in _ (Permutation_sym order_perm) Hi). }
    assert (HV : forall f : nat -> Q, (isum (fun i => f i * nth i (map z (seq 0 n)) 0) o ==
               isum (fun i => f i * y i) (filter (heavy w) o) + isum f (filter (light w) o))%Q).
    { intro f. rewrite (isum_split _ (heavy w)), filter_light. apply Qplus_comp.
      - apply isum_ext. intros i Hi. apply filter_In in Hi. destruct Hi as [Hi Hh].
        rewrite NZ by (now apply order_in). unfold z. rewrite Hh. reflexivity.
      - apply isum_ext. intros i Hi. apply filter_In in Hi. destruct Hi as [Hi Hh].
        rewrite NZ by (now apply order_in). unfold z. rewrite heavy_light, Hh. cbn [negb]. ring. }
    assert (ZW : (isum (fun i => nth i w 0%Q) (filter (light w) o) == 0)%Q).
    { rewrite (isum_ext _ (fun i => 0 * 0)%Q), isum_scal; [ring|]. intros i Hi. apply filter_In in Hi. destruct Hi as [Hi Hh].
      apply Qle_bool_iff in Hh. destruct (tenth_heavy (nth i w 0%Q) (TI i)) as [Z|Z]; [now apply nth_nonneg|lra|lra]. }
    split.
    + rewrite (dot_isum w _ o n LW Lz order_perm), (HV (fun i => nth i w 0%Q)), ZW. lra.
    + assert (ZP := zero_profit_perm p w indices o (Permutation_trans HI (Permutation_sym order_perm))).
      assert (DP := dot_isum p _ o n LP Lz order_perm). rewrite (HV (fun i => nth i p 0%Q)) in DP.
      unfold update. fold v0. fold o. set (v := fill _ _ _ _ _ _ _) in *.
      assert (V : (v <= dot p (map z (seq 0 n)) - loss)%Q) by (unfold v0 in H2; lra).
      destruct (ext_ltb (Fin v) mv) eqn:E.
      * cbn. now apply Qle_bool_iff.
      * unfold ext_ltb in E. apply negb_false_iff in E. destruct mv; cbn in *; try congruence.
        apply Qle_bool_iff in E. apply Qle_bool_iff. lra.
Qed.

Lemma tenths_row I s i : tenths I -> Forall tenth (row I s i).
Proof. intros [H _]. unfold row. apply nth_Forall; [constructor|]. apply nth_Forall; [constructor|exact H]. Qed.
Lemma tenths_rhs I s i : tenths I -> tenth (rhs I s i).
Proof. intros [_ H]. unfold rhs. apply nth_Forall; [exact tenth_0|]. apply nth_Forall; [constructor|exact H]. Qed.

(** Each entry is at most the exact value for each constraint compared. *)
Lemma compiled_upper_exact sort I : sort_spec sort -> wf_inst I -> packing I -> tenths I ->
  forall s t i l, s < i_k I -> t < i_k I -> i < i_m I -> l < i_m I -> (s, i) <> (t, l) ->
  exists x, in_box (i_n I) x /\ (dot (row I t l) x <= rhs I t l)%Q /\
    ext_leb (vget (compute_all_violations sort I) (i_k I) (i_m I) s t i) (Fin (dot (row I s i) x - rhs I s i)%Q) = true.
Proof.
  intros HSo HW HP HT. assert (HA : Forall (Forall nonneg) (i_A I)) by apply HP.
  set (n := i_n I) in *. set (m := i_m I) in *. set (k := i_k I) in *.
  set (good := fun s t i l (st : vstate) => exists x, in_box n x /\ (dot (row I t l) x <= rhs I t l)%Q /\
    ext_leb (vget (fst st) k m s t i) (Fin (dot (row I s i) x - rhs I s i)%Q) = true).
  set (post := fun (c : nat * nat * nat * nat) st => let '(s, t, i, l) := c in s < k -> t < k -> i < m -> l < m -> good s t i l st /\ good t s l i st).
  destruct (fold_calls sort HSo I HW HA post (call_list k m) (incl_refl _)) with (st := (init_table k m, seq 0 n)) as (_ & _ & P).
  - intros s t i l [tb ind] (HL & HI & HV) HC Hs Ht Hi Hl. apply in_calls in HC. destruct HC as (_ & _ & _ & _ & HO).
    assert (Hne : (s, i) <> (t, l)) by (intro E; inversion E; lia). cbn [fst snd] in *.
    destruct (compute_get sort I s t i l tb ind HL Hs Ht Hi Hl Hne) as (E1 & E2 & E3 & E4 & E5).
    destruct (sort_facts sort HSo I (row I s i) (row I t l) ind (row_nonneg I HA s i) (row_nonneg I HA t l) HI) as (F1 & F2 & F3).
    assert (R1 := row_len I HW s i Hs Hi). assert (R2 := row_len I HW t l Ht Hl).
    assert (B1 := pk_rhs I HP s i). assert (B2 := pk_rhs I HP t l).
    unfold good, n, k, m. rewrite E3, E4. split; apply update_exact; auto using tenths_row, tenths_rhs; now apply row_nonneg.
  - intros [[[s t] i] l] st st' H HM Hs Ht Hi Hl. destruct (H Hs Ht Hi Hl) as [(x & X1 & X2 & X3) (y & Y1 & Y2 & Y3)].
    split; [exists x|exists y]; (split; [assumption|split; [assumption|]]); eapply ext_leb_trans; eauto; now apply HM.
  - apply init_valid.
  - intros s t i l Hs Ht Hi Hl Hne.
    assert (C : In (s, t, i, l) (call_list k m) \/ In (t, s, l, i) (call_list k m)).
    { rewrite !in_calls. destruct (lt_eq_lt_dec s t) as [[?|E]|?]; [left; lia| |right; lia]. subst.
      destruct (lt_eq_lt_dec i l) as [[?|E]|?]; [left; lia| |right; lia]. subst. now destruct Hne. }
    destruct C as [C|C].
    + destruct (P _ C Hs Ht Hi Hl) as [G _]. exact G.
    + destruct (P _ C Ht Hs Hl Hi) as [_ G]. exact G.
Qed.

Lemma box_naive r x : nonneg r -> in_box (length r) x -> (dot r x <= qsum r)%Q.
Proof.
  intros HR [XL XF]. rewrite <- dot_repeat1. apply dot_mono; [exact HR|]. rewrite <- XL.
  clear - XF. induction XF as [|a x Ha XF IH]; simpl; constructor; [lra|assumption].
Qed.

Lemma min_violation_eq I s t i u v : (u == v)%Q -> min_violation I s t i u -> min_violation I s t i v.
Proof.
  intros E [(l & Hl & (x & X1 & X2 & X3) & K) M]. split.
  - exists l. split; [assumption|]. split; [exists x; repeat split; try apply X1; try assumption; lra|].
    intros y Y1 Y2. specialize (K y Y1 Y2). lra.
  - intros l' w Hl' KW. specialize (M l' w Hl' KW). lra.
Qed.

Lemma compiled_exact argsort sort I : argsort_ok argsort -> sort_spec sort -> wf_inst I -> packing I -> tenths I -> 2 <= i_m I ->
  forall s t i, s < i_k I -> t < i_k I -> i < i_m I ->
  exists v, vget (compute_all_violations sort I) (i_k I) (i_m I) s t i = Fin v /\ min_violation I s t i v.
Proof.
  intros HAr HSo HW HP HT Hm.
  destruct (python_table argsort HAr I HW HP) as (T & E & _ & HTb).
  assert (HA : Forall (Forall nonneg) (i_A I)) by apply HP.
  intros s t i Hs Ht Hi. destruct (HTb s t i Hs Ht Hi) as (u & Eu & MV). assert (MV' := MV).
  destruct MV' as [(l0 & Hl0 & K0) Kmin].
  assert (NP := compiled_not_pinf sort I HSo HW HA s t i Hs Ht Hi).
  destruct (compiled_valid sort HSo I HW HA s t i Hs Ht Hi) as [E'|(v & l & Ev & Hl & K)]; [congruence|].
  exists v. split; [assumption|]. apply (min_violation_eq I s t i u); [|assumption].
  assert (L1 : (u <= v)%Q).
  { destruct (pair_max argsort HAr I HW HP s i t l Hs Ht Hi Hl) as (w & _ & KW).
    assert (u <= w)%Q by (now apply (Kmin l)). destruct KW as [(x & X1 & X2 & X3) _].
    specialize (K x X1 X2). lra. }
  assert (L2 : (v <= u)%Q); [|lra].
  assert (LI := wf_row I s i HW Hs Hi).
  assert (Up := compiled_upper_exact sort I HSo HW HP HT).
  destruct (Nat.eq_dec s t) as [-> |N]; [destruct (Nat.eq_dec i l0) as [<- |N]|].
  - (* the diagonal: minimum of 0 and of the naive value *)
    assert (D0 := compiled_nonpos_diag sort HSo I HW HA t i Ht Hi). rewrite Ev in D0. cbn in D0. apply Qle_bool_iff in D0.
    set (l' := if i =? 0 then 1 else 0).
    assert (L' : l' < i_m I /\ i <> l') by (unfold l'; destruct (Nat.eqb_spec i 0); lia). destruct L' as [L1' L2'].
    destruct (Up t t i l' Ht Ht Hi L1' ltac:(intro X; inversion X; lia)) as (x & X1 & X2 & X3).
    rewrite Ev in X3. cbn in X3. apply Qle_bool_iff in X3. rewrite <- LI in X1.
    assert (DN := box_naive (row I t i) x (pk_row I HP t i) X1).
    destruct K0 as [_ KU]. destruct (Qlt_le_dec (rhs I t i) (qsum (row I t i))) as [LT|LE].
    + assert (B0 := pk_rhs I HP t i).
      set (a := (rhs I t i / qsum (row I t i))%Q).
      assert (A0 : (0 <= a)%Q) by (apply Qle_shift_div_l; lra). assert (A1 : (a <= 1)%Q) by (apply Qle_shift_div_r; lra).
      assert (DA : (dot (row I t i) (repeat a (length (row I t i))) == rhs I t i)%Q).
      { transitivity (a * qsum (row I t i))%Q; [apply dot_repeat|unfold a; field; lra]. }
      assert (BX : in_box (length (row I t i)) (repeat a (length (row I t i)))).
      { split; [apply repeat_length|]. apply Forall_forall. intros q Hq. apply repeat_spec in Hq. subst q. lra. }
      specialize (KU _ BX ltac:(cbn; apply Qle_bool_iff; lra)). lra.
    + assert (BX : in_box (length (row I t i)) (repeat 1%Q (length (row I t i)))).
      { split; [apply repeat_length|]. apply Forall_forall. intros q Hq. apply repeat_spec in Hq. subst q. lra. }
      specialize (KU _ BX ltac:(cbn; apply Qle_bool_iff; rewrite dot_repeat1; lra)). rewrite dot_repeat1 in KU. lra.
  - destruct (Up t t i l0 Ht Ht Hi Hl0 ltac:(intro X; inversion X; lia)) as (x & X1 & X2 & X3).
    rewrite Ev in X3. cbn in X3. apply Qle_bool_iff in X3. destruct K0 as [_ KU]. rewrite <- LI in X1.
    specialize (KU x X1 ltac:(cbn; now apply Qle_bool_iff)). lra.
  - destruct (Up s t i l0 Hs Ht Hi Hl0 ltac:(intro X; inversion X; lia)) as (x & X1 & X2 & X3).
    rewrite Ev in X3. cbn in X3. apply Qle_bool_iff in X3. destruct K0 as [_ KU]. rewrite <- LI in X1.
    specialize (KU x X1 ltac:(cbn; now apply Qle_bool_iff)). lra.
Qed.

(** ** Against the naive values *)
Definition naive_of (I : inst) (s i : nat) : Q := (qsum (row I s i) - rhs I s i)%Q.

(** With one constraint per scenario, the diagonal may exceed a negative naive value. *)
Lemma entry_naive sort I : sort_spec sort -> wf_inst I -> packing I -> tenths I ->
  forall s t i, s < i_k I -> t < i_k I -> i < i_m I ->
  ext_leb (vget (compute_all_violations sort I) (i_k I) (i_m I) s t i)
    (Fin (if 1 <? i_m I then naive_of I s i else Qmax 0 (naive_of I s i))) = true.
Proof.
  intros HSo HW HP HT s t i Hs Ht Hi. assert (HA : Forall (Forall nonneg) (i_A I)) by apply HP.
  assert (LI := wf_row I s i HW Hs Hi).
  assert (U : forall l, l < i_m I -> (s, i) <> (t, l) -> ext_leb (vget (compute_all_violations sort I) (i_k I) (i_m I) s t i) (Fin (naive_of I s i)) = true).
  { intros l Hl Hne. destruct (compiled_upper_exact sort I HSo HW HP HT s t i l Hs Ht Hi Hl Hne) as (x & X1 & _ & X3).
    eapply ext_leb_trans; [exact X3|]. cbn. apply Qle_bool_iff. rewrite <- LI in X1.
    assert (DN := box_naive (row I s i) x (pk_row I HP s i) X1). unfold naive_of. lra. }
  destruct (Nat.ltb_spec 1 (i_m I)) as [M|M].
  - destruct (Nat.eq_dec i 0) as [-> |N]; [apply (U 1)|apply (U 0)]; try lia; intro E; inversion E; lia.
  - destruct (Nat.eq_dec s t) as [-> |N].
    + eapply ext_leb_trans; [now apply compiled_nonpos_diag|]. cbn. apply Qle_bool_iff. apply Q.le_max_l.
    + eapply ext_leb_trans; [apply (U 0); [lia|intro E; inversion E; lia]|]. cbn. apply Qle_bool_iff. apply Q.le_max_r.
Qed.

Lemma quantile_bound eps nb L M b : Forall (fun e => ext_leb e b = true) L -> quantile_big_m eps nb L = Ok M -> ext_leb M b = true.
Proof.
  intros HF H. unfold quantile_big_m in H. apply (geti_inv _ _ _ PInf) in H. destruct H as [HL <-].
  rewrite Forall_forall in HF. apply HF. apply (Permutation_in _ (isort_perm ext_leb L)). now apply nth_In.
Qed.

Lemma song_bound I tab part eps nb s i M b : (forall t, t < i_k I -> ext_leb (vget tab (i_k I) (i_m I) s t i) b = true) ->
  song_big_m I tab part eps nb s i = Ok M -> ext_leb M b = true.
Proof.
  intros HB H. unfold song_big_m in H.
  set (all := map (fun t => vget tab (i_k I) (i_m I) s t i) (seq 0 (i_k I))) in *.
  assert (HAll : Forall (fun e => ext_leb e b = true) all).
  { unfold all. apply Forall_forall. intros e He. apply in_map_iff in He. destruct He as (t & <- & Ht). apply in_seq in Ht. apply HB. lia. }
  destruct part as [p|]; cbn [rbind] in H.
  - destruct (rmap _ p) as [L|] eqn:EL; cbn [rbind] in H; [|discriminate].
    apply (quantile_bound eps nb L); [|assumption]. clear H. revert L EL. induction p as [|S p IH]; cbn [rmap]; intros L EL.
    + injection EL as <-. constructor.
    + destruct (rmap (fun t => geti all t) S) as [lS|] eqn:ES; cbn [rbind] in EL; [|discriminate].
      destruct (ext_min_list lS) as [e|] eqn:EM; cbn [rbind] in EL; [|discriminate].
      destruct (rmap _ p) as [L'|] eqn:EL'; cbn [rbind] in EL; [|discriminate]. injection EL as <-.
      constructor; [|now apply IH].
      destruct lS as [|e0 lS]; [discriminate|]. destruct (min_list_spec (e0 :: lS)) as (e' & E1 & E2 & _); [discriminate|].
      rewrite EM in E1. injection E1 as <-.
      assert (FS : Forall (fun e => ext_leb e b = true) (e0 :: lS)).
      { rewrite Forall_forall in *. intros a Ha. apply (In_nth _ _ PInf) in Ha. destruct Ha as (j & Hj & <-).
        assert (LS := rmap_length _ _ _ ES). assert (EN := rmap_nth _ _ _ 0 PInf j ES ltac:(lia)).
        apply (geti_inv _ _ _ PInf) in EN. destruct EN as [EN1 EN2]. rewrite <- EN2. apply HAll. now apply nth_In. }
      rewrite Forall_forall in FS. now apply FS.
  - now apply (quantile_bound eps nb all).
Qed.

Definition naive_limit (I : inst) (s i : nat) : Q := if 1 <? i_m I then naive_of I s i else Qmax 0 (naive_of I s i).

Lemma song_naive sort I eps : sort_spec sort -> wf_inst I -> packing I -> tenths I ->
  forall Ms, song_all I (compute_all_violations sort I) None eps (i_k I) = Ok Ms ->
  forall s i, s < i_k I -> i < i_m I -> ext_leb (nth i (nth s Ms []) PInf) (Fin (naive_limit I s i)) = true.
Proof.
  intros HSo HW HP HT Ms E s i Hs Hi. cbn [song_all] in E.
  assert (E1 := rmap_nth _ _ _ 0 [] s E ltac:(now rewrite seq_length)). rewrite seq_nth in E1 by assumption. cbn [plus] in E1.
  assert (E2 := rmap_nth _ _ _ 0 PInf i E1 ltac:(now rewrite seq_length)). rewrite seq_nth in E2 by assumption. cbn [plus] in E2.
  apply (song_bound I _ None eps (i_k I) s i _ _ (fun t Ht => entry_naive sort I HSo HW HP HT s t i Hs Ht Hi) E2).
Qed.

Lemma song_naive_part sort I eps p V : sort_spec sort -> wf_inst I -> packing I -> tenths I ->
  valid_partition (i_k I) p -> load_partition I (uniform (i_k I)) (length p) p = Ok V ->
  forall Ms, song_all I (compute_all_violations sort I) (Some p) eps (length p) = Ok Ms ->
  forall c j, c < length p -> j < v_m V c ->
  let b := (qsum (v_row V c j) - v_rhs V c j)%Q in
  ext_leb (nth j (nth c Ms []) PInf) (Fin (if 1 <? i_m I then b else Qmax 0 b)) = true.
Proof.
  intros HSo HW HP HT Hp HL Ms E c j Hc Hj. cbn [song_all] in E.
  assert (K0 : 0 < i_k I) by apply HW. assert (HF := vp_lt _ _ Hp).
  destruct (load_partition_rows I (uniform (i_k I)) p V HW) as [_ HR]; try assumption; [apply repeat_length|now apply uniform_total_nz|].
  destruct (HR c Hc) as (M1 & _ & M3 & _). destruct (M3 j) as [R1 R2]; [lia|]. rewrite R1, R2.
  assert (E1 := rmap_nth _ _ _ 0 [] c E ltac:(now rewrite seq_length)). rewrite seq_nth in E1 by assumption. cbn [plus] in E1.
  rewrite (geti_ok p c []) in E1 by assumption. cbn [rbind] in E1.
  assert (Hj' : j < length (nth c p []) * i_m I) by lia.
  assert (E2 := rmap_nth _ _ _ 0 PInf j E1 ltac:(now rewrite seq_length)). rewrite seq_nth in E2 by assumption. cbn [plus] in E2.
  assert (M0 : 0 < i_m I) by (destruct (i_m I); lia).
  assert (J : j / i_m I < length (nth c p [])) by (apply Nat.div_lt_upper_bound; lia).
  rewrite (geti_ok _ _ 0) in E2 by assumption. cbn [rbind] in E2.
  set (s := nth (j / i_m I) (nth c p []) 0) in *. set (i := j mod i_m I) in *.
  assert (Hs : s < i_k I).
  { rewrite Forall_forall in HF. destruct (HF (nth c p [])) as [_ F2]; [now apply nth_In|]. rewrite Forall_forall in F2. apply F2. now apply nth_In. }
  assert (Hi : i < i_m I) by (apply Nat.mod_upper_bound; lia).
  apply (song_bound I _ (Some p) eps (length p) s i _ _ (fun t Ht => entry_naive sort I HSo HW HP HT s t i Hs Ht Hi) E2).
Qed.

Lemma naive_all_nth V s i : s < v_k V -> i < v_m V s ->
  nth i (nth s (naive_all V (v_k V)) []) 0%Q = (qsum (v_row V s i) - v_rhs V s i)%Q.
Proof.
  intros Hs Hi. unfold naive_all, naive_bigM. rewrite (map_nth_lt _ _ 0) by (now rewrite seq_length).
  rewrite seq_nth by assumption. cbn [plus]. rewrite (map_nth_lt _ _ 0) by (now rewrite seq_length).
  rewrite seq_nth by assumption. reflexivity.
Qed.

Definition within (I : inst) (b : Q) : Q := if 1 <? i_m I then b else Qmax 0 b.

Lemma song_naive_all sort I proba eps : sort_spec sort -> wf_inst I -> packing I -> tenths I ->
  forall Ms, song_all I (compute_all_violations sort I) None eps (i_k I) = Ok Ms ->
  forall s i, s < i_k I -> i < i_m I ->
  ext_leb (nth i (nth s Ms []) PInf) (Fin (within I (nth i (nth s (naive_all (view_inst I proba) (i_k I)) []) 0))%Q) = true.
Proof.
  intros HSo HW HP HT Ms E s i Hs Hi.
  assert (HV : i < v_m (view_inst I proba) s).
  { unfold v_m, view_inst. cbn [v_A]. destruct HW as (_ & _ & L & F & _). rewrite Forall_forall in F.
    destruct (F (nth s (i_A I) [])) as [L1 _]; [apply nth_In; lia|lia]. }
  assert (N := naive_all_nth (view_inst I proba) s i Hs HV). change (v_k (view_inst I proba)) with (i_k I) in N. rewrite N.
  exact (song_naive sort I eps HSo HW HP HT Ms E s i Hs Hi).
Qed.

Lemma song_naive_subsets sort I eps p V : sort_spec sort -> wf_inst I -> packing I -> tenths I ->
  valid_partition (i_k I) p -> load_partition I (uniform (i_k I)) (length p) p = Ok V ->
  forall Ms, song_all I (compute_all_violations sort I) (Some p) eps (length p) = Ok Ms ->
  forall c j, c < length p -> j < v_m V c ->
  ext_leb (nth j (nth c Ms []) PInf) (Fin (within I (nth j (nth c (naive_all V (length p)) []) 0))%Q) = true.
Proof.
  intros HSo HW HP HT Hp HL Ms E c j Hc Hj.
  destruct (view_data I p V HW Hp HL) as (_ & _ & _ & VK).
  assert (N := naive_all_nth V c j ltac:(lia) Hj). rewrite VK in N. rewrite N.
  exact (song_naive_part sort I eps p V HSo HW HP HT Hp HL Ms E c j Hc Hj).
Qed.

Lemma tables_equal argsort sort I : argsort_ok argsort -> sort_spec sort -> wf_inst I -> packing I -> tenths I -> 2 <= i_m I ->
  exists T, python_violations argsort I = Ok T /\
  forall s t i, s < i_k I -> t < i_k I -> i < i_m I ->
  exists u v, vget T (i_k I) (i_m I) s t i = Fin u /\
    vget (compute_all_violations sort I) (i_k I) (i_m I) s t i = Fin v /\ (u == v)%Q /\ min_violation I s t i v.
Proof.
  intros HAr HSo HW HP HT Hm.
  destruct (python_table argsort HAr I HW HP) as (T & E & _ & HTb). exists T. split; [assumption|].
  intros s t i Hs Ht Hi. destruct (HTb s t i Hs Ht Hi) as (u & Eu & MU).
  destruct (compiled_exact argsort sort I HAr HSo HW HP HT Hm s t i Hs Ht Hi) as (v & Ev & MV).
  exists u, v. split; [assumption|]. split; [assumption|]. split; [|assumption].
  destruct MU as [(l & Hl & K) M], MV as [(l' & Hl' & K') M'].
  specialize (M l' v Hl' K'). specialize (M' l u Hl K). lra.
Qed.

Lemma parse_tenths2 rows cont eps I : parse rows cont eps = Ok I -> tenths I.
Proof. intro H. split; apply (parse_tenths rows cont eps I H). Qed.

(** Witnesses: one constraint per scenario; data finer than the tolerance. *)
(** Song's value for constraint (0,0) exceeds the naive one. *)
Definition above_naive (I : inst) : bool :=
  match song_all I (compute_all_violations sort_ref I) None (i_eps I) (i_k I) with
  | Ok Ms => negb (ext_leb (nth 0 (nth 0 Ms []) PInf) (Fin (nth 0 (nth 0 (naive_all (view_inst I (uniform (i_k I))) (i_k I)) []) 0%Q)))
  | Err _ => false
  end.
Definition exOne : inst := mkInst 1 1 2 true 0 [1%Q] [[[1%Q]]; [[1%Q]]] [[2%Q]; [2%Q]].
Definition exFine : inst := mkInst 1 2 2 true 0 [1%Q] [[[1]; [1]]; [[1]; [1]]]%Q
  [[2000001 # 2000000; 2000001 # 2000000]; [2000001 # 2000000; 2000001 # 2000000]]%Q.

Lemma one_refuted : wf_inst exOne /\ packing exOne /\ tenths exOne /\ i_m exOne = 1 /\ above_naive exOne = true.
Proof.
  repeat split; try (vm_compute; reflexivity); repeat constructor; try (now vm_compute); try (exists 10%Z; reflexivity); try (exists 20%Z; reflexivity).
Qed.
Lemma fine_refuted : wf_inst exFine /\ packing exFine /\ i_m exFine = 2 /\ above_naive exFine = true.
Proof. repeat split; try (vm_compute; reflexivity); repeat constructor; now vm_compute. Qed.
