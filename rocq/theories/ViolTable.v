(** The table of violations: validity, tightness, agreement with the Python version. *)
From Verif Require Import Base BaseFacts Spec Instance InstanceFacts Knapsack KnapsackFacts Violations ViolationsFacts.

Definition nonneg (l : list Q) : Prop := Forall (fun a => 0 <= a)%Q l.
Definition light (w : list Q) (i : nat) : bool := Qle_bool (nth i w 0%Q) wtol.
(** No weight is positive and below the tolerance of the compiled code. *)
Definition no_tiny (w : list Q) : Prop := Forall (fun a => a == 0 \/ wtol < a)%Q w.

Lemma isum_split f g l :
  (isum f l == isum f (filter g l) + isum f (filter (fun i => negb (g i)) l))%Q.
Proof.
  induction l as [|a l IH]; [reflexivity|]. cbn [filter]. rewrite isum_cons, IH.
  destruct (g a); cbn [negb]; rewrite isum_cons; ring.
Qed.

Lemma perm_filter {A} (g : A -> bool) l l' : Permutation l l' -> Permutation (filter g l) (filter g l').
Proof.
  induction 1; simpl; [constructor| | |now transitivity (filter g l')].
  - destruct (g x); [now constructor|assumption].
  - destruct (g x), (g y); try reflexivity. constructor.
Qed.

Lemma heavy_light w i : heavy w i = negb (light w i). Proof. reflexivity. Qed.
Lemma filter_light w o : filter (fun i => negb (heavy w i)) o = filter (light w) o.
Proof. apply filter_ext. intro i. rewrite heavy_light. now rewrite negb_involutive. Qed.

Lemma zero_profit_perm p w o o' : Permutation o o' -> (zero_profit p w o == isum (fun i => nth i p 0%Q) (filter (light w) o'))%Q.
Proof. intro H. unfold zero_profit. apply isum_perm. now apply perm_filter. Qed.

(** A uniform bound on the ratios. *)
Lemma crude_rho p w n : nonneg p -> length p = n ->
  exists rho, (0 <= rho)%Q /\ forall i, i < n -> heavy w i = true -> (nth i p 0 <= rho * nth i w 0)%Q.
Proof.
  intros HP HL. exists (qsum p * 1000000)%Q.
  assert (S0 : (0 <= qsum p)%Q) by (apply qsum_nonneg; exact HP).
  split; [lra|]. intros i Hi Hh. apply heavy_pos in Hh. unfold wtol in Hh.
  assert (L : (nth i p 0 <= qsum p)%Q).
  { clear - HP HL Hi. subst n. revert i Hi. induction HP as [|a p Ha HP IH]; intros i Hi; simpl in Hi; [lia|].
    assert (S0 : (0 <= qsum p)%Q) by (apply qsum_nonneg; exact HP).
    destruct i; cbn [nth qsum]; [lra|]. specialize (IH i ltac:(lia)). lra. }
  assert (K : (qsum p * 1 <= qsum p * (1000000 * nth i w 0))%Q).
  { rewrite (Qmult_comm _ 1), (Qmult_comm (qsum p)). apply Qmult_le_compat_r; lra. }
  lra.
Qed.

(** ** One call of update *)
Section Update.
  Variables (p w : list Q) (n : nat) (loss C : Q) (indices : list nat) (rv : bool).
  Hypothesis HP : nonneg p.
  Hypothesis HW : nonneg w.
  Hypothesis LP : length p = n.
  Hypothesis LW : length w = n.
  Hypothesis HI : Permutation indices (seq 0 n).
  Let o := if rv then rev indices else indices.
  Hypothesis HS : StronglySorted (fun a b => heavy w a = true -> heavy w b = true -> nth b p 0 * nth a w 0 <= nth a p 0 * nth b w 0)%Q o.

  Lemma order_perm : Permutation o (seq 0 n).
  Proof. unfold o. destruct rv; [|assumption]. rewrite <- HI. symmetry. apply Permutation_rev. Qed.
  Lemma order_in i : In i o -> i < n.
  Proof. intro H. apply (Permutation_in _ order_perm) in H. apply in_seq in H. lia. Qed.
  Lemma order_nodup : NoDup o.
  Proof. apply (Permutation_NoDup (Permutation_sym order_perm)), seq_NoDup. Qed.

  Lemma update_le mv : ext_leb (update p loss w C mv indices rv) mv = true.
  Proof.
    unfold update. set (v := fill _ _ _ _ _ _ _). destruct (ext_ltb (Fin v) mv) eqn:E.
    - unfold ext_ltb in E. apply negb_true_iff in E. destruct mv; cbn in *; try congruence.
      apply Qle_bool_false in E. apply Qle_bool_iff. lra.
    - destruct mv; cbn; auto. apply Qle_bool_iff. lra.
  Qed.

  Lemma update_valid mv : update p loss w C mv indices rv = mv \/
    exists v, update p loss w C mv indices rv = Fin v /\
      forall x, in_box n x -> (dot w x <= C)%Q -> (dot p x - loss <= v)%Q.
  Proof.
    unfold update. set (v0 := (- loss + zero_profit p w indices)%Q). fold o.
    set (v := fill _ _ _ _ _ _ _). destruct (ext_ltb (Fin v) mv) eqn:E; [|now left].
    right. exists v. split; [reflexivity|]. intros x [HL HX] HC.
    destruct (crude_rho p w n HP LP) as (rho & R0 & HR).
    assert (U : unit (fun i => nth i x 0%Q) o).
    { intros i Hi. apply order_in in Hi. rewrite Forall_forall in HX. apply HX, nth_In. lia. }
    rewrite (dot_isum p x o n LP HL order_perm). rewrite (dot_isum w x o n LW HL order_perm) in HC.
    rewrite (isum_split _ (heavy w)), filter_light. rewrite (isum_split _ (heavy w)), filter_light in HC.
    assert (P0 : forall i, (0 <= nth i p 0)%Q) by (intro; now apply nth_nonneg).
    assert (W0 : forall i, (0 <= nth i w 0)%Q) by (intro; now apply nth_nonneg).
    assert (LWT : (0 <= isum (fun i => nth i w 0 * nth i x 0) (filter (light w) o))%Q).
    { apply isum_nonneg. intros i Hi. apply filter_In in Hi. apply Qmult_le_0_compat; [apply W0|apply (U i); tauto]. }
    assert (LPR : (isum (fun i => nth i p 0 * nth i x 0) (filter (light w) o) <= isum (fun i => nth i p 0%Q) (filter (light w) o))%Q).
    { apply isum_le. intros i Hi. apply filter_In in Hi. destruct (U i ltac:(tauto)) as [X0 X1].
      assert (0 <= nth i p 0 * (1 - nth i x 0))%Q by (apply Qmult_le_0_compat; [apply P0|lra]). lra. }
    assert (ZP := zero_profit_perm p w indices o (Permutation_trans HI (Permutation_sym order_perm))).
    destruct (fill_valid p w C mv o v0 0 rho 0 (fun i => nth i x 0%Q)) as [H|H]; auto; try lra.
    - intros i Hi. apply HR. now apply order_in.
    - fold v in H. exfalso. unfold ext_ltb in E. apply negb_true_iff in E. clearbody v. clear - E H.
      destruct mv; cbn [ext_leb ext_add] in E, H; try congruence. assert (0 < wtol)%Q by reflexivity. apply Qle_bool_iff in H. apply Qle_bool_false in E. lra.
    - fold v in H. cbv beta in H. unfold v0 in H. lra.
  Qed.

  Lemma update_upper mv rho : no_tiny w -> (0 <= C)%Q -> (0 <= rho)%Q ->
    (forall i, i < n -> (0 < nth i w 0)%Q -> (nth i p 0 <= rho * nth i w 0)%Q) ->
    exists x, in_box n x /\ (dot w x <= C)%Q /\
      ext_leb (update p loss w C mv indices rv) (Fin (dot p x - loss + rho * wtol)%Q) = true.
  Proof.
    intros HT HC R0 HR. set (v0 := (- loss + zero_profit p w indices)%Q).
    destruct (fill_attained p w C mv o v0 0 rho order_nodup) as (y & Hu & H1 & H2); auto.
    - intros i _. now apply nth_nonneg.
    - intros i Hi Hh. apply HR; [now apply order_in|]. apply heavy_pos in Hh. unfold wtol in Hh. lra.
    - set (z := fun j => if heavy w j then y j else 1%Q). exists (map z (seq 0 n)).
      assert (Lz : length (map z (seq 0 n)) = n) by (now rewrite map_length, seq_length).
      assert (NZ : forall i, i < n -> nth i (map z (seq 0 n)) 0%Q = z i).
      { intros i Hi. rewrite (nth_indep _ 0%Q (z 0)) by lia. rewrite map_nth, seq_nth by lia. reflexivity. }
      split; [|].
      { split; [assumption|]. apply Forall_forall. intros q Hq. apply in_map_iff in Hq. destruct Hq as (i & <- & Hi).
        unfold z. destruct (heavy w i); [|lra]. apply Hu. apply (Permutation_in _ (Permutation_sym order_perm) Hi). }
      assert (HV : forall f : nat -> Q, (isum (fun i => f i * nth i (map z (seq 0 n)) 0) o ==
                 isum (fun i => f i * y i) (filter (heavy w) o) + isum f (filter (light w) o))%Q).
      { intro f. rewrite (isum_split _ (heavy w)), filter_light. apply Qplus_comp.
        - apply isum_ext. intros i Hi. apply filter_In in Hi. destruct Hi as [Hi Hh].
          rewrite NZ by (now apply order_in). unfold z. rewrite Hh. reflexivity.
        - apply isum_ext. intros i Hi. apply filter_In in Hi. destruct Hi as [Hi Hh].
          rewrite NZ by (now apply order_in). unfold z. rewrite heavy_light, Hh. cbn [negb]. ring. }
      assert (ZW : (isum (fun i => nth i w 0%Q) (filter (light w) o) == 0)%Q).
      { rewrite (isum_ext _ (fun i => 0 * 0)%Q), isum_scal; [ring|]. intros i Hi. apply filter_In in Hi. destruct Hi as [Hi Hh].
        apply Qle_bool_iff in Hh. unfold no_tiny in HT. rewrite Forall_forall in HT.
        destruct (HT (nth i w 0%Q)) as [Z|Z]; [apply nth_In; rewrite LW; now apply order_in|lra|lra]. }
      split.
      + rewrite (dot_isum w _ o n LW Lz order_perm), (HV (fun i => nth i w 0%Q)), ZW. lra.
      + assert (ZP := zero_profit_perm p w indices o (Permutation_trans HI (Permutation_sym order_perm))).
        assert (DP := dot_isum p _ o n LP Lz order_perm). rewrite (HV (fun i => nth i p 0%Q)) in DP.
        unfold update. fold v0. fold o. set (v := fill _ _ _ _ _ _ _) in *.
        assert (V : (v <= dot p (map z (seq 0 n)) - loss + rho * wtol)%Q) by (unfold v0 in H2; lra).
        destruct (ext_ltb (Fin v) mv) eqn:E.
        * cbn. now apply Qle_bool_iff.
        * unfold ext_ltb in E. apply negb_false_iff in E. destruct mv; cbn in *; try congruence.
          apply Qle_bool_iff in E. apply Qle_bool_iff. lra.
  Qed.
End Update.

(** ** Indices *)
Lemma lin_inj m a i a' i' : i < m -> i' < m -> a * m + i = a' * m + i' -> a = a' /\ i = i'.
Proof.
  intros H H' E. assert (a = a').
  { transitivity ((a * m + i) / m); [apply Nat.div_unique with i; lia|]. rewrite E. symmetry. apply Nat.div_unique with i'; lia. }
  subst. lia.
Qed.
Lemma idx_inj k m s t i s' t' i' : t < k -> t' < k -> i < m -> i' < m ->
  s * k * m + t * m + i = s' * k * m + t' * m + i' -> s = s' /\ t = t' /\ i = i'.
Proof.
  intros Ht Ht' Hi Hi' E.
  destruct (lin_inj m (s * k + t) i (s' * k + t') i' Hi Hi') as [E1 E2]; [lia|].
  destruct (lin_inj k s t s' t' Ht Ht' E1). auto.
Qed.
Lemma idx_lt k m s t i : s < k -> t < k -> i < m -> s * k * m + t * m + i < k * k * m.
Proof.
  intros. assert (s * k + t < k * k) by nia. assert ((s * k + t) * m + i < k * k * m) by nia. lia.
Qed.

Lemma flat_map_length {A B} (f : A -> list B) l c : (forall a, In a l -> length (f a) = c) -> length (flat_map f l) = length l * c.
Proof. induction l as [|a l IH]; intro H; simpl; [reflexivity|]. rewrite app_length, H, IH; auto with datatypes. Qed.
Lemma nth_flat_map {A B} (f : A -> list B) l c d da : (forall a, In a l -> length (f a) = c) ->
  forall s j, s < length l -> j < c -> nth (s * c + j) (flat_map f l) d = nth j (f (nth s l da)) d.
Proof.
  induction l as [|a l IH]; intros H s j Hs Hj; simpl in Hs; [lia|]. cbn [flat_map].
  assert (La : length (f a) = c) by (apply H; now left). destruct s.
  - simpl. now rewrite app_nth1 by lia.
  - rewrite app_nth2 by lia. replace (S s * c + j - length (f a)) with (s * c + j) by lia.
    cbn [nth]. apply IH; [intros; apply H; now right|lia|assumption].
Qed.
Lemma init_length k m : length (init_table k m) = k * k * m.
Proof.
  unfold init_table. rewrite (flat_map_length _ _ (k * m)); [rewrite seq_length; lia|].
  intros s _. rewrite (flat_map_length _ _ m); [now rewrite seq_length|]. intros. apply repeat_length.
Qed.
Lemma init_get k m s t i : s < k -> t < k -> i < m ->
  vget (init_table k m) k m s t i = if s =? t then Fin 0 else PInf.
Proof.
  intros Hs Ht Hi. unfold vget, init_table. replace (s * k * m + t * m + i) with (s * (k * m) + (t * m + i)) by lia.
  rewrite (nth_flat_map _ _ (k * m) _ 0); [| |now rewrite seq_length|nia].
  - rewrite seq_nth by lia. rewrite (nth_flat_map _ _ m _ 0); [| |now rewrite seq_length|assumption].
    + rewrite seq_nth by lia. cbn [plus]. rewrite nth_repeat_lt by assumption. reflexivity.
    + intros. apply repeat_length.
  - intros s' _. rewrite (flat_map_length _ _ m); [now rewrite seq_length|]. intros. apply repeat_length.
Qed.

Lemma in_calls k m s t i l : In (s, t, i, l) (call_list k m) <->
  s < k /\ t < k /\ i < m /\ l < m /\ ((s = t /\ i < l) \/ s < t).
Proof.
  unfold call_list. rewrite in_app_iff, !in_flat_map. split.
  - intros [(a & Ha & H)|(a & Ha & H)]; apply in_flat_map in H; destruct H as (b & Hb & H).
    + apply in_map_iff in H. destruct H as (c & E & Hc). apply in_seq in Ha, Hb, Hc. inversion E; subst. lia.
    + apply in_flat_map in H. destruct H as (d & Hd & H). apply in_map_iff in H. destruct H as (c & E & Hc).
      apply in_seq in Ha, Hb, Hc, Hd. inversion E; subst. lia.
  - intros (Hs & Ht & Hi & Hl & [[<- H]|H]); [left|right].
    + exists s. split; [apply in_seq; lia|]. apply in_flat_map. exists i. split; [apply in_seq; lia|].
      apply in_map_iff. exists l. split; [reflexivity|]. apply in_seq. lia.
    + exists s. split; [apply in_seq; lia|]. apply in_flat_map. exists t. split; [apply in_seq; lia|].
      apply in_flat_map. exists i. split; [apply in_seq; lia|].
      apply in_map_iff. exists l. split; [reflexivity|]. apply in_seq. lia.
Qed.

(** ** The whole computation *)
Section Table.
  Variable sort : (nat -> nat -> bool) -> list nat -> list nat.
  Hypothesis HSort : sort_spec sort.
  Variable I : inst.
  Hypothesis HWF : wf_inst I.
  Hypothesis HA : Forall (Forall nonneg) (i_A I).
  Let n := i_n I.
  Let m := i_m I.
  Let k := i_k I.

  Lemma row_nonneg s i : nonneg (row I s i).
  Proof.
    unfold row. destruct (nth_in_or_default i (nth s (i_A I) []) []) as [H|H]; [|rewrite H; constructor].
    destruct (nth_in_or_default s (i_A I) []) as [H'|H']; [|rewrite H' in H; contradiction].
    rewrite Forall_forall in HA. specialize (HA _ H'). rewrite Forall_forall in HA. now apply HA.
  Qed.
  Lemma row_len s i : s < k -> i < m -> length (row I s i) = n.
  Proof.
    intros Hs Hi. destruct HWF as (_ & _ & L & F & _). rewrite Forall_forall in F. unfold row.
    destruct (F (nth s (i_A I) [])) as [L1 F1]; [apply nth_In; unfold k in Hs; lia|].
    rewrite Forall_forall in F1. apply F1, nth_In. unfold m in Hi. lia.
  Qed.

  Lemma sorted_weaken {A} (R R' : A -> A -> Prop) l : (forall a b, R a b -> R' a b) -> StronglySorted R l -> StronglySorted R' l.
  Proof. intro H. induction 1; constructor; auto. eapply Forall_impl; [|eassumption]. auto. Qed.
  Lemma sorted_snoc {A} (R : A -> A -> Prop) l a : StronglySorted R l -> Forall (fun b => R b a) l -> StronglySorted R (l ++ [a]).
  Proof.
    induction 1 as [|b l H IH HF]; intro HA'; simpl; [constructor; constructor|].
    inversion HA'; subst. constructor; [now apply IH|]. apply Forall_app. split; [assumption|]. now constructor.
  Qed.
  Lemma sorted_rev {A} (R : A -> A -> Prop) l : StronglySorted R l -> StronglySorted (fun a b => R b a) (rev l).
  Proof.
    induction 1 as [|a l H IH HF]; simpl; [constructor|]. apply sorted_snoc; [assumption|].
    apply Forall_forall. intros b Hb. apply in_rev in Hb. rewrite Forall_forall in HF. now apply HF.
  Qed.

  (** The order of the items suits both updates. *)
  Lemma sort_facts p w ind : nonneg p -> nonneg w -> Permutation ind (seq 0 n) ->
    let ind' := sort (comp p w) ind in
    Permutation ind' (seq 0 n) /\
    StronglySorted (fun a b => heavy w a = true -> heavy w b = true -> nth b p 0 * nth a w 0 <= nth a p 0 * nth b w 0)%Q ind' /\
    StronglySorted (fun a b => heavy p a = true -> heavy p b = true -> nth b w 0 * nth a p 0 <= nth a w 0 * nth b p 0)%Q (rev ind').
  Proof.
    intros HP HW HI ind'.
    destruct (HSort (comp p w) ind) as [S1 S2].
    { apply (swo_sub (fun _ => True)); [trivial|now apply comp_swo]. }
    fold ind' in S1, S2. split; [now rewrite S1|].
    assert (NZ : forall l a, heavy l a = true -> ~ (nth a l 0 == 0)%Q).
    { intros l a H. apply heavy_pos in H. unfold wtol in H. lra. }
    split.
    - apply (sorted_weaken (fun a b => comp p w b a = false)); [|assumption].
      intros a b H Ha Hb. apply comp_false in H. destruct H as [[_ H]|[_ H]]; [exfalso; now apply (NZ w b)|exact H].
    - apply (sorted_weaken (fun a b => comp p w a b = false)); [|now apply (sorted_rev (fun a b => comp p w b a = false))].
      intros a b H Ha Hb. apply comp_false in H. destruct H as [[H _]|[_ H]]; [exfalso; now apply (NZ p a)|]. lra.
  Qed.

  (** Entry (s,t,i) is infinite or valid for one constraint of t. *)
  Definition entry_valid (s t i : nat) (e : ext) : Prop :=
    e = PInf \/ exists v l, e = Fin v /\ l < m /\
      knap_upper (row I s i) (rhs I s i) (row I t l) (Fin (rhs I t l)) v.
  Definition table_valid (st : vstate) : Prop :=
    length (fst st) = k * k * m /\ Permutation (snd st) (seq 0 n) /\
    forall s t i, s < k -> t < k -> i < m -> entry_valid s t i (vget (fst st) k m s t i).

  (** A call changes two entries. *)
  Lemma compute_get s t i l tab ind : length tab = k * k * m ->
    s < k -> t < k -> i < m -> l < m -> (s, i) <> (t, l) ->
    let ind' := sort (comp (row I s i) (row I t l)) ind in
    let st' := compute sort I s t i l (tab, ind) in
    snd st' = ind' /\ length (fst st') = k * k * m /\
    vget (fst st') k m s t i = update (row I s i) (rhs I s i) (row I t l) (rhs I t l) (vget tab k m s t i) ind' false /\
    vget (fst st') k m t s l = update (row I t l) (rhs I t l) (row I s i) (rhs I s i) (vget tab k m t s l) ind' true /\
    forall a b j, a < k -> b < k -> j < m -> (a, b, j) <> (s, t, i) -> (a, b, j) <> (t, s, l) ->
      vget (fst st') k m a b j = vget tab k m a b j.
  Proof.
    intros HL Hs Ht Hi Hl Hne ind' st'. unfold st', compute, vget. cbn [fst snd]. fold n m k ind'.
    assert (NE : s * k * m + t * m + i <> t * k * m + s * m + l).
    { intro E. apply idx_inj in E; auto. destruct E as (-> & _ & ->). now apply Hne. }
    assert (B1 := idx_lt k m s t i Hs Ht Hi). assert (B2 := idx_lt k m t s l Ht Hs Hl).
    split; [reflexivity|]. split; [now rewrite !upd_length|].
    rewrite (nth_upd_neq _ (t * k * m + s * m + l)) by assumption.
    split; [rewrite nth_upd_neq by auto; rewrite nth_upd_eq by lia; reflexivity|].
    split; [rewrite nth_upd_eq by (rewrite upd_length; lia); reflexivity|].
    intros a b j Ha Hb Hj N1 N2. rewrite !nth_upd_neq; [reflexivity| |].
    - intro E. apply idx_inj in E; auto. destruct E as (-> & -> & ->). now apply N1.
    - intro E. apply idx_inj in E; auto. destruct E as (-> & -> & ->). now apply N2.
  Qed.

  Lemma ext_leb_refl e : ext_leb e e = true.
  Proof. destruct e; cbn; auto. apply Qle_bool_iff. lra. Qed.
  Lemma ext_leb_trans a b c : ext_leb a b = true -> ext_leb b c = true -> ext_leb a c = true.
  Proof. destruct a, b, c; cbn; try congruence. rewrite !Qle_bool_iff. lra. Qed.

  Lemma triple_dec (a b : nat * nat * nat) : {a = b} + {a <> b}.
  Proof. repeat decide equality. Qed.

  Lemma compute_valid s t i l st : table_valid st -> s < k -> t < k -> i < m -> l < m -> (s, i) <> (t, l) ->
    table_valid (compute sort I s t i l st) /\
    (forall a b j, a < k -> b < k -> j < m ->
      ext_leb (vget (fst (compute sort I s t i l st)) k m a b j) (vget (fst st) k m a b j) = true).
  Proof.
    destruct st as [tab ind]. intros (HL & HI & HV) Hs Ht Hi Hl Hne. cbn [fst snd] in *.
    destruct (compute_get s t i l tab ind HL Hs Ht Hi Hl Hne) as (E1 & E2 & E3 & E4 & E5).
    destruct (sort_facts (row I s i) (row I t l) ind (row_nonneg s i) (row_nonneg t l) HI) as (F1 & F2 & F3).
    set (st' := compute sort I s t i l (tab, ind)) in *. set (ind' := sort _ ind) in *.
    assert (R1 := row_len s i Hs Hi). assert (R2 := row_len t l Ht Hl).
    split; [split; [assumption|split; [now rewrite E1|]]|].
    - intros a b j Ha Hb Hj. destruct (triple_dec (a, b, j) (s, t, i)) as [E|N1].
      + inversion E; subst. rewrite E3.
        destruct (update_valid (row I s i) (row I t l) n (rhs I s i) (rhs I t l) ind' false (row_nonneg s i) (row_nonneg t l) R1 R2 F1 F2 (vget tab k m s t i)) as [U|(v & U & UV)]; rewrite U; [now apply HV|].
        right. exists v, l. split; [reflexivity|]. split; [assumption|]. intros x Hx Hc. rewrite R1 in Hx. apply UV; [assumption|].
        cbn in Hc. now apply Qle_bool_iff.
      + destruct (triple_dec (a, b, j) (t, s, l)) as [E|N2].
        * inversion E; subst. rewrite E4.
          destruct (update_valid (row I t l) (row I s i) n (rhs I t l) (rhs I s i) ind' true (row_nonneg t l) (row_nonneg s i) R2 R1 F1 F3 (vget tab k m t s l)) as [U|(v & U & UV)]; rewrite U; [now apply HV|].
          right. exists v, i. split; [reflexivity|]. split; [assumption|]. intros x Hx Hc. rewrite R2 in Hx. apply UV; [assumption|].
          cbn in Hc. now apply Qle_bool_iff.
        * rewrite E5 by assumption. now apply HV.
    - intros a b j Ha Hb Hj. destruct (triple_dec (a, b, j) (s, t, i)) as [E|N1].
      + inversion E; subst. rewrite E3. apply update_le.
      + destruct (triple_dec (a, b, j) (t, s, l)) as [E|N2].
        * inversion E; subst. rewrite E4. apply update_le.
        * rewrite E5 by assumption. apply ext_leb_refl.
  Qed.

  Lemma init_valid : table_valid (init_table k m, seq 0 n).
  Proof.
    split; [apply init_length|]. split; [reflexivity|]. intros s t i Hs Ht Hi. cbn [fst].
    rewrite init_get by assumption. destruct (s =? t) eqn:E; [|now left].
    apply Nat.eqb_eq in E. subst t. right. exists 0%Q, i. split; [reflexivity|]. split; [assumption|].
    intros x _ H. cbn in H. apply Qle_bool_iff in H. lra.
  Qed.

  (** A relation between the entries and each call, preserved by later calls. *)
  Lemma fold_calls (post : nat * nat * nat * nat -> vstate -> Prop) calls :
    incl calls (call_list k m) ->
    (forall s t i l st, table_valid st -> In (s, t, i, l) calls -> post (s, t, i, l) (compute sort I s t i l st)) ->
    (forall c st st', post c st -> (forall a b j, a < k -> b < k -> j < m -> ext_leb (vget (fst st') k m a b j) (vget (fst st) k m a b j) = true) -> post c st') ->
    forall st, table_valid st ->
    let st' := fold_left (fun st c => let '(s, t, i, l) := c in compute sort I s t i l st) calls st in
    table_valid st' /\
    (forall a b j, a < k -> b < k -> j < m -> ext_leb (vget (fst st') k m a b j) (vget (fst st) k m a b j) = true) /\
    (forall c, In c calls -> post c st').
  Proof.
    intros HIn Hpost Hmono. induction calls as [|[[[s t] i] l] calls IH]; intros st HV; cbn [fold_left].
    - split; [assumption|]. split; [intros; apply ext_leb_refl|]. intros c [].
    - assert (HC := HIn (s, t, i, l) (or_introl eq_refl)). apply in_calls in HC. destruct HC as (Hs & Ht & Hi & Hl & HO).
      assert (Hne : (s, i) <> (t, l)) by (intro E; inversion E; lia).
      destruct (compute_valid s t i l st HV Hs Ht Hi Hl Hne) as [V1 M1].
      destruct (IH (fun c Hc => HIn c (or_intror Hc)) (fun s t i l st H1 H2 => Hpost s t i l st H1 (or_intror H2)) (compute sort I s t i l st) V1) as (V2 & M2 & P2).
      split; [assumption|]. split.
      + intros a b j Ha Hb Hj. eapply ext_leb_trans; [now apply M2|now apply M1].
      + intros c [<- |Hc]; [|now apply P2]. eapply Hmono; [|exact M2]. apply Hpost; [assumption|now left].
  Qed.

  Let tab := compute_all_violations sort I.

  (** C32 *)
  Lemma compiled_valid s t i : s < k -> t < k -> i < m -> entry_valid s t i (vget tab k m s t i).
  Proof.
    destruct (fold_calls (fun _ _ => True) (call_list k m) (incl_refl _)) with (st := (init_table k m, seq 0 n)) as ((_ & _ & V) & _ & _); auto.
    apply init_valid.
  Qed.
  Lemma compiled_nonpos_diag s i : s < k -> i < m -> ext_leb (vget tab k m s s i) (Fin 0) = true.
  Proof.
    intros Hs Hi.
    destruct (fold_calls (fun _ _ => True) (call_list k m) (incl_refl _)) with (st := (init_table k m, seq 0 n)) as (_ & M & _); auto.
    - apply init_valid.
    - specialize (M s s i Hs Hs Hi). cbn [fst] in M. rewrite init_get, Nat.eqb_refl in M by assumption. exact M.
  Qed.
  Lemma compiled_upper rho : Forall (Forall no_tiny) (i_A I) -> Forall nonneg (i_b I) -> (0 <= rho)%Q ->
    (forall s t i l j, s < k -> t < k -> i < m -> l < m -> j < n -> (0 < nth j (row I t l) 0)%Q -> (nth j (row I s i) 0 <= rho * nth j (row I t l) 0)%Q) ->
    forall s t i l, s < k -> t < k -> i < m -> l < m -> (s, i) <> (t, l) ->
    exists x, in_box n x /\ (dot (row I t l) x <= rhs I t l)%Q /\
      ext_leb (vget tab k m s t i) (Fin (dot (row I s i) x - rhs I s i + rho * wtol)%Q) = true.
  Proof.
    intros HT HB R0 HR.
    assert (TT : forall s i, no_tiny (row I s i)).
    { intros s i. unfold row. destruct (nth_in_or_default i (nth s (i_A I) []) []) as [H|H]; [|rewrite H; constructor].
      destruct (nth_in_or_default s (i_A I) []) as [H'|H']; [|rewrite H' in H; contradiction].
      rewrite Forall_forall in HT. specialize (HT _ H'). rewrite Forall_forall in HT. now apply HT. }
    assert (BB : forall s i, (0 <= rhs I s i)%Q).
    { intros s i. unfold rhs. apply nth_nonneg.
      destruct (nth_in_or_default s (i_b I) []) as [H'|H']; [|rewrite H'; constructor]. rewrite Forall_forall in HB. now apply HB. }
    set (good := fun s t i l (st : vstate) => exists x, in_box n x /\ (dot (row I t l) x <= rhs I t l)%Q /\
      ext_leb (vget (fst st) k m s t i) (Fin (dot (row I s i) x - rhs I s i + rho * wtol)%Q) = true).
    set (post := fun (c : nat * nat * nat * nat) st => let '(s, t, i, l) := c in s < k -> t < k -> i < m -> l < m -> good s t i l st /\ good t s l i st).
    destruct (fold_calls post (call_list k m) (incl_refl _)) with (st := (init_table k m, seq 0 n)) as (_ & _ & P).
    - intros s t i l [tb ind] (HL & HI & HV) HC Hs Ht Hi Hl. apply in_calls in HC. destruct HC as (_ & _ & _ & _ & HO).
      assert (Hne : (s, i) <> (t, l)) by (intro E; inversion E; lia). cbn [fst snd] in *.
      destruct (compute_get s t i l tb ind HL Hs Ht Hi Hl Hne) as (E1 & E2 & E3 & E4 & E5).
      destruct (sort_facts (row I s i) (row I t l) ind (row_nonneg s i) (row_nonneg t l) HI) as (F1 & F2 & F3).
      assert (R1 := row_len s i Hs Hi). assert (R2 := row_len t l Ht Hl).
      unfold good. rewrite E3, E4. split; apply update_upper; auto; try apply row_nonneg; try (intros j Hj Hp; now apply HR).
    - intros [[[s t] i] l] st st' H HM Hs Ht Hi Hl. destruct (H Hs Ht Hi Hl) as [(x & X1 & X2 & X3) (y & Y1 & Y2 & Y3)].
      split; [exists x|exists y]; (split; [assumption|split; [assumption|]]); eapply ext_leb_trans; eauto.
    - apply init_valid.
    - intros s t i l Hs Ht Hi Hl Hne.
      assert (C : In (s, t, i, l) (call_list k m) \/ In (t, s, l, i) (call_list k m)).
      { rewrite !in_calls. destruct (lt_eq_lt_dec s t) as [[?|E]|?]; [left; lia| |right; lia]. subst.
        destruct (lt_eq_lt_dec i l) as [[?|E]|?]; [left; lia| |right; lia]. subst. now destruct Hne. }
      destruct C as [C|C].
      + destruct (P _ C Hs Ht Hi Hl) as [G _]. exact G.
      + destruct (P _ C Ht Hs Hl Hi) as [_ G]. exact G.
  Qed.
End Table.
