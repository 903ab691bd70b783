(** The compiled violation table. *)
From Verif Require Import Base BaseFacts Spec Instance InstanceFacts Knapsack KnapsackFacts Violations MergeFacts.

(** ** Comparator *)
Definition zitem (p w : list Q) (i : nat) : Prop := (nth i p 0 == 0)%Q /\ (nth i w 0 == 0)%Q.

Lemma zitem_dec p w i : Qeq_bool (nth i p 0%Q) 0 && Qeq_bool (nth i w 0%Q) 0 = true <-> zitem p w i.
Proof. rewrite andb_true_iff, !Qeq_bool_iff. reflexivity. Qed.

Lemma comp_true p w i j : comp p w i j = true <->
  ~ zitem p w i /\ (zitem p w j \/ (nth j p 0 * nth i w 0 < nth i p 0 * nth j w 0)%Q).
Proof.
  unfold comp. destruct (Qeq_bool (nth i p 0%Q) 0 && _) eqn:E1.
  - apply zitem_dec in E1. split; [discriminate|]. intros [H _]. contradiction.
  - assert (N1 : ~ zitem p w i) by (intro H; apply zitem_dec in H; congruence).
    destruct (Qeq_bool (nth j p 0%Q) 0 && _) eqn:E2.
    + apply zitem_dec in E2. tauto.
    + assert (N2 : ~ zitem p w j) by (intro H; apply zitem_dec in H; congruence).
      rewrite Qlt_bool_iff. tauto.
Qed.
Lemma comp_false p w i j : comp p w i j = false <->
  zitem p w i \/ (~ zitem p w j /\ (nth i p 0 * nth j w 0 <= nth j p 0 * nth i w 0)%Q).
Proof.
  unfold comp. destruct (Qeq_bool (nth i p 0%Q) 0 && _) eqn:E1.
  - apply zitem_dec in E1. tauto.
  - assert (N1 : ~ zitem p w i) by (intro H; apply zitem_dec in H; congruence).
    destruct (Qeq_bool (nth j p 0%Q) 0 && _) eqn:E2.
    + apply zitem_dec in E2. split; [discriminate|]. tauto.
    + assert (N2 : ~ zitem p w j) by (intro H; apply zitem_dec in H; congruence).
      rewrite Qlt_bool_false. tauto.
Qed.

Lemma nth_nonneg l i : Forall (fun a => 0 <= a)%Q l -> (0 <= nth i l 0)%Q.
Proof. intro H. apply (nth_Forall (fun a => 0 <= a)%Q); [lra|assumption]. Qed.

Lemma comp_swo p w : Forall (fun a => 0 <= a)%Q p -> Forall (fun a => 0 <= a)%Q w ->
  strict_weak_order (fun _ => True) (comp p w).
Proof.
  intros HP HW. split; [|split; [|split]].
  - intros a _. apply comp_false. destruct (Qeq_bool (nth a p 0%Q) 0 && Qeq_bool (nth a w 0%Q) 0) eqn:E.
    + left. now apply zitem_dec.
    + right. split; [intro H; apply zitem_dec in H; congruence|lra].
  - intros a b _ _ H. apply comp_true in H. apply comp_false. destruct H as [Ha [Hb|H]]; [now left|]. right. split; [assumption|lra].
  - intros a b c _ _ _ H1 H2. apply comp_true in H1, H2. apply comp_true.
    destruct H1 as [Ha [Hb|H1]]; [tauto|]. destruct H2 as [_ [Hc|H2]]; [tauto|].
    split; [assumption|right].
    assert (Pa := nth_nonneg p a HP). assert (Pb := nth_nonneg p b HP). assert (Pc := nth_nonneg p c HP).
    assert (Wa := nth_nonneg w a HW). assert (Wb := nth_nonneg w b HW). assert (Wc := nth_nonneg w c HW).
    set (pa := nth a p 0%Q) in *. set (pb := nth b p 0%Q) in *. set (pc := nth c p 0%Q) in *.
    set (wa := nth a w 0%Q) in *. set (wb := nth b w 0%Q) in *. set (wc := nth c w 0%Q) in *.
    clearbody pa pb pc wa wb wc.
    assert (Wb' : (0 < wb)%Q).
    { destruct (Qlt_le_dec 0 wb) as [?|?]; [assumption|]. assert (E : (wb == 0)%Q) by lra. rewrite E in H1.
      assert (0 <= pb * wa)%Q by (now apply Qmult_le_0_compat). lra. }
    assert (Wc' : (0 < wc)%Q).
    { destruct (Qlt_le_dec 0 wc) as [?|?]; [assumption|]. assert (E : (wc == 0)%Q) by lra. rewrite E in H2.
      assert (0 <= pc * wb)%Q by (now apply Qmult_le_0_compat). lra. }
    assert (K1 : (pb * wa * wc < pa * wb * wc)%Q) by (apply Qmult_lt_compat_r; assumption).
    assert (K2 : (pc * wb * wa <= pb * wc * wa)%Q) by (apply Qmult_le_compat_r; [lra|assumption]).
    apply (Qmult_lt_r _ _ wb); [assumption|]. lra.
  - intros a b c _ _ _ H1 H2 H3 H4. apply comp_false in H1, H2, H3, H4.
    assert (Pa := nth_nonneg p a HP). assert (Pb := nth_nonneg p b HP). assert (Pc := nth_nonneg p c HP).
    assert (Wa := nth_nonneg w a HW). assert (Wb := nth_nonneg w b HW). assert (Wc := nth_nonneg w c HW).
    assert (Main : ~ zitem p w a -> ~ zitem p w b -> ~ zitem p w c ->
      (nth a p 0 * nth c w 0 == nth c p 0 * nth a w 0)%Q).
    { intros Na Nb Nc. destruct H1 as [|[_ H1]]; [tauto|]. destruct H2 as [|[_ H2]]; [tauto|].
      destruct H3 as [|[_ H3]]; [tauto|]. destruct H4 as [|[_ H4]]; [tauto|]. unfold zitem in *.
      set (pa := nth a p 0%Q) in *. set (pb := nth b p 0%Q) in *. set (pc := nth c p 0%Q) in *.
      set (wa := nth a w 0%Q) in *. set (wb := nth b w 0%Q) in *. set (wc := nth c w 0%Q) in *.
      clearbody pa pb pc wa wb wc.
      assert (E1 : (pa * wb == pb * wa)%Q) by lra. assert (E2 : (pb * wc == pc * wb)%Q) by lra.
      destruct (Qlt_le_dec 0 wb) as [L|L].
      - apply (Qmult_inj_r _ _ wb); [lra|].
        assert (T : (pa * wc * wb == pa * wb * wc)%Q) by ring. rewrite T, E1.
        assert (T2 : (pb * wa * wc == pb * wc * wa)%Q) by ring. rewrite T2, E2. ring.
      - assert (Z : (wb == 0)%Q) by lra. rewrite Z in E1, E2.
        assert (Npb : ~ (pb == 0)%Q) by tauto.
        assert (A0 : (wa == 0)%Q) by (apply (Qmult_inj_l _ _ pb Npb); lra).
        assert (C0 : (wc == 0)%Q) by (apply (Qmult_inj_l _ _ pb Npb); lra). rewrite A0, C0. lra. }
    assert (Da : zitem p w a \/ ~ zitem p w a).
    { destruct (Qeq_bool (nth a p 0%Q) 0 && Qeq_bool (nth a w 0%Q) 0) eqn:E; [left; now apply zitem_dec|right; intro H; apply zitem_dec in H; congruence]. }
    destruct Da as [Za|Na].
    + assert (Zb : zitem p w b) by tauto. assert (Zc : zitem p w c) by tauto. split; apply comp_false; now left.
    + assert (Nb : ~ zitem p w b) by (intro; destruct H1 as [?|[? ?]]; tauto).
      assert (Nc : ~ zitem p w c) by (intro; destruct H3 as [?|[? ?]]; tauto).
      specialize (Main Na Nb Nc). split; apply comp_false; right; (split; [assumption|lra]).
Qed.

(** C33, negative part: a cycle. *)
Lemma comp_cycle : exists p w a b c,
  comp p w a b = true /\ comp p w b c = true /\ comp p w c a = true /\
  ~ strict_weak_order (fun _ => True) (comp p w).
Proof.
  exists [1; - (1); - (1)]%Q, [0; 2; - (2)]%Q, 0, 1, 2.
  split; [reflexivity|]. split; [reflexivity|]. split; [reflexivity|].
  intros (_ & H & T & _). specialize (T 0 1 2 Logic.I Logic.I Logic.I eq_refl eq_refl).
  specialize (H 0 2 Logic.I Logic.I T). discriminate.
Qed.

Lemma swo_sub (D D' : nat -> Prop) lt : (forall a, D' a -> D a) -> strict_weak_order D lt -> strict_weak_order D' lt.
Proof.
  intros HD (A & B & C & E).
  split; [intros; apply A; auto|]. split; [intros a b Ha Hb; apply B; auto|].
  split; [intros a b c Ha Hb Hc; apply C; auto|]. intros a b c Ha Hb Hc. apply E; auto.
Qed.

(** A reference sort meets the specification. *)
Lemma insert_swo D lt a l : strict_weak_order D lt -> D a -> Forall D l ->
  StronglySorted (fun x y => lt y x = false) l ->
  StronglySorted (fun x y => lt y x = false) (insert (fun x y => negb (lt y x)) a l).
Proof.
  intros (Irr & As & Tr & In_) Ha HF HS. induction HS as [|b l HS IH HFb]; cbn [insert].
  - constructor; constructor.
  - inversion HF as [|? ? Db Dl]; subst.
    assert (CT : forall x y z, D x -> D y -> D z -> lt y x = false -> lt z y = false -> lt z x = false).
    { intros x y z Dx Dy Dz H1 H2. destruct (lt z x) eqn:E; [|reflexivity].
      destruct (lt x y) eqn:E1.
      - rewrite (Tr z x y Dz Dx Dy E E1) in H2. discriminate.
      - destruct (lt y z) eqn:E2; [rewrite (Tr y z x Dy Dz Dx E2 E) in H1; discriminate|].
        destruct (In_ x y z Dx Dy Dz E1 H1 E2 H2). congruence. }
    destruct (lt b a) eqn:E; cbn [negb].
    + constructor; [now apply IH|]. apply Forall_forall. intros c Hc.
      apply (Permutation_in _ (insert_perm _ a l)) in Hc. destruct Hc as [<- |Hc]; [now apply As|].
      rewrite Forall_forall in HFb. now apply HFb.
    + constructor; [constructor; assumption|]. constructor; [assumption|].
      apply Forall_forall. intros c Hc. rewrite Forall_forall in HFb, Dl. apply (CT a b c); auto.
Qed.
Lemma sort_ref_spec : sort_spec sort_ref.
Proof.
  intros lt l H. unfold sort_ref. split; [apply isort_perm|].
  assert (G : forall l', incl l' l -> StronglySorted (fun a b => lt b a = false) (isort (fun a b => negb (lt b a)) l')).
  { induction l' as [|a l' IH]; intro HI; cbn [isort]; [constructor|].
    apply (insert_swo (fun a => In a l)); [assumption|apply HI; now left| |apply IH; intros x Hx; apply HI; now right].
    apply Forall_forall. intros x Hx. apply (Permutation_in _ (isort_perm _ l')) in Hx. apply HI. now right. }
  apply G, incl_refl.
Qed.

(** ** The filling loop *)
Definition heavy (w : list Q) (i : nat) : bool := negb (Qle_bool (nth i w 0%Q) wtol).

Lemma heavy_pos w i : heavy w i = true -> (wtol < nth i w 0)%Q.
Proof. intro H. apply negb_true_iff in H. now apply Qle_bool_false in H. Qed.

(** Either an over-estimate of the rest, or the early stop. *)
Lemma fill_valid p w C mv o : forall viol weight rho delta y,
  (forall i, In i o -> 0 <= nth i p 0)%Q ->
  StronglySorted (fun a b => heavy w a = true -> heavy w b = true -> nth b p 0 * nth a w 0 <= nth a p 0 * nth b w 0)%Q o ->
  (forall i, In i o -> heavy w i = true -> nth i p 0 <= rho * nth i w 0)%Q -> (0 <= rho)%Q -> (0 <= delta)%Q ->
  unit y o -> (isum (fun i => nth i w 0 * y i) (filter (heavy w) o) <= C - weight + delta)%Q ->
  ext_leb (ext_add mv wtol) (Fin (fill p w C mv o viol weight)) = true \/
  (viol + isum (fun i => nth i p 0 * y i) (filter (heavy w) o) <= fill p w C mv o viol weight + rho * delta)%Q.
Proof.
  induction o as [|i o IH]; intros viol weight rho delta y HP HS Hr Hrho Hd Hu HC.
  - right. unfold isum. simpl. assert (0 <= rho * delta)%Q by (now apply Qmult_le_0_compat). lra.
  - assert (HP' : forall j, In j o -> (0 <= nth j p 0)%Q) by (intros; apply HP; now right).
    assert (Hu' : unit y o) by (intros j Hj; apply Hu; now right).
    inversion HS as [|? ? HS' HF]; subst. rewrite Forall_forall in HF.
    cbn [fill filter] in *. unfold heavy at 1 in HC. unfold heavy at 1.
    destruct (Qle_bool (nth i w 0%Q) wtol) eqn:EW; cbn [negb] in *.
    + apply IH; auto. intros j Hj. apply Hr. now right.
    + assert (Hv : heavy w i = true) by (unfold heavy; now rewrite EW).
      assert (Wi := heavy_pos w i Hv). assert (W0 : (0 < nth i w 0)%Q) by (unfold wtol in Wi; lra).
      assert (Pi := HP i (or_introl eq_refl)).
      set (wi := nth i w 0%Q) in *. set (pi := nth i p 0%Q) in *.
      assert (Rho1 : (0 <= pi / wi)%Q) by (apply Qle_shift_div_l; lra).
      assert (RR : (pi / wi * wi == pi)%Q) by (field; lra).
      assert (RLE : (pi / wi <= rho)%Q) by (apply Qle_shift_div_r; [assumption|apply (Hr i); [now left|assumption]]).
      assert (RDL : (pi / wi * delta <= rho * delta)%Q) by (now apply Qmult_le_compat_r).
      assert (Hr1 : forall j, In j (filter (heavy w) o) -> (nth j p 0 <= pi / wi * nth j w 0)%Q).
      { intros j Hj. apply filter_In in Hj. destruct Hj as [Hj Hh].
        apply (ratio_le (fun j => nth j p 0%Q) (fun j => nth j w 0%Q) i j W0). now apply HF. }
      assert (Huf : unit y (i :: filter (heavy w) o)).
      { intros j [<- |Hj]; apply Hu; [now left|]. apply filter_In in Hj. right. tauto. }
      assert (Hr1' : forall j, In j (i :: filter (heavy w) o) -> (nth j p 0 <= pi / wi * nth j w 0)%Q).
      { intros j [<- |Hj]; [fold pi wi; lra|now apply Hr1]. }
      destruct (Qle_bool (C - wtol) (weight + wi)) eqn:EC.
      * right. assert (All := isum_ratio (fun j => nth j p 0%Q) (fun j => nth j w 0%Q) y _ _ Huf Hr1').
        assert (All2 : (pi / wi * isum (fun j => nth j w 0 * y j) (i :: filter (heavy w) o) <= pi / wi * (C - weight + delta))%Q)
          by (rewrite (Qmult_comm (pi / wi)), (Qmult_comm (pi / wi) (C - weight + delta)); now apply Qmult_le_compat_r).
        assert (E : (pi * (C - (weight + wi - wi)) / wi == pi / wi * (C - weight))%Q) by (field; lra).
        rewrite E. cbv beta in All. set (k := (pi / wi)%Q) in *. clearbody k.
        set (A := isum (fun j => nth j w 0 * y j)%Q (i :: filter (heavy w) o)) in *.
        set (B := isum (fun j => nth j p 0 * y j)%Q (i :: filter (heavy w) o)) in *. clearbody A B.
        assert (D1 : (k * (C - weight + delta) == k * (C - weight) + k * delta)%Q) by ring. lra.
      * apply Qle_bool_false in EC.
        destruct (ext_leb (ext_add mv wtol) (Fin (viol + pi))) eqn:ES; [now left|].
        assert (Yi := Hu i (or_introl eq_refl)).
        assert (WY : (0 <= wi * (1 - y i))%Q) by (apply Qmult_le_0_compat; lra).
        rewrite isum_cons in HC. fold wi in HC.
        destruct (IH (viol + pi)%Q (weight + wi)%Q (pi / wi)%Q (delta + wi * (1 - y i))%Q y) as [I|I]; auto.
        -- intros j Hj Hh. apply Hr1. apply filter_In. auto.
        -- lra.
        -- lra.
        -- right. rewrite isum_cons. fold pi.
           assert (E3 : (pi / wi * (delta + wi * (1 - y i)) == pi / wi * delta + pi * (1 - y i))%Q) by (field; lra).
           rewrite E3 in I. lra.
Qed.

(** The value of the loop is attained up to a multiple of the tolerance. *)
Lemma fill_attained p w C mv o : forall viol weight rho, NoDup o ->
  (forall i, In i o -> 0 <= nth i p 0)%Q -> (forall i, In i o -> heavy w i = true -> nth i p 0 <= rho * nth i w 0)%Q ->
  (0 <= rho)%Q -> (weight <= C)%Q ->
  exists y, unit y o /\ (isum (fun i => nth i w 0 * y i) (filter (heavy w) o) <= C - weight)%Q /\
    (fill p w C mv o viol weight <= viol + isum (fun i => nth i p 0 * y i) (filter (heavy w) o) + rho * wtol)%Q.
Proof.
  induction o as [|i o IH]; intros viol weight rho ND HP Hr Hrho HC.
  - exists (fun _ => 0%Q). split; [intros ? []|]. unfold isum. simpl.
    assert (0 <= rho * wtol)%Q by (apply Qmult_le_0_compat; [assumption|unfold wtol; lra]). split; lra.
  - assert (HP' : forall j, In j o -> (0 <= nth j p 0)%Q) by (intros; apply HP; now right).
    assert (Hr' : forall j, In j o -> heavy w j = true -> (nth j p 0 <= rho * nth j w 0)%Q) by (intros; apply Hr; [now right|assumption]).
    assert (RT : (0 <= rho * wtol)%Q) by (apply Qmult_le_0_compat; [assumption|unfold wtol; lra]).
    inversion ND as [|? ? Hni ND']; subst. cbn [fill filter].
    assert (HE : heavy w i = negb (Qle_bool (nth i w 0%Q) wtol)) by reflexivity. rewrite !HE.
    destruct (Qle_bool (nth i w 0%Q) wtol) eqn:EW; cbn [negb].
    + destruct (IH viol weight rho ND' HP' Hr' Hrho HC) as (y & Hu & H1 & H2).
      exists (fun j => if j =? i then 0%Q else y j).
      assert (EX : forall f, (isum (fun j => f j * (if j =? i then 0 else y j)) (filter (heavy w) o) == isum (fun j => f j * y j) (filter (heavy w) o))%Q).
      { intro f. apply isum_ext. intros j Hj. destruct (j =? i) eqn:E; [|reflexivity]. apply Nat.eqb_eq in E. subst.
        apply filter_In in Hj. tauto. }
      split; [|split; [rewrite (EX (fun j => nth j w 0%Q)); assumption|rewrite (EX (fun j => nth j p 0%Q)); assumption]].
      intros j Hj. destruct (j =? i) eqn:E; [lra|]. apply Hu. destruct Hj as [-> |Hj]; [now rewrite Nat.eqb_refl in E|assumption].
    + assert (Hv : heavy w i = true) by (unfold heavy; now rewrite EW).
      assert (Wi := heavy_pos w i Hv). assert (W0 : (0 < nth i w 0)%Q) by (unfold wtol in Wi; lra).
      assert (Pi := HP i (or_introl eq_refl)). assert (Ri := Hr i (or_introl eq_refl) Hv).
      (* a choice of the quantity of i and of the rest *)
      assert (Step : forall q y, (0 <= q /\ q <= 1)%Q -> unit y o ->
        exists y', unit y' (i :: o) /\ forall f, (isum (fun j => f j * y' j) (i :: filter (heavy w) o) == f i * q + isum (fun j => f j * y j) (filter (heavy w) o))%Q).
      { intros q y Hq Hu. exists (fun j => if j =? i then q else y j). split.
        - intros j Hj. destruct (j =? i) eqn:E; [assumption|]. apply Hu. destruct Hj as [-> |Hj]; [now rewrite Nat.eqb_refl in E|assumption].
        - intro f. rewrite isum_cons, Nat.eqb_refl. apply Qplus_comp; [reflexivity|]. apply isum_ext.
          intros j Hj. destruct (j =? i) eqn:E; [|reflexivity]. apply Nat.eqb_eq in E. subst. apply filter_In in Hj. tauto. }
      assert (Z : forall f l, (isum (fun j => f j * 0) l == 0)%Q).
      { intros f l. rewrite (isum_ext _ (fun j => 0 * f j)%Q) by (intros; lra). rewrite isum_scal. lra. }
      assert (U0 : unit (fun _ => 0%Q) o) by (intros ? _; lra).
      set (wi := nth i w 0%Q) in *. set (pi := nth i p 0%Q) in *.
      destruct (Qle_bool (C - wtol) (weight + wi)) eqn:EC.
      * apply Qle_bool_iff in EC.
        assert (E : (pi * (C - (weight + wi - wi)) / wi == pi / wi * (C - weight))%Q) by (field; lra).
        assert (RLE : (pi / wi <= rho)%Q) by (apply Qle_shift_div_r; assumption).
        assert (Rho1 : (0 <= pi / wi)%Q) by (apply Qle_shift_div_l; lra).
        destruct (Qlt_le_dec wi (C - weight)) as [L|L].
        -- destruct (Step 1%Q (fun _ => 0%Q) ltac:(lra) U0) as (y & Hu & HY). exists y. split; [assumption|].
           rewrite (HY (fun j => nth j w 0%Q)), (HY (fun j => nth j p 0%Q)), !Z. fold wi pi.
           split; [lra|]. rewrite E.
           assert (pi / wi * (C - weight) == pi + pi / wi * (C - weight - wi))%Q by (field; lra).
           assert (pi / wi * (C - weight - wi) <= rho * (C - weight - wi))%Q by (apply Qmult_le_compat_r; lra).
           assert (rho * (C - weight - wi) <= rho * wtol)%Q by (rewrite !(Qmult_comm rho); apply Qmult_le_compat_r; lra).
           lra.
        -- assert (Q1 : ((C - weight) / wi <= 1)%Q) by (apply Qle_shift_div_r; lra).
           assert (Q0 : (0 <= (C - weight) / wi)%Q) by (apply Qle_shift_div_l; lra).
           destruct (Step ((C - weight) / wi)%Q (fun _ => 0%Q) (conj Q0 Q1) U0) as (y & Hu & HY). exists y. split; [assumption|].
           rewrite (HY (fun j => nth j w 0%Q)), (HY (fun j => nth j p 0%Q)), !Z. fold wi pi.
           split; [rewrite Qmult_div_r by lra; lra|]. rewrite E.
           assert (pi / wi * (C - weight) == pi * ((C - weight) / wi))%Q by (field; lra). lra.
      * apply Qle_bool_false in EC. assert (HT : (0 < wtol)%Q) by reflexivity.
        destruct (ext_leb (ext_add mv wtol) (Fin (viol + pi))) eqn:ES.
        -- destruct (Step 1%Q (fun _ => 0%Q) ltac:(lra) U0) as (y & Hu & HY). exists y. split; [assumption|].
           rewrite (HY (fun j => nth j w 0%Q)), (HY (fun j => nth j p 0%Q)), !Z. fold wi pi. split; lra.
        -- destruct (IH (viol + pi)%Q (weight + wi)%Q rho ND' HP' Hr' Hrho ltac:(lra)) as (y & Hu & H1 & H2).
           destruct (Step 1%Q y ltac:(lra) Hu) as (y' & Hu' & HY). exists y'. split; [assumption|].
           rewrite (HY (fun j => nth j w 0%Q)), (HY (fun j => nth j p 0%Q)). fold wi pi. split; lra.
Qed.
