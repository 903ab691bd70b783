(** Correctness of the greedy continuous knapsack. *)
From Verif Require Import Base BaseFacts Spec Instance InstanceFacts Knapsack.

Definition isum (f : nat -> Q) (l : list nat) : Q := qsum (map f l).

Lemma isum_cons f a l : (isum f (a :: l) = f a + isum f l)%Q. Proof. reflexivity. Qed.
Lemma isum_nonneg f l : (forall i, In i l -> 0 <= f i)%Q -> (0 <= isum f l)%Q.
Proof.
  induction l as [|a l IH]; intro H; [unfold isum; simpl; lra|]. rewrite isum_cons.
  assert (0 <= f a)%Q by (apply H; now left). assert (0 <= isum f l)%Q by (apply IH; intros; apply H; now right). lra.
Qed.
Lemma isum_le f g l : (forall i, In i l -> f i <= g i)%Q -> (isum f l <= isum g l)%Q.
Proof. intro H. unfold isum. apply qsum_map_le. exact H. Qed.
Lemma isum_ext f g l : (forall i, In i l -> f i == g i)%Q -> (isum f l == isum g l)%Q.
Proof. intro H. unfold isum. apply qsum_map_ext. exact H. Qed.
Lemma isum_scal f c l : (isum (fun i => c * f i) l == c * isum f l)%Q.
Proof. apply qsum_map_scal. Qed.
Lemma isum_perm f l l' : Permutation l l' -> (isum f l == isum f l')%Q.
Proof. intro H. apply qsum_perm, Permutation_map, H. Qed.

Definition unit (y : nat -> Q) (l : list nat) : Prop := forall i, In i l -> (0 <= y i /\ y i <= 1)%Q.

(** Value of the greedy filling: items in the given order, available capacity. *)
Fixpoint gval (r w : nat -> Q) (order : list nat) (D : Q) : Q :=
  match order with
  | [] => 0
  | i :: o =>
      if Qlt_bool 0 D then
        if Qlt_bool 0 (r i) then r i * Qmin (D / w i) 1 + gval r w o (D - w i * Qmin (D / w i) 1)
        else gval r w o D
      else 0
  end%Q.

Lemma Qmin_div_pos D w : (0 < D)%Q -> (0 < w)%Q -> (0 <= Qmin (D / w) 1 /\ Qmin (D / w) 1 <= 1 /\ w * Qmin (D / w) 1 <= D)%Q.
Proof.
  intros HD Hw. assert (HP : (0 < D / w)%Q) by (apply Qlt_shift_div_l; lra).
  destruct (Q.min_spec (D / w) 1) as [[H E] | [H E]]; rewrite E.
  - split; [lra|]. split; [lra|]. rewrite Qmult_div_r; lra.
  - split; [lra|]. split; [lra|].
    assert (w * 1 <= w * (D / w))%Q by (apply Qmult_le_l; assumption).
    rewrite Qmult_div_r in H0 by lra. assumption.
Qed.

Lemma gval_nonneg r w o : forall D, (forall i, In i o -> 0 < w i)%Q -> (0 <= gval r w o D)%Q.
Proof.
  induction o as [|i o IH]; intros D Hw; simpl; [lra|].
  assert (Hw' : forall j, In j o -> (0 < w j)%Q) by (intros; apply Hw; now right).
  destruct (Qlt_bool 0 D) eqn:ED; [|lra]. destruct (Qlt_bool 0 (r i)) eqn:ER; [|now apply IH].
  apply Qlt_bool_iff in ED, ER.
  destruct (Qmin_div_pos D (w i) ED (Hw i (or_introl eq_refl))) as (Q0 & _).
  assert (0 <= r i * Qmin (D / w i) 1)%Q by (apply Qmult_le_0_compat; lra).
  specialize (IH (D - w i * Qmin (D / w i) 1)%Q Hw'). lra.
Qed.

Lemma gval_attained r w o : forall D, NoDup o -> (0 <= D)%Q -> (forall i, In i o -> 0 < w i)%Q ->
  exists y, unit y o /\ (isum (fun i => w i * y i) o <= D)%Q /\ (isum (fun i => r i * y i) o == gval r w o D)%Q.
Proof.
  induction o as [|i o IH]; intros D ND HD Hw.
  - exists (fun _ => 0%Q). split; [intros ? []|]. unfold isum. simpl. split; lra.
  - assert (Hw' : forall j, In j o -> (0 < w j)%Q) by (intros; apply Hw; now right).
    inversion ND as [|? ? Hni ND']; subst. cbn [gval].
    assert (Step : forall q D', (0 <= q /\ q <= 1)%Q -> (0 <= D')%Q -> (D' + w i * q == D)%Q ->
      exists y, unit y (i :: o) /\ (isum (fun j => w j * y j) (i :: o) <= D)%Q /\
                (isum (fun j => r j * y j) (i :: o) == r i * q + gval r w o D')%Q).
    { intros q D' Hq HD' HE. destruct (IH D' ND' HD' Hw') as (y & Hu & H1 & H2).
      exists (fun j => if j =? i then q else y j).
      assert (E1 : forall f, (isum (fun j => f j * (if j =? i then q else y j)) (i :: o) == f i * q + isum (fun j => f j * y j) o)%Q).
      { intro f. rewrite isum_cons, Nat.eqb_refl. apply Qplus_comp; [reflexivity|]. apply isum_ext.
        intros j Hj. destruct (j =? i) eqn:E; [|reflexivity]. apply Nat.eqb_eq in E. subst. contradiction. }
      split; [|split; rewrite E1; lra].
      intros j Hj. destruct (j =? i) eqn:E; [assumption|]. apply Hu. destruct Hj as [-> |Hj]; [|assumption].
      now rewrite Nat.eqb_refl in E. }
    destruct (Qlt_bool 0 D) eqn:ED.
    + apply Qlt_bool_iff in ED.
      destruct (Qlt_bool 0 (r i)) eqn:ER.
      * destruct (Qmin_div_pos D (w i) ED (Hw i (or_introl eq_refl))) as (Q0 & Q1 & Q2).
        apply (Step (Qmin (D / w i) 1) (D - w i * Qmin (D / w i) 1)%Q); [auto|lra|lra].
      * destruct (Step 0%Q D) as (y & Hu & H1 & H2); [lra|lra|lra|]. exists y. split; [assumption|].
        split; [assumption|]. rewrite H2. lra.
    + exists (fun _ => 0%Q). split; [intros ? _; lra|].
      assert (Z : forall f l, (isum (fun j => f j * 0) l == 0)%Q).
      { intros f l. rewrite (isum_ext _ (fun j => 0 * f j)%Q) by (intros; lra). rewrite isum_scal. lra. }
      split; rewrite Z; lra.
Qed.

(** Items in order of non-increasing ratio (cross-multiplied). *)
Definition ratio_sorted (r w : nat -> Q) (o : list nat) : Prop :=
  StronglySorted (fun a b => r b * w a <= r a * w b)%Q o.

(** Exchange argument as a Lipschitz bound in the capacity. *)
Lemma isum_ratio r w y o rho : unit y o -> (forall i, In i o -> r i <= rho * w i)%Q ->
  (isum (fun i => r i * y i) o <= rho * isum (fun i => w i * y i) o)%Q.
Proof.
  intros Hu Hr. rewrite <- isum_scal. apply isum_le. intros i Hi.
  assert (r i * y i <= (rho * w i) * y i)%Q by (apply Qmult_le_compat_r; [now apply Hr|apply Hu, Hi]). lra.
Qed.

Lemma ratio_le (r w : nat -> Q) i j : (0 < w i)%Q -> (r j * w i <= r i * w j)%Q -> (r j <= r i / w i * w j)%Q.
Proof.
  intros Hw H. assert (E : (r i / w i * w j == (r i * w j) / w i)%Q) by (field; lra).
  rewrite E. apply Qle_shift_div_l; assumption.
Qed.

Lemma gval_upper r w o : forall D rho delta y, (forall i, In i o -> 0 < w i)%Q ->
  ratio_sorted r w o -> (forall i, In i o -> r i <= rho * w i)%Q -> (0 <= rho)%Q -> (0 <= D)%Q -> (0 <= delta)%Q ->
  unit y o -> (isum (fun i => w i * y i) o <= D + delta)%Q ->
  (isum (fun i => r i * y i) o <= gval r w o D + rho * delta)%Q.
Proof.
  induction o as [|i o IH]; intros D rho delta y Hw HS Hr Hrho HD Hd Hu HC.
  - unfold isum. simpl. assert (0 <= rho * delta)%Q by (apply Qmult_le_0_compat; lra). lra.
  - assert (Hw' : forall j, In j o -> (0 < w j)%Q) by (intros; apply Hw; now right).
    assert (Wi : (0 < w i)%Q) by (apply Hw; now left).
    assert (RD : (0 <= rho * delta)%Q) by (apply Qmult_le_0_compat; lra).
    inversion HS as [|? ? HS' HF]; subst. rewrite Forall_forall in HF.
    assert (GN := gval_nonneg r w (i :: o) D Hw).
    destruct (Qlt_le_dec 0 (r i)) as [Ri|Ri].
    + assert (Rho1 : (0 <= r i / w i)%Q) by (apply Qle_shift_div_l; lra).
      assert (RR : (r i / w i * w i == r i)%Q) by (field; lra).
      assert (RLE : (r i / w i <= rho)%Q) by (apply Qle_shift_div_r; [assumption|apply Hr; now left]).
      assert (Hr1 : forall j, In j (i :: o) -> (r j <= r i / w i * w j)%Q).
      { intros j [<- |Hj]; [lra|]. apply ratio_le; [assumption|]. now apply HF. }
      assert (All := isum_ratio r w y (i :: o) _ Hu Hr1).
      assert (All2 : (r i / w i * isum (fun j => w j * y j) (i :: o) <= r i / w i * (D + delta))%Q)
        by (rewrite (Qmult_comm (r i / w i)), (Qmult_comm (r i / w i) (D + delta)); now apply Qmult_le_compat_r).
      assert (RDL : (r i / w i * delta <= rho * delta)%Q) by (now apply Qmult_le_compat_r).
      cbn [gval] in *.
      destruct (Qlt_bool 0 D) eqn:ED.
      2: { apply Qlt_bool_false in ED. assert (D0 : (D == 0)%Q) by lra. rewrite D0 in All2. lra. }
      apply Qlt_bool_iff in ED. destruct (Qlt_bool 0 (r i)) eqn:ER; [|apply Qlt_bool_false in ER; lra].
      destruct (Qlt_le_dec D (w i)) as [Hlt|Hge].
      * assert (E : (Qmin (D / w i) 1 == D / w i)%Q).
        { apply Q.min_l. apply Qle_shift_div_r; lra. }
        assert (G := gval_nonneg r w o (D - w i * Qmin (D / w i) 1) Hw').
        assert (E2 : (r i * Qmin (D / w i) 1 == r i / w i * D)%Q) by (rewrite E; field; lra). lra.
      * assert (E : (Qmin (D / w i) 1 == 1)%Q).
        { apply Q.min_r. apply Qle_shift_div_l; lra. }
        assert (Hu' : unit y o) by (intros j Hj; apply Hu; now right).
        assert (Yi := Hu i (or_introl eq_refl)).
        assert (WY : (0 <= w i * (1 - y i))%Q) by (apply Qmult_le_0_compat; lra).
        rewrite isum_cons in HC |- *.
        assert (I := IH (D - w i * Qmin (D / w i) 1)%Q (r i / w i)%Q (delta + w i * (1 - y i))%Q y Hw' HS'
                       (fun j Hj => Hr1 j (or_intror Hj)) Rho1 ltac:(rewrite E; lra) ltac:(lra) Hu' ltac:(rewrite E; lra)).
        assert (E3 : (r i / w i * (delta + w i * (1 - y i)) == r i / w i * delta + r i * (1 - y i))%Q) by (field; lra).
        rewrite E3 in I. assert (E4 : (r i * Qmin (D / w i) 1 == r i)%Q) by (rewrite E; lra). lra.
    + assert (NP : (isum (fun j => r j * y j) (i :: o) <= 0)%Q).
      { assert (Z := isum_ratio r w y (i :: o) 0 Hu). rewrite Qmult_0_l in Z. apply Z.
        intros j [<- |Hj]; [lra|]. specialize (HF j Hj). cbv beta in HF.
        assert (Wj := Hw' j Hj). rewrite Qmult_0_l.
        assert (r i * w j <= 0 * w j)%Q by (apply Qmult_le_compat_r; lra).
        destruct (Qlt_le_dec 0 (r j)) as [P|P]; [|assumption].
        assert (0 < r j * w i)%Q by (apply Qmult_lt_0_compat; assumption). lra. }
      lra.
Qed.

Lemma gval_comp r w o : forall D D', (D == D')%Q -> (gval r w o D == gval r w o D')%Q.
Proof.
  induction o as [|i o IH]; intros D D' E; [reflexivity|]. cbn [gval].
  assert (EB : Qlt_bool 0 D = Qlt_bool 0 D').
  { destruct (Qlt_bool 0 D) eqn:A, (Qlt_bool 0 D') eqn:B; try reflexivity;
    rewrite ?Qlt_bool_iff, ?Qlt_bool_false in *; lra. }
  rewrite EB. destruct (Qlt_bool 0 D'); [|reflexivity]. destruct (Qlt_bool 0 (r i)); [|now apply IH].
  assert (EM : (Qmin (D / w i) 1 == Qmin (D' / w i) 1)%Q) by now rewrite E.
  rewrite (IH (D - w i * Qmin (D / w i) 1) (D' - w i * Qmin (D' / w i) 1))%Q by (rewrite EM, E; reflexivity).
  now rewrite EM.
Qed.

Lemma greedy_fin r w C order : forall p kw, (forall i, In i order -> 0 < nth i w 0)%Q ->
  exists v, greedy r w (Fin C) order p kw = Ok v /\
    (v == p + gval (fun i => nth i r 0) (fun i => nth i w 0) order (C - kw))%Q.
Proof.
  induction order as [|i o IH]; intros p kw Hw; cbn [greedy gval].
  - exists p. split; [reflexivity|lra].
  - assert (Hw' : forall j, In j o -> (0 < nth j w 0)%Q) by (intros; apply Hw; now right).
    change (ext_add (Fin C) (- kw)) with (Fin (C - kw)%Q). unfold ext_pos, ext_ltb. cbn [ext_leb].
    change (negb (Qle_bool (C - kw) 0)) with (Qlt_bool 0 (C - kw)).
    destruct (Qlt_bool 0 (C - kw)) eqn:ED; [|exists p; split; [reflexivity|lra]].
    cbn [quantity]. apply Qlt_bool_iff in ED.
    destruct (Qmin_div_pos (C - kw) (nth i w 0%Q) ED (Hw i (or_introl eq_refl))) as (Q0 & Q1 & Q2).
    assert (QB : Qle_bool 0 (Qmin ((C - kw) / nth i w 0%Q) 1) = true) by (now apply Qle_bool_iff).
    rewrite QB. cbn [rassert rbind].
    destruct (Qlt_bool 0 (nth i r 0%Q)); [|now apply IH].
    destruct (IH (p + nth i r 0 * Qmin ((C - kw) / nth i w 0) 1)%Q (kw + nth i w 0 * Qmin ((C - kw) / nth i w 0) 1)%Q Hw')
      as (v & E & EV).
    exists v. split; [assumption|]. rewrite EV.
    rewrite (gval_comp _ _ o (C - (kw + nth i w 0 * Qmin ((C - kw) / nth i w 0) 1))
               ((C - kw) - nth i w 0 * Qmin ((C - kw) / nth i w 0) 1))%Q by lra. lra.
Qed.

Lemma greedy_inf r w order : forall p kw, (forall i, In i order -> 0 < nth i w 0)%Q ->
  exists v, greedy r w PInf order p kw = Ok v /\ (v == p + isum (fun i => Qmax 0 (nth i r 0)) order)%Q.
Proof.
  induction order as [|i o IH]; intros p kw Hw; cbn [greedy].
  - exists p. unfold isum. simpl. split; [reflexivity|lra].
  - assert (Hw' : forall j, In j o -> (0 < nth j w 0)%Q) by (intros; apply Hw; now right).
    cbn [ext_add ext_pos ext_ltb ext_leb negb quantity].
    assert (W : Qlt_bool (nth i w 0%Q) 0 = false) by (apply Qlt_bool_false, Qlt_le_weak, Hw; now left).
    unfold ext_pos, ext_ltb. cbn [ext_leb negb]. rewrite W. cbn [Qle_bool rassert rbind].
    change (rassert (Qle_bool 0 1)) with (@Ok Datatypes.unit tt). cbn [rbind].
    destruct (Qlt_bool 0 (nth i r 0%Q)) eqn:ER.
    + destruct (IH (p + nth i r 0 * 1)%Q (kw + nth i w 0 * 1)%Q Hw') as (v & E & EV). exists v. split; [assumption|].
      rewrite EV, isum_cons. apply Qlt_bool_iff in ER. rewrite (Q.max_r 0 (nth i r 0%Q)) by lra. lra.
    + destruct (IH p kw Hw') as (v & E & EV). exists v. split; [assumption|].
      rewrite EV, isum_cons. apply Qlt_bool_false in ER. rewrite (Q.max_l 0 (nth i r 0%Q)) by lra. lra.
Qed.

(** ** Masks *)
Lemma mask_restrict ws : forall rs xs, length rs = length ws -> in_box (length ws) xs ->
  Forall2 (fun w r => w == 0 -> 0 <= r)%Q ws rs ->
  exists ys, in_box (length (nonzero_mask ws ws)) ys /\
    (dot ws xs == dot (nonzero_mask ws ws) ys)%Q /\
    (dot rs xs <= zero_weight_revenue ws rs + dot (nonzero_mask ws rs) ys)%Q.
Proof.
  induction ws as [|w ws IH]; intros [|r rs] [|x xs] HL [HX HB] HF; try discriminate.
  - exists []. unfold in_box, zero_weight_revenue, nonzero_mask. simpl. repeat split; try constructor; lra.
  - inversion HB as [|? ? Hx HB']; subst. inversion HF as [|? ? ? ? H0 HF']; subst.
    destruct (IH rs xs ltac:(simpl in HL; lia) (conj (eq_add_S _ _ HX) HB') HF') as (ys & [Hy HBy] & E1 & E2).
    unfold nonzero_mask, zero_weight_revenue in *. cbn [combine filter fst].
    destruct (Qeq_bool w 0) eqn:EW; cbn [negb].
    + exists ys. split; [split; assumption|]. apply Qeq_bool_iff in EW. assert (WX : (w * x == 0)%Q) by (rewrite EW; lra).
      cbn [map snd qsum dot]. split; [lra|]. specialize (H0 EW).
      assert (r * x <= r * 1)%Q by (rewrite (Qmult_comm r x), (Qmult_comm r 1); apply Qmult_le_compat_r; lra). lra.
    + exists (x :: ys). split; [split; [simpl; f_equal; assumption|now constructor]|].
      cbn [map snd dot]. split; lra.
Qed.

Lemma mask_expand ws : forall rs ys, length rs = length ws -> in_box (length (nonzero_mask ws ws)) ys ->
  exists xs, in_box (length ws) xs /\ (dot ws xs == dot (nonzero_mask ws ws) ys)%Q /\
    (dot rs xs == zero_weight_revenue ws rs + dot (nonzero_mask ws rs) ys)%Q.
Proof.
  induction ws as [|w ws IH]; intros [|r rs] ys HL [HY HB]; try discriminate.
  - exists []. unfold in_box, zero_weight_revenue, nonzero_mask. simpl. repeat split; try constructor; lra.
  - unfold nonzero_mask, zero_weight_revenue in *. cbn [combine filter fst] in *.
    destruct (Qeq_bool w 0) eqn:EW; cbn [negb] in *.
    + destruct (IH rs ys ltac:(simpl in HL; lia) (conj HY HB)) as (xs & [HX HBx] & E1 & E2).
      exists (1%Q :: xs). split; [split; [simpl; f_equal; assumption|constructor; [lra|assumption]]|].
      apply Qeq_bool_iff in EW. assert (WX : (w * 1 == 0)%Q) by (rewrite EW; lra). cbn [map snd qsum dot]. split; lra.
    + destruct ys as [|y ys]; [discriminate|]. inversion HB; subst.
      destruct (IH rs ys ltac:(simpl in HL; lia)) as (xs & [HX HBx] & E1 & E2).
      { split; [simpl in HY; lia|assumption]. }
      exists (y :: xs). split; [split; [simpl; f_equal; assumption|constructor; assumption]|].
      cbn [map snd dot]. split; lra.
Qed.

Lemma mask_length ws : forall rs, length rs = length ws -> length (nonzero_mask ws rs) = length (nonzero_mask ws ws).
Proof.
  induction ws as [|w ws IH]; intros [|r rs] HL; try discriminate; [reflexivity|].
  unfold nonzero_mask in *. cbn [combine filter fst]. destruct (negb (Qeq_bool w 0)); cbn [map length]; rewrite IH; simpl in HL; lia.
Qed.

Lemma mask_pos ws i : Forall (fun w => 0 <= w)%Q ws -> i < length (nonzero_mask ws ws) ->
  (0 < nth i (nonzero_mask ws ws) 0)%Q.
Proof.
  intros HF Hi. assert (H : In (nth i (nonzero_mask ws ws) 0%Q) (nonzero_mask ws ws)) by now apply nth_In.
  revert H. generalize (nth i (nonzero_mask ws ws) 0%Q). intros q H. unfold nonzero_mask in H.
  apply in_map_iff in H. destruct H as ([a b] & <- & H). apply filter_In in H. destruct H as [H1 H2].
  assert (AB : a = b) by (clear -H1; induction ws as [|w ws IH]; simpl in H1; [contradiction|destruct H1 as [E|H1]; [congruence|auto]]).
  subst b. apply in_combine_r in H1. rewrite Forall_forall in HF. specialize (HF a H1). cbn [fst snd] in *.
  apply negb_true_iff in H2. destruct (Qlt_le_dec 0 a) as [L|L]; [assumption|].
  assert (E : (a == 0)%Q) by lra. apply Qeq_bool_iff in E. congruence.
Qed.

Lemma dot_isum u v o n : length u = n -> length v = n -> Permutation o (seq 0 n) ->
  (dot u v == isum (fun i => nth i u 0 * nth i v 0) o)%Q.
Proof. intros H1 H2 HP. rewrite (dot_qsum u v n H1 H2). unfold isum. apply qsum_perm, Permutation_map. now symmetry. Qed.

Section Exact.
  Variable argsort : list Q -> list nat.
  Hypothesis HA : argsort_ok argsort.

  Lemma order_facts r w : length r = length w -> (forall i, i < length w -> (0 < nth i w 0)%Q) ->
    let values := map (fun rw => (fst rw / snd rw)%Q) (combine r w) in
    let o := argsort (map Qopp values) in
    Permutation o (seq 0 (length w)) /\
    ratio_sorted (fun i => nth i r 0%Q) (fun i => nth i w 0%Q) o.
  Proof.
    intros HL Hw values o. destruct (HA (map Qopp values)) as [P S]. fold o in P, S.
    assert (LV : length (map Qopp values) = length w).
    { unfold values. rewrite !map_length, combine_length. lia. }
    rewrite LV in P. split; [assumption|].
    assert (Hin : forall i, In i o -> i < length w).
    { intros i Hi. apply (Permutation_in _ P) in Hi. apply in_seq in Hi. lia. }
    clearbody o. clear P. induction S as [|a l SS IH HF]; constructor.
    - apply IH. intros; apply Hin; now right.
    - apply Forall_forall. intros b Hb. rewrite Forall_forall in HF. specialize (HF b Hb). cbv beta in HF.
      assert (La : a < length w) by (apply Hin; now left). assert (Lb : b < length w) by (apply Hin; now right).
      assert (NV : forall i, i < length w -> nth i (map Qopp values) 0%Q = (- (nth i r 0 / nth i w 0))%Q).
      { intros i Hi. change 0%Q with (- 0)%Q at 1. rewrite map_nth. f_equal. unfold values.
        rewrite (nth_indep _ 0%Q ((fun rw => fst rw / snd rw)%Q (0, 0)%Q)) by (rewrite map_length, combine_length; lia).
        rewrite (map_nth (fun rw : Q * Q => (fst rw / snd rw)%Q)). rewrite combine_nth by assumption. reflexivity. }
      rewrite (NV a La), (NV b Lb) in HF.
      assert (Wa := Hw a La). assert (Wb := Hw b Lb).
      assert (HD : (nth b r 0 / nth b w 0 <= nth a r 0 / nth a w 0)%Q) by lra.
      assert (nth b r 0 <= nth a r 0 / nth a w 0 * nth b w 0)%Q.
      { assert (E : (nth b r 0 == nth b r 0 / nth b w 0 * nth b w 0)%Q) by (field; lra). rewrite E at 1.
        apply Qmult_le_compat_r; lra. }
      assert (E2 : (nth a r 0 * nth b w 0 == nth a r 0 / nth a w 0 * nth b w 0 * nth a w 0)%Q) by (field; lra).
      rewrite E2. apply Qmult_le_compat_r; lra.
  Qed.

  (** C30: revenues may even be negative on items of positive weight. *)
  Lemma knapsack_exact r d w C : length w = length r -> Forall (fun a => 0 <= a)%Q w ->
    Forall2 (fun a b => a == 0 -> 0 <= b)%Q w r -> ext_leb (Fin 0) C = true ->
    exists v, solve_continuous_knapsack argsort r d w C = Ok v /\ knap_max r d w C v.
  Proof.
    intros HL HW H0 HC. unfold solve_continuous_knapsack.
    set (mr := nonzero_mask w r). set (mw := nonzero_mask w w).
    assert (ML : length mr = length mw) by (apply mask_length; lia).
    assert (MP : forall i, i < length mw -> (0 < nth i mw 0)%Q) by (intros; now apply mask_pos).
    destruct (order_facts mr mw ML MP) as [P S].
    set (o := argsort _) in *. clearbody o.
    assert (Hin : forall i, In i o -> i < length mw).
    { intros i Hi. apply (Permutation_in _ P) in Hi. apply in_seq in Hi. lia. }
    assert (OW : forall i, In i o -> (0 < nth i mw 0)%Q) by (intros; apply MP; now apply Hin).
    assert (ND : NoDup o) by (apply (Permutation_NoDup (Permutation_sym P)), seq_NoDup).
    set (z := zero_weight_revenue w r) in *.
    assert (Build : forall y, unit y o ->
      exists x, in_box (length r) x /\ (dot w x == isum (fun i => nth i mw 0 * y i) o)%Q /\
                (dot r x == z + isum (fun i => nth i mr 0 * y i) o)%Q).
    { intros y Hu. set (ys := map y (seq 0 (length mw))).
      assert (LY : length ys = length mw) by (unfold ys; rewrite map_length, seq_length; reflexivity).
      assert (NY : forall i, i < length mw -> nth i ys 0%Q = y i).
      { intros i Hi. unfold ys. rewrite (nth_indep _ 0%Q (y 0)) by (rewrite map_length, seq_length; lia).
        rewrite map_nth, seq_nth; auto. }
      destruct (mask_expand w r ys ltac:(lia)) as (x & Bx & E1 & E2).
      { split; [exact LY|]. unfold ys. apply Forall_forall. intros q Hq. apply in_map_iff in Hq.
        destruct Hq as (i & <- & Hi). apply Hu. apply (Permutation_in _ (Permutation_sym P)). assumption. }
      exists x. split; [rewrite <- HL; assumption|]. fold mw in E1. fold mr z in E2. rewrite E1, E2.
      rewrite (dot_isum mw ys o (length mw) eq_refl LY P), (dot_isum mr ys o (length mw) ML LY P).
      split; [|apply Qplus_comp; [reflexivity|]]; apply isum_ext; intros i Hi; rewrite NY; auto; reflexivity. }
    assert (Read : forall x, in_box (length r) x -> exists y, unit y o /\
      (dot w x == isum (fun i => nth i mw 0 * y i) o)%Q /\
      (dot r x <= z + isum (fun i => nth i mr 0 * y i) o)%Q).
    { intros x Hx. destruct (mask_restrict w r x ltac:(lia) ltac:(now rewrite HL) H0) as (ys & [LY BY] & E1 & E2).
      exists (fun i => nth i ys 0%Q). fold mw in LY, E1. fold mr z in E2.
      split; [intros i Hi; rewrite Forall_forall in BY; apply BY, nth_In; rewrite LY; now apply Hin|].
      rewrite <- (dot_isum mw ys o (length mw) eq_refl LY P), <- (dot_isum mr ys o (length mw) ML LY P).
      split; assumption. }
    destruct C as [|C|]; [discriminate| |].
    - apply Qle_bool_iff in HC.
      destruct (greedy_fin mr mw C o (- d + z)%Q 0%Q OW) as (v & E & EV).
      rewrite (gval_comp _ _ o (C - 0) C) in EV by lra.
      exists v. split; [exact E|]. split.
      + destruct (gval_attained (fun i => nth i mr 0%Q) (fun i => nth i mw 0%Q) o C ND HC OW) as (y & Hu & H1 & H2).
        destruct (Build y Hu) as (x & Bx & E1 & E2). exists x. split; [assumption|].
        split; [cbn [ext_leb]; apply Qle_bool_iff; rewrite E1; assumption|]. rewrite E2, H2, EV. lra.
      + intros x Bx HCx. cbn [ext_leb] in HCx. apply Qle_bool_iff in HCx.
        destruct (Read x Bx) as (y & Hu & E1 & E2).
        set (rho := isum (fun i => Qmax 0 (nth i mr 0 / nth i mw 0))%Q o).
        assert (Rho : (0 <= rho)%Q) by (apply isum_nonneg; intros; apply Q.le_max_l).
        assert (HU := gval_upper (fun i => nth i mr 0%Q) (fun i => nth i mw 0%Q) o C rho 0%Q y OW S).
        assert (HR : forall i, In i o -> (nth i mr 0 <= rho * nth i mw 0)%Q).
        { intros i Hi. assert (Wi := OW i Hi). assert (nth i mr 0 / nth i mw 0 <= rho)%Q.
          { apply Qle_trans with (Qmax 0 (nth i mr 0 / nth i mw 0))%Q; [apply Q.le_max_r|].
            unfold rho. clear -Hi. induction o as [|a o IH]; [destruct Hi|]. rewrite isum_cons.
            assert (0 <= isum (fun i => Qmax 0 (nth i mr 0 / nth i mw 0)) o)%Q by (apply isum_nonneg; intros; apply Q.le_max_l).
            destruct Hi as [-> |Hi]; [lra|]. specialize (IH Hi).
            assert (0 <= Qmax 0 (nth a mr 0 / nth a mw 0))%Q by apply Q.le_max_l. lra. }
          assert (E3 : (nth i mr 0 == nth i mr 0 / nth i mw 0 * nth i mw 0)%Q) by (field; lra). rewrite E3.
          apply Qmult_le_compat_r; lra. }
        assert (HU2 := HU HR Rho HC (Qle_refl 0) Hu ltac:(cbv beta; rewrite <- E1; lra)). cbv beta in HU2.
        rewrite Qmult_0_r in HU2. lra.
    - destruct (greedy_inf mr mw o (- d + z)%Q 0%Q OW) as (v & E & EV).
      exists v. split; [exact E|]. split.
      + destruct (Build (fun i => if Qlt_bool 0 (nth i mr 0%Q) then 1 else 0)%Q) as (x & Bx & E1 & E2).
        { intros i _. cbv beta. destruct (Qlt_bool _ _); lra. }
        exists x. split; [assumption|]. split; [reflexivity|]. rewrite E2, EV.
        assert (EI : (isum (fun i => nth i mr 0 * (if Qlt_bool 0 (nth i mr 0) then 1 else 0)) o ==
                      isum (fun i => Qmax 0 (nth i mr 0)) o)%Q).
        { apply isum_ext. intros i _. destruct (Qlt_bool 0 (nth i mr 0%Q)) eqn:EB.
          - apply Qlt_bool_iff in EB. rewrite Q.max_r; lra.
          - apply Qlt_bool_false in EB. rewrite Q.max_l; lra. }
        rewrite EI. lra.
      + intros x Bx _. destruct (Read x Bx) as (y & Hu & E1 & E2).
        assert (EI : (isum (fun i => nth i mr 0 * y i) o <= isum (fun i => Qmax 0 (nth i mr 0)) o)%Q).
        { apply isum_le. intros i Hi. destruct (Hu i Hi) as [Y0 Y1].
          assert (nth i mr 0 * y i <= Qmax 0 (nth i mr 0) * y i)%Q by (apply Qmult_le_compat_r; [apply Q.le_max_r|assumption]).
          assert (Qmax 0 (nth i mr 0) * y i <= Qmax 0 (nth i mr 0) * 1)%Q.
          { rewrite (Qmult_comm _ (y i)), (Qmult_comm _ 1). apply Qmult_le_compat_r; [assumption|apply Q.le_max_l]. }
          lra. }
        lra.
  Qed.
End Exact.

Lemma knap_max_unique r d w C v v' : knap_max r d w C v -> knap_max r d w C v' -> (v == v')%Q.
Proof.
  intros [(x & B & HC & E) U] [(x' & B' & HC' & E') U'].
  specialize (U x' B' HC'). specialize (U' x B HC). lra.
Qed.
