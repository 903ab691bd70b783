(** A feasible point of the split model (AccObjModel), used by the examples: the first
    infeasible scenario alone on the left, trivial duals. *)
From Verif Require Import Base BaseFacts Spec Instance InstanceFacts OptModels RefineFacts CostRefineFacts.

Definition acc_ref_point (I : inst) (scen inf : list nat) : acc_point :=
  let first s := match inf with [] => false | a :: _ => Nat.eqb s a end in
  let lam := map (fun c => Qmax 0 (- c)) (i_c I) ++ map (fun c => Qmax 0 c) (i_c I) in
  let eta := map (fun _ => repeat 0%Q (i_m I)) scen in
  mkAcc (qsum (map (fun c => Qmax 0 c) (i_c I)))
    (map (fun s => if first s then 1%Q else 0%Q) scen)
    (map (fun s => if first s then 0%Q else 1%Q) scen)
    lam lam eta eta.
Definition acc_ref (I : inst) (t : nat) (scen inf : list nat) : acc_outcome :=
  AccSolved (acc_ref_point I scen inf).

Lemma nth_map0 {A} (f : A -> Q) (l : list A) t d : t < length l -> nth t (map f l) 0%Q = f (nth t l d).
Proof. intro H. rewrite (nth_indep _ 0%Q (f d)) by now rewrite map_length. apply map_nth. Qed.
Lemma Qmax0_nonneg q : (0 <= Qmax 0 q)%Q.
Proof. apply Q.le_max_l. Qed.
Lemma Qmax0_diff q : (- Qmax 0 (- q) + Qmax 0 q == q)%Q.
Proof.
  destruct (Qlt_le_dec q 0).
  - rewrite (Q.max_r 0 (- q)) by lra. rewrite (Q.max_l 0 q) by lra. ring.
  - rewrite (Q.max_l 0 (- q)) by lra. rewrite (Q.max_r 0 q) by lra. ring.
Qed.

Lemma inf_sum_ge scen inf pi t : t < length scen -> In (nth t scen O) inf -> (nth t pi 0 == 1)%Q ->
  Forall (fun v => 0 <= v)%Q pi -> (1 <= acc_inf_sum scen inf pi)%Q.
Proof.
  intros Ht Hin E HP. unfold acc_inf_sum.
  assert (G : forall L, In t L -> (1 <= qsum (map (fun u => nth u pi 0%Q) L))%Q).
  { induction L as [|u L IH]; intros HI; [destruct HI|]. simpl.
    assert (N : forall L', (0 <= qsum (map (fun u => nth u pi 0%Q) L'))%Q).
    { induction L' as [|v L' IH']; simpl; [lra|]. assert (0 <= nth v pi 0)%Q by (apply (nth_Forall (fun v => 0 <= v)%Q); [lra|assumption]). lra. }
    destruct HI as [->|HI].
    - assert (N1 := N L). lra.
    - specialize (IH HI). assert (0 <= nth u pi 0)%Q by (apply (nth_Forall (fun v => 0 <= v)%Q); [lra|assumption]). lra. }
  apply G, filter_In. split; [apply in_seq; lia|now apply memb_In].
Qed.

Lemma acc_ref_feasible I scen inf : wf_inst I -> NoDup inf -> incl inf scen -> 2 <= length inf ->
  acc_feasible I scen inf (acc_ref_point I scen inf).
Proof.
  intros HW ND Hinc H2. destruct inf as [|a [|b inf]]; simpl in H2; try lia.
  assert (Lc : length (i_c I) = i_n I) by apply HW.
  assert (Ra : In a scen) by (apply Hinc; now left). assert (Rb : In b scen) by (apply Hinc; right; now left).
  assert (Nab : b <> a) by (intros ->; inversion ND as [|? ? N1 _]; apply N1; now left).
  unfold acc_feasible, acc_ref_point. cbv zeta.
  cbn [ap_alpha ap_piL ap_piR ap_lamL ap_lamR ap_etaL ap_etaR].
  set (lam := map (fun c => Qmax 0 (- c)) (i_c I) ++ map (fun c => Qmax 0 c) (i_c I)).
  set (eta := map (fun _ => repeat 0%Q (i_m I)) scen).
  assert (Lam1 : length lam = 2 * i_n I) by (unfold lam; rewrite app_length, !map_length; lia).
  assert (Lam2 : Forall (fun v => 0 <= v)%Q lam).
  { apply Forall_app. split; apply Forall_forall; intros v Hv; apply in_map_iff in Hv as (w & <- & _); apply Qmax0_nonneg. }
  assert (Nl : forall j, j < i_n I -> nth j lam 0%Q = Qmax 0 (- nth j (i_c I) 0%Q)).
  { intros j Hj. unfold lam. rewrite app_nth1 by (rewrite map_length; lia). now rewrite (nth_map0 _ _ _ 0%Q) by lia. }
  assert (Nr : forall j, j < i_n I -> nth (i_n I + j) lam 0%Q = Qmax 0 (nth j (i_c I) 0%Q)).
  { intros j Hj. unfold lam. rewrite app_nth2 by (rewrite map_length; lia). rewrite map_length, Lc.
    replace (i_n I + j - i_n I) with j by lia. now rewrite (nth_map0 _ _ _ 0%Q) by lia. }
  assert (Et : forall t, t < length scen -> nth t eta [] = repeat 0%Q (i_m I)).
  { intros t Ht. unfold eta. rewrite (nth_indep _ [] (repeat 0%Q (i_m I))) by now rewrite map_length.
    exact (map_nth (fun _ => repeat 0%Q (i_m I)) scen 0 t). }
  assert (E1 : Forall (fun e => length e = i_m I /\ Forall (fun v => 0 <= v)%Q e) eta).
  { apply Forall_forall. intros e He. apply in_map_iff in He as (w & <- & _). split; [apply repeat_length|].
    apply Forall_forall. intros v Hv. apply repeat_spec in Hv as ->. lra. }
  assert (DC : acc_dual_cost I scen (qsum (map (fun c => Qmax 0 c) (i_c I))) lam eta).
  { unfold acc_dual_cost.
    assert (Z : (qsum (map (fun t => dot (map (rhs I (nth t scen O)) (seq 0 (i_m I))) (nth t eta [])) (seq 0 (length scen))) == 0)%Q).
    { apply qsum_zero, Forall_forall. intros v Hv. apply in_map_iff in Hv as (t & <- & Ht). apply in_seq in Ht.
      rewrite Et by lia. apply dot_repeat0. }
    rewrite Z, Qplus_0_r. apply Qle_lteq. right.
    rewrite (map_ext_in _ (fun j => Qmax 0 (nth j (i_c I) 0%Q))).
    2:{ intros j Hj. apply in_seq in Hj. apply Nr. lia. }
    rewrite <- Lc. rewrite <- (map_map (fun j => nth j (i_c I) 0%Q) (fun c => Qmax 0 c)), map_nth_seq. reflexivity. }
  assert (DF : acc_dual_feas I scen lam eta).
  { intros j Hj. rewrite Nl, (Nat.add_comm j), Nr by assumption. rewrite Qmax0_diff.
    rewrite qsum_zero; [ring|]. apply Forall_forall. intros v Hv. apply in_map_iff in Hv as (t & <- & Ht). apply in_seq in Ht.
    apply qsum_zero, Forall_forall. intros w Hw. apply in_map_iff in Hw as (i & <- & Hi).
    rewrite Et by lia. rewrite nth_repeat. ring. }
  assert (DA : forall pi, acc_assign I scen pi eta).
  { intros pi t i Ht Hi _. rewrite Et, nth_repeat by assumption. reflexivity. }
  assert (PB : forall f : nat -> bool, Forall (fun v => 0 <= v)%Q (map (fun s => if f s then 1%Q else 0%Q) scen) /\
                        Forall (fun v => 0 <= v)%Q (map (fun s => if f s then 0%Q else 1%Q) scen) /\
                        is_bin (map (fun s => if f s then 1%Q else 0%Q) scen) /\
                        is_bin (map (fun s => if f s then 0%Q else 1%Q) scen)).
  { intro f. repeat split; apply Forall_forall; intros v Hv; apply in_map_iff in Hv as (s & <- & _); destruct (f s);
      try (left; reflexivity); try (right; reflexivity); lra. }
  destruct (PB (fun s => s =? a)) as (P1 & P2 & P3 & P4).
  split; [apply map_length|]. split; [apply map_length|]. split; [assumption|]. split; [assumption|].
  split; [assumption|]. split; [assumption|]. split; [assumption|]. split; [assumption|].
  split; [apply map_length|]. split; [apply map_length|]. split; [assumption|]. split; [assumption|].
  split; [assumption|]. split; [assumption|]. split; [assumption|]. split; [assumption|].
  split; [apply DA|]. split; [apply DA|]. split; [|split].
  - intros t Ht. rewrite !(nth_map0 _ _ _ 0) by assumption. destruct (nth t scen 0 =? a); reflexivity.
  - apply (In_nth _ _ 0) in Ra as (t & Ht & Ea). apply (inf_sum_ge scen _ _ t); try assumption.
    + rewrite Ea. now left.
    + rewrite (nth_map0 _ _ _ 0) by assumption. rewrite Ea, Nat.eqb_refl. reflexivity.
  - apply (In_nth _ _ 0) in Rb as (t & Ht & Eb). apply (inf_sum_ge scen _ _ t); try assumption.
    + rewrite Eb. right. now left.
    + rewrite (nth_map0 _ _ _ 0) by assumption. rewrite Eb. apply Nat.eqb_neq in Nab. rewrite Nab. reflexivity.
Qed.
Lemma acc_ref_total I : wf_inst I -> acc_total I (acc_ref I).
Proof. intros HW t s i (_ & _ & H3 & H4 & H5). eexists. split; [reflexivity|]. now apply acc_ref_feasible. Qed.
Lemma acc_ref_low I t s i p : acc_ref I t s i = AccSolved p -> (0 <= ap_alpha p)%Q.
Proof.
  intro E. injection E as <-. cbn [acc_ref_point ap_alpha]. induction (i_c I) as [|c l IH]; cbn [map qsum fold_right]; [lra|].
  pose proof (Qmax0_nonneg c). unfold qsum in *. cbn [fold_right]. lra.
Qed.
