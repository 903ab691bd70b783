(** Concrete splits for the examples of C65 and C66. *)
From Verif Require Import Base BaseFacts Spec Instance InstanceFacts OptModels Refine RefineFacts CostRefine CostRefineFacts RefineSum AccRef SplitSpec SplitDual SplitSelect.

(** Two items worth 3 and 2, three scenarios (6 x0 <= 1, 2 x0 <= 1, 2 x1 <= 1), one of them may be violated. *)
Definition exS : inst := mkInst 2 1 3 false (1 # 3) [3; 2]%Q [[[6; 0]]; [[2; 0]]; [[0; 2]]]%Q [[1]; [1]; [1]]%Q.
(** No point satisfies scenario 0 nor scenario 1. *)
Definition exU : inst := mkInst 1 1 2 false (1 # 2) [1]%Q [[[1]]; [[1]]]%Q [[- 1]; [- 1]]%Q.
Lemma exS_wf : wf_inst exS. Proof. repeat constructor. Qed.
Lemma exS_packing : packing exS. Proof. repeat split; repeat constructor; discriminate. Qed.

Lemma exS_relax l x : relax_sat exS l x <-> exists a b, x = [a; b] /\ (0 <= a <= 1 /\ 0 <= b <= 1)%Q /\
  forall s, In s l -> match s with 0 => (6 * a <= 1)%Q | 1 => (2 * a <= 1)%Q | 2 => (2 * b <= 1)%Q | _ => True end.
Proof.
  split.
  - intros [[L B] S]. destruct x as [|a [|b [|]]]; try discriminate. inversion B as [|? ? B1 B']; subst. inversion B' as [|? ? B2 _]; subst.
    exists a, b. split; [reflexivity|]. split; [tauto|]. intros s Hs. assert (H := S s Hs 0 ltac:(repeat constructor)).
    destruct s as [|[|[|s]]]; [| | |exact I]; cbn in H; lra.
  - intros (a & b & -> & B & S). split; [split; [reflexivity|]; repeat constructor; apply B|]. intros s Hs i Hi. assert (i = 0) by (cbn in Hi; lia). subst i.
    specialize (S s Hs). destruct s as [|[|[|s]]]; unfold row, rhs; cbn; try lra; destruct s; cbn; lra.
Qed.
Lemma exS_cost : split_cost exS [0] [1; 2] (5 # 2).
Proof.
  split.
  - intros x [H|H]; apply exS_relax in H as (a & b & -> & B & S); unfold obj; cbn; [specialize (S 0 (or_introl eq_refl))|assert (S1 := S 1 (or_introl eq_refl)); assert (S2 := S 2 (or_intror (or_introl eq_refl)))]; cbn in *; lra.
  - exists [1 # 6; 1]%Q. split; [|reflexivity]. left. apply exS_relax. exists (1 # 6), 1%Q. split; [reflexivity|]. split; [lra|]. intros s [<-|[]]. lra.
Qed.
Lemma exS_admissible : admissible [0; 1; 2] [0; 1; 2] [0] [1; 2].
Proof. split; [reflexivity|]. split; [exists 0|exists 1]; cbn; auto. Qed.
(** Any other split costs at least 7/2. *)
Lemma exS_other l r v : admissible [0; 1; 2] [0; 1; 2] l r -> split_cost exS l r v -> (Permutation l [0] /\ Permutation r [1; 2]) \/ (Permutation r [0] /\ Permutation l [1; 2]) \/ (7 # 2 <= v)%Q.
Proof.
  intros (P & (a & A1 & _) & (b & B1 & _)) (C & _).
  assert (N : NoDup (l ++ r)) by (eapply Permutation_NoDup; [symmetry; exact P|]; repeat constructor; cbn; intuition lia).
  destruct (NoDup_app_inv l r N) as (Nl & Nr & Dj).
  assert (IN : forall s, In s (l ++ r) <-> s = 0 \/ s = 1 \/ s = 2).
  { intro s. split; intro H; [apply (Permutation_in _ P) in H; cbn in H; intuition|]. apply (Permutation_in _ (Permutation_sym P)). cbn. intuition. }
  assert (X1 : relax_sat exS [1] [1 # 2; 1]%Q) by (apply exS_relax; exists (1 # 2), 1%Q; split; [reflexivity|]; split; [lra|]; intros s [<-|[]]; lra).
  assert (K1 : forall L, (forall s, In s L -> s = 1) -> relax_sat exS L [1 # 2; 1]%Q).
  { intros L HL. destruct X1 as [X1 X2]. split; [exact X1|]. intros s Hs. apply X2. left. symmetry. now apply HL. }
  assert (K2 : forall L, (forall s, In s L -> s = 2) -> relax_sat exS L [1; 1 # 2]%Q).
  { intros L HL. apply exS_relax. exists 1%Q, (1 # 2). split; [reflexivity|]. split; [lra|]. intros s Hs. rewrite (HL s Hs). lra. }
  assert (M : forall L R : list nat, NoDup L -> NoDup R -> (forall s, In s L -> In s R -> False) -> (forall s, In s L \/ In s R <-> s = 0 \/ s = 1 \/ s = 2) -> In 0 L ->
    (exists s, In s R) -> (Permutation L [0] /\ Permutation R [1; 2]) \/ (forall s, In s R -> s = 1) \/ (forall s, In s R -> s = 2)).
  { intros L R NL NR D IL Z (w & Hw). destruct (in_dec Nat.eq_dec 1 R) as [H1|H1]; destruct (in_dec Nat.eq_dec 2 R) as [H2|H2].
    - left. split; apply NoDup_Permutation; auto; try (repeat constructor; cbn; intuition lia).
      + intro s. cbn. split; [|intuition; now subst]. intro Hs. assert (E := proj1 (IL s) (or_introl Hs)). destruct E as [-> |[-> | ->]]; auto; exfalso; eauto.
      + intro s. cbn. split; [|intuition; now subst]. intro Hs. assert (E := proj1 (IL s) (or_intror Hs)). destruct E as [-> |[-> | ->]]; auto; exfalso; eauto.
    - right. left. intros s Hs. assert (E := proj1 (IL s) (or_intror Hs)). destruct E as [-> |[-> | ->]]; auto; exfalso; eauto.
    - right. right. intros s Hs. assert (E := proj1 (IL s) (or_intror Hs)). destruct E as [-> |[-> | ->]]; auto; exfalso; eauto.
    - exfalso. assert (E := proj1 (IL w) (or_intror Hw)). destruct E as [-> |[-> | ->]]; eauto. }
  assert (I0 : In 0 l \/ In 0 r) by (apply in_app_iff, IN; auto).
  assert (R1 : forall x, relax_sat exS l x \/ relax_sat exS r x -> (7 # 2 <= obj exS x)%Q -> (7 # 2 <= v)%Q) by (intros x H1 H2; eapply Qle_trans; [exact H2|now apply C]).
  assert (E1 : (7 # 2 <= obj exS [1 # 2; 1])%Q) by (unfold obj; cbn; lra). assert (E2 : (7 # 2 <= obj exS [1; 1 # 2])%Q) by (unfold obj; cbn; lra).
  destruct I0 as [I0|I0].
  - destruct (M l r Nl Nr (fun s H H' => Dj s H H')) as [H|[H|H]]; auto; [intro s; now rewrite <- in_app_iff|now exists b| |]; right; right; [apply (R1 [1 # 2; 1]%Q)|apply (R1 [1; 1 # 2]%Q)]; auto.
  - destruct (M r l Nr Nl (fun s H H' => Dj s H' H)) as [H|[H|H]]; auto; [intro s; rewrite <- IN, in_app_iff; tauto|now exists a| |]; right; right; [apply (R1 [1 # 2; 1]%Q)|apply (R1 [1; 1 # 2]%Q)]; auto.
Qed.
Lemma relax_perm I l l' x : Permutation l l' -> relax_sat I l x -> relax_sat I l' x.
Proof. intros P [H1 H2]. split; [exact H1|]. intros s Hs. apply H2. eapply Permutation_in; [symmetry; exact P|exact Hs]. Qed.
Lemma exS_best : best_split exS [0; 1; 2] [0; 1; 2] [0] [1; 2] (5 # 2).
Proof.
  split; [exact exS_admissible|]. split; [exact exS_cost|]. intros l r v A C. destruct exS_cost as [_ (x & X & E)].
  destruct (exS_other l r v A C) as [[P1 P2]|[[P1 P2]|H]]; [| |lra]; destruct C as [C _]; rewrite <- E; apply C; destruct X as [X|X].
  - left. eapply relax_perm; [symmetry; exact P1|exact X].
  - right. eapply relax_perm; [symmetry; exact P2|exact X].
  - right. eapply relax_perm; [symmetry; exact P1|exact X].
  - left. eapply relax_perm; [symmetry; exact P2|exact X].
Qed.
Lemma exU_unbounded V : exists p, acc_feasible exU [0; 1] [0; 1] p /\ ap_alpha p = V.
Proof.
  assert (N : forall s, s < 2 -> forall x, ~ relax_sat exU [s] x).
  { intros s Hs x [[L B] S]. destruct x as [|a [|]]; try discriminate. inversion B as [|? ? B1 _]; subst. assert (H := S s (or_introl eq_refl) 0 ltac:(repeat constructor)).
    destruct s as [|[|s]]; [| |lia]; unfold row, rhs in H; cbn in H; lra. }
  apply (split_unbounded exU [0; 1] [0; 1] [0] [1]); try (apply N; lia).
  - repeat constructor.
  - repeat constructor.
  - repeat constructor; cbn; intuition lia.
  - split; [reflexivity|]. split; [exists 0|exists 1]; cbn; auto.
Qed.

Lemma exS_valid : valid_partition (i_k exS) [[0; 1; 2]].
Proof. repeat split; try (repeat constructor; discriminate); cbn; try reflexivity. Qed.

(** One refinement of the single subset: the only possible outcome, up to the order of the two sides. *)
Lemma exS_step acc argsort : acc_exact exS acc -> argsort_ok argsort ->
  forall st cs, cost_round acc argsort exS (fun _ => true) [5%Q] (Fin 4) cstate0 [[0; 1; 2]] st cs -> r_cnt st = 0 ->
  exists st' cs' l r, perform_accurate_split acc [0; 1; 2] (Fin 4) st cs = Ok (st', cs') /\ r_part st' = [l; r] /\
    ((Permutation l [0] /\ Permutation r [1; 2]) \/ (Permutation r [0] /\ Permutation l [1; 2])) /\ exists v, dget 0 (c_cost cs) = Ok v /\ (v == 5 # 2)%Q.
Proof.
  intros X HA st cs R Z. assert (V : valid_partition (i_k exS) [[0; 1; 2]]) by exact exS_valid.
  assert (EP : r_part st = [[0; 1; 2]]).
  { destruct R as [cs1 E|st0 cs0 st' cs' R HLt E]; [reflexivity|]. destruct (perform_selected acc _ _ _ _ _ _ E) as (c & l & r & _ & _ & _ & _ & _ & S6). lia. }
  assert (He : (0 <= i_eps exS)%Q) by discriminate.
  assert (Hb : nb_bad (fun _ => true) [[0; 1; 2]] <= tolerated exS) by (vm_compute; lia). assert (Ht : tolerated exS < count (fun _ => true) (seq 0 (i_k exS))) by (vm_compute; lia).
  assert (Hc : r_cnt st < tolerated exS + 1 - nb_bad (fun _ => true) [[0; 1; 2]]) by (rewrite Z; vm_compute; lia).
  destruct (round_step acc argsort exS exS_wf exS_packing X HA He (fun _ => true) [5%Q] (Fin 4) cstate0 [[0; 1; 2]] (CR_start _ _ _) V eq_refl Hb Ht st cs R Hc)
    as (st' & cs' & c & v & l & r & E1 & E2 & E3 & E4 & _).
  rewrite EP in *. cbn in E2. assert (c = 0) by lia. subst c. cbn [upd app nth filter] in *. exists st', cs', l, r. split; [exact E1|]. split; [exact E3|].
  assert (v == 5 # 2)%Q as Ev by exact (best_unique exS _ _ _ _ _ _ _ _ E4 exS_best). split.
  - destruct E4 as (A & C & _). destruct (exS_other l r v A C) as [H|[H|H]]; auto. lra.
  - assert (Hin : In 0 (map fst (c_cost cs))).
    { apply (round_table acc argsort exS exS_wf exS_packing X HA He (fun _ => true) [5%Q] (Fin 4) cstate0 [[0; 1; 2]] (CR_start _ _ _) V eq_refl Hb Ht st cs R). rewrite EP. cbn. lia. }
    destruct (round_inv acc argsort exS exS_wf exS_packing X HA He (fun _ => true) [5%Q] (Fin 4) cstate0 [[0; 1; 2]] (CR_start _ _ _) V eq_refl Hb Ht st cs R) as (_ & _ & ND & _).
    apply in_map_iff in Hin as ([c w] & E & Hin). cbn in E. subst c. apply dget_In in Hin; [|exact ND]. exists w. split; [exact Hin|].
    destruct (round_costs acc argsort exS exS_wf exS_packing X HA He (fun _ => true) [5%Q] (Fin 4) cstate0 [[0; 1; 2]] (CR_start _ _ _) V eq_refl Hb Ht st cs R 0 w Hin) as (l2 & r2 & _ & _ & B2).
    rewrite EP in B2. exact (best_unique exS _ _ _ _ _ _ _ _ B2 exS_best).
Qed.
