(** Split models solved within 1/2 and within 1 of the optimum. *)
From Verif Require Import Base BaseFacts Spec Instance InstanceFacts OptModels Refine RefineFacts CostRefine CostRefineFacts RefineSum AccRef SplitSpec SplitDual SplitSelect SplitEx
  NearSplitSpec NearSplit.

Lemma near_exists I d : wf_inst I -> packing I -> (0 <= d)%Q -> exists acc, acc_near I d acc.
Proof. intros W P D. destruct (acc_exact_exists I W P) as (acc & X). exists acc. now apply exact_near. Qed.

(** Other splits of the three scenarios cost 7/2 at least, more than 5/2 + 1/2. *)
Lemma near_example acc argsort : acc_near exS (1 # 2) acc -> argsort_ok argsort ->
  forall st cs, cost_round acc argsort exS (fun _ => true) [5%Q] (Fin 4) cstate0 [[0; 1; 2]] st cs -> r_cnt st = 0 ->
  exists st' cs' l r, perform_accurate_split acc [0; 1; 2] (Fin 4) st cs = Ok (st', cs') /\ r_part st' = [l; r] /\
    ((Permutation l [0] /\ Permutation r [1; 2]) \/ (Permutation r [0] /\ Permutation l [1; 2])).
Proof.
  intros X HA st cs R Z. assert (V : valid_partition (i_k exS) [[0; 1; 2]]) by exact exS_valid.
  assert (EP : r_part st = [[0; 1; 2]]).
  { destruct R as [cs1 E|st0 cs0 st' cs' R HLt E]; [reflexivity|]. destruct (perform_selected acc _ _ _ _ _ _ E) as (c & l & r & _ & _ & _ & _ & _ & S6). lia. }
  assert (He : (0 <= i_eps exS)%Q) by discriminate.
  assert (Hb : nb_bad (fun _ => true) [[0; 1; 2]] <= tolerated exS) by (vm_compute; lia). assert (Ht : tolerated exS < count (fun _ => true) (seq 0 (i_k exS))) by (vm_compute; lia).
  assert (Hc : r_cnt st < tolerated exS + 1 - nb_bad (fun _ => true) [[0; 1; 2]]) by (rewrite Z; vm_compute; lia).
  destruct (near_round_step (1 # 2) acc argsort exS exS_wf exS_packing X HA He (fun _ => true) [5%Q] (Fin 4) cstate0 [[0; 1; 2]] (CR_start _ _ _) V eq_refl Hb Ht st cs R Hc)
    as (st' & cs' & c & v & l & r & E1 & E2 & E3 & E4 & _).
  rewrite EP in *. cbn in E2. assert (c = 0) by lia. subst c. cbn [upd app nth filter] in *. exists st', cs', l, r. split; [exact E1|]. split; [exact E3|].
  destruct E4 as (A & B & C). assert (Cv := C [0] [1; 2] (5 # 2) exS_admissible exS_cost).
  assert (FL : Forall (fun s => s < i_k exS) l /\ Forall (fun s => s < i_k exS) r).
  { apply Forall_app, Forall_forall. intros s Hs. apply (Permutation_in _ (proj1 A)) in Hs. cbn in *. lia. }
  destruct (split_cost_exists exS l r exS_wf (proj1 FL) (proj2 FL) (packing_relax exS _ _ exS_packing l r A)) as (u & Hu).
  destruct (exS_other l r u A Hu) as [H|[H|H]]; auto. exfalso. destruct Hu as (_ & x & X1 & X2). assert (Y := B x X1). lra.
Qed.

(** A solver within 1 of the optimum may answer with another split. *)
Lemma far_point : exists p, acc_within exS 1 [0; 1; 2] [0; 1; 2] p /\ ap_alpha p = (7 # 2)%Q /\
  exists l r, acc_subsets [0; 1; 2] p = (l, r) /\ Permutation l [1] /\ Permutation r [0; 2].
Proof.
  assert (A : admissible [0; 1; 2] [0; 1; 2] [1] [0; 2]).
  { split; [constructor|split; [exists 1|exists 0]; cbn; auto]. }
  assert (B : split_within exS [1] [0; 2] (7 # 2)).
  { intros x [H|H]; apply exS_relax in H as (a & b & -> & B & S); unfold obj; cbn.
    - specialize (S 1 (or_introl eq_refl)). cbn in S. lra.
    - assert (S1 := S 0 (or_introl eq_refl)). assert (S2 := S 2 (or_intror (or_introl eq_refl))). cbn in *. lra. }
  assert (HQ : acc_query exS [0; 1; 2] [0; 1; 2]).
  { repeat split; try (repeat constructor; cbn; intuition lia). apply incl_refl. }
  destruct (split_any exS [0; 1; 2] [0; 1; 2] [1] [0; 2] (7 # 2) exS_wf (proj1 (proj2 HQ)) (proj1 HQ) A B) as (p & l & r & P1 & P2 & P3 & P4 & P5).
  exists p. split; [|split; [exact P2|exists l, r; auto]]. split; [exact P1|]. intros q HF. rewrite P2.
  destruct (acc_subsets [0; 1; 2] q) as [l0 r0] eqn:E. destruct (subset_within exS _ _ q l0 r0 exS_wf (proj1 (proj2 HQ)) HF E) as [A' B'].
  assert (FL : Forall (fun s => s < i_k exS) l0 /\ Forall (fun s => s < i_k exS) r0).
  { apply Forall_app, Forall_forall. intros s Hs. apply (Permutation_in _ (proj1 A')) in Hs. cbn in *. lia. }
  destruct (split_cost_exists exS l0 r0 exS_wf (proj1 FL) (proj2 FL) (packing_relax exS _ _ exS_packing l0 r0 A')) as (u & Hu).
  assert (G : (5 # 2 <= u)%Q) by (apply (proj2 (proj2 exS_best) l0 r0); assumption).
  destruct Hu as (_ & x & X1 & X2). assert (Y := B' x X1). lra.
Qed.
