(** An instance without ties on which merging occurs and the run ends (C80). *)
From Verif Require Import Base BaseFacts Spec Instance InstanceFacts OptModels OptFacts PartitionFacts Initial Bounds BoundsFacts Refine CostRefine Merge Violations BigM BruteForce BruteForceFacts
  Adaptive AdaptiveSpec NearSpec AdaptiveEnd AdaptiveEx AdaptiveEx2 EndEx Ex CycleEx TieSpec AdaptiveTies.

(** Four items, eight scenarios with one row of capacity 10, eps = 1/4: two scenarios may be violated. *)
Definition exTies : inst := mkInst 4 1 8 false (1 # 4) [17; 23; 12; 8]%Q
  [[[2; 4; 8; 6]]; [[8; 4; 6; 9]]; [[6; 3; 10; 6]]; [[6; 8; 2; 2]]; [[10; 6; 9; 7]]; [[4; 2; 1; 7]]; [[8; 9; 6; 3]]; [[2; 10; 1; 1]]]%Q
  [[10]; [10]; [10]; [10]; [10]; [10]; [10]; [10]]%Q.

Definition alikeb (I : inst) : bool := forallb (fun x => forallb (fun y =>
  implb ((tolerated I <? nviol I tol6 x) && (tolerated I <? nviol I tol6 y) && Qeq_bool (obj I x) (obj I y))
        (forallb (fun s => Bool.eqb (violated I x s) (violated I y s)) (seq 0 (i_k I)))) (all_bin (i_n I))) (all_bin (i_n I)).
Lemma refused_tolerated I y : (0 <= i_eps I)%Q -> in_dom I y -> ~ cc_feasible I tol6 y -> tolerated I < nviol I tol6 y.
Proof.
  intros HE D N. destruct (Nat.ltb_spec (tolerated I) (nviol I tol6 y)) as [L|L]; [exact L|]. exfalso. apply N. split; [exact D|]. now apply tolerated_le.
Qed.
Lemma alikeb_ok I : (0 <= i_eps I)%Q -> i_cont I = false -> alikeb I = true -> alike I.
Proof.
  intros HE CO A x y DX DY NX NY EQ s Hs. apply (refused_tolerated I x HE DX) in NX. apply (refused_tolerated I y HE DY) in NY.
  destruct (binary_point I x CO DX) as (x' & X1 & X2 & X3 & X4). destruct (binary_point I y CO DY) as (y' & Y1 & Y2 & Y3 & Y4).
  unfold alikeb in A. rewrite forallb_forall in A. specialize (A x' X1). cbv beta in A. rewrite forallb_forall in A. specialize (A y' Y1). cbv beta in A.
  assert (H1 : (tolerated I <? nviol I tol6 x') = true) by (apply Nat.ltb_lt; now rewrite <- X4).
  assert (H2 : (tolerated I <? nviol I tol6 y') = true) by (apply Nat.ltb_lt; now rewrite <- Y4).
  assert (H3 : Qeq_bool (obj I x') (obj I y') = true) by (apply Qeq_bool_iff; lra).
  rewrite H1, H2, H3 in A. cbn [andb implb] in A. rewrite forallb_forall in A. specialize (A s ltac:(apply in_seq; lia)). apply Bool.eqb_prop in A.
  unfold violated in *. now rewrite X3, Y3.
Qed.

Definition heads (I : inst) (cf : cfg) (l : list nat) : list ast :=
  flat_map (fun n => match head_state (brute_world I) I cf n with Some s => [s] | None => [] end) l.
Lemma tie_run : let '(r, s) := run (brute_world exTies) exTies (ex_cfg SplitCost InitRandom Belotti true true) 16 in
    r = Ok Feasible /\ a_iter s = 3 /\ a_vLB s = Fin 23 /\ a_vUB s = Fin 23.
Proof. vm_compute. auto. Qed.
Lemma tie_example :
  (let w := brute_world exTies in oracles_ok w exTies /\ Violations.sort_spec (w_sort w) /\ wf_inst exTies /\ packing exTies /\ eps_ok exTies /\ solver_ok w exTies 0 0) /\
  (i_eps exTies < 1)%Q /\ tight exTies /\ i_cont exTies = false /\ alike exTies /\ ~ alike exC /\
  (det_feasible exTies (seq 0 8) 0 [1; 0; 0; 0]%Q /\ (0 < obj exTies [1; 0; 0; 0])%Q) /\
  (forall sp ini mth merger bm, sp <> SplitOther -> ini <> InitOther -> mth <> OtherM ->
    calm (brute_world exTies) (ex_cfg sp ini mth merger bm) /\ options_ok (brute_world exTies) exTies (ex_cfg sp ini mth merger bm)) /\
  map (fun n => show_turn (head_state (brute_world exTies) exTies (ex_cfg SplitCost InitRandom Belotti true true) n)) [0; 1; 2; 3] =
    [Some ([[0; 3; 6]; [1; 4; 7]; [2; 5]], Fin 23, PInf, false); Some ([[3; 2; 5]; [1; 4; 7]; [0; 6]], Fin 23, Fin 40, true);
     Some ([[3; 2; 5]; [1]; [0; 6]; [4; 7]], Fin 23, Fin 31, false); None] /\
  progress (heads exTies (ex_cfg SplitCost InitRandom Belotti true true) [0; 1; 2; 3]) = 2 /\
  progress (heads exC (ex_cfg SplitCost InitCost Belotti true true) (seq 0 8)) = 0 /\
  (let '(r, s) := run (brute_world exTies) exTies (ex_cfg SplitCost InitRandom Belotti true true) 16 in
    r = Ok Feasible /\ a_iter s = 3 /\ a_vLB s = Fin 23 /\ a_vUB s = Fin 23).
Proof.
  split; [exact (example_hyps exTies eq_refl eq_refl eq_refl eq_refl)|]. split; [reflexivity|]. split; [apply tenthsb_tight; reflexivity|]. split; [reflexivity|].
  split; [apply alikeb_ok; [discriminate|reflexivity|vm_compute; reflexivity]|].
  split.
  { intro A. assert (R : forall y, negb (Qle_bool (Qn (nviol exC tol6 y)) (i_eps exC * Qn (i_k exC))) = true -> ~ cc_feasible exC tol6 y).
    { intros y H [_ F]. apply Qle_bool_iff in F. rewrite F in H. discriminate H. }
    assert (E : violated exC [1; 1; 0]%Q 2 = violated exC [1; 0; 1]%Q 2); [|discriminate E].
    apply A; [apply in_domb_ok; reflexivity|apply in_domb_ok; reflexivity|apply R; reflexivity|apply R; reflexivity|reflexivity|cbn; lia]. }
  split. { split; [|reflexivity]. split; [apply in_domb_ok; reflexivity|]. intros s Hs. apply satb_iff. apply in_seq in Hs.
    do 8 (destruct s as [|s]; [vm_compute; reflexivity|]). cbn in Hs. lia. }
  split. { intros sp ini mth merger bm H1 H2 H3. split; [now apply brute_calm|]. apply brute_options; auto; [apply wf_instb_ok; reflexivity|vm_compute; lia]. }
  split; [vm_compute; reflexivity|]. split; [vm_compute; reflexivity|]. split; [vm_compute; reflexivity|exact tie_run].
Qed.
