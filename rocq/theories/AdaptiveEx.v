(** Concrete runs of the adaptive partitioner: non-vacuity examples and counterexamples. *)
From Verif Require Import Base BaseFacts Spec Instance OptModels Initial Bounds Refine CostRefine Merge Knapsack
  Violations BigM Adaptive BruteForce BruteForceFacts Ex AccRef CostRefineFacts BaseFacts ViolationsFacts BigMFacts BigMEx AdaptiveSpec.

(** No interruption, no time consumed. *)
Definition ex_world (I : inst) (solve : nat -> model -> outcome) : world :=
  mkWorld solve (acc_ref I) ex_perm argsort_ref norm1 sort_ref (fun _ => 0%Q) (fun _ => false).
Lemma NoDup_map_in {A B} (f : A -> B) l : (forall a b, In a l -> In b l -> f a = f b -> a = b) -> NoDup l -> NoDup (map f l).
Proof.
  intros HI H. induction H as [|a l Ha H IH]; cbn [map]; constructor.
  - intro C. apply in_map_iff in C as (b & E & Hb). apply Ha. rewrite (HI a b); [assumption|now left|now right|congruence].
  - apply IH. intros x y Hx Hy. apply HI; now right.
Qed.
Lemma ex_perm_ok : perm_oracle ex_perm.
Proof.
  intros t n. apply NoDup_Permutation_bis.
  - unfold ex_perm. apply NoDup_map_in; [|apply seq_NoDup].
    intros a b Ha Hb E. apply in_seq in Ha, Hb.
    assert (N : n <> 0) by lia. pose proof (Nat.div_mod (a + t) n N) as D1. pose proof (Nat.div_mod (b + t) n N) as D2.
    rewrite E in D1. set (q1 := (a + t) / n) in *. set (q2 := (b + t) / n) in *. set (r := (b + t) mod n) in *.
    assert (q1 = q2) by (destruct (Nat.lt_trichotomy q1 q2) as [L|[L|L]]; [|exact L|]; exfalso; nia). subst q1. lia.
  - unfold ex_perm. now rewrite map_length, seq_length.
  - intros a Ha. apply in_map_iff in Ha as (b & <- & Hb). apply in_seq in Hb. apply in_seq.
    split; [lia|]. apply Nat.mod_upper_bound. lia.
Qed.
Lemma norm1_nonneg r : (0 <= norm1 r)%Q.
Proof.
  unfold norm1. induction r as [|a r IH]; cbn [map]; [cbn; lra|]. unfold qsum in *. cbn [fold_right].
  assert (0 <= Qmax a (- a))%Q by (pose proof (Q.le_max_l a (- a)); pose proof (Q.le_max_r a (- a)); lra). lra.
Qed.
Lemma ex_oracles I solve : wf_inst I -> oracles_ok (ex_world I solve) I.
Proof.
  intro HW. split; [exact ex_perm_ok|]. split; [exact argsort_ref_ok|]. split; [exact norm1_nonneg|].
  split; [apply acc_total_sound, acc_ref_total, HW|].
  intros t s i p _ E. assert (L := acc_ref_low I t s i p E). lra.
Qed.
Definition ex_cfg (sp : split_method) (ini : init_type) (mth : bigm_method) (merger bm : bool) : cfg :=
  mkCfg sp ini ProjRescaled (match sp with SplitCost => true | _ => false end) 100 (1 # 10000) bm mth merger false 50.
Definition ex_plain : cfg := ex_cfg SplitRandom InitRandom Naive false false.

(** A solver that uses the feasibility tolerance for the models of the lower bounder. *)
Definition relax_cstr (c : cstr) : cstr := match c with CLe a b => CLe a (b + tol6)%Q | c => c end.
Definition relax_model (m : model) : model :=
  mkModel (m_n m) (m_cont m) (m_nz m) (m_obj m) (m_const m) (map relax_cstr (m_cstrs m)) (m_start m) (m_gap m) (m_time m) (m_lazy m).
Definition brute_tol (_ : nat) (m : model) : outcome :=
  match m_gap m with
  | Some q => if Qeq_bool q (1 # 10000) then brute (relax_model m) else brute m
  | None => brute m
  end.

Definition exT : inst :=
  mkInst 3 3 3 false (1 # 3) [5; 4; 1 # 10000]%Q
    [ [[1; 2; 0]; [2; 1; 0]; [0; 0; 1]]; [[3; 0; 0]; [1; 1; 0]; [0; 0; 1]]; [[2; 2; 0]; [0; 3; 0]; [0; 0; 1]] ]%Q
    [ [3; 2; 9999999 # 10000000]; [3; 2; 9999999 # 10000000]; [3; 2; 9999999 # 10000000] ]%Q.

Lemma relax_ok x z c : cstr_ok 0 x z (relax_cstr c) -> cstr_ok tol6 x z c.
Proof.
  destruct c as [a b|a [|b|]|a b M0 s|s a b|p r|s]; cbn; unfold tol6; try tauto; try (intros H; lra).
Qed.
Lemma relax_weaker x z c : cstr_ok 0 x z c -> cstr_ok 0 x z (relax_cstr c).
Proof. destruct c; cbn; unfold tol6; try tauto. intro. lra. Qed.
Lemma cstr_tol x z c : cstr_ok 0 x z c -> cstr_ok tol6 x z c.
Proof.
  destruct c as [a b|a [|b|]|a b M0 s|s a b|p r|s]; cbn; unfold tol6; try tauto; try (intros H; lra).
Qed.
Lemma brute_outcome m : outcome_ok tol6 m (brute m).
Proof.
  destruct (m_cont m) eqn:E; [unfold brute; rewrite E; exact Logic.I|].
  assert (H := brute_exact m E). destruct (brute m) as [x z v b| | |]; cbn in H |- *; auto.
  destruct H as ((H1 & H2 & H3 & H4) & H5 & H6 & H7). split; [|split; [assumption|split; [lra|assumption]]].
  split; [assumption|]. split; [assumption|]. split; [assumption|]. revert H4. apply Forall_impl. intro. apply cstr_tol.
Qed.
Lemma brute_tol_outcome t m : outcome_ok tol6 m (brute_tol t m).
Proof.
  unfold brute_tol. destruct (m_gap m) as [q|]; [|apply brute_outcome]. destruct (Qeq_bool q _); [|apply brute_outcome].
  destruct (m_cont m) eqn:E; [unfold brute; cbn [relax_model m_cont]; rewrite E; exact Logic.I|].
  assert (H := brute_exact (relax_model m) E).
  assert (W : forall x' z', model_ok 0 m x' z' -> model_ok 0 (relax_model m) x' z').
  { intros x' z' (A1 & A2 & A3 & A4). split; [assumption|]. split; [assumption|]. split; [assumption|].
    cbn [relax_model m_cstrs]. apply Forall_map. revert A4. apply Forall_impl. intro. apply relax_weaker. }
  destruct (brute (relax_model m)) as [x z v b| | |]; cbn [outcome_exact outcome_ok] in H |- *; auto.
  - destruct H as ((H1 & H2 & H3 & H4) & H5 & H6 & H7). split; [|split; [assumption|split; [lra|]]].
    + split; [assumption|]. split; [assumption|]. split; [assumption|]. cbn [relax_model m_cstrs] in H4.
      rewrite Forall_map in H4. revert H4. apply Forall_impl. intro. apply relax_ok.
    + intros x' z' A. apply (H7 x' z'). now apply W.
  - intros x z A. apply (H x z). now apply W.
Qed.

(** The final assignment vLB := vUB loses 1e-4. *)
Lemma final_decrease : exists s r,
  run (ex_world exT brute_tol) exT ex_plain 20 = (Ok Feasible, s) /\ In r (a_log s) /\
  a_vLB s = a_vUB s /\ ext_leb (ext_opp (l_nLB r)) (a_vLB s) = false.
Proof.
  pose (s := snd (run (ex_world exT brute_tol) exT ex_plain 20)). vm_compute in s.
  exists s. eexists. split; [vm_compute; reflexivity|]. split; [right; left; reflexivity|]. vm_compute. auto.
Qed.

Definition show_run (r : res verdict * ast) :=
  (fst r, map (fun v => match v with Fin q => Fin (Qred q) | e => e end) [a_vLB (snd r); a_vUB (snd r)], a_part (snd r), a_iter (snd r),
   map (fun l => (l_iter l, map (fun v => match v with Fin q => Fin (Qred q) | e => e end) [l_nLB l; l_nUB l], l_nb l)) (a_log (snd r))).

(** State at the head of the loop after n turns. *)
Fixpoint turns (w : world) (I : inst) (cf : cfg) (n : nat) (s : ast) : option ast :=
  match n with
  | 0 => Some s
  | S n' => match iteration w I cf s with (Ok Continue, s') => turns w I cf n' s' | _ => None end
  end.
Definition head_state (w : world) (I : inst) (cf : cfg) (n : nat) : option ast :=
  match construct w I cf (ast0 I) with
  | (Ok b, s0) => match prologue w I cf b s0 with (Ok Continue, s) => turns w I cf n s | _ => None end
  | _ => None
  end.
Definition show_head (o : option ast) :=
  match o with
  | Some s => Some (a_part s, map Qred (a_costs s), a_sols s, a_merged s, ms_deleted (a_ms s), a_zUB s)
  | None => None
  end.
Lemma turns_reach w I cf : forall n s s', head_reach w I cf s -> turns w I cf n s = Some s' -> head_reach w I cf s'.
Proof.
  induction n as [|n IH]; intros s s' HR H; cbn [turns] in H; [congruence|].
  destruct (iteration w I cf s) as [[[]|e] s1] eqn:E; try discriminate.
  apply (IH s1); [|exact H]. exact (HR_next _ _ _ _ _ HR E).
Qed.
Lemma head_state_reach w I cf n s : head_state w I cf n = Some s -> head_reach w I cf s.
Proof.
  unfold head_state. destruct (construct w I cf (ast0 I)) as [[b|e] s0] eqn:EC; [|discriminate].
  destruct (prologue w I cf b s0) as [[[]|e] s1] eqn:EP; try discriminate.
  apply turns_reach. exact (HR_start _ _ _ _ _ _ EC EP).
Qed.

(** Nine scenarios, four items: one merge followed by two iterations without merge. *)
Definition exS : inst :=
  mkInst 4 1 9 false (1 # 3) [5; 5; 9; 4]%Q
    [[[7; 9; 4; 2]]; [[8; 4; 5; 10]]; [[0; 6; 2; 12]]; [[4; 8; 10; 1]]; [[11; 9; 11; 9]]; [[12; 3; 2; 9]];
     [[0; 8; 5; 3]]; [[3; 9; 12; 8]]; [[8; 5; 0; 0]]]%Q
    (repeat [17%Q] 9).
Definition exS_world : world := ex_world exS (fun _ m => brute m).
Definition ex_merge : cfg := ex_cfg SplitRandom InitRandom Naive true false.

(** The subsets deleted by the merge of the first iteration are still used two iterations later. *)
Lemma stale_deleted : exists s z, head_reach exS_world exS ex_merge s /\ a_merged s = false /\ a_zUB s = Some z /\
  length z <= length (a_part s) /\ ms_deleted (a_ms s) <> [] /\
  In (2, 1%Q) (get_z_start z (ms_deleted (a_ms s))) /\ (nth 2 z 0 == 0)%Q /\
  (nth 4 z 0 == 1)%Q /\ ~ In (4, 1%Q) (get_z_start z (ms_deleted (a_ms s))).
Proof.
  pose (o := head_state exS_world exS ex_merge 3). assert (E : head_state exS_world exS ex_merge 3 = o) by reflexivity.
  vm_compute in o. revert E. unfold o. clear o. intro E. eexists. eexists. split; [exact (head_state_reach _ _ _ _ _ E)|].
  vm_compute. split; [reflexivity|]. split; [reflexivity|]. split; [lia|]. split; [discriminate|].
  split; [right; left; reflexivity|]. split; [reflexivity|]. split; [reflexivity|].
  intros [H|[H|[]]]; discriminate.
Qed.

Lemma exS_wf : wf_inst exS.
Proof. unfold wf_inst. cbn. repeat split; try lia; repeat constructor; cbn; lia. Qed.
Lemma exS_oracles solve : oracles_ok (ex_world exS solve) exS.
Proof. apply ex_oracles, exS_wf. Qed.
Lemma ex_clock_mono : clock_mono exS_world.
Proof. intros t t' _. cbn. lra. Qed.

Lemma merge_example : exists s s1 x R nc s2 s3, step_reach exS_world exS ex_merge s s1 x R nc s2 /\
  merge_step exS_world exS ex_merge x R nc s2 = (Ok tt, s3) /\
  a_merged s3 = true /\ length (a_part s2) = 6 /\ length (a_part s3) = 4 /\ rf_mu R = 2.
Proof.
  pose (o := head_state exS_world exS ex_merge 0). assert (E : head_state exS_world exS ex_merge 0 = o) by reflexivity.
  vm_compute in o. revert E. unfold o. clear o. intro E.
  match type of E with _ = Some ?s => pose (b := bound_phase exS_world exS ex_merge s); assert (EB : bound_phase exS_world exS ex_merge s = b) by reflexivity end.
  vm_compute in b. revert EB. unfold b. clear b. intro EB.
  match type of EB with _ = (_, ?s) => pose (c := split_step exS_world exS ex_merge s); assert (ES : split_step exS_world exS ex_merge s = c) by reflexivity end.
  vm_compute in c. revert ES. unfold c. clear c. intro ES.
  do 7 eexists. split; [split; [exact (head_state_reach _ _ _ _ _ E)|split; [exact EB|exact ES]]|].
  vm_compute. repeat split.
Qed.
Lemma first_example : exists s1 s2 ok,
  head_state exS_world exS (ex_cfg SplitCost InitCost Naive true false) 0 = Some s1 /\
  match a_vUB s1 with Fin v => (v == 18)%Q | _ => False end /\ map Qred (a_costs s1) = [9; 18; 14; 14]%Q /\
  upper_bound_step exS_world exS (ex_cfg SplitCost InitCost Naive true false) s1 = (Ok (Some [1; 0; 1; 1]%Q, ok), s2) /\
  a_xUB s2 = Some [1; 0; 1; 1]%Q.
Proof. do 3 eexists. split; [vm_compute; reflexivity|]. vm_compute. repeat split. Qed.
