(** An instance on which merging leads to an endless run (C60). *)
From Verif Require Import Base BaseFacts Spec Instance InstanceFacts OptModels OptFacts PartitionFacts Initial Bounds BoundsFacts Refine CostRefine Merge Violations BigM BruteForce BruteForceFacts
  Adaptive AdaptiveSpec AdaptiveEx AdaptiveEx2 EndEx AdaptiveCycle Ex.

(** Three items of value 1, four scenarios with one row of capacity 10, eps = 1/4: one scenario may be violated. *)
Definition exC : inst := mkInst 3 1 4 false (1 # 4) [1; 1; 1]%Q [[[1; 1; 8]]; [[10; 2; 3]]; [[4; 6; 7]]; [[1; 10; 5]]]%Q [[10]; [10]; [10]; [10]]%Q.

Lemma binary_point I x : i_cont I = false -> in_dom I x -> exists y, In y (all_bin (i_n I)) /\ (obj I x == obj I y)%Q /\
  (forall tau s, satb I tau x s = satb I tau y s) /\ forall tau, nviol I tau x = nviol I tau y.
Proof.
  intros HC [HX HB]. specialize (HB HC). assert (E := canon_eq x HB). exists (map canon x). split; [apply canon_In, HX|].
  assert (ES : forall tau s, satb I tau x s = satb I tau (map canon x) s).
  { intros tau s. apply eq_true_iff_eq. rewrite !satb_iff. unfold sat. split; intros H i Hi; specialize (H i Hi); [rewrite <- (dot_compat _ _ _ E)|rewrite (dot_compat _ _ _ E)]; exact H. }
  split; [apply dot_compat, E|]. split; [exact ES|]. intro tau. unfold nviol. apply count_ext. intros s _. now rewrite ES.
Qed.

Lemma exC_det S : (forall s, In s S -> s < 4) -> ~ (In 1 S /\ In 2 S) -> ~ (In 1 S /\ In 3 S) -> ~ (In 2 S /\ In 3 S) ->
  exists y, det_feasible exC S 0 y /\ (2 <= obj exC y)%Q.
Proof.
  intros HS N1 N2 N3.
  assert (K : forall y, in_domb exC y = true -> Qle_bool 2 (obj exC y) = true -> (forall s, In s S -> satb exC 0 y s = true) ->
    exists y, det_feasible exC S 0 y /\ (2 <= obj exC y)%Q).
  { intros y H1 H2 H3. exists y. split; [|now apply Qle_bool_iff]. split; [now apply in_domb_ok|]. intros s Hs. apply satb_iff, H3, Hs. }
  destruct (in_dec Nat.eq_dec 1 S); [|destruct (in_dec Nat.eq_dec 2 S)].
  - apply (K [0; 1; 1]%Q); [reflexivity|reflexivity|]. intros s Hs. assert (L := HS s Hs). destruct s as [|[|[|[|s]]]]; try reflexivity; try tauto; lia.
  - apply (K [1; 1; 0]%Q); [reflexivity|reflexivity|]. intros s Hs. assert (L := HS s Hs). destruct s as [|[|[|[|s]]]]; try reflexivity; try tauto; lia.
  - apply (K [1; 0; 1]%Q); [reflexivity|reflexivity|]. intros s Hs. assert (L := HS s Hs). destruct s as [|[|[|[|s]]]]; try reflexivity; try tauto; lia.
Qed.

Lemma exC_trap gap : (0 <= gap)%Q -> (gap < 1)%Q -> trap exC 2 gap.
Proof.
  intros G0 G1. constructor.
  - intros y [D F]. destruct (binary_point exC y eq_refl D) as (y' & HIn & EO & _ & EN). rewrite EN in F.
    assert (C : forallb (fun y => implb (Qle_bool (Qn (nviol exC 0 y)) (i_eps exC * Qn (i_k exC))) (Qle_bool (obj exC y) 1)) (all_bin 3) = true) by reflexivity.
    rewrite forallb_forall in C. specialize (C y' HIn). apply Qle_bool_iff in F. rewrite F in C.
    cbn [implb] in C. apply Qle_bool_iff in C. rewrite <- EO in C.
    assert (obj exC y * (1 + gap) <= 1 * (1 + gap))%Q by (apply Qmult_le_compat_r; lra). lra.
  - intros s Hs. apply exC_det; [intros t [<-|[]]; exact Hs|..]; cbn; intuition lia.
  - intros p VP LP. change (length p = 2) in LP. destruct p as [|S [|T [|]]]; try discriminate. change (i_k exC) with 4 in VP.
    assert (HA : forall s, s < 4 -> In s S \/ In s T).
    { intros s Hs. destruct VP as [PP _]. apply Permutation_sym in PP. assert (X : In s (concat [S; T])) by (eapply Permutation_in; [exact PP|]; apply in_seq; lia).
      cbn in X. rewrite app_nil_r in X. now apply in_app_iff. }
    assert (HD : forall s, In s S -> ~ In s T).
    { assert (ND := vp_NoDup_concat _ _ VP). cbn in ND. rewrite app_nil_r in ND. apply NoDup_app_inv in ND as (_ & _ & ND). auto. }
    assert (HL : forall U, In U [S; T] -> forall s, In s U -> s < 4).
    { intros U HU s Hs. assert (W := vp_lt _ _ VP). rewrite Forall_forall in W. destruct (W U HU) as [_ W2]. rewrite Forall_forall in W2. now apply W2. }
    assert (KS : (~ (In 1 S /\ In 2 S) /\ ~ (In 1 S /\ In 3 S) /\ ~ (In 2 S /\ In 3 S)) \/ (~ (In 1 T /\ In 2 T) /\ ~ (In 1 T /\ In 3 T) /\ ~ (In 2 T /\ In 3 T))).
    { assert (D1 := HD 1). assert (D2 := HD 2). assert (D3 := HD 3).
      destruct (in_dec Nat.eq_dec 1 S), (in_dec Nat.eq_dec 2 S), (in_dec Nat.eq_dec 3 S); tauto. }
    destruct KS as [(K1 & K2 & K3)|(K1 & K2 & K3)].
    + destruct (exC_det S (HL S ltac:(now left)) K1 K2 K3) as (y & Y). exists S, y. split; [now left|exact Y].
    + destruct (exC_det T (HL T ltac:(right; now left)) K1 K2 K3) as (y & Y). exists T, y. split; [right; now left|exact Y].
  - intros x s D VX Hs BD y [DY FY].
    destruct (binary_point exC x eq_refl D) as (x' & HIn & EO & ES & _). unfold violated in BD. rewrite ES in BD. rewrite EO in VX. clear ES EO D x.
    assert (FS : satb exC 0 y s = true) by (apply satb_iff, FY; now left). clear FY.
    destruct (binary_point exC y eq_refl DY) as (y' & HIny & EO & ES & _). rewrite ES in FS. rewrite EO. clear ES EO DY y.
    assert (C : forallb (fun x => forallb (fun s => forallb (fun y => implb (Qle_bool 2 (obj exC x) && negb (satb exC tol6 x s) && satb exC 0 y s) (Qle_bool (obj exC y) 2))
      (all_bin 3)) (seq 0 4)) (all_bin 3) = true) by (vm_compute; reflexivity).
    rewrite forallb_forall in C. specialize (C x' HIn). cbv beta in C. rewrite forallb_forall in C. specialize (C s ltac:(apply in_seq; change (i_k exC) with 4 in Hs; lia)).
    cbv beta in C. rewrite forallb_forall in C. specialize (C y' HIny). cbv beta in C. apply Qle_bool_iff in VX. rewrite VX, BD, FS in C. now apply Qle_bool_iff in C.
  - exists [1; 0; 0]%Q. split; [|reflexivity]. split; [apply in_domb_ok; reflexivity|]. intros s Hs. apply satb_iff. change (In s [0; 1; 2; 3]) in Hs.
    cbn in Hs. destruct Hs as [<-|[<-|[<-|[<-|[]]]]]; reflexivity.
Qed.

Lemma never_ends_everywhere : forall w cf, oracles_ok w exC -> Violations.sort_spec (w_sort w) -> solver_ok w exC 0 0 -> calm w cf -> options_ok w exC cf ->
  c_merger cf = true -> (0 <= c_gap cf)%Q -> (c_gap cf < 1)%Q -> forall fuel, exists s, run w exC cf fuel = (Err NonTermination, s).
Proof.
  intros w cf HO HSo HS HC HOp HM G0 G1.
  destruct (example_hyps exC eq_refl eq_refl eq_refl eq_refl) as (_ & _ & HW & HP & HE & _).
  apply (run_stuck w exC cf HO HSo HW HP HE eq_refl HS HC HOp (tenthsb_tight exC eq_refl eq_refl) eq_refl ltac:(cbn; lia) 2 (exC_trap _ G0 G1) HM G0).
Qed.
Definition show_turn (o : option ast) := match o with Some s => Some (a_part s, a_vLB s, a_vUB s, a_merged s) | None => None end.
Lemma cycle_example :
  (forall sp ini mth bm, sp <> SplitOther -> ini <> InitOther -> mth <> OtherM -> let cf := ex_cfg sp ini mth true bm in let w := brute_world exC in
    oracles_ok w exC /\ Violations.sort_spec (w_sort w) /\ solver_ok w exC 0 0 /\ calm w cf /\ options_ok w exC cf /\ c_merger cf = true /\ (0 <= c_gap cf)%Q /\ (c_gap cf < 1)%Q) /\
  map (fun n => show_turn (head_state (brute_world exC) exC (ex_cfg SplitCost InitCost Belotti true true) n)) [0; 1; 2; 3; 4] =
    [Some ([[0; 2]; [1; 3]], Fin 1, Fin 2, false); Some ([[0; 2; 3]; [1]], Fin 1, Fin 2, true); Some ([[2]; [1; 0; 3]], Fin 1, Fin 2, true);
     Some ([[2; 0; 3]; [1]], Fin 1, Fin 2, true); Some ([[2]; [1; 0; 3]], Fin 1, Fin 2, true)] /\
  (cc_feasible exC 0 [1; 0; 0]%Q /\ obj exC [1; 0; 0]%Q == 1 /\ upper_bound exC 1)%Q /\
  (let '(r, s) := run (brute_world exC) exC (ex_cfg SplitCost InitCost Belotti false true) 3 in r = Ok Feasible /\ a_vUB s = Fin 1).
Proof.
  split. { intros sp ini mth bm H1 H2 H3. cbv zeta. destruct (example_hyps exC eq_refl eq_refl eq_refl eq_refl) as (A & B & HW & _ & _ & D).
    split; [exact A|]. split; [exact B|]. split; [exact D|]. split; [now apply brute_calm|]. split; [apply brute_options; auto; vm_compute; lia|].
    split; [reflexivity|]. split; [discriminate|reflexivity]. }
  split; [vm_compute; reflexivity|]. split.
  { split; [apply cc_feasible_dec; reflexivity|]. split; [reflexivity|]. intros y F. assert (B := tr_below _ _ _ (exC_trap 0 ltac:(lra) ltac:(lra)) y F).
    assert (C := tr_below _ _ _ (exC_trap (9 # 10) ltac:(lra) ltac:(lra)) y F).
    destruct (binary_point exC y eq_refl (proj1 F)) as (y' & HIn & EO & _). rewrite EO in *.
    assert (Z : forallb (fun y => Qle_bool (obj exC y) 1 || Qle_bool 2 (obj exC y)) (all_bin 3) = true) by reflexivity.
    rewrite forallb_forall in Z. specialize (Z y' HIn). apply orb_prop in Z as [Z|Z]; apply Qle_bool_iff in Z; lra. }
  vm_compute. auto.
Qed.
