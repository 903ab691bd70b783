(** Examples for the end of a run (C44). *)
From Coq Require Import QArith.Qabs QArith.Qminmax.
From Verif Require Import Base BaseFacts Spec Instance InstanceFacts OptModels Initial Bounds Refine CostRefine Merge Violations ViolTable BigM Adaptive AdaptiveSpec
  AdaptiveEx AdaptiveEx2 OptFacts Ex BruteForce BruteForceFacts BigMEx.

Lemma tight_tenths I : i_cont I = false -> Forall (Forall (Forall tenth)) (i_A I) -> Forall (Forall tenth) (i_b I) -> tight I.
Proof. intros HC HA Hb x [D F]. split; [exact D|]. rewrite <- (nviol_tol_irrelevant I x HA Hb (proj2 D HC)). exact F. Qed.
Definition tenthb (q : Q) : bool := Qeq_bool q (inject_Z (Qfloor (q * 10)) / 10).
Lemma tenthb_ok q : tenthb q = true -> tenth q.
Proof. intro H. apply Qeq_bool_iff in H. eexists. exact H. Qed.
Definition tenthsb (I : inst) : bool := forallb (forallb (forallb tenthb)) (i_A I) && forallb (forallb tenthb) (i_b I).
Lemma tenthsb_tight I : i_cont I = false -> tenthsb I = true -> tight I.
Proof.
  intros HC H. apply andb_prop in H as [H1 H2]. rewrite forallb_forall in H1, H2. apply tight_tenths; [exact HC| |]; apply Forall_forall.
  - intros M HM. specialize (H1 M HM). rewrite forallb_forall in H1. apply Forall_forall. intros r Hr. specialize (H1 r Hr).
    rewrite forallb_forall in H1. apply Forall_forall. intros q Hq. now apply tenthb_ok, H1.
  - intros v Hv. specialize (H2 v Hv). rewrite forallb_forall in H2. apply Forall_forall. intros q Hq. now apply tenthb_ok, H2.
Qed.

Lemma zero_division : calm (brute_world exZero) ex_plain /\ options_ok (brute_world exZero) exZero ex_plain /\
  c_merger ex_plain = false /\ tight exZero /\
  exists s, run (brute_world exZero) exZero ex_plain 20 = (Err ZeroDivisionError, s).
Proof.
  split; [now apply brute_calm|]. split; [apply brute_options; try discriminate; [apply wf_instb_ok; reflexivity|vm_compute; lia]|].
  split; [reflexivity|]. split; [apply tenthsb_tight; reflexivity|]. destruct zero_witness as (s & E & _). eauto.
Qed.

(** The enumerating solver, stopped at a relative gap of 1e-8. *)
Definition brute_loose (_ : nat) (m : model) : outcome :=
  match brute m with
  | Solved x z v b => Solved x z v (v + Qmin (1 # 100000) (Qabs v / 100000000))%Q
  | o => o
  end.
Definition loose_world (I : inst) : world := ex_world I brute_loose.
Lemma loose_gap v : (0 <= Qmin (1 # 100000) (Qabs v / 100000000) <= 1 # 100000)%Q /\
  (Qmin (1 # 100000) (Qabs v / 100000000) <= Qabs v / 100000000)%Q.
Proof.
  assert (A := Qabs_nonneg v). assert (B : (0 <= Qabs v / 100000000)%Q) by (apply Qle_shift_div_l; lra).
  split; [split|]; [|apply Q.le_min_l|apply Q.le_min_r]. apply Q.min_glb; lra.
Qed.
Lemma model_ok_within tau m x z : (0 <= tau)%Q -> model_ok 0 m x z -> model_ok tau m x z.
Proof.
  intros T (H1 & H2 & H3 & H4). split; [exact H1|]. split; [exact H2|]. split; [exact H3|]. revert H4. apply Forall_impl.
  intros [a b|a [|b|]|a b M s|s a b|p r|s]; cbn; intro H; try exact H; try lra.
Qed.
Lemma loose_ok t m tau : (0 <= tau)%Q -> outcome_ok tau m (brute_loose t m).
Proof.
  intro T. assert (B := brute_ok0 m). unfold brute_loose. destruct (brute m) as [x z v b| | |] eqn:EB; try exact B. apply brute_tight in EB. subst b.
  destruct B as (B1 & B2 & B3 & B4). destruct (loose_gap v) as [[G1 G2] _]. split; [now apply model_ok_within|]. split; [exact B2|]. split; [lra|].
  intros x' z' A. specialize (B4 x' z' A). lra.
Qed.
Lemma loose_solver I tau : wf_inst I -> (0 <= tau <= tol6)%Q -> solver_ok (loose_world I) I tau (1 # 100000).
Proof.
  intros HW T. constructor.
  - exact T.
  - lra.
  - intros t m. now apply loose_ok.
  - intros S v x (t & z & b & E) y Hy. cbn [loose_world ex_world w_solve] in E. unfold brute_loose in E. assert (B := brute_ok0 (deter_model I S)).
    destruct (brute (deter_model I S)) as [x0 z0 v0 b0| | |] eqn:EB; try discriminate. injection E as <- <- <- <-. apply brute_tight in EB. subst b0.
    now apply (deter_bound I S 0 x0 z0 v0 v0 B).
  - intros t m x z v b _ E. cbn [loose_world ex_world w_solve] in E. unfold brute_loose in E.
    destruct (brute m) as [x0 z0 v0 b0| | |]; try discriminate. injection E as <- <- <- <-. destruct (loose_gap v0) as [[_ G] _]. lra.
Qed.
Lemma loose_calm I cf : (0 < c_limit cf)%Q -> calm (loose_world I) cf.
Proof.
  intro HL. destruct (brute_calm I cf HL) as [A B C D E]. constructor; cbn [loose_world ex_world w_intr w_solve w_clock] in *; auto.
  - intros t m. unfold brute_loose. specialize (B t m). cbn in B. destruct (brute m); try discriminate; exact B.
  - intros t m H. unfold brute_loose. specialize (C t m H). cbn [brute_world ex_world w_solve] in C. destruct (brute m) as [x z v b| | |]; cbn in *; auto.
    destruct (loose_gap v) as [[G1 G2] G3]. assert (X := Qabs_nonneg v). destruct (Qlt_le_dec 0 (Qabs v)) as [P|P]; [right|left].
    + assert (L : (Qabs v / 100000000 < Qabs v)%Q) by (apply Qlt_shift_div_r; lra). lra.
    + assert (L : (Qabs v / 100000000 <= 0)%Q) by (apply Qle_shift_div_r; lra). lra.
Qed.

Lemma end_example :
  (let w := brute_world exMid in oracles_ok w exMid /\ sort_spec (w_sort w) /\ wf_inst exMid /\ packing exMid /\ eps_ok exMid /\
    solver_ok w exMid 0 0) /\ (i_eps exMid < 1)%Q /\ tight exMid /\ i_cont exMid = false /\
  (det_feasible exMid (seq 0 4) 0 [0; 0; 1]%Q /\ (0 < obj exMid [0; 0; 1])%Q) /\
  (forall sp ini mth bm, sp <> SplitOther -> ini <> InitOther -> mth <> OtherM ->
    calm (brute_world exMid) (ex_cfg sp ini mth false bm) /\ options_ok (brute_world exMid) exMid (ex_cfg sp ini mth false bm)) /\
  i_k exMid - tolerated exMid = 3 /\
  (let '(r, s) := run (brute_world exMid) exMid ex_plain 3 in r = Ok Feasible /\ a_iter s = 3) /\
  (let '(r, s) := run (brute_world exMid) exMid (ex_cfg SplitCost InitCost Belotti false true) 3 in (r = Ok Feasible \/ r = Ok GapReached) /\ 1 <= a_iter s <= 3) /\
  (let w := loose_world exMid in solver_ok w exMid tol6 (1 # 100000) /\ eps_within exMid tol6 /\ calm w ex_plain /\
    brute_loose 0 (deter_model exMid [0]) = Solved [1; 0; 0]%Q [] 10 (1000000010 # 100000000) /\
    let '(r, s) := run w exMid ex_plain 3 in r = Ok Feasible /\ a_iter s = 3).
Proof.
  split; [exact (example_hyps exMid eq_refl eq_refl eq_refl eq_refl)|]. split; [reflexivity|]. split; [apply tenthsb_tight; reflexivity|].
  split; [reflexivity|]. split; [split; [split; [apply in_domb_ok; reflexivity|]|reflexivity]|].
  { intros s Hs. apply satb_iff. apply in_seq in Hs. destruct s as [|[|[|[|s]]]]; try (vm_compute; reflexivity). cbn in Hs. lia. }
  split. { intros sp ini mth bm H1 H2 H3. split; [now apply brute_calm|]. apply brute_options; auto; [apply wf_instb_ok; reflexivity|vm_compute; lia]. }
  split; [reflexivity|]. split; [vm_compute; auto|]. split; [vm_compute; auto 10|].
  split; [apply loose_solver; [apply wf_instb_ok; reflexivity|unfold tol6; lra]|]. split; [vm_compute; reflexivity|]. split; [now apply loose_calm|].
  split; vm_compute; auto.
Qed.
