(** Concrete tables (C51, C52, C58). *)
From Coq Require Import String.
From Verif Require Import Base BaseFacts Spec Instance OptModels Bounds Refine CostRefine Merge Violations BigM Adaptive AdaptiveSpec
  BruteForce BruteForceFacts Milp MilpFacts AdaptiveEx AdaptiveEx2 MilpEx Report Main ReportFacts NameFacts Export ExportFacts PipelineFacts.
Local Open Scope string_scope.

(** A solver stopped by its time limit: optimal solutions, but on the models with scenario variables the bound is 1.04e-4 too high. *)
Definition stopped (_ : nat) (m : model) : outcome :=
  match brute m with
  | Solved x z v b => Solved x z v (if (0 <? m_nz m)%nat && Qle_bool 0 b then b * (1 + (104 # 1000000)) else b)%Q
  | o => o
  end.
Lemma stopped_ok t m : outcome_ok 0 m (stopped t m).
Proof.
  assert (H := brute_ok0 m). unfold stopped. destruct (brute m) as [x z v b| | |]; [|exact H|exact H|exact H]. destruct H as (H1 & H2 & H3 & H4).
  assert (B : (b <= if (0 <? m_nz m)%nat && Qle_bool 0 b then b * (1 + (104 # 1000000)) else b)%Q).
  { destruct ((0 <? m_nz m)%nat && Qle_bool 0 b) eqn:E; [|lra]. apply andb_true_iff in E as [_ E]. apply Qle_bool_iff in E. lra. }
  split; [exact H1|]. split; [exact H2|]. split; [lra|]. intros x' z' H. specialize (H4 x' z' H). lra.
Qed.
Definition stopped_main := main (ex_world exS stopped) exS "mk-4-1-9-1" "p" 20 20 1.
Lemma stopped_solved : exists row nums s bt v u, stopped_main = (Ok tt, [("p", row)]) /\ read_row row = Ok (CText "mk-4-1-9-1", nums) /\
  is_solved (1 # 100) (CText "mk-4-1-9-1", nums) = Ok true /\
  milp_run (ex_world exS stopped) exS (cfgM 20) true Song = (Ok bt, s) /\ a_vLB s = Fin v /\ a_vUB s = Fin u /\ (GAP < (u - v) / v)%Q.
Proof. do 6 eexists. repeat (split; [vm_compute; reflexivity|]). vm_compute. reflexivity. Qed.

(** Rows of 14 numbers with given time, gap (percent), iteration and big-M time. *)
Definition ex_row (t g : Q) (it : Q) (bm : Q) : row_t :=
  (CText "r", map finite [4; 1; 9; 0; (1 # 10); 3600; (1 # 100); 1; it; bm; t; 14; 14; g]%Q).
Definition red (g : gapv) : gapv := match g with Some (Fin q) => Some (Fin (Qred q)) | _ => g end.
Fixpoint red_entry (e : entry) : entry :=
  match e with ENum g => ENum (red g) | ETime g => ETime (red g) | EGap g n => EGap (red g) n | EBold e' => EBold (red_entry e') | _ => e end.
Definition red_cells (x : res (gapv * nat * gapv * list entry)) :=
  match x with Ok (t, n, g, l) => Ok (red t, n, red g, map red_entry l) | Err e => Err e end.
Definition red_table (x : res (list (list entry))) := match x with Ok l => Ok (map (map red_entry) l) | Err e => Err e end.

(** Two instances, two numbers of scenarios, one epsilon, two files each; methods 1 and 4 of instance "b" have files for 1000 scenarios only. *)
Definition ex_exp (c : Z) (inst : string) (sc : Z) (j : nat) (eps : Q) (m : Z) : option row_t :=
  if String.eqb inst "a" then
    Some (ex_row (inject_Z m + Qn j) (if (m =? 2)%Z && (j =? 2)%nat then 5 # 1 else 0)%Q 7 (Qn j + inject_Z c))
  else if (sc =? 1000)%Z && ((m =? 1)%Z || (m =? 4)%Z) then Some (ex_row 3600 (inject_Z (10 - m)) 3 (1 # 2))
  else None.
Definition ex_instances : list string := ["a"; "b"].
Definition ex_table (i : nat) := red_table (instance_table ex_exp ex_instances [500; 1000]%Z [1 # 10]%Q 2 [1; 2; 3; 4]%Z [1; 2]%Z [3; 4]%Z (1 # 100) 0 i).
Definition ex_times (i : nat) := red_table (instance_times ex_exp ex_instances [500; 1000]%Z [1 # 10]%Q 2 i).
Lemma ex_good c i s j e m r : ex_exp c i s j e m = Some r -> good_row r.
Proof.
  unfold ex_exp. destruct (String.eqb i "a"); [|destruct ((s =? 1000)%Z && ((m =? 1)%Z || (m =? 4)%Z)); [|discriminate]];
  intro H; injection H as <-; (split; [cbn; lia|]; split; [reflexivity|left; reflexivity]).
Qed.
