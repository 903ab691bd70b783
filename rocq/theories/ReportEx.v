(** Concrete result rows (C48, C49, C50, C54). *)
From Coq Require Import String SpecFloat.
From Verif Require Import Base BaseFacts Spec Instance OptModels Bounds Refine CostRefine Merge Violations BigM Adaptive AdaptiveSpec
  Milp MilpFacts AdaptiveEx AdaptiveEx2 MilpEx Report Main ReportFacts NameFacts Floats.
Local Open Scope string_scope.

Definition red_cell (c : cell) : cell := match c with CFloat (Some (Fin q)) => CFloat (Some (Fin (Qred q))) | c => c end.
Definition row_of (um : bool) (m : string) :=
  let r := milp_run (brute_world exS) exS milp_cfg um (bigm_of_string m) in
  match r with
  | (Ok bt, s) => match milp_row "mk-4-1-9-1" exS milp_cfg um m bt (Some (25 # 2)) s with Ok l => Ok (map red_cell l) | Err e => Err e end
  | (Err e, _) => Err e
  end.
(** An instance where nothing fits. *)
Definition exZero : inst := mkInst 1 1 2 false 0 [1]%Q [[[1]]; [[1]]]%Q [[0]; [0]]%Q.
Definition row_zero :=
  match milp_run (brute_world exZero) exZero milp_cfg true Naive with
  | (Ok bt, s) => milp_row "z" exZero milp_cfg true "naive" bt (Some 1%Q) s
  | (Err e, _) => Err e
  end.

(** Epsilons and numbers of scenarios for which the binary64 product has another floor than the exact product. *)
Definition bad_floor (den : positive) (n : Z) : list nat :=
  filter (fun a => match b64_floor (Z.of_nat a # den) n with
                   | Some z => negb (z =? Qfloor ((Z.of_nat a # den) * inject_Z n))%Z
                   | None => true end) (seq 1 (Pos.to_nat den - 1)).
Lemma shipped_exact : Forall (fun n => Forall (fun e => b64_floor e n = Some (Qfloor (e * inject_Z n))) [1 # 10; 1 # 5]%Q) [500; 1000; 3000; 5000]%Z.
Proof. repeat (apply Forall_cons || apply Forall_nil); vm_compute; reflexivity. Qed.
Lemma percent_floor : bad_floor 100 100 = [29; 57; 58] /\ bad_floor 100 500 = [] /\ bad_floor 100 1000 = [] /\
  bad_floor 100 3000 = [29; 57; 58] /\ bad_floor 100 5000 = [57; 69].
Proof. vm_compute. auto. Qed.
Lemma percent_short : Forall (fun n => Forall (fun a => b64_floor (Z.of_nat a # 100) n = Some (Qfloor ((Z.of_nat a # 100) * inject_Z n) - 1)%Z)
  (bad_floor 100 n)) [100; 500; 1000; 3000; 5000]%Z.
Proof.
  destruct percent_floor as (E1 & E2 & E3 & E4 & E5).
  apply Forall_cons; [rewrite E1|apply Forall_cons; [rewrite E2|apply Forall_cons; [rewrite E3|apply Forall_cons; [rewrite E4|apply Forall_cons; [rewrite E5|apply Forall_nil]]]]];
  repeat (apply Forall_cons || apply Forall_nil); vm_compute; reflexivity.
Qed.
Lemma float_names : exists p, b64_prod (29 # 100) 100 = Some p /\
  out_name "d/" "f-500-1" p false 1 = "d/f-500-1-29-0-1.csv" /\ read_name "d/" "f" 500 1 p 0 1 = "d/f-500-1-28-0-1.csv".
Proof. eexists. split; [vm_compute; reflexivity|]. split; vm_compute; reflexivity. Qed.
Lemma shipped_percent : exists p q, b64_prod (1 # 10) 100 = Some p /\ b64_prod (1 # 5) 100 = Some q /\ (p == 10)%Q /\ (q == 20)%Q.
Proof. do 2 eexists. split; [vm_compute; reflexivity|]. split; [vm_compute; reflexivity|]. split; reflexivity. Qed.
