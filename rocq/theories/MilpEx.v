(** Concrete runs of MilpSolver (C47, C48). *)
From Verif Require Import Base BaseFacts Spec Instance InstanceFacts OptModels OptFacts Initial Bounds Refine CostRefine Merge Knapsack
  Violations BigM Adaptive BruteForce BruteForceFacts Ex AccRef ViolationsFacts BigMEx AdaptiveSpec AdaptiveEx AdaptiveEx2 Milp MilpFacts.

Definition Q_dec : forall a b : Q, {a = b} + {a <> b}.
Proof. decide equality; [apply Pos.eq_dec|apply Z.eq_dec]. Defined.
Definition ext_dec : forall a b : ext, {a = b} + {a <> b}.
Proof. decide equality. apply Q_dec. Defined.
Definition cstr_dec : forall a b : cstr, {a = b} + {a <> b}.
Proof. decide equality; try apply Q_dec; try apply Nat.eq_dec; try apply ext_dec; apply (list_eq_dec Q_dec). Defined.
Definition model_dec : forall a b : model, {a = b} + {a <> b}.
Proof.
  decide equality; try apply Bool.bool_dec; try apply Nat.eq_dec; try apply Q_dec; try apply (list_eq_dec Q_dec); try apply (list_eq_dec cstr_dec).
  - decide equality. apply Q_dec.
  - decide equality. apply Q_dec.
  - apply list_eq_dec. decide equality; [apply Q_dec|apply Nat.eq_dec].
Defined.
(** A solver that answers the models of a table only. *)
Fixpoint table (l : list (model * outcome)) (m : model) : outcome :=
  match l with
  | [] => NoSolution
  | (m', o) :: l' => if model_dec m m' then o else table l' m
  end.
Lemma table_ok tau l m : Forall (fun mo => outcome_ok tau (fst mo) (snd mo)) l -> outcome_ok tau m (table l m).
Proof.
  induction 1 as [|[m' o] l H HF IH]; [exact Logic.I|]. cbn [table]. destruct (model_dec m m') as [->|_]; [exact H|exact IH].
Qed.
Lemma table_in l m x z v b : table l m = Solved x z v b -> In (m, Solved x z v b) l.
Proof.
  induction l as [|[m' o] l IH]; cbn [table]; [discriminate|]. destruct (model_dec m m') as [->|_]; [intros ->; now left|right; auto].
Qed.

(** One item of weight 1/10 in a knapsack without capacity, and of weight 2e7 in one of capacity 1/10; two equal scenarios. *)
Definition exDrop : inst :=
  mkInst 1 2 2 true 0 [1]%Q (repeat [[1 # 10]; [20000000]]%Q 2) (repeat [0; 1 # 10]%Q 2).
Definition drop_cfg : cfg := ex_cfg SplitRandom InitRandom Song false true.
Definition no_time (m : model) : model :=
  mkModel (m_n m) (m_cont m) (m_nz m) (m_obj m) (m_const m) (m_cstrs m) (m_start m) (m_gap m) None (m_lazy m).
Lemma no_time_ok tau m o : outcome_ok tau (no_time m) o -> outcome_ok tau m o.
Proof. exact (fun H => H). Qed.
(** The extended model in which the second row of each scenario is dropped. *)
Definition drop_model (b0 b1 : Q) : model :=
  mkModel 1 true 2 [1]%Q 0 [CBigM [1 # 10]%Q 0 b0 0; CBigM [1 # 10]%Q 0 b1 1; CChance [1 # 2; 1 # 2]%Q (1 - 0)] [] (Some (1 # 10000))%Q None false.
Definition drop_answer : outcome := Solved [1 # 100000000]%Q [1; 1]%Q (1 # 100000000) (1 # 100000000).
Definition drop_solve (_ : nat) (m : model) : outcome :=
  table [(drop_model (0 # 1000) 0, drop_answer); (drop_model 0 0, drop_answer);
    (deter_model exDrop [0], Solved [0]%Q [] 0 0); (deter_model exDrop [1], Solved [0]%Q [] 0 0)] (no_time m).
Definition drop_world : world := ex_world exDrop drop_solve.
Definition drop_tau : Q := 1 # 1000000000.
Lemma drop_ok t m : outcome_ok drop_tau m (drop_solve t m).
Proof.
  apply no_time_ok, table_ok. 
  assert (D : forall b0, (b0 == 0)%Q -> outcome_ok drop_tau (drop_model b0 0) drop_answer).
  { intros b0 E. split; [|split; [vm_compute; reflexivity|split; [lra|]]].
    - split; [split; [split; [reflexivity|repeat constructor; vm_compute; discriminate]|discriminate]|]. split; [reflexivity|].
      split; [repeat constructor; right; reflexivity|]. repeat constructor; cbn [cstr_ok dot nth]; unfold drop_tau; try rewrite E; vm_compute; discriminate.
    - intros x z ([[LX HX] _] & _ & _ & F). cbn [drop_model m_cstrs m_n] in *. destruct x as [|a [|]]; try discriminate.
      inversion F as [|? ? F1 _]; subst. cbn [cstr_ok dot nth] in F1. rewrite E in F1. unfold m_val. cbn. lra. }
  assert (G : forall s, s = 0 \/ s = 1 -> outcome_ok drop_tau (deter_model exDrop [s]) (Solved [0]%Q [] 0 0)).
  { intros s Hs. split; [|split; [destruct Hs; subst; reflexivity|split; [lra|]]].
    - destruct Hs; subst; (split; [split; [split; [reflexivity|repeat constructor; vm_compute; discriminate]|discriminate]|split; [reflexivity|split; [constructor|]]];
      repeat constructor; vm_compute; discriminate).
    - intros x z ([[LX HX] _] & _ & _ & F). destruct Hs; subst; cbn in LX, F; (destruct x as [|a [|]]; try discriminate;
      inversion F as [|? ? F1 _]; subst; cbn [cstr_ok dot nth] in F1; unfold m_val; cbn; lra). }
  constructor; [apply D; reflexivity|]. constructor; [apply D; reflexivity|]. constructor; [apply G; now left|]. constructor; [apply G; now right|constructor].
Qed.
Lemma drop_eval S v x : answered drop_world exDrop S v x -> forall y, det_feasible exDrop S 0 y -> (obj exDrop y <= v)%Q.
Proof.
  intros (t & z & b & E) y Hy. assert (O := drop_ok t (deter_model exDrop S)). cbn [drop_world ex_world w_solve] in E. rewrite E in O.
  apply table_in in E. assert (EB : v = b) by (destruct E as [E|[E|[E|[E|[]]]]]; inversion E; reflexivity). subst b.
  now apply (deter_bound exDrop S drop_tau x z v v O).
Qed.
(** Rows dropped because of a negative big M are violated by 1/10 although every answer is feasible within 1e-9. *)
Lemma drop_witness meth : meth = Song \/ meth = Belotti -> exists x s, milp_run drop_world exDrop drop_cfg true meth = (Ok (Some 0%Q), s) /\
  a_xLB s = Some x /\ in_dom exDrop x /\ ~ cc_feasible exDrop tol6 x /\ (dot (row exDrop 0 1) x == rhs exDrop 0 1 + (1 # 10))%Q.
Proof.
  intros [->| ->]; exists [1 # 100000000]%Q; 
  (match goal with |- exists s, ?r = _ /\ _ => exists (snd r) end); (split; [vm_compute; reflexivity|]; split; [vm_compute; reflexivity|];
  split; [split; [split; [reflexivity|repeat constructor; vm_compute; discriminate]|discriminate]|];
  split; [intros [_ H]; vm_compute in H; apply H; reflexivity|vm_compute; reflexivity]).
Qed.

(** Three big M methods on a binary instance, with a solver that enumerates. *)
Definition milp_show (r : res (option Q) * ast) :=
  (fst r, a_xLB (snd r), map (fun v => match v with Fin q => Fin (Qred q) | e => e end) [a_vLB (snd r); a_vUB (snd r)], map (map Qred) (a_bigM (snd r))).
Definition milp_cfg : cfg := ex_cfg SplitRandom InitRandom Naive false true.
