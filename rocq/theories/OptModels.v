(** Model of src/optim: the optimisation models handed to Gurobi, as data with a semantics.
    Gurobi itself is an oracle from such data to an [outcome]. *)
From Verif Require Import Base Spec Instance.

(** One linear or general constraint over decision variables x and indicators z. *)
Inductive cstr : Type :=
| CLe (a : list Q) (b : Q)                     (* a.x <= b *)
| CGe (a : list Q) (b : ext)                   (* a.x >= b *)
| CBigM (a : list Q) (b M : Q) (s : nat)       (* a.x <= b + M*(1 - z_s) *)
| CInd (s : nat) (a : list Q) (b : Q)          (* z_s = 1 -> a.x <= b *)
| CChance (p : list Q) (r : Q)                 (* p.z >= r *)
| CFix0 (s : nat).                             (* z_s = 0 *)

(** A maximisation model: variables, objective a.x + constant, constraints, and the
    data that may influence the search but not the meaning (start values, MIP gap,
    time limit, lazy flags). *)
Record model : Type := mkModel {
  m_n : nat;
  m_cont : bool;
  m_nz : nat;
  m_obj : list Q;
  m_const : Q;
  m_cstrs : list cstr;
  m_start : list (nat * Q);
  m_gap : option Q;
  m_time : option Q;
  m_lazy : bool
}.

(** ** Semantics (specification side) *)

(** Domain of the x variables (OptiModel.py:21-34 with bounds 0 and 1). *)
Definition dom (n : nat) (cont : bool) (x : list Q) : Prop :=
  in_box n x /\ (cont = false -> is_bin x).

(** Constraint satisfaction with slack [tau] on the rows (the variables fixed by their bounds have none). *)
Definition cstr_ok (tau : Q) (x z : list Q) (c : cstr) : Prop :=
  match c with
  | CLe a b => (dot a x <= b + tau)%Q
  | CGe a (Fin b) => (b - tau <= dot a x)%Q
  | CGe _ NInf => True
  | CGe _ PInf => False
  | CBigM a b M s => (dot a x <= b + M * (1 - nth s z 0) + tau)%Q
  | CInd s a b => (nth s z 0 == 1 -> dot a x <= b + tau)%Q
  | CChance p r => (r <= dot p z + tau)%Q
  | CFix0 s => (nth s z 0 == 0)%Q
  end.

Definition model_ok (tau : Q) (m : model) (x z : list Q) : Prop :=
  dom (m_n m) (m_cont m) x /\ length z = m_nz m /\ is_bin z /\
  Forall (cstr_ok tau x z) (m_cstrs m).

Definition m_val (m : model) (x : list Q) : Q := (dot (m_obj m) x + m_const m)%Q.

(** Result of [optimize]: a solution with ObjVal and ObjBound; proven infeasible
    (status 3); no incumbent for another reason; interrupted (status 11). *)
Inductive outcome : Type :=
| Solved (x z : list Q) (v_obj v_bnd : Q)
| Infeasible
| NoSolution
| Interrupted.

(** Specification of the solver: the returned point satisfies the model within [tau],
    ObjVal is its value, ObjBound dominates every exactly feasible point; status 3
    only for models without exactly feasible point. *)
Definition outcome_ok (tau : Q) (m : model) (o : outcome) : Prop :=
  match o with
  | Solved x z v b =>
      model_ok tau m x z /\ (v == m_val m x)%Q /\ (v <= b)%Q /\
      (forall x' z', model_ok 0 m x' z' -> m_val m x' <= b)%Q
  | Infeasible => forall x z, ~ model_ok 0 m x z
  | _ => True
  end.

(** Exact solver: zero tolerance and zero gap, always an answer. *)
Definition outcome_exact (m : model) (o : outcome) : Prop :=
  match o with
  | Solved x z v b =>
      model_ok 0 m x z /\ (v == m_val m x)%Q /\ (v == b)%Q /\
      (forall x' z', model_ok 0 m x' z' -> m_val m x' <= b)%Q
  | Infeasible => forall x z, ~ model_ok 0 m x z
  | _ => False
  end.

(** ** Reading an answer *)

(** OptiModel.py:183-205 (solve): status 11 is turned into KeyboardInterrupt. *)
Definition optimize (o : outcome) : res outcome :=
  match o with Interrupted => Err KeyboardInterrupt | _ => Ok o end.

(** OptiModel.py:207-217, CCLPModel.py:50-55: without a solution gurobipy raises AttributeError. *)
Definition get_solution (o : outcome) : res (list Q * list Q * Q * Q) :=
  match o with
  | Solved x z v b => Ok (x, z, v, b)
  | _ => Err AttributeError
  end.

(** ** DeterModel *)

(** DeterModel.py:11-20 and OptiModel.py:35-46, 128-142: the constraints of one scenario. *)
Definition scenario_cstrs (I : inst) (s : nat) : list cstr :=
  map (fun i => CLe (row I s i) (rhs I s i)) (seq 0 (i_m I)).

(** DeterModel.py:35-55 (build/add), OptiModel.py:14-18, OptiModel.py:21-34 (variables), OptiModel.py:144-155
    (objective). *)
Definition deter_model (I : inst) (S : list nat) : model :=
  mkModel (i_n I) (i_cont I) 0 (i_c I) 0 (flat_map (scenario_cstrs I) S) [] None None false.

(** ** CCLPModel *)

(** [(grb_var_type == CONTINUOUS).all()] (true for an empty array), OptiModel.py:77. *)
Definition all_continuous (V : view) : bool := forallb (fun _ => v_cont V) (seq 0 (v_n V)).

Definition big_m_threshold : Q := - (1 # 1000000).

(** OptiModel.py:48-61, 63-86: big M rows of one scenario. *)
Definition big_m_rows (V : view) (s : nat) (bigM : list Q) : res (list cstr) :=
  do rows <- rmap (fun i =>
    do M <- geti bigM i ;;
    if Qle_bool big_m_threshold M then Ok [CBigM (v_row V s i) (v_rhs V s i) M s]
    else if all_continuous V then Ok []
    else Ok [CLe (v_row V s i) (v_rhs V s i + M)%Q]) (seq 0 (v_m V s)) ;;
  Ok (concat rows).

(** OptiModel.py:88-105 *)
Definition all_big_m_rows (V : view) (bigM : list (list Q)) : res (list cstr) :=
  do rows <- rmap (fun s => do M <- geti bigM s ;; big_m_rows V s M) (seq 0 (v_k V)) ;;
  Ok (concat rows).

(** CCLPModel.py:29-39, 41-47 *)
Definition all_indicator_rows (V : view) : list cstr :=
  flat_map (fun s => map (fun i => CInd s (v_row V s i) (v_rhs V s i)) (seq 0 (v_m V s)))
           (seq 0 (v_k V)).

(** OptiModel.py:107-115 *)
Definition chance_row (V : view) : cstr := CChance (v_p V) (1 - v_eps V)%Q.

(** CCLPModel.py:64-90 (build), CCLPModel.py:9-27 (warm start: KeyError for an unknown index), OptiModel.py:117-126 (variables z),
    CCLPModel.py:50-62 (values and fixing of z), and the
    part of Solver.py:90-113 that fixes indicators and sets parameters. *)
Definition cclp_model (V : view) (use_big_M use_lazy : bool) (bigM : list (list Q))
    (start : list (nat * Q)) (prune : list nat) (gap time : Q) : res model :=
  if negb (forallb (fun kv => fst kv <? v_k V) start) then Err KeyError
  else
    do rows <- (if use_big_M then all_big_m_rows V bigM else Ok (all_indicator_rows V)) ;;
    if negb (forallb (fun s => s <? v_k V) prune) then Err KeyError
    else Ok (mkModel (v_n V) (v_cont V) (v_k V) (v_c V) 0
               (rows ++ chance_row V :: map CFix0 prune) start (Some gap) (Some time) use_lazy).

(** ** BigMKnapsackModel: BigMKnapsackModel.py:24-54. *)
Definition big_m_knapsack_model (V : view) (vUB : ext) (s i : nat) : model :=
  mkModel (v_n V) (v_cont V) 0 (v_row V s i) (- v_rhs V s i)%Q
    (match vUB with
     | Fin v => [CLe (v_c V) v]
     | PInf => []                                        (* lhs <= inf *)
     | NInf => [CGe (v_c V) PInf]                        (* lhs <= -inf: no solution *)
     end)
    [] (Some (1 # 100000000))%Q None false.

(** ** AccObjModel: single-level split model *)

(** Values of all variables (AccObjModel.py:20-62). *)
Record acc_point : Type := mkAcc {
  ap_alpha : Q;
  ap_piL : list Q;  ap_piR : list Q;
  ap_lamL : list Q; ap_lamR : list Q;
  ap_etaL : list (list Q); ap_etaR : list (list Q)
}.

(** AccObjModel.py:64-80 for one side: alpha >= 1.lambda[n..2n) + sum_s b_s.eta_s. *)
Definition acc_dual_cost (I : inst) (scen : list nat) (alpha : Q) (lam : list Q) (eta : list (list Q)) : Prop :=
  (qsum (map (fun j => nth (i_n I + j) lam 0) (seq 0 (i_n I))) +
   qsum (map (fun t => dot (map (rhs I (nth t scen O)) (seq 0 (i_m I))) (nth t eta [])) (seq 0 (length scen)))
   <= alpha)%Q.

(** AccObjModel.py:82-96 for one side. *)
Definition acc_dual_feas (I : inst) (scen : list nat) (lam : list Q) (eta : list (list Q)) : Prop :=
  forall j, j < i_n I ->
  (- nth j lam 0 + nth (j + i_n I) lam 0 +
   qsum (map (fun t => qsum (map (fun i => nth j (row I (nth t scen O) i) 0 * nth i (nth t eta []) 0) (seq 0 (i_m I))))
             (seq 0 (length scen)))
   == nth j (i_c I) 0)%Q.

(** AccObjModel.py:110-123 for one side: pi_s = 0 -> eta_s = 0. *)
Definition acc_assign (I : inst) (scen : list nat) (pi : list Q) (eta : list (list Q)) : Prop :=
  forall t i, t < length scen -> i < i_m I ->
    (nth t pi 0 == 0)%Q -> (nth i (nth t eta []) 0 == 0)%Q.

(** Sum of pi over the infeasible scenarios (AccObjModel.py:132-140). *)
Definition acc_inf_sum (scen inf : list nat) (pi : list Q) : Q :=
  qsum (map (fun t => nth t pi 0%Q) (filter (fun t => memb (nth t scen O) inf) (seq 0 (length scen)))).

(** AccObjModel.py:13-17, 98-108, 125-130, 143-156: all constraints. *)
Definition acc_feasible (I : inst) (scen inf : list nat) (p : acc_point) : Prop :=
  let k := length scen in
  length (ap_piL p) = k /\ length (ap_piR p) = k /\ is_bin (ap_piL p) /\ is_bin (ap_piR p) /\
  length (ap_lamL p) = 2 * i_n I /\ length (ap_lamR p) = 2 * i_n I /\
  Forall (fun v => 0 <= v)%Q (ap_lamL p) /\ Forall (fun v => 0 <= v)%Q (ap_lamR p) /\
  length (ap_etaL p) = k /\ length (ap_etaR p) = k /\
  Forall (fun e => length e = i_m I /\ Forall (fun v => 0 <= v)%Q e) (ap_etaL p) /\
  Forall (fun e => length e = i_m I /\ Forall (fun v => 0 <= v)%Q e) (ap_etaR p) /\
  acc_dual_cost I scen (ap_alpha p) (ap_lamL p) (ap_etaL p) /\
  acc_dual_cost I scen (ap_alpha p) (ap_lamR p) (ap_etaR p) /\
  acc_dual_feas I scen (ap_lamL p) (ap_etaL p) /\
  acc_dual_feas I scen (ap_lamR p) (ap_etaR p) /\
  acc_assign I scen (ap_piL p) (ap_etaL p) /\
  acc_assign I scen (ap_piR p) (ap_etaR p) /\
  (forall t, t < k -> (nth t (ap_piL p) 0 + nth t (ap_piR p) 0 == 1)%Q) /\
  (1 <= acc_inf_sum scen inf (ap_piL p))%Q /\
  (1 <= acc_inf_sum scen inf (ap_piR p))%Q.

(** Answer of Gurobi for this model. *)
Inductive acc_outcome : Type :=
| AccSolved (p : acc_point)
| AccNoSolution
| AccInterrupted.

(** Specification of the solver for this model: a returned point is feasible. *)
Definition acc_outcome_ok (I : inst) (scen inf : list nat) (o : acc_outcome) : Prop :=
  match o with AccSolved p => acc_feasible I scen inf p | _ => True end.
(** Split models that can be asked: at least two infeasible scenarios. *)
Definition acc_query (I : inst) (scen inf : list nat) : Prop :=
  NoDup scen /\ Forall (fun s => s < i_k I) scen /\ NoDup inf /\ incl inf scen /\ 2 <= length inf.
Definition acc_sound (I : inst) (acc : nat -> list nat -> list nat -> acc_outcome) : Prop :=
  forall t s i, acc_query I s i -> acc_outcome_ok I s i (acc t s i).
(** The solver always returns a feasible point. *)
Definition acc_total (I : inst) (acc : nat -> list nat -> list nat -> acc_outcome) : Prop :=
  forall t s i, acc_query I s i -> exists p, acc t s i = AccSolved p /\ acc_feasible I s i p.

(** AccObjModel.py:158-168 (get_subsets). *)
Definition acc_is_left (v : Q) : bool := Qle_bool (9 # 10) v && Qle_bool v (11 # 10).
Definition acc_subsets (scen : list nat) (p : acc_point) : list nat * list nat :=
  let tagged := map (fun t => (nth t scen O, acc_is_left (nth t (ap_piL p) 0%Q))) (seq 0 (length scen)) in
  (map fst (filter snd tagged), map fst (filter (fun sb => negb (snd sb)) tagged)).

(** CostRefiner.py:118-126 (accurate_obj_split), after the call to Gurobi. *)
Definition acc_read (scen : list nat) (o : acc_outcome) : res (Q * list nat * list nat) :=
  match o with
  | AccSolved p => let '(l, r) := acc_subsets scen p in Ok (ap_alpha p, l, r)
  | AccNoSolution => Err AttributeError
  | AccInterrupted => Err KeyboardInterrupt
  end.

(** ** Bound trajectory: OptiModel.py:157-178 (_save_bounds_callback), folded over the
    sequence of MIP callback events (elapsed time, objective, bound).  The initial values
    of [_obj] and [_bd] are None (OptiModel.py:186-187). *)
Definition cb_step (st : option (Q * Q) * list (Q * Q * Q)) (ev : Q * Q * Q)
  : option (Q * Q) * list (Q * Q * Q) :=
  let '(cur, data) := st in
  let '(t, o, b) := ev in
  let changed := match cur with
                 | None => true
                 | Some (o', b') => negb (Qeq_bool o' o) || negb (Qeq_bool b' b)
                 end in
  if changed then (Some (o, b), data ++ [(t, - o, - b)%Q]) else st.
Definition saved_bounds (evs : list (Q * Q * Q)) : list (Q * Q * Q) :=
  snd (fold_left cb_step evs (None, [])).
