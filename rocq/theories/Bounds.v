(** Model of src/UpperBounder.py, src/LowerBounder.py, src/Warmstarter.py and
    src/TimeManager.py. *)
From Verif Require Import Base Spec Instance OptModels.

(** ** UpperBounder *)

(** UpperBounder.py:13-18, UpperBounder.py:52-63: cumulate probabilities over the scenarios sorted by cost. *)
Fixpoint ahmed_loop (costs proba : list Q) (eps total : Q) (l : list nat) : res (option (nat * Q)) :=
  match l with
  | [] => Ok None                                    (* falls through: returns None *)
  | s :: l' =>
      do p <- geti proba s ;;
      let total := (total + p)%Q in
      if Qle_bool (eps + (1 # 10000000)) total
      then do c <- geti costs s ;; Ok (Some (s, c))
      else ahmed_loop costs proba eps total l'
  end.

(** UpperBounder.py:42-63.  Returns the bounding scenario with the bound. *)
Definition ahmed_bound (argsort : list Q -> list nat) (costs proba : list Q) (eps : Q)
  : res (option (nat * Q)) :=
  ahmed_loop costs proba eps 0 (argsort costs).

(** [np.argmax]: first index of the maximum. *)
Fixpoint argmax_aux (l : list Q) (i best : nat) (v : Q) : nat :=
  match l with
  | [] => best
  | a :: l' => if Qlt_bool v a then argmax_aux l' (S i) i a else argmax_aux l' (S i) best v
  end.
Definition argmax (l : list Q) : res nat :=
  match l with [] => Err ValueError | a :: l' => Ok (argmax_aux l' 1 0 a) end.

(** UpperBounder.py:65-78: (x, z, v_obj, v_bnd). *)
Definition first_iteration_bound (costs : list Q) (sols : list (list Q))
  : res (list Q * list Q * Q * Q) :=
  do c <- argmax costs ;;
  do x <- geti sols c ;;
  do v <- geti costs c ;;
  Ok (x, upd c 1%Q (repeat 0%Q (length costs)), v, v).

(** UpperBounder.py:110-112 *)
Definition prune_indices (costs : list Q) (vLB : ext) : list nat :=
  filter (fun i => ext_leb (Fin (nth i costs 0%Q)) (ext_add vLB (- (1 # 1000))))
         (seq 0 (length costs)).

(** numpy.allclose with its default tolerances rtol=1e-5, atol=1e-8. *)
Definition allclose (x y : list Q) : bool :=
  forallb (fun ab => Qle_bool (Qmax (fst ab - snd ab) (snd ab - fst ab))
                       ((1 # 100000000) + (1 # 100000) * Qmax (snd ab) (- snd ab)))
          (combine x y).

(** UpperBounder.py:21-39, with MERGE_TOL = 1.00 (AdaptivePartitioner.py:35).
    np.allclose(x, None) raises TypeError. *)
Definition check_results (cont did_merge : bool) (x : list Q) (v_obj : Q)
    (xUB : option (list Q)) (vUB : ext) : res unit :=
  if cont then
    do _ <- (if negb did_merge then
               match xUB with
               | None => Err TypeError
               | Some y => rassert (negb (allclose x y))
               end
             else Ok tt) ;;
    rassert (ext_leb (Fin v_obj) (ext_add vUB (1 # 100000000)))
  else Ok tt.

(** ** Warmstarter.py:7-29: the dictionary z_start as a list of (index, value). *)
Fixpoint z_start_loop (zUB : list Q) (i cnt : nat) (deleted : list nat) : list (nat * Q) :=
  match zUB with
  | [] => []
  | z :: zs =>
      if memb i deleted then z_start_loop zs (S i) cnt deleted
      else (if Qeq_bool z 1 then [(cnt, 1%Q)] else []) ++ z_start_loop zs (S i) (S cnt) deleted
  end.
Definition get_z_start (zUB : list Q) (deleted : list nat) : list (nat * Q) :=
  z_start_loop zUB 0 0 deleted.

(** ** LowerBounder *)
Inductive projection := ProjCounter | ProjRescaled | ProjOther.

(** LowerBounder.py:42-49: thresholded, rescaled violation of one constraint. *)
Definition lb_violation (norm : list Q -> Q) (I : inst) (x : list Q) (s i : nat) : Q :=
  let v := Qmax (dot (row I s i) x - rhs I s i) 0 in
  let v := if Qlt_bool v (1 # 1000) then 0%Q else v in
  let r := norm (row I s i) in
  if Qeq_bool r 0 then v else (v / r)%Q.

(** LowerBounder.py:29-53 *)
Definition violation_index (norm : list Q -> Q) (I : inst) (x : list Q) : list Q :=
  map (fun s => fold_left (fun acc i => Qmax acc (lb_violation norm I x s i)) (seq 0 (i_m I)) 0%Q)
      (seq 0 (i_k I)).

(** LowerBounder.py:55-68.  An unknown projection method leaves the local unbound. *)
Definition index_scenarios (norm : list Q -> Q) (I : inst) (proj : projection)
    (counter : list Q) (x : list Q) : res (list Q) :=
  match proj with
  | ProjCounter => Ok (map Qopp counter)
  | ProjRescaled => Ok (violation_index norm I x)
  | ProjOther => Err UnboundLocalError
  end.

Fixpoint select_loop (proba : list Q) (eps total : Q) (done l : list nat) : res (option (list nat)) :=
  match l with
  | [] => Ok None
  | s :: l' =>
      do p <- geti proba s ;;
      let total := (total + p)%Q in
      if Qle_bool (1 - eps - (1 # 10000000)) total
      then Ok (Some (done ++ [s]))
      else select_loop proba eps total (done ++ [s]) l'
  end.

(** LowerBounder.py:70-94 *)
Definition selected_scenarios (argsort : list Q -> list nat) (proba : list Q) (eps : Q) (k : nat)
    (index : list Q) : res (option (list nat)) :=
  if length index <? k then Err ValueError
  else select_loop proba eps 0 [] (argsort index).

(** LowerBounder.py:107-119: loop over the candidates in decreasing objective. *)
Fixpoint incumbent_loop (norm : list Q -> Q) (I : inst) (cands : list (list Q)) (objs : list Q)
    (vUB vLB : ext) (l : list nat) : option (list Q * Q) :=
  match l with
  | [] => None
  | i :: l' =>
      let o := nth i objs 0%Q in
      let x := nth i cands [] in
      if ext_leb (Fin o) vUB && ext_leb (ext_add vLB (1 # 100000000)) (Fin o) then
        if fst (fst (fst (fst (is_feasible norm I x)))) then Some (x, o)
        else incumbent_loop norm I cands objs vUB vLB l'
      else incumbent_loop norm I cands objs vUB vLB l'
  end.

(** LowerBounder.py:96-119, 154-179 *)
Definition incumbent_bound (norm : list Q -> Q) (argsort : list Q -> list nat) (I : inst)
    (cands : list (list Q)) (vUB vLB : ext) : option (list Q * Q) :=
  match cands with
  | [] => None
  | _ =>
    let objs := map (fun x => dot (i_c I) x) cands in
    incumbent_loop norm I cands objs vUB vLB (argsort (map Qopp objs))
  end.

(** State of the lower bounder: feasibility counter, scenarios of the model, previous vLB,
    the constraints of the Gurobi model with their handles, and the dictionary
    scenario -> handles (DeterModel.feasibility_constraint; a later entry shadows). *)
Record lbst : Type := mkLb {
  lb_counter : list Q;
  lb_scen : list nat;
  lb_prev : ext;
  lb_store : list (nat * cstr);
  lb_next : nat;
  lb_dict : list (nat * list nat)
}.

Fixpoint lookup {B} (k : nat) (d : list (nat * B)) : option B :=
  match d with
  | [] => None
  | (k', v) :: d' => if Nat.eqb k k' then Some v else lookup k d'
  end.

(** DeterModel.py:45-55, 11-20: add the rows of scenario s with fresh handles. *)
Definition lb_add1 (I : inst) (lb : lbst) (s : nat) : lbst :=
  let ids := seq (lb_next lb) (i_m I) in
  mkLb (lb_counter lb) (lb_scen lb) (lb_prev lb)
       (lb_store lb ++ combine ids (scenario_cstrs I s))
       (lb_next lb + i_m I) ((s, ids) :: lb_dict lb).

(** DeterModel.py:22-32, DeterModel.py:57-63: remove the rows of scenario s through their handles. *)
Definition lb_remove1 (I : inst) (lb : lbst) (s : nat) : res lbst :=
  match lookup s (lb_dict lb) with
  | None => Err KeyError
  | Some ids =>
      Ok (mkLb (lb_counter lb) (lb_scen lb) (lb_prev lb)
               (filter (fun hc => negb (memb (fst hc) ids)) (lb_store lb))
               (lb_next lb) (lb_dict lb))
  end.

Fixpoint lb_removes (I : inst) (lb : lbst) (l : list nat) : res lbst :=
  match l with
  | [] => Ok lb
  | s :: l' => do lb' <- lb_remove1 I lb s ;; lb_removes I lb' l'
  end.

(** LowerBounder.py:12-26 (constructor): model of the dummy scenario 0. *)
Definition lb_init (I : inst) : lbst :=
  lb_add1 I (mkLb (repeat 0%Q (i_k I)) [0] (Fin (- 1000000)) [] 0 []) 0.

(** LowerBounder.py:121-134: update of the model before the solve. *)
Definition lb_prepare (I : inst) (lb : lbst) (vLB : ext) (scen : list nat) : res lbst :=
  let unused := filter (fun s => negb (memb s scen)) (lb_scen lb) in
  do lb1 <- lb_removes I lb unused ;;
  let fresh := filter (fun s => negb (memb s (lb_scen lb))) scen in
  let lb2 := fold_left (lb_add1 I) fresh lb1 in
  let store := lb_store lb2 in
  let '(store, next) :=
    if ext_leb (lb_prev lb2) vLB
    then (store ++ [(lb_next lb2, CGe (i_c I) vLB)], S (lb_next lb2))
    else (store, lb_next lb2) in
  Ok (mkLb (lb_counter lb2) scen vLB store next (lb_dict lb2)).

(** A history of calls: lower bound and selected scenarios of each. *)
Fixpoint lb_history (I : inst) (lb : lbst) (calls : list (ext * list nat)) : res lbst :=
  match calls with
  | [] => Ok lb
  | (v, scen) :: calls' => do lb' <- lb_prepare I lb v scen ;; lb_history I lb' calls'
  end.

(** The Gurobi model currently held (LowerBounder.py:22-26, 136). *)
Definition lb_model (I : inst) (lb : lbst) : model :=
  mkModel (i_n I) (i_cont I) 0 (i_c I) 0 (map snd (lb_store lb)) [] (Some (1 # 10000)) None false.

(** LowerBounder.py:137-142 *)
Definition lb_read (o : outcome) : res (option (list Q) * Q) :=
  match o with
  | Infeasible => Ok (None, - 1000000)%Q
  | _ => do (x, _, v, _) <- get_solution o ;; Ok (Some x, v)
  end.

(** LowerBounder.py:145-152: numpy adds booleans as 0/1. *)
Definition save_feasible (lb : lbst) (flags : list bool) : lbst :=
  mkLb (map (fun cf => (fst cf + (if snd cf : bool then 1 else 0))%Q) (combine (lb_counter lb) flags))
       (lb_scen lb) (lb_prev lb) (lb_store lb) (lb_next lb) (lb_dict lb).

(** ** TimeManager.py:4-38: class-level (global) state, shared by all solvers. *)
Record tm : Type := mkTm { tm_start : option Q; tm_final : option Q; tm_limit : option Q }.
Definition tm0 : tm := mkTm None None None.
(** TimeManager.py:10-13 *)
Definition tm_set (now limit : Q) (t : tm) : tm := mkTm (Some now) (tm_final t) (Some limit).
(** TimeManager.py:15-17 *)
Definition tm_finish (now : Q) (t : tm) : tm := mkTm (tm_start t) (Some now) (tm_limit t).
(** TimeManager.py:23-34.  Arithmetic on None raises TypeError. *)
Definition tm_remaining (now : Q) (t : tm) : res Q :=
  match tm_start t, tm_limit t with
  | Some s, Some l => Ok (Qmax (l - (now - s)) 0)
  | _, _ => Err TypeError
  end.
(** TimeManager.py:36-38 *)
Definition tm_total (t : tm) : res Q :=
  match tm_final t, tm_start t with
  | Some f, Some s => Ok (f - s)%Q
  | _, _ => Err TypeError
  end.
(** Solver.py:90, 110-113: time limit handed to Gurobi. *)
Definition grb_time_limit (time_limit start_build end_build : Q) : Q :=
  (time_limit - (end_build - start_build))%Q.
