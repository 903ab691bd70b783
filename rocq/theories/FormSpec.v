(** Well-formed models (C86): what may be handed to Gurobi, by the data of the instance. *)
From Verif Require Import Base Spec Instance OptModels.

(** One constraint of one scenario of the instance. *)
Definition data_row (I : inst) (a : list Q) (b : Q) : Prop :=
  length a = i_n I /\ exists s i, s < i_k I /\ i < i_m I /\ a = row I s i /\ b = rhs I s i.

(** Constraints: rows of the instance or its objective, indicators within the model, no infinite coefficient and no
    constraint without solutions. *)
Definition cstr_fits (I : inst) (nz : nat) (c : cstr) : Prop :=
  match c with
  | CLe a b => (a = i_c I /\ nz = 0) \/ exists b', data_row I a b' /\ (b <= b')%Q
  | CGe a b => a = i_c I /\ b <> PInf
  | CBigM a b M s => data_row I a b /\ s < nz /\ (- (1 # 1000000) <= M)%Q
  | CInd s a b => data_row I a b /\ s < nz
  | CChance p _ => length p = nz /\ Forall (fun q => 0 < q)%Q p
  | CFix0 s => s < nz
  end.

Record well_formed (I : inst) (m : model) : Prop := mkFormed {
  wm_n : m_n m = i_n I;
  wm_cont : m_cont m = i_cont I;
  wm_obj : length (m_obj m) = i_n I /\ ((m_obj m = i_c I /\ (m_const m == 0)%Q) \/ exists b, data_row I (m_obj m) b /\ (m_const m == - b)%Q);
  wm_cstrs : Forall (cstr_fits I (m_nz m)) (m_cstrs m);
  wm_start : Forall (fun kv => fst kv < m_nz m /\ (snd kv == 1)%Q) (m_start m) /\ NoDup (map fst (m_start m));
  wm_gap : forall g, m_gap m = Some g -> (0 <= g)%Q;
  wm_time : forall t, m_time m = Some t -> (0 <= t)%Q
}.
