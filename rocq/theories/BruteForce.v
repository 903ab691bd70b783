(** A concrete solver for binary models: complete enumeration.  It has no counterpart in the
    repository; it shows that the specification of the solver can be met, and makes the
    modelled algorithms executable. *)
From Verif Require Import Base Spec OptModels.

(** All 0/1 vectors of length n. *)
Fixpoint all_bin (n : nat) : list (list Q) :=
  match n with
  | 0 => [[]]
  | S n' => flat_map (fun l => [0%Q :: l; 1%Q :: l]) (all_bin n')
  end.

Definition cstr_okb (x z : list Q) (c : cstr) : bool :=
  match c with
  | CLe a b => Qle_bool (dot a x) b
  | CGe a (Fin b) => Qle_bool b (dot a x)
  | CGe _ NInf => true
  | CGe _ PInf => false
  | CBigM a b M s => Qle_bool (dot a x) (b + M * (1 - nth s z 0))%Q
  | CInd s a b => negb (Qeq_bool (nth s z 0%Q) 1) || Qle_bool (dot a x) b
  | CChance p r => Qle_bool r (dot p z)
  | CFix0 s => Qeq_bool (nth s z 0%Q) 0
  end.

(** First element of maximal key. *)
Fixpoint best {A} (key : A -> Q) (cur : A) (l : list A) : A :=
  match l with
  | [] => cur
  | a :: l' => best key (if Qlt_bool (key cur) (key a) then a else cur) l'
  end.

Definition brute_candidates (m : model) : list (list Q * list Q) :=
  filter (fun xz => forallb (cstr_okb (fst xz) (snd xz)) (m_cstrs m))
         (list_prod (all_bin (m_n m)) (all_bin (m_nz m))).

Definition brute (m : model) : outcome :=
  if m_cont m then NoSolution
  else match brute_candidates m with
       | [] => Infeasible
       | c :: cs => let '(x, z) := best (fun xz => m_val m (fst xz)) c cs in
                    Solved x z (m_val m x) (m_val m x)
       end.
