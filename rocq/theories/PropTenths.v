(** Big M's on data in tenths, as all loaded data are (Violations.v, BigM.v). *)
From Verif Require Import Base Spec Instance InstanceFacts OptModels Knapsack KnapsackFacts Violations ViolationsFacts BigM BigMFacts Ex AccRef Tenths.

(** ** C68 *)
Theorem C68_loaded : forall rows cont eps I, parse rows cont eps = Ok I -> tenths I.
Proof. exact parse_tenths2. Qed.
Print Assumptions C68_loaded.

(** The compiled table and the Python one have the same, exact, entries. *)
Theorem C68_exact_tables : forall argsort sort I,
  argsort_ok argsort -> sort_spec sort -> wf_inst I -> packing I -> tenths I -> 2 <= i_m I ->
  exists T, python_violations argsort I = Ok T /\
  forall s t i, s < i_k I -> t < i_k I -> i < i_m I ->
  exists u v, vget T (i_k I) (i_m I) s t i = Fin u /\
    vget (compute_all_violations sort I) (i_k I) (i_m I) s t i = Fin v /\ (u == v)%Q /\ min_violation I s t i v.
Proof. exact tables_equal. Qed.
Print Assumptions C68_exact_tables.

(** Song's values are at most the naive ones, or 0 with one constraint per scenario. *)
Theorem C68_scenarios : forall sort I proba eps,
  sort_spec sort -> wf_inst I -> packing I -> tenths I ->
  forall Ms, song_all I (compute_all_violations sort I) None eps (i_k I) = Ok Ms ->
  forall s i, s < i_k I -> i < i_m I ->
  ext_leb (nth i (nth s Ms []) PInf) (Fin (within I (nth i (nth s (naive_all (view_inst I proba) (i_k I)) []) 0))%Q) = true.
Proof. exact song_naive_all. Qed.
Print Assumptions C68_scenarios.

Theorem C68_subsets : forall sort I eps p V,
  sort_spec sort -> wf_inst I -> packing I -> tenths I ->
  valid_partition (i_k I) p -> load_partition I (uniform (i_k I)) (length p) p = Ok V ->
  forall Ms, song_all I (compute_all_violations sort I) (Some p) eps (length p) = Ok Ms ->
  forall c j, c < length p -> j < v_m V c ->
  ext_leb (nth j (nth c Ms []) PInf) (Fin (within I (nth j (nth c (naive_all V (length p)) []) 0))%Q) = true.
Proof. exact song_naive_subsets. Qed.
Print Assumptions C68_subsets.

(** The value 0 can exceed the naive one with one constraint per scenario... *)
Theorem C68_one_constraint_refuted :
  wf_inst exOne /\ packing exOne /\ tenths exOne /\ i_m exOne = 1 /\ above_naive exOne = true.
Proof. exact one_refuted. Qed.
Print Assumptions C68_one_constraint_refuted.

(** ... and so can Song's value on data finer than the tolerance of the compiled code. *)
Theorem C68_fine_data_refuted : wf_inst exFine /\ packing exFine /\ i_m exFine = 2 /\ above_naive exFine = true.
Proof. exact fine_refuted. Qed.
Print Assumptions C68_fine_data_refuted.

(** Song's and the naive values on a loaded file. *)
Example C68_example :
  let fin := fun e => match e with Fin q => Fin (Qred q) | _ => e end in
  match parse [[2; 2; 3]; [1; 1]; [3; 1]; [1; 2]; [2; 2]; [4; 1]; [1; 1]; [3; 3]; [2; 3]]%Q true 0 with
  | Err _ => False
  | Ok J =>
    rbind (song_all J (compute_all_violations sort_ref J) None 0 3) (fun Ms => Ok (map (map fin) Ms)) =
      Ok [[Fin (1 # 2); Fin (- (1))]; [Fin 0; Fin 0]; [Fin (- (1)); Fin 0]]%Q /\
    map (map Qred) (naive_all (view_inst J (uniform 3)) 3) = [[2; 0]; [2; 2]; [0; 3]]%Q
  end.
Proof. vm_compute. split; reflexivity. Qed.
