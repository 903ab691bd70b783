(** Properties of the merger. *)
From Verif Require Import Base Spec Instance Bounds Merge MergeFacts RefineSum Ex.

(** ** C21 *)
Theorem C21_merge_all : forall k p cands, valid_partition k p -> NoDup cands -> cands <> [] ->
  Forall (fun c => c < length p) cands ->
  exists m p' ms, In m cands /\ (forall c, In c cands -> m <= c) /\
    merge_all p cands = Ok (p', ms) /\
    ms_deleted ms = filter (fun c => negb (c =? m)) cands /\
    ms_target ms = (if 2 <=? length cands then [m] else []) /\
    valid_partition k p' /\ length p' + length cands = length p + 1 /\
    Permutation (nth m p' []) (concat (map (fun c => nth c p []) cands)) /\
    survivors [m] p' = survivors cands p /\
    (forall i, i < length p -> ~ In i cands ->
       new_index (ms_deleted ms) i < length p' /\ nth (new_index (ms_deleted ms) i) p' [] = nth i p []) /\
    (forall bad, nb_bad bad p' + count (fun c => existsb bad (nth c p [])) cands =
       nb_bad bad p + (if existsb (fun c => existsb bad (nth c p [])) cands then 1 else 0)).
Proof. exact merge_all_valid. Qed.
Print Assumptions C21_merge_all.

Example C21_example :
  merge_all [[0]; [1; 2]; [3]; [4]; [5]] [3; 1; 4] = Ok ([[0]; [1; 2; 4; 5]; [3]], mkMs [1] [3; 4]).
Proof. vm_compute. reflexivity. Qed.

(** Merging keeps the number of bad subsets when at most one of them is merged. *)
Theorem C16_merge_keeps_cut : forall k p cands, valid_partition k p -> NoDup cands -> cands <> [] ->
  Forall (fun c => c < length p) cands ->
  forall bad, count (fun c => existsb bad (nth c p [])) cands <= 1 ->
  exists p' ms, merge_all p cands = Ok (p', ms) /\ nb_bad bad p' = nb_bad bad p.
Proof. exact merge_keeps_bad. Qed.
Print Assumptions C16_merge_keeps_cut.

Example C16_merge_example : exists p' ms,
  merge_all [[2; 1; 4]; [3]; [5]; [0]] [2; 0] = Ok (p', ms) /\ p' = [[2; 1; 4; 5]; [3]; [0]] /\
  nb_bad ex_bad p' = 3.
Proof. do 2 eexists. split; [vm_compute; reflexivity|]. vm_compute. split; reflexivity. Qed.

(** ** C22 *)
Theorem C22_disjoint_pairs : forall k p cands inf, valid_partition k p -> length cands <= length inf ->
  NoDup (cands ++ firstn (length cands) inf) ->
  Forall (fun c => c < length p) (cands ++ firstn (length cands) inf) ->
  exists p' ms, merge p cands inf = Ok (p', ms) /\ valid_partition k p' /\
    length p' + length cands = length p /\
    ms_deleted ms = map (fun ic => Nat.max (fst ic) (snd ic)) (combine inf cands) /\
    (forall j, j < length cands -> In (nth (Nat.min (nth j inf 0) (nth j cands 0)) p [] ++
                                       nth (Nat.max (nth j inf 0) (nth j cands 0)) p []) p').
Proof. exact merge_disjoint. Qed.
Print Assumptions C22_disjoint_pairs.

(** Chained pairs: the call succeeds and scenario 2 is lost. *)
Theorem C22_chained_pairs_lose_scenarios :
  exists k p cands inf p' ms, valid_partition k p /\ NoDup cands /\ NoDup inf /\ length cands = length inf /\
    Forall (fun c => c < length p) (cands ++ inf) /\
    merge p cands inf = Ok (p', ms) /\ exists s, s < k /\ ~ In s (concat p').
Proof. exact merge_chained. Qed.
Print Assumptions C22_chained_pairs_lose_scenarios.

Example C22_example :
  merge [[0]; [1; 2]; [3]; [4]; [5]] [0; 2] [4; 1] = Ok ([[0; 5]; [1; 2; 3]; [4]], mkMs [0; 1] [4; 2]) /\
  merge [[0]; [1]; [2]] [1; 2] [0; 1] = Ok ([[0; 1]], mkMs [0; 1] [1; 2]).
Proof. vm_compute. split; reflexivity. Qed.

(** ** C23 *)
Theorem C23_widest_margins : forall norm V p x cands mu, NoDup cands -> Forall (fun c => c < length p) cands ->
  mu + 1 <= length cands ->
  exists top p' ms, merge_feasible norm V p x cands mu = Ok (p', ms) /\ merge_all p top = Ok (p', ms) /\
    NoDup top /\ incl top cands /\ length top = mu + 1 /\
    forall a b, In a top -> In b cands -> ~ In b top ->
      ext_leb (subset_margin norm V b x) (subset_margin norm V a x) = true.
Proof. exact merge_feasible_spec. Qed.
Print Assumptions C23_widest_margins.

Theorem C23_too_few : forall norm V p x cands mu, NoDup cands -> length cands < mu + 1 ->
  merge_feasible norm V p x cands mu = Err AssertionError.
Proof. exact merge_feasible_too_few. Qed.
Print Assumptions C23_too_few.

Theorem C23_margin_sign : forall norm I p V x c, (forall r, (0 <= norm r)%Q) -> wf_inst I ->
  valid_partition (i_k I) p -> load_partition I (uniform (i_k I)) (length p) p = Ok V -> c < length p ->
  (ext_leb (Fin 0) (subset_margin norm V c x) = true <-> subset_sat I 0 x (nth c p [])).
Proof. exact margin_subset. Qed.
Print Assumptions C23_margin_sign.

Example C23_example : exists V,
  load_partition exI (uniform 3) 3 [[0]; [1]; [2]] = Ok V /\
  map (fun c => match subset_margin norm1 V c [0; 1]%Q with Fin q => Fin (Qred q) | e => e end) [0; 1; 2] =
    [Fin (1 # 3); Fin (1 # 2); Fin (- 1 # 3)] /\
  merge_feasible norm1 V [[0]; [1]; [2]] [0; 1]%Q [0; 1; 2] 1 = Ok ([[0; 1]; [2]], mkMs [0] [1]).
Proof. eexists. split; [vm_compute; reflexivity|]. vm_compute. split; reflexivity. Qed.

(** ** C26 *)
Theorem C26_sorted_by_cost : forall costs,
  let l := sort_subset_costs (seq 0 (length costs)) costs in
  Permutation l (seq 0 (length costs)) /\
  StronglySorted (fun i j => (nth j costs 0 < nth i costs 0)%Q \/ ((nth i costs 0 == nth j costs 0)%Q /\ j < i)) l.
Proof. exact sort_costs_range. Qed.
Print Assumptions C26_sorted_by_cost.

Theorem C26_candidates : forall inf costs vUB, Forall (fun c => c < length costs) inf -> NoDup inf ->
  exists l, find_inf_candidate inf costs vUB = Ok l /\
    Permutation l (filter (fun c => ext_leb (Fin (nth c costs 0%Q)) vUB) inf).
Proof. exact find_inf_perm. Qed.
Print Assumptions C26_candidates.

(** The candidates of find_inf_candidate may come in increasing cost. *)
Theorem C26_wrong_order_refuted : exists inf costs vUB a b,
  Forall (fun c => c < length costs) inf /\ NoDup inf /\
  find_inf_candidate inf costs vUB = Ok [a; b] /\ (nth a costs 0 < nth b costs 0)%Q.
Proof. exact find_inf_wrong_order. Qed.
Print Assumptions C26_wrong_order_refuted.

Example C26_example :
  sort_subset_costs (seq 0 4) [5; 7; 5; 6]%Q = [1; 3; 2; 0] /\
  find_inf_candidate [0; 2] [5; 1; 9]%Q (Fin 10) = Ok [0; 2].
Proof. vm_compute. split; reflexivity. Qed.
