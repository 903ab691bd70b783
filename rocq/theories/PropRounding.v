(** Properties C62 to C64: rounding to doubles of the data, of the feasibility check and of the cumulated probabilities. *)
From Coq Require Import Qabs.
From Verif Require Import Base Spec Instance InstanceFacts Bounds Rounding RoundingFacts RoundingStore RoundingLoop Floats RoundingEx.

(** ** C62 *)
(** The rounding to 53 bits has relative error at most 2^-53. *)
Theorem C62_rounding : forall q, (Qabs (rnd53 q - q) <= (1 # 2 ^ 53) * Qabs q)%Q.
Proof. exact rnd53_rounding. Qed.
Print Assumptions C62_rounding.

(** Decimals with at most six digits after the point and absolute value at most 10^9: the two roundings before the rounding to
    tenths (to a double, and of its product by 10) never change it, not even on a tie. *)
Theorem C62_stored : forall x, decimal6 x -> (Qabs x <= 1000000000)%Q -> store x = rnd53 (round1 x).
Proof. exact store_spec. Qed.
Print Assumptions C62_stored.

(** The loaded instance holds the doubles nearest to the exact instance. *)
Theorem C62_loaded : forall rows cont eps, Forall (Forall plain) rows ->
  parse_with round1 rows cont eps = parse rows cont eps /\
  parse_with store rows cont eps = rbind (parse rows cont eps) (fun J => Ok (fl_inst rnd53 J)).
Proof. exact (fun rows cont eps H => conj (parse_with_round1 rows cont eps) (parse_fl_ok rows cont eps H)). Qed.
Print Assumptions C62_loaded.

(** False for decimals with more digits: 0.25 + 10^-20 is above the tie between 0.2 and 0.3, its double is on it. *)
Theorem C62_long_decimal_refuted : exists x, (Qabs x <= 1)%Q /\ (round1 x == 3 # 10)%Q /\ store x = rnd53 (2 # 10).
Proof. exists ((1 # 4) + (1 # 100000000000000000000))%Q. vm_compute. repeat split; discriminate. Qed.
Print Assumptions C62_long_decimal_refuted.

(** Agreement with the binary64 operations of the library on the 4001 decimals from -3.000 to 1.000, ties included. *)
Example C62_example : forallb store_agrees (decimals (-3000) 4001) = true /\ (store (5 # 100) == 0)%Q /\ store (15 # 100) = rnd53 (2 # 10) /\
  ~ (rnd53 (2 # 10) == 2 # 10)%Q /\ plain (-1235 # 100).
Proof. split; [vm_compute; reflexivity|]. repeat split; try (vm_compute; discriminate). exists (-12350000)%Z. reflexivity. Qed.

(** ** C63 *)
(** The point x is within delta of a binary point y, the data are tenths; each dot product is computed in any order with at most
    d roundings per term: the flags, the number of infeasible scenarios and the verdict are those of exact arithmetic, without
    tolerance, at y. *)
Theorem C63_flags : forall rnd I d delta x y v, rounding rnd -> wf_inst I ->
  Forall (Forall (Forall tenth)) (i_A I) -> Forall (Forall tenth) (i_b I) ->
  Forall2 (fun x y => Qabs (x - y) <= delta)%Q x y -> is_bin y -> (0 <= delta <= 1)%Q -> (Qn d + 1 <= 100000000)%Q ->
  (forall s i, s < i_k I -> i < i_m I ->
    ((Qn d + 1) * (asum (row I s i) + Qabs (rhs I s i)) <= 100000000 /\ delta * asum (row I s i) <= 1 # 2000000)%Q) ->
  (forall s i, s < i_k I -> i < i_m I -> fsum rnd d (terms (row (fl_inst rnd I) s i) x) (v s i)) ->
  flags_fl rnd (fl_inst rnd I) v = map (fun s => negb (satb I 0 y s)) (seq 0 (i_k I)).
Proof. exact flags_exact. Qed.
Print Assumptions C63_flags.

Theorem C63_verdict : forall rnd I d delta x y v, rounding rnd -> wf_inst I ->
  Forall (Forall (Forall tenth)) (i_A I) -> Forall (Forall tenth) (i_b I) ->
  Forall2 (fun x y => Qabs (x - y) <= delta)%Q x y -> is_bin y -> (0 <= delta <= 1)%Q -> (Qn d + 1 <= 100000000)%Q ->
  (forall s i, s < i_k I -> i < i_m I ->
    ((Qn d + 1) * (asum (row I s i) + Qabs (rhs I s i)) <= 100000000 /\ delta * asum (row I s i) <= 1 # 2000000)%Q) ->
  (forall s i, s < i_k I -> i < i_m I -> fsum rnd d (terms (row (fl_inst rnd I) s i) x) (v s i)) ->
  Qfloor (rnd (rnd (i_eps I) * Qn (i_k I))%Q) = Qfloor (i_eps I * Qn (i_k I))%Q ->
  feasible_fl rnd (fl_inst rnd I) v = Qle_bool (Qn (nviol I 0 y)) (i_eps I * Qn (i_k I)).
Proof. exact verdict_exact. Qed.
Print Assumptions C63_verdict.

(** Sums from left to right are among the sums considered. *)
Theorem C63_sequential : forall rnd l, fsum rnd (S (length l)) l (fold_left (fun acc q => rnd (acc + rnd q)%Q) l 0%Q).
Proof. exact seq_fsum. Qed.
Print Assumptions C63_sequential.

(** False with the solver's default integrality tolerance 1e-5, even in exact arithmetic: the point is within 1e-5 of a binary
    point that satisfies the scenario, the scenario counts as infeasible. *)
Theorem C63_integrality_refuted : is_bin exT_y /\ Forall2 (fun x y => Qabs (x - y) <= 1 # 100000)%Q exT_x exT_y /\ sat exT 0 exT_y 0 /\
  (forall norm, is_scenario_infeasible norm exT exT_x 0 = true) /\ flags_fl rnd53 (fl_inst rnd53 exT) (sums_seq (fl_inst rnd53 exT) exT_x) = [true].
Proof.
  split; [repeat constructor; vm_compute; (left; reflexivity) || (right; reflexivity)|]. split; [repeat constructor; vm_compute; discriminate|].
  split; [intros i Hi; change (i_m exT) with 1 in Hi; replace i with 0 by lia; vm_compute; discriminate|]. split; [|vm_compute; reflexivity].
  intro norm. unfold is_scenario_infeasible, scenario_infeasibility. cbn [seq i_m exT flat_map]. replace (Qlt_bool tol6 _) with true by (vm_compute; reflexivity). reflexivity.
Qed.
Print Assumptions C63_integrality_refuted.

(** 0.1 + 0.1 + 0.1 exceeds 0.3 in doubles; the scenario is not flagged, the other one is. *)
Example C63_example : parse exR_rows false (1 # 2) = Ok exR /\
  (let J := fl_inst rnd53 exR in
   (rhs J 0 0 < sums_seq J [1; 1; 1] 0 0)%Q /\ flags_fl rnd53 J (sums_seq J [1; 1; 1]%Q) = [false; true] /\
   feasible_fl rnd53 J (sums_seq J [1; 1; 1]%Q) = true /\ map (fun s => negb (satb exR 0 [1; 1; 1]%Q s)) [0; 1] = [false; true]) /\
  ((Qn 4 + 1) * (asum (row exR 1 0) + Qabs (rhs exR 1 0)) <= 100000000)%Q.
Proof. split; [vm_compute; reflexivity|]. split; [|apply Qle_bool_imp_le; vm_compute; reflexivity]. cbv zeta. split; [apply BaseFacts.Qlt_bool_iff; vm_compute; reflexivity|]. vm_compute. repeat split. Qed.

(** ** C64 *)
(** The quantile and the selected scenarios computed in doubles are those of exact arithmetic if no multiple of 1/N is within
    1e-9 of the threshold. *)
Theorem C64_quantile : forall rnd k, rounding rnd -> 0 < k -> (Qn k <= 1000000)%Q ->
  forall argsort costs eps, length (argsort costs) <= k -> (0 <= eps <= 1)%Q -> clear_of k (eps + (1 # 10000000)) ->
  ahmed_bound_fl rnd argsort costs k eps = ahmed_bound argsort costs (uniform k) eps.
Proof. exact quantile_same. Qed.
Print Assumptions C64_quantile.

Theorem C64_selection : forall rnd k, rounding rnd -> 0 < k -> (Qn k <= 1000000)%Q ->
  forall argsort index eps, length (argsort index) <= k -> (0 <= eps <= 1)%Q -> clear_of k (1 - eps - (1 # 10000000)) ->
  selected_scenarios_fl rnd argsort eps k index = selected_scenarios argsort (uniform k) eps k index.
Proof. exact selection_same. Qed.
Print Assumptions C64_selection.

(** It is so for risk levels with three decimals and at most 5000 scenarios. *)
Theorem C64_permille : forall p k, 0 < k -> k <= 50 * 100 ->
  clear_of k (inject_Z p / 1000 + (1 # 10000000)) /\ clear_of k (1 - inject_Z p / 1000 - (1 # 10000000)).
Proof. exact clear_permille. Qed.
Print Assumptions C64_permille.

(** False for other risk levels: with eps = 0.4999999 and 12 scenarios the quantile moves by one scenario. *)
Theorem C64_risk_level_refuted : exists costs argsort, (forall l, argsort l = seq 0 (length l)) /\
  ahmed_bound argsort costs (uniform 12) (4999999 # 10000000) = Ok (Some (5, 5%Q)) /\
  ahmed_bound_fl rnd53 argsort costs 12 (4999999 # 10000000) = Ok (Some (6, 6%Q)).
Proof. exists (map Qn (seq 0 12)), (fun l => seq 0 (length l)). split; [reflexivity|]. vm_compute. split; reflexivity. Qed.
Print Assumptions C64_risk_level_refuted.

Example C64_example : ahmed_bound_fl rnd53 (fun l => seq 0 (length l)) (map Qn (seq 0 30)) 30 (1 # 10) = Ok (Some (3, 3%Q)) /\
  ahmed_bound (fun l => seq 0 (length l)) (map Qn (seq 0 30)) (uniform 30) (1 # 10) = Ok (Some (3, 3%Q)) /\
  selected_scenarios_fl rnd53 (fun l => rev (seq 0 (length l))) (8 # 10) 30 (map Qn (seq 0 30)) = Ok (Some [29; 28; 27; 26; 25; 24]).
Proof. vm_compute. repeat split. Qed.
