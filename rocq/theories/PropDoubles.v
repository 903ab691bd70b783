(** Property C74: comparisons of bounds, gaps and times in doubles. *)
From Coq Require Import Qpower Qabs.
From Verif Require Import Base Spec Instance Bounds Rounding RoundingFacts Adaptive Floats BoundsFl BoundsFlFacts.

(** ** C74 *)
(** The computed gap is of the same kind as the exact one (number, infinite, nan, ZeroDivisionError), within a factor 1 + 2^-51. *)
Theorem C74_gap : forall rnd, rounding rnd -> forall vUB npU vLB npL,
  match compute_gap vUB npU vLB npL, gap_fl rnd vUB npU vLB npL with
  | Ok (Some (Fin g)), Ok (Some (Fin f)) => (Qabs (f - g) <= (1 # 2 ^ 51) * Qabs g)%Q
  | r, r' => r = r'
  end.
Proof. exact gap_shape. Qed.
Print Assumptions C74_gap.

(** Its sign is right: with a target of 0 the test is exact. *)
Theorem C74_gap_sign : forall rnd, rounding rnd -> forall u l, (0 < l)%Q ->
  ((rnd (rnd (u - l) / l) <= 0 <-> u <= l) /\ (rnd (rnd (u - l) / l) == 0 <-> u == l))%Q.
Proof. exact gap_sign. Qed.
Print Assumptions C74_gap_sign.

(** The test of the target t (AdaptivePartitioner.py:316). *)
Theorem C74_gap_test : forall rnd, rounding rnd -> forall u l t, (0 < l)%Q -> (0 <= t)%Q ->
  (rnd (rnd (u - l) / l) <= t -> u <= l * (1 + t * (1 + (1 # 2 ^ 51))))%Q /\ (u <= l * (1 + t * (1 - (1 # 2 ^ 51))) -> rnd (rnd (u - l) / l) <= t)%Q.
Proof. exact gap_test. Qed.
Print Assumptions C74_gap_test.

(** Pruning of subsets: the margin 1e-3 is changed by less than 2^-52 times a bound of the values. *)
Theorem C74_prune : forall rnd, rounding rnd -> forall costs l B i, (Qabs l <= B)%Q -> (1 <= B)%Q ->
  (In i (prune_fl rnd costs (Fin l)) -> i < length costs /\ (nth i costs 0 <= l - (1 # 1000) + (1 # 2 ^ 52) * B)%Q) /\
  (i < length costs -> (nth i costs 0 <= l - (1 # 1000) - (1 # 2 ^ 52) * B)%Q -> In i (prune_fl rnd costs (Fin l))).
Proof. exact prune_fl_spec. Qed.
Print Assumptions C74_prune.

(** Tests of a new upper bound against the current one. *)
Theorem C74_not_above : forall rnd, rounding rnd -> forall v u B, (Qabs u <= B)%Q -> (1 <= B)%Q ->
  (not_above_fl rnd v (Fin u) = true -> v <= u + (1 # 100000000) + (1 # 2 ^ 52) * B)%Q /\
  (v <= u + (1 # 100000000) - (1 # 2 ^ 52) * B -> not_above_fl rnd v (Fin u) = true)%Q.
Proof. exact not_above_spec. Qed.
Print Assumptions C74_not_above.

(** From 2^27 on the tolerance of these tests is lost. *)
Theorem C74_tolerance_lost : forall u v, is53 u -> (2 ^ 27 <= u)%Q -> not_above_fl rnd53 v (Fin u) = Qle_bool v u.
Proof. exact not_above_large. Qed.
Print Assumptions C74_tolerance_lost.

(** A candidate that is accepted improves the lower bound, and its objective is the computed one up to 2d 2^-53 of the sum of the
    terms; objectives are computed in any order with at most d roundings per term. *)
Theorem C74_incumbent : forall rnd, rounding rnd -> forall c d feas cands objs vUB l order x o,
  (Qabs l <= 10000000)%Q -> (2 * Qn d * (1 # 2 ^ 53) <= 1)%Q ->
  (forall i, In i order -> fsum rnd d (terms c (nth i cands [])) (nth i objs 0%Q)) ->
  incumbent_loop_fl rnd feas cands objs vUB (Fin l) order = Some (x, o) ->
  (l < o)%Q /\ ext_leb (Fin o) vUB = true /\ In x (map (fun i => nth i cands []) order) /\ feas x = true /\
  (Qabs (o - dot c x) <= (2 * Qn d * (1 # 2 ^ 53)) * asum (terms c x))%Q.
Proof. exact incumbent_fl_ok. Qed.
Print Assumptions C74_incumbent.

(** The comparison with the upper bound has no tolerance: a candidate of value 0.1 + 0.2 is refused when the upper bound is 0.3. *)
Theorem C74_incumbent_refuted :
  incumbent_loop_fl (fun q => q) (fun _ => true) exSum_cands (map (dot exSum_c) exSum_cands) (Fin (3 # 10)) (Fin 0) [1; 0] = Some ([1; 1]%Q, dot exSum_c [1; 1]%Q) /\
  (dot exSum_c [1; 1] == 3 # 10)%Q /\
  exists o, incumbent_loop_fl rnd53 (fun _ => true) exSum_cands (exSum_objs rnd53) (Fin (rnd53 (3 # 10))) (Fin 0) [1; 0] = Some ([1; 0]%Q, o) /\ (o == rnd53 (1 # 10))%Q.
Proof. exact incumbent_lost. Qed.
Print Assumptions C74_incumbent_refuted.

(** Tests of the remaining time. *)
Theorem C74_time : forall rnd, rounding rnd -> forall limit now start, (0 <= limit)%Q -> (start <= now)%Q ->
  (0 < remaining_fl rnd limit now start -> now - start < limit * (1 + (1 # 2 ^ 52)))%Q /\
  (now - start < limit * (1 - (1 # 2 ^ 52)) -> 0 < remaining_fl rnd limit now start)%Q.
Proof. exact remaining_fl_spec. Qed.
Print Assumptions C74_time.

(** Progress: the percentage is the exact integer quotient; with at least 100 items every multiple of ten is printed. *)
Theorem C74_percent : forall s nb, 0 < nb -> (100 * Z.of_nat s + Z.of_nat nb < 2 ^ 53)%Z ->
  percent_fl rnd53 s nb = (100 * Z.of_nat s / Z.of_nat nb)%Z.
Proof. exact percent_exact. Qed.
Print Assumptions C74_percent.

Theorem C74_progress : forall nb j, 100 <= nb -> (101 * Z.of_nat nb < 2 ^ 53)%Z -> (0 <= j < 10)%Z -> In (10 * j)%Z (printed rnd53 nb).
Proof. exact printed_all. Qed.
Print Assumptions C74_progress.

(** A gap of 2% computed with an error; both sides of the pruning test; large bounds; a time limit; three items. *)
Example C74_example :
  match gap_fl rnd53 (Fin (51 # 10)) false (Fin 5) true with Ok (Some (Fin f)) => ~ (f == 2 # 100)%Q /\ (Qabs (f - (2 # 100)) <= 1 # 1000000000000000)%Q | _ => False end /\
  prune_fl rnd53 [4; 5; 6; 59989 # 10000; 5999 # 1000]%Q (Fin 6) = [0; 1; 3]%nat /\ prune_fl rnd53 [4; 5]%Q NInf = [] /\
  not_above_fl rnd53 (5 + (1 # 200000000)) (Fin 5) = true /\ not_above_fl rnd53 (5 + (1 # 50000000)) (Fin 5) = false /\
  not_above_fl rnd53 (134217728 + (1 # 200000000)) (Fin 134217728) = false /\ is53 134217728 /\
  (remaining_fl rnd53 60 1010 1000 == 50)%Q /\ (remaining_fl rnd53 60 1070 1000 == 0)%Q /\
  printed rnd53 3 = [0]%Z /\ printed rnd53 20 = [0; 10; 20; 30; 40; 50; 60; 70; 80; 90]%Z /\
  match gap_fl rnd53 (Fin 3) false (Fin 0) true with Ok (Some PInf) => True | _ => False end.
Proof.
  split; [vm_compute; split; discriminate|]. split; [vm_compute; reflexivity|]. split; [reflexivity|]. do 3 (split; [vm_compute; reflexivity|]).
  split; [apply (is53_Z 134217728); reflexivity|]. do 4 (split; [vm_compute; reflexivity|]). exact I.
Qed.
