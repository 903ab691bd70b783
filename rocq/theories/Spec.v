(** Independent specification of the chance-constrained problem, of partitions and of
    bounds.  Nothing here refers to the model of the code. *)
From Verif Require Import Base.

(** Data of a chance-constrained multi-dimensional knapsack: [i_n] variables, [i_m]
    constraints per scenario, [i_k] equiprobable scenarios,
    maximise c.x  s.t.  A_s x <= b_s for all but at most eps*k scenarios. *)
Record inst : Type := mkInst {
  i_n : nat;
  i_m : nat;
  i_k : nat;
  i_cont : bool;                       (* true: x in [0,1]^n, false: x in {0,1}^n *)
  i_eps : Q;
  i_c : list Q;
  i_A : list (list (list Q));
  i_b : list (list Q)
}.

Definition wf_inst (I : inst) : Prop :=
  0 < i_k I /\
  length (i_c I) = i_n I /\
  length (i_A I) = i_k I /\
  Forall (fun M => length M = i_m I /\ Forall (fun r => length r = i_n I) M) (i_A I) /\
  length (i_b I) = i_k I /\
  Forall (fun v => length v = i_m I) (i_b I).

Definition row (I : inst) (s i : nat) : list Q := nth i (nth s (i_A I) []) [].
Definition rhs (I : inst) (s i : nat) : Q := nth i (nth s (i_b I) []) 0%Q.

(** Packing data: all coefficients are non-negative. *)
Definition packing (I : inst) : Prop :=
  Forall (fun a => 0 <= a)%Q (i_c I) /\
  Forall (Forall (Forall (fun a => 0 <= a)%Q)) (i_A I) /\
  Forall (Forall (fun a => 0 <= a)%Q) (i_b I).

Definition in_box (n : nat) (x : list Q) : Prop :=
  length x = n /\ Forall (fun v => 0 <= v /\ v <= 1)%Q x.
Definition is_bin (x : list Q) : Prop := Forall (fun v => v == 0 \/ v == 1)%Q x.

(** Domain of the decision variables. *)
Definition in_dom (I : inst) (x : list Q) : Prop :=
  in_box (i_n I) x /\ (i_cont I = false -> is_bin x).

(** x satisfies scenario s within [tau]. *)
Definition sat (I : inst) (tau : Q) (x : list Q) (s : nat) : Prop :=
  forall i, i < i_m I -> (dot (row I s i) x <= rhs I s i + tau)%Q.
Definition satb (I : inst) (tau : Q) (x : list Q) (s : nat) : bool :=
  forallb (fun i => Qle_bool (dot (row I s i) x) (rhs I s i + tau)%Q) (seq 0 (i_m I)).

(** Number of violated scenarios. *)
Definition nviol (I : inst) (tau : Q) (x : list Q) : nat :=
  count (fun s => negb (satb I tau x s)) (seq 0 (i_k I)).

(** Feasibility for the chance-constrained problem. *)
Definition cc_feasible (I : inst) (tau : Q) (x : list Q) : Prop :=
  in_dom I x /\ (Qn (nviol I tau x) <= i_eps I * Qn (i_k I))%Q.

Definition obj (I : inst) (x : list Q) : Q := dot (i_c I) x.

(** Number of scenarios that may be violated: floor(eps * k). *)
Definition tolerated (I : inst) : nat := Z.to_nat (Qfloor (i_eps I * Qn (i_k I))).

(** ** Partitions of the scenarios 0..k-1 *)
Definition valid_partition (k : nat) (p : list (list nat)) : Prop :=
  Permutation (concat p) (seq 0 k) /\ Forall (fun S => S <> []) p.

Definition subset_satb (I : inst) (tau : Q) (x : list Q) (S : list nat) : bool :=
  forallb (satb I tau x) S.
Definition subset_sat (I : inst) (tau : Q) (x : list Q) (S : list nat) : Prop :=
  forall s, In s S -> sat I tau x s.

(** Number of violated subsets. *)
Definition nunsat (I : inst) (tau : Q) (x : list Q) (p : list (list nat)) : nat :=
  count (fun S => negb (subset_satb I tau x S)) p.

(** Partitioned problem: all but at most eps*k *subsets* are satisfied. *)
Definition part_feasible (I : inst) (p : list (list nat)) (tau : Q) (x : list Q) : Prop :=
  in_dom I x /\ (Qn (nunsat I tau x p) <= i_eps I * Qn (i_k I))%Q.

(** Deterministic problem of a subset of scenarios. *)
Definition det_feasible (I : inst) (S : list nat) (tau : Q) (x : list Q) : Prop :=
  in_dom I x /\ subset_sat I tau x S.

(** [v] is the exact optimum of the deterministic problem of [S]. *)
Definition det_opt (I : inst) (S : list nat) (v : Q) : Prop :=
  (exists x, det_feasible I S 0 x /\ obj I x == v)%Q /\
  (forall y, det_feasible I S 0 y -> obj I y <= v)%Q.

(** [v] bounds from above every feasible objective. *)
Definition upper_bound (I : inst) (v : Q) : Prop :=
  forall x, cc_feasible I 0 x -> (obj I x <= v)%Q.
(** [v] is attained by a point feasible within [tau]. *)
Definition attained (I : inst) (tau : Q) (v : Q) : Prop :=
  exists x, cc_feasible I tau x /\ (v <= obj I x)%Q.

(** Tolerance used throughout the code base: 1e-6. *)
Definition tol6 : Q := 1 # 1000000.

(** Refinement of partitions: every subset of [q] lies inside a subset of [p]. *)
Definition refines (q p : list (list nat)) : Prop :=
  Forall (fun S => exists T, In T p /\ incl S T) q.

(** ** General scenario probabilities *)

(** Probability given to a subset: the least one of its members. *)
Definition min_proba (proba : list Q) (S : list nat) : Q :=
  match S with
  | [] => 0%Q
  | s :: S' => fold_left Qmin (map (fun t => nth t proba 0%Q) S') (nth s proba 0%Q)
  end.

(** Probability mass of the violated members of a list of scenarios. *)
Definition viol_mass (I : inst) (proba : list Q) (tau : Q) (x : list Q) (l : list nat) : Q :=
  qsum (map (fun s => if satb I tau x s then 0%Q else nth s proba 0%Q) l).

(** Indicator of the satisfied subsets. *)
Definition z_of (I : inst) (tau : Q) (x : list Q) (p : list (list nat)) : list Q :=
  map (fun S => if subset_satb I tau x S then 1%Q else 0%Q) p.

(** Candidate that improves the bounds: objective in [vLB + 1e-8, vUB], feasible within 1e-6. *)
Definition improving (I : inst) (vUB vLB : ext) (y : list Q) : Prop :=
  ext_leb (Fin (obj I y)) vUB = true /\
  ext_leb (ext_add vLB (1 # 100000000)) (Fin (obj I y)) = true /\
  (Qn (nviol I tol6 y) <= i_eps I * Qn (i_k I))%Q.

(** ** Renumbering of a list after the deletion of some indices *)
Definition kept (deleted : list nat) (i : nat) : bool := negb (memb i deleted).
(** Elements of a list whose index is not deleted. *)
Definition survivors {A} (deleted : list nat) (l : list A) : list A :=
  map snd (filter (fun ia => kept deleted (fst ia)) (combine (seq 0 (length l)) l)).
(** New index of an element that is kept. *)
Definition new_index (deleted : list nat) (i : nat) : nat := count (kept deleted) (seq 0 i).

(** ** Refinement step *)

(** Number of subsets that contain a bad scenario. *)
Definition nb_bad (bad : nat -> bool) (p : list (list nat)) : nat := count (existsb bad) p.

(** [new] refines [old] by [mu] splits of subsets with bad scenarios: a partition with [mu]
    more subsets and [mu] more bad subsets, each inside an old one; the first indices keep
    a part of their subset, and subsets without bad scenario are unchanged. *)
Definition refined_by (k : nat) (bad : nat -> bool) (mu : nat) (old new : list (list nat)) : Prop :=
  valid_partition k new /\
  length new = length old + mu /\
  refines new old /\
  nb_bad bad new = nb_bad bad old + mu /\
  forall c, c < length old ->
    incl (nth c new []) (nth c old []) /\
    (existsb bad (nth c old []) = false -> nth c new [] = nth c old []).

(** [l] lists the indices that differ from [old]: no repetition, the appended indices in
    order, and the other indices in [l] are those of the subsets that changed. *)
Definition changed_indices (old new : list (list nat)) (l : list nat) : Prop :=
  NoDup l /\
  filter (fun c => length old <=? c) l = seq (length old) (length new - length old) /\
  Forall (fun c => c < length new) l /\
  (forall c, c < length old -> ~ In c l -> nth c new [] = nth c old []) /\
  forall c, c < length old -> In c l -> nth c new [] <> nth c old [].

(** Scenarios violated by x (tolerance 1e-6). *)
Definition violated (I : inst) (x : list Q) (s : nat) : bool := negb (satb I tol6 x s).

(** A source of random permutations. *)
Definition perm_oracle (perm : nat -> nat -> list nat) : Prop := forall t n, Permutation (perm t n) (seq 0 n).

(** Indices of the subsets with, and without, a bad scenario. *)
Definition bad_indices (bad : nat -> bool) (p : list (list nat)) : list nat :=
  filter (fun c => existsb bad (nth c p [])) (seq 0 (length p)).
Definition good_indices (bad : nat -> bool) (p : list (list nat)) : list nat :=
  filter (fun c => negb (existsb bad (nth c p []))) (seq 0 (length p)).

(** Rows (time, objective, bound) with the same objective and bound; row reported for an event. *)
Definition same_bounds (r r' : Q * Q * Q) : Prop :=
  let '(_, o, b) := r in let '(_, o', b') := r' in (o == o')%Q /\ (b == b')%Q.
Definition neg_event (ev : Q * Q * Q) : Q * Q * Q := let '(t, o, b) := ev in (t, - o, - b)%Q.

(** [v] is the maximum of r.x - d over the unit box with w.x <= C. *)
Definition knap_upper (r : list Q) (d : Q) (w : list Q) (C : ext) (v : Q) : Prop :=
  forall x, in_box (length r) x -> ext_leb (Fin (dot w x)) C = true -> (dot r x - d <= v)%Q.
Definition knap_max (r : list Q) (d : Q) (w : list Q) (C : ext) (v : Q) : Prop :=
  (exists x, in_box (length r) x /\ ext_leb (Fin (dot w x)) C = true /\ (dot r x - d == v)%Q) /\
  knap_upper r d w C v.

(** [v] is the maximum of r.x - d over the unit box. *)
Definition box_max (r : list Q) (d v : Q) : Prop :=
  (exists x, in_box (length r) x /\ (dot r x - d == v)%Q) /\
  (forall x, in_box (length r) x -> (dot r x - d <= v)%Q).

(** [v] is the least, over the constraints of scenario t, of the maximal violation of
    constraint (s,i) by a point of the box that satisfies this constraint of t. *)
Definition min_violation (I : inst) (s t i : nat) (v : Q) : Prop :=
  (exists l, l < i_m I /\ knap_max (row I s i) (rhs I s i) (row I t l) (Fin (rhs I t l)) v) /\
  (forall l w, l < i_m I -> knap_max (row I s i) (rhs I s i) (row I t l) (Fin (rhs I t l)) w -> (v <= w)%Q).
