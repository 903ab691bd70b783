(** Instances whose points of equal value violate the same scenarios. *)
From Verif Require Import Base Spec Instance Adaptive.

(** Among the points that violate too many scenarios (within 1e-6), those of equal objective violate the same ones. *)
Definition alike (I : inst) : Prop := forall x y, in_dom I x -> in_dom I y -> ~ cc_feasible I tol6 x -> ~ cc_feasible I tol6 y ->
  (obj I x == obj I y)%Q -> forall s, s < i_k I -> violated I x s = violated I y s.

(** Consecutive states at the head of the loop. *)
Fixpoint consecutive (w : world) (I : inst) (cf : cfg) (l : list ast) : Prop :=
  match l with
  | s :: ((s' :: _) as l') => iteration w I cf s = (Ok Continue, s') /\ consecutive w I cf l'
  | _ => True
  end.
(** Number of turns among them that do not merge or that lower the upper bound. *)
Fixpoint progress (l : list ast) : nat :=
  match l with
  | s :: ((s' :: _) as l') => (if a_merged s' && ext_leb (a_vUB s) (a_vUB s') then 0 else 1) + progress l'
  | _ => 0
  end.
