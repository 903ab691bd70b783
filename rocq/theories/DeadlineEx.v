(** Runs whose time ends while a model is built. *)
From Coq Require Import String.
From Verif Require Import Base BaseFacts Spec Instance OptModels Initial Bounds Refine CostRefine Merge BigM Adaptive AdaptiveSpec AdaptiveEx AdaptiveEx2
  Milp LogSpec LogEx Report Main BruteForce Ex DeadlineFacts.

(** The clock advances by q seconds at every call. *)
Definition slow_world (q : Q) (w : world) : world :=
  mkWorld (w_solve w) (w_acc w) (w_perm w) (w_argsort w) (w_norm w) (w_sort w) (fun t => q * Qn t)%Q (w_intr w).
Lemma slow_clock q w t : (0 < q)%Q -> (w_clock (slow_world q w) t < w_clock (slow_world q w) (S t))%Q.
Proof. intro H. cbn [w_clock slow_world]. apply Qmult_lt_l; [exact H|]. unfold Qn. rewrite <- Zlt_Qlt. lia. Qed.
Lemma tick_clock w t : (w_clock (tick_world w) t < w_clock (tick_world w) (S t))%Q.
Proof. cbn [w_clock tick_world]. rewrite <- Zlt_Qlt. lia. Qed.

Definition milp_ticks (q : Q) := milp_run (tick_world (brute_world exMid)) exMid (with_limit q ex_plain) true Belotti.
Definition show_milp (r : res (option Q) * ast) := (match fst r with Ok (Some b) => Ok (Some (Qred b)) | r => r end, a_t (snd r), a_vLB (snd r), a_vUB (snd r)).
Definition main_files (q : Q) (m : Z) := let '(r, l) := main (slow_world q (brute_world exMid)) exMid "mk"%string "p"%string 20 20 m in (r, map fst l).

Definition first_late := match head_state (tick_world exS_world) exS (with_limit 60 ex_plain) 1 with Some s => Some (a_t s, a_start s, fst (partition_bound (tick_world exS_world) exS (with_limit 60 ex_plain) s)) | None => None end.
Lemma tick_error : fst (tick_run 60) = Err GurobiError. Proof. vm_compute. reflexivity. Qed.
Definition slow_main := main (slow_world 300 (brute_world exMid)) exMid "mk"%string "p"%string 20 20 2.
Lemma main_error : slow_main = (Err GurobiError, []). Proof. vm_compute. reflexivity. Qed.
Lemma limit_refuted : exists w I cf fuel s, (forall t, w_clock w t < w_clock w (S t))%Q /\ (forall t, w_intr w t = false) /\ run w I cf fuel = (Err GurobiError, s).
Proof.
  exists (tick_world exS_world), exS, (with_limit 60 ex_plain), 20, (snd (tick_run 60)). split; [apply tick_clock|]. split; [intro t; reflexivity|].
  rewrite <- tick_error. unfold tick_run. apply surjective_pairing.
Qed.
Lemma main_refuted : exists w I name path fuel rfuel, (forall t, w_clock w t < w_clock w (S t))%Q /\ (forall t, w_intr w t = false) /\
  main w I name path fuel rfuel 2 = (Err GurobiError, []).
Proof.
  exists (slow_world 300 (brute_world exMid)), exMid, "mk"%string, "p"%string, 20, 20.
  split; [intro t; apply slow_clock; reflexivity|]. split; [intro t; reflexivity|exact main_error].
Qed.
