(** Runs with their points, for the statements on the lower-bound problem. *)
From Verif Require Import Base BaseFacts Spec Instance OptModels Initial Bounds Refine CostRefine Merge Adaptive AdaptiveSpec
  AdaptiveEx BruteForce Ex.

Fixpoint trace_turns (w : world) (I : inst) (cf : cfg) (n : nat) (xs : list (list Q)) (s : ast) : option (list (list Q) * ast) :=
  match n with
  | 0 => Some (xs, s)
  | S n' =>
      match bound_phase w I cf s, iteration w I cf s with
      | (Ok (inr (Some x)), _), (Ok Continue, s') => trace_turns w I cf n' (x :: xs) s'
      | _, _ => None
      end
  end.
Definition trace_state (w : world) (I : inst) (cf : cfg) (n : nat) : option (list (list Q) * ast) :=
  match head_state w I cf 0 with Some s => trace_turns w I cf n [] s | None => None end.
Lemma trace_turns_ok w I cf : forall n xs s ys s', head_trace w I cf xs s -> trace_turns w I cf n xs s = Some (ys, s') -> head_trace w I cf ys s'.
Proof.
  induction n as [|n IH]; intros xs s ys s' HR H; cbn [trace_turns] in H; [congruence|].
  destruct (bound_phase w I cf s) as [[[v|[x|]]|e] s1] eqn:EB; try discriminate.
  destruct (iteration w I cf s) as [[[]|e] s2] eqn:E; try discriminate.
  apply (IH _ _ _ _ (HT_next _ _ _ _ _ _ _ _ HR EB E) H).
Qed.
Lemma trace_state_ok w I cf n xs s : trace_state w I cf n = Some (xs, s) -> head_trace w I cf xs s.
Proof.
  unfold trace_state, head_state. destruct (construct w I cf (ast0 I)) as [[b|e] s0] eqn:EC; [|discriminate].
  destruct (prologue w I cf b s0) as [[[]|e] s1] eqn:EP; try discriminate. cbn [turns].
  apply trace_turns_ok. exact (HT_start _ _ _ _ _ _ EC EP).
Qed.
Definition show_trace (o : option (list (list Q) * ast)) :=
  match o with Some (xs, s) => Some (xs, map Qred (lb_counter (a_lb s)), lb_scen (a_lb s)) | None => None end.
Definition ex_proj (p : projection) : cfg :=
  mkCfg (c_split ex_plain) (c_init ex_plain) p (c_acc ex_plain) (c_limit ex_plain) (c_gap ex_plain) (c_bigM ex_plain) (c_method ex_plain)
    (c_merger ex_plain) (c_lazy ex_plain) (c_fuel ex_plain).
Definition count_show (p : projection) (n : nat) := show_trace (trace_state exS_world exS (ex_proj p) n).

(** Scenario 0 is violated by 5e-4, scenario 1 is satisfied; one of them is selected. *)
Definition exTol : inst := mkInst 1 1 2 false (1 # 2) [1]%Q [[[1]]; [[1]]]%Q [[1 - (5 # 10000)]; [1]]%Q.
Lemma tolerance_selection : exists sel, (do idx <- index_scenarios norm1 exTol ProjRescaled [] [1]%Q ;;
    selected_scenarios argsort_ref (uniform (i_k exTol)) (i_eps exTol) (i_k exTol) idx) = Ok (Some sel) /\
  In 0 sel /\ ~ sat exTol tol6 [1]%Q 0 /\ ~ In 1 sel /\ sat exTol tol6 [1]%Q 1.
Proof.
  exists [0]. split; [vm_compute; reflexivity|]. split; [now left|]. split.
  - intro H. specialize (H 0 (le_n 1)). revert H. apply Qlt_not_le. vm_compute. reflexivity.
  - split; [intros [C|[]]; discriminate|]. intros i Hi. cbn in Hi. assert (i = 0) by lia. subst i. vm_compute. discriminate.
Qed.
