(** Runs with a clock that advances by one second at every call. *)
From Verif Require Import Base BaseFacts Spec Instance OptModels Initial Bounds Refine CostRefine Merge Adaptive AdaptiveSpec AdaptiveEx
  LogSpec BruteForce Ex.

Definition tick_world (w : world) : world :=
  mkWorld (w_solve w) (w_acc w) (w_perm w) (w_argsort w) (w_norm w) (w_sort w) (fun t => inject_Z (5 + Z.of_nat t)) (w_intr w).
Definition with_limit (q : Q) (cf : cfg) : cfg :=
  mkCfg (c_split cf) (c_init cf) (c_proj cf) (c_acc cf) q (c_gap cf) (c_bigM cf) (c_method cf) (c_merger cf) (c_lazy cf) (c_fuel cf).
Definition show_gap (g : gapv) : gapv := match g with Some (Fin q) => Some (Fin (Qred q)) | g => g end.
Definition show_log (l : list logrow) :=
  map (fun r => (l_iter r, Qred (l_time r), l_nLB r, l_nUB r, show_gap (l_gap r), l_nb r)) l.
Definition show_timed (r : res verdict * ast) := let '(r, s) := r in (r, a_t s, show_log (a_log s)).
Definition tick_run (limit : Q) := run (tick_world exS_world) exS (with_limit limit ex_plain) 20.

Lemma tick_clock_mono : clock_mono (tick_world exS_world).
Proof. intros t t' H. cbn [w_clock tick_world]. rewrite <- Zle_Qle. lia. Qed.

(** The phase of the bounds of turn n. *)
Definition phase_state (limit : Q) (n : nat) : option (ast * option (option (list Q)) * ast) :=
  match head_state (tick_world exS_world) exS (with_limit limit ex_plain) n with
  | Some s => match bound_phase (tick_world exS_world) exS (with_limit limit ex_plain) s with
              | (Ok (inr x), s1) => Some (s, Some x, s1) | (Ok (inl _), s1) => Some (s, None, s1) | _ => None end
  | None => None
  end.
Definition show_phase (o : option (ast * option (option (list Q)) * ast)) :=
  match o with
  | Some (s, x, s1) => Some (a_t s, a_t s1, a_vLB s, a_vLB s1, lb_scen (a_lb s1), map snd (lb_store (a_lb s1)))
  | None => None
  end.
