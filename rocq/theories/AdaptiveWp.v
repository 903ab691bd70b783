(** Weakest preconditions for the state and exception monad of Adaptive.v, monotone bounds, iteration log. *)
From Verif Require Import Base BaseFacts Spec Instance InstanceFacts OptModels Initial Bounds Refine CostRefine Merge MergeFacts
  Violations BigM Adaptive AdaptiveSpec.

Lemma exact_finished m o : outcome_exact m o -> finished o.
Proof. destruct o as [x z v b| | |]; cbn; auto. intros (_ & _ & H & _). left. lra. Qed.

(** [m] from state [s] returns with Q, or raises with E. *)
Definition wp {A} (E : exn -> ast -> Prop) (m : M A) (Q : A -> ast -> Prop) (s : ast) : Prop :=
  match m s with (Ok a, s') => Q a s' | (Err e, s') => E e s' end.

Lemma wp_ret {A} E (a : A) (Q : A -> ast -> Prop) s : Q a s -> wp E (mret a) Q s.
Proof. exact (fun H => H). Qed.
Lemma wp_raise {A} (E : exn -> ast -> Prop) e (Q : A -> ast -> Prop) s : E e s -> wp E (mraise e) Q s.
Proof. exact (fun H => H). Qed.
Lemma wp_get E (Q : ast -> ast -> Prop) s : Q s s -> wp E mget Q s.
Proof. exact (fun H => H). Qed.
Lemma wp_bind {A B} E (m : M A) (f : A -> M B) Q s : wp E m (fun a => wp E (f a) Q) s -> wp E (mbind m f) Q s.
Proof. unfold wp, mbind. destruct (m s) as [[a|e] s']; auto. Qed.
Lemma wp_lift {A} (E : exn -> ast -> Prop) (r : res A) (Q : A -> ast -> Prop) s : (forall a, r = Ok a -> Q a s) -> (forall e, r = Err e -> E e s) -> wp E (lift r) Q s.
Proof. unfold wp, lift. destruct r; auto. Qed.
Lemma wp_mono {A} (E E' : exn -> ast -> Prop) (m : M A) (Q Q' : A -> ast -> Prop) s : wp E m Q s ->
  (forall a s', Q a s' -> Q' a s') -> (forall e s', E e s' -> E' e s') -> wp E' m Q' s.
Proof. unfold wp. destruct (m s) as [[a|e] s']; auto. Qed.
Lemma wp_bind_mono {A B} E (m : M A) (f : A -> M B) P Q s : wp E m P s ->
  (forall a s', P a s' -> wp E (f a) Q s') -> wp E (mbind m f) Q s.
Proof. intros H1 H2. apply wp_bind. eapply wp_mono; eauto. Qed.
Lemma wp_steps {A B} (E : exn -> ast -> Prop) (m : M A) (f : A -> M B) Q s : (forall e s', m s = (Err e, s') -> E e s') ->
  (forall a s', m s = (Ok a, s') -> wp E (f a) Q s') -> wp E (mbind m f) Q s.
Proof. unfold wp, mbind. intros H1 H2. destruct (m s) as [[a|e] s']; [now apply H2|now apply H1]. Qed.
Lemma wp_run {A} E (m : M A) Q s r s' : wp E m Q s -> m s = (r, s') ->
  match r with Ok a => Q a s' | Err e => E e s' end.
Proof. unfold wp. intros H E1. rewrite E1 in H. destruct r; exact H. Qed.

Section Wp.
  Variable w : world.
  Variable I : inst.
  Variable cf : cfg.

  Lemma wp_tick (E : exn -> ast -> Prop) (Q : unit -> ast -> Prop) s : (w_intr w (a_t s) = true -> E KeyboardInterrupt (bump s)) ->
    (w_intr w (a_t s) = false -> Q tt (bump s)) -> wp E (tick w) Q s.
  Proof. unfold wp, tick. destruct (w_intr w (a_t s)); auto. Qed.
  Lemma wp_put (E : exn -> ast -> Prop) f (Q : unit -> ast -> Prop) s : (w_intr w (a_t (f s)) = true -> E KeyboardInterrupt (bump (f s))) ->
    (w_intr w (a_t (f s)) = false -> Q tt (bump (f s))) -> wp E (put w f) Q s.
  Proof. unfold wp, put, mbind, tick. destruct (w_intr w (a_t (f s))); auto. Qed.
  Lemma wp_clock E (Q : _ -> ast -> Prop) s : Q (w_clock w (a_t s)) (bump s) -> wp E (clock w) Q s.
  Proof. exact (fun H => H). Qed.
  Lemma wp_available E (Q : _ -> ast -> Prop) s : Q (Qmax (c_limit cf - (w_clock w (a_t s) - a_start s)) 0) (bump s) -> wp E (available w cf) Q s.
  Proof. exact (fun H => H). Qed.
  Lemma wp_call (E : exn -> ast -> Prop) m (Q : _ -> ast -> Prop) s : (w_intr w (a_t s) = true -> E KeyboardInterrupt (bump s)) ->
    (w_solve w (S (a_t s)) m = Interrupted -> E KeyboardInterrupt (bump (bump s))) ->
    (w_solve w (S (a_t s)) m <> Interrupted -> Q (w_solve w (S (a_t s)) m) (bump (bump s))) -> wp E (call w m) Q s.
  Proof.
    intros H1 H2 H3. unfold call. apply wp_bind, wp_tick; [assumption|]. intros _. unfold wp. change (a_t (bump s)) with (S (a_t s)).
    destruct (w_solve w (S (a_t s)) m) eqn:EQ; cbn [optimize]; try (apply H3; discriminate). now apply H2.
  Qed.

  (** ** Preserved predicates *)
  Definition pres {A} (P : ast -> Prop) (m : M A) : Prop := forall s, P s -> wp (fun _ => P) m (fun _ => P) s.

  Lemma pres_ret {A} P (a : A) : pres P (mret a). Proof. intros s H. exact H. Qed.
  Lemma pres_raise {A} P e : pres P (@mraise A e). Proof. intros s H. exact H. Qed.
  Lemma pres_lift {A} P (r : res A) : pres P (lift r). Proof. intros s H. apply wp_lift; auto. Qed.
  Lemma pres_bind {A B} P (m : M A) (f : A -> M B) : pres P m -> (forall a, pres P (f a)) -> pres P (mbind m f).
  Proof. intros H1 H2 s H. eapply wp_bind_mono; [apply H1, H|]. intros a s' H'. now apply H2. Qed.
  Lemma pres_get {A} P (f : ast -> M A) : (forall s0, pres P (f s0)) -> pres P (mbind mget f).
  Proof. intros H s Hs. apply wp_bind, wp_get, H, Hs. Qed.
  Lemma pres_if {A} P (b : bool) (m1 m2 : M A) : pres P m1 -> pres P m2 -> pres P (if b then m1 else m2).
  Proof. destruct b; auto. Qed.

  Section Stable.
    (** A predicate that ignores the counter of oracle calls. *)
    Variable P : ast -> Prop.
    Hypothesis HT : forall s t, P s -> P (set_t t s).

    Lemma pres_put f : (forall s, P s -> P (f s)) -> pres P (put w f).
    Proof. intros H s Hs. apply wp_put; intros _; apply HT, H, Hs. Qed.
    Lemma pres_clock : pres P (clock w). Proof. intros s H. apply HT, H. Qed.
    Lemma pres_available : pres P (available w cf). Proof. intros s H. apply HT, H. Qed.
    Lemma pres_call m : pres P (call w m).
    Proof. intros s H. apply wp_call; intros; repeat apply HT; exact H. Qed.
    Lemma pres_subset_cost S : pres P (subset_cost w I S).
    Proof.
      apply pres_bind; [apply pres_call|]. intro o. apply pres_bind; [apply pres_lift|]. intros [[[x z] v] b]. apply pres_ret.
    Qed.
    Lemma pres_mmap {A B} (f : A -> M B) l : (forall a, pres P (f a)) -> pres P (mmap f l).
    Proof.
      intro H. induction l as [|a l IH]; cbn [mmap]; [apply pres_ret|].
      apply pres_bind; [apply H|]. intro b. apply pres_bind; [apply IH|]. intro bs. apply pres_ret.
    Qed.
    Lemma pres_gap : pres P gap_now.
    Proof. apply pres_get. intro s0. apply pres_lift. Qed.
  End Stable.
End Wp.

(** Steps through a computation that does not touch the fields of interest. *)
Ltac pres_step :=
  match goal with
  | |- pres _ (mret _) => apply pres_ret
  | |- pres _ (mraise _) => apply pres_raise
  | |- pres _ (lift _) => apply pres_lift
  | |- pres _ (mbind mget _) => apply pres_get; intro
  | |- pres _ (mbind _ _) => apply pres_bind; [|intro]
  | |- pres _ (if _ then _ else _) => apply pres_if
  | |- pres _ (match ?x with _ => _ end) => destruct x
  | |- pres _ (put _ _) => apply pres_put; [|intros]
  | |- pres _ (clock _) => apply pres_clock
  | |- pres _ (available _ _) => apply pres_available
  | |- pres _ (call _ _) => apply pres_call
  | |- pres _ (subset_cost _ _ _) => apply pres_subset_cost
  | |- pres _ (mmap _ _) => apply pres_mmap; intro
  | |- pres _ gap_now => apply pres_gap
  end.

(** Functions that change few fields. *)
Section Frame.
  Variable w : world.
  Variable I : inst.
  Variable cf : cfg.
  Variable P : ast -> Prop.
  Hypothesis HT : forall s t, P s -> P (set_t t s).

  Ltac pt := repeat (pres_step; auto).

  Lemma pres_big_M : (forall s v, P s -> P (set_bigM v s)) -> pres P (big_M w I cf).
  Proof.
    intro HB. unfold big_M, update_big_M. apply pres_get; intro s0. apply pres_if; [|apply pres_ret]. pt.
    intros s H. unfold wp. destruct (belotti_all _ _ _ _ _ _) as [[r|e] t]; apply HT; exact H.
  Qed.
  Lemma pres_solve V um lz Ms st pr t g : pres P (solve_cclp w V um lz Ms st pr t g).
  Proof. unfold solve_cclp. pt. Qed.
  Lemma pres_partition_bound : pres P (partition_bound w I cf).
  Proof.
    unfold partition_bound. apply pres_bind; [pt|intro]. apply pres_get; intro. apply pres_bind; [pt|intro].
    apply pres_bind; [apply pres_solve|intros [[[x z] vo] vb]]. pt.
  Qed.
  Lemma pres_deterministic x : (forall s v, P s -> P (set_lb v s)) -> pres P (deterministic_bound w I cf x).
  Proof. intro HL. unfold deterministic_bound. pt. Qed.
  Lemma pres_refine : (forall s v, P s -> P (set_perm v s)) -> (forall s v, P s -> P (set_ref v s)) -> pres P (refine w I cf).
  Proof. intros HP HR. unfold refine. pt. Qed.
  Lemma pres_eval_new p l : (forall s v, P s -> P (set_costs v s)) -> (forall s v, P s -> P (set_sols v s)) -> pres P (eval_new w I p l).
  Proof. intros HC HS. induction l as [|c l IH]; cbn [eval_new]; pt. Qed.
  Lemma pres_eval_targets p l : (forall s v, P s -> P (set_costs v s)) -> (forall s v, P s -> P (set_sols v s)) -> pres P (eval_targets w I p l).
  Proof. intros HC HS. induction l as [|c l IH]; cbn [eval_targets]; pt. Qed.
  Lemma pres_post_merge0 : (forall s v, P s -> P (set_costs v s)) -> (forall s v, P s -> P (set_sols v s)) ->
    (forall s v, P s -> P (set_view v s)) -> (forall cands, pres P (improve_vlb w I cands)) -> pres P (post_merge w I).
  Proof.
    intros HC HS HV HI. unfold post_merge. apply pres_get; intro s1.
    do 7 (apply pres_bind; [first [apply pres_eval_targets; assumption|pt]|intro]). apply HI.
  Qed.
  Lemma pres_split0 : (forall s v, P s -> P (set_perm v s)) -> (forall s v, P s -> P (set_ref v s)) ->
    (forall s v, P s -> P (set_nb v s)) -> (forall s v, P s -> P (set_part v s)) -> (forall s v, P s -> P (set_view v s)) ->
    (forall s v, P s -> P (set_costs v s)) -> (forall s v, P s -> P (set_sols v s)) ->
    (forall cands, pres P (improve_vlb w I cands)) -> pres P (split_step w I cf).
  Proof.
    intros. unfold split_step. apply pres_bind; [now apply pres_refine|intro R]. do 3 (apply pres_bind; [pt|intro]).
    apply pres_bind; [pt|intro]. apply pres_bind; [now apply pres_eval_new|intro r]. pt.
  Qed.
  Lemma pres_merge0 x R nc : (forall s v, P s -> P (set_merged v s)) -> (forall s v, P s -> P (set_ms v s)) ->
    (forall s v, P s -> P (set_nb v s)) -> (forall s v, P s -> P (set_part v s)) -> (forall s v, P s -> P (set_view v s)) ->
    (forall s v, P s -> P (set_costs v s)) -> (forall s v, P s -> P (set_sols v s)) ->
    (forall cands, pres P (improve_vlb w I cands)) -> pres P (merge_step w I cf x R nc).
  Proof.
    intros. unfold merge_step. apply pres_bind; [pt|intro]. apply pres_if; [|apply pres_ret].
    apply pres_bind; [pt|intro]. apply pres_get; intro s. apply pres_if; [|apply pres_ret].
    apply pres_bind; [pt|intros [[k p] ms]]. do 3 (apply pres_bind; [pt|intro]).
    apply pres_bind; [|intro; pt]. now apply pres_post_merge0.
  Qed.
  Lemma pres_improve0 cands : (forall s v, P s -> P (set_xLB v s)) -> (forall s v np, P s -> P (set_vLB v np s)) ->
    pres P (improve_vlb w I cands).
  Proof. intros HX HV. unfold improve_vlb. pt. Qed.
End Frame.

(** ** Order on extended rationals *)
Lemma ext_leb_refl' a : ext_leb a a = true.
Proof. destruct a; cbn; auto. apply Qle_bool_iff. lra. Qed.
Lemma ext_ltb_leb a b : ext_ltb a b = true -> ext_leb a b = true.
Proof.
  unfold ext_ltb. intro H. apply negb_true_iff in H. destruct (ext_leb_total a b); congruence.
Qed.
Lemma ext_add_le a q : (0 <= q)%Q -> ext_leb a (ext_add a q) = true.
Proof. destruct a; cbn; auto. intro. apply Qle_bool_iff. lra. Qed.
Lemma ext_add_mono a b q : ext_leb a b = true -> ext_leb (ext_add a q) (ext_add b q) = true.
Proof. destruct a, b; cbn; auto. rewrite !Qle_bool_iff. intro. lra. Qed.
Lemma ext_add_mono_r a q r : (q <= r)%Q -> ext_leb (ext_add a q) (ext_add a r) = true.
Proof. destruct a; cbn; auto. rewrite Qle_bool_iff. intro. lra. Qed.
Lemma ext_add_add a q r : ext_leb (ext_add (ext_add a q) r) (ext_add a (q + r)) = true.
Proof. destruct a; cbn; auto. apply Qle_bool_iff. lra. Qed.
Lemma ext_leb_opp a b : ext_leb a b = true -> ext_leb (ext_opp b) (ext_opp a) = true.
Proof. destruct a, b; cbn; auto; try discriminate. rewrite !Qle_bool_iff. intro. lra. Qed.

(** The incumbent heuristic only returns improvements, whatever the order of the candidates. *)
Lemma incumbent_loop_gain norm I cands objs vUB vLB l x v : incumbent_loop norm I cands objs vUB vLB l = Some (x, v) ->
  exists i, In i l /\ x = nth i cands [] /\ v = nth i objs 0%Q /\ ext_leb (Fin v) vUB = true /\
    ext_leb (ext_add vLB (1 # 100000000)) (Fin v) = true /\
    fst (fst (fst (fst (is_feasible norm I x)))) = true.
Proof.
  induction l as [|i l IH]; cbn [incumbent_loop]; cbv zeta; [discriminate|]. intro H.
  destruct (ext_leb _ _ && ext_leb _ _) eqn:E1.
  - destruct (fst (fst (fst (fst (is_feasible norm I (nth i cands [])))))) eqn:E2.
    + injection H as <- <-. apply andb_prop in E1 as [E1 E3]. exists i. split; [now left|]. auto.
    + destruct (IH H) as (j & H1 & H2). exists j. split; [now right|assumption].
  - destruct (IH H) as (j & H1 & H2). exists j. split; [now right|assumption].
Qed.
Lemma incumbent_gain norm argsort I cands vUB vLB x v : incumbent_bound norm argsort I cands vUB vLB = Some (x, v) ->
  ext_leb (Fin v) vUB = true /\ ext_leb (ext_add vLB (1 # 100000000)) (Fin v) = true.
Proof.
  unfold incumbent_bound. destruct cands as [|c cs]; [discriminate|]. intro H.
  apply incumbent_loop_gain in H as (i & _ & _ & _ & H1 & H2 & _). auto.
Qed.

(** The row stored by [store_info]. *)
Definition row_of (s : ast) (tm : Q) (g : gapv) : logrow :=
  mkLog (a_iter s) tm (ext_opp (a_vLB s)) (ext_opp (a_vUB s)) g (a_nb s).

(** A predicate about bounds, log and iteration number that survives an improved lower bound and a stored row. *)
Record lax (P : ast -> Prop) : Prop := mkLax {
  lax_xUB : forall s v, P s -> P (set_xUB v s);
  lax_xLB : forall s v, P s -> P (set_xLB v s);
  lax_zUB : forall s v, P s -> P (set_zUB v s);
  lax_part : forall s v, P s -> P (set_part v s);
  lax_nb : forall s v, P s -> P (set_nb v s);
  lax_view : forall s v, P s -> P (set_view v s);
  lax_costs : forall s v, P s -> P (set_costs v s);
  lax_sols : forall s v, P s -> P (set_sols v s);
  lax_merged : forall s v, P s -> P (set_merged v s);
  lax_ms : forall s v, P s -> P (set_ms v s);
  lax_lb : forall s v, P s -> P (set_lb v s);
  lax_ref : forall s v, P s -> P (set_ref v s);
  lax_fe : forall s v, P s -> P (set_fe v s);
  lax_bigM : forall s v, P s -> P (set_bigM v s);
  lax_perm : forall s v, P s -> P (set_perm v s);
  lax_t : forall s v, P s -> P (set_t v s);
  lax_vLB : forall s v np, P s -> ext_leb (a_vLB s) (Fin v) = true -> P (set_vLB (Fin v) np s);
  lax_log : forall s tm g, P s -> P (set_log (a_log s ++ [row_of s tm g]) s)
}.

Section Mono.
  Variable w : world.
  Variable I : inst.
  Variable cf : cfg.

  (** The two parts of an iteration after the upper bound. *)
  Definition after_upper (x : option (list Q)) (ok : bool) : M (verdict + option (list Q)) :=
    if ok then mret (inl Feasible)
    else
      let! t := available w cf in
      if Qle_bool t 0 then mret (inl TimeUp)
      else
        let! g := lower_bound_step w I cf x in
        if gap_leb g (c_gap cf) then mret (inl GapReached)
        else
          let! t := available w cf in
          if Qle_bool t 0 then mret (inl TimeUp) else mret (inr x).
  Definition after_bounds (r : verdict + option (list Q)) : M verdict :=
    match r with
    | inl v => mret v
    | inr x =>
        let! (R, nc) := split_step w I cf in
        merge_step w I cf x R nc ;;;
        next_iteration w cf
    end.
  Lemma bound_phase_eq : bound_phase w I cf =
    mbind gap_now (fun _ => mbind (big_M w I cf) (fun _ => mbind (upper_bound_step w I cf) (fun '(x, ok) => after_upper x ok))).
  Proof. reflexivity. Qed.
  Lemma iteration_eq : iteration w I cf = mbind (bound_phase w I cf) after_bounds.
  Proof. reflexivity. Qed.

  Section Lax.
    Variable P : ast -> Prop.
    Hypothesis LX : lax P.

    Ltac pt := repeat (pres_step; try (intros; solve [apply LX; assumption])).

    Lemma lax_improve cands : pres P (improve_vlb w I cands).
    Proof.
      intros s H. unfold improve_vlb. apply wp_bind, wp_get.
      destruct (incumbent_bound _ _ _ _ _ _) as [[x v]|] eqn:E; [|exact H].
      apply incumbent_gain in E as [_ E].
      assert (EL : ext_leb (a_vLB s) (Fin v) = true).
      { eapply ext_leb_trans; [|exact E]. apply ext_add_le. lra. }
      apply wp_bind, wp_put; intros _; [apply LX, LX, H|].
      apply wp_put; intros _; (apply LX; apply lax_vLB; [exact LX|apply LX, LX, H|exact EL]).
    Qed.
    Lemma lax_store : pres P (store_info w).
    Proof.
      unfold store_info. apply pres_bind; [apply pres_gap|intro g]. apply pres_bind; [apply pres_clock; apply LX|intro now].
      apply pres_put; [apply LX|]. intros s H. now apply (lax_log _ LX).
    Qed.
    Lemma lax_big_M : pres P (big_M w I cf).
    Proof. apply pres_big_M; apply LX. Qed.
    Lemma lax_partition_bound : pres P (partition_bound w I cf).
    Proof. apply pres_partition_bound, LX. Qed.
    Lemma lax_deterministic x : pres P (deterministic_bound w I cf x).
    Proof. apply pres_deterministic; apply LX. Qed.
    Lemma lax_lower x : pres P (lower_bound_step w I cf x).
    Proof.
      unfold lower_bound_step. apply pres_bind; [apply lax_deterministic|]. intros [y v].
      intros s Hs. apply wp_bind, wp_get.
      assert (TL : pres P (mbind gap_now (fun g => mbind (store_info w) (fun _ => mret g)))).
      { apply pres_bind; [apply pres_gap|intro g]. apply pres_bind; [apply lax_store|intros _; apply pres_ret]. }
      eapply wp_bind_mono with (P := fun _ => P); [|intros _ s' H; now apply TL].
      destruct (ext_ltb (a_vLB s) (Fin v)) eqn:E; [|exact Hs]. apply ext_ltb_leb in E.
      assert (H1 : P (set_vLB (Fin v) false s)) by (apply lax_vLB; assumption).
      apply wp_bind, wp_put; intros _; [apply LX, H1|].
      apply wp_put; intros _; apply LX, LX, LX, H1.
    Qed.
    Lemma lax_split : pres P (split_step w I cf).
    Proof.
      unfold split_step. apply pres_bind; [apply pres_refine; apply LX|intro R]. do 3 (apply pres_bind; [pt|intro]).
      apply pres_bind; [pt|intro]. apply pres_bind; [apply pres_eval_new; apply LX|intro r].
      apply pres_bind; [apply lax_improve|intro; apply pres_ret].
    Qed.
    Lemma lax_merge x R nc : pres P (merge_step w I cf x R nc).
    Proof.
      unfold merge_step. apply pres_bind; [pt|intro]. apply pres_if; [|apply pres_ret].
      apply pres_bind; [pt|intro]. apply pres_get; intro s. apply pres_if; [|apply pres_ret].
      apply pres_bind; [pt|intros [[k p] ms]]. do 3 (apply pres_bind; [pt|intro]).
      apply pres_bind; [|intro; pt]. apply pres_post_merge0; try apply LX. apply lax_improve.
    Qed.
    Lemma lax_next : (forall s, P s -> P (set_iter (S (a_iter s)) s)) -> pres P (next_iteration w cf).
    Proof. intro HI. unfold next_iteration. pt. now apply HI. Qed.

    (** What follows the upper bound. *)
    Lemma lax_rest x ok : (forall s, P s -> P (set_iter (S (a_iter s)) s)) ->
      pres P (mbind (after_upper x ok) after_bounds).
    Proof.
      intro HI. apply pres_bind.
      - apply pres_if; [apply pres_ret|]. apply pres_bind; [pt|intro]. apply pres_if; [apply pres_ret|].
        apply pres_bind; [apply lax_lower|intro g]. pt.
      - intros [v|y]; [apply pres_ret|]. apply pres_bind; [apply lax_split|intros [R nc]].
        apply pres_bind; [apply lax_merge|intro]. apply lax_next, HI.
    Qed.
  End Lax.

  (** Upper bound: P0 before, P1 between the assignment of the bound and the stored row, P2 after. *)
  Lemma lax_upper (P0 P1 P2 : ast -> Prop) : lax P0 -> lax P1 -> lax P2 ->
    (forall s, P0 s -> P1 s) -> (forall s, P0 s -> P2 s) -> (forall s, P2 s -> P1 s) ->
    (forall s v np, P0 s -> ext_leb (Fin v) (ext_add (a_vUB s) (1 # 100000000)) = true -> P1 (set_vUB (Fin v) np s)) ->
    (forall s tm g, P1 s -> P2 (set_log (a_log s ++ [row_of s tm g]) s)) ->
    forall s, P0 s -> wp (fun _ => P1) (upper_bound_step w I cf) (fun _ => P2) s.
  Proof.
    intros L0 L1 L2 H01 H02 H21 HU HS s Hs. unfold upper_bound_step. apply wp_bind, wp_get.
    eapply wp_bind_mono with (P := fun _ => P0).
    { apply wp_mono with (E := fun _ => P0) (Q := fun _ => P0); [|intros a s' H; exact H|intros e' s' H; apply H01; exact H].
      destruct (a_nb s =? min_size I); [apply pres_lift|apply lax_partition_bound]; assumption. }
    clear s Hs. intros [[[x z] vo] vb] s Hs. apply wp_bind, wp_available.
    assert (Hs' : P0 (bump s)) by (apply L0, Hs).
    destruct (Qle_bool _ 0); [apply wp_bind, wp_get, wp_ret, H02, Hs'|].
    destruct (check_feasibility (w_norm w) I x) as [ok f].
    apply wp_bind, wp_put; intros _; [apply H01; do 2 apply L0; exact Hs'|].
    apply wp_bind, wp_put; intros _; [apply H01; do 4 apply L0; exact Hs'|].
    apply wp_bind, wp_get.
    set (s3 := bump (set_zUB (Some z) (bump (set_fe (Some f) (bump s))))).
    assert (H3 : P0 s3) by (unfold s3; do 4 apply L0; exact Hs'). clearbody s3. clear s Hs Hs'.
    eapply wp_bind_mono with (P := fun _ => P1).
    - destruct (ext_leb (Fin vb) (ext_add (a_vUB s3) _)) eqn:E1; [|apply wp_ret, H01, H3].
      set (P := fun s : ast => P0 s /\ ext_leb (Fin vb) (ext_add (a_vUB s) (1 # 100000000)) = true).
      apply wp_bind, wp_mono with (E := fun _ => P) (Q := fun _ => P).
      + assert (PT : forall s t, P s -> P (set_t t s)) by (intros s t [A1 A2]; split; [apply L0, A1|exact A2]).
        revert s3 H3 E1. intros s3 H3 E1. destruct (ext_leb (Fin vo) _); [|split; assumption].
        apply (pres_put w P PT); [|split; assumption]. intros s [A1 A2]. split; [apply L0, A1|exact A2].
      + intros _ s' [A1 A2]. apply wp_put; intros _; apply L1, HU; assumption.
      + intros _ s' [A1 _]. apply H01, A1.
    - clear s3 H3. intros _ s1 H1. apply wp_bind, wp_put; intros _; [do 2 apply L1; exact H1|].
      set (s2 := bump _). assert (H2 : P1 s2) by (do 2 apply L1; exact H1). clearbody s2. clear s1 H1.
      apply wp_bind. unfold store_info. apply wp_bind. unfold gap_now. apply wp_bind, wp_get, wp_lift; [|intros; exact H2].
      intros g _. apply wp_bind, wp_clock. apply wp_put; intros _; [apply H21|]; (apply L2, HS, L1, H2).
  Qed.

  (** Lower bound at least L, upper bound at most U. *)
  Definition within (L U : ext) (s : ast) : Prop :=
    ext_leb L (a_vLB s) = true /\ ext_leb (a_vUB s) U = true.
  Lemma within_lax L U : lax (within L U).
  Proof.
    constructor; try (intros; assumption). intros s v np [H1 H2] H3. split; [|exact H2].
    eapply ext_leb_trans; [exact H1|exact H3].
  Qed.

  (** One iteration. *)
  Lemma iteration_monotone s r s' : iteration w I cf s = (r, s') ->
    ext_leb (a_vLB s) (a_vLB s') = true /\ ext_leb (a_vUB s') (ext_add (a_vUB s) (1 # 100000000)) = true.
  Proof.
    intro H. set (P := within (a_vLB s) (ext_add (a_vUB s) (1 # 100000000))).
    assert (S0 : within (a_vLB s) (a_vUB s) s) by (split; apply ext_leb_refl').
    assert (W : forall s', within (a_vLB s) (a_vUB s) s' -> P s').
    { intros s1 [H1 H2]. split; [exact H1|]. eapply ext_leb_trans; [exact H2|]. apply ext_add_le. lra. }
    assert (G : wp (fun _ => P) (iteration w I cf) (fun _ => P) s).
    { pose proof (within_lax (a_vLB s) (a_vUB s)) as L0. pose proof (within_lax (a_vLB s) (ext_add (a_vUB s) (1 # 100000000))) as L1. fold P in L1.
      rewrite iteration_eq. apply wp_bind. rewrite bound_phase_eq.
      apply wp_bind, wp_mono with (1 := pres_gap _ s S0); [|intros e s1 H1; exact (W s1 H1)]. intros _ s1 H1.
      apply wp_bind, wp_mono with (1 := lax_big_M _ L0 s1 H1); [|intros e s2 H2; exact (W s2 H2)]. intros _ s2 H2.
      apply wp_bind, wp_mono with (E := fun _ => P) (Q := fun _ => P); [| |intros e s3 H3; exact H3].
      { refine (lax_upper _ P P L0 L1 L1 W W (fun _ X => X) _ _ s2 H2); [|intros ? ? ? X; exact X].
        intros s3 v np [A1 A2] A3. split; [exact A1|]. eapply ext_leb_trans; [exact A3|]. now apply ext_add_mono. }
      clear s1 H1 s2 H2. intros [x ok] s2 H2.
      assert (HR := lax_rest P L1 x ok (fun _ X => X) s2 H2). unfold wp, mbind in HR |- *.
      destruct (after_upper x ok s2) as [[?|?] ?]; exact HR. }
    apply (wp_run _ _ _ _ _ _ G) in H. destruct r; exact H.
  Qed.

  Lemma Qn1 n : (Qn (S n) * (1 # 100000000) == Qn n * (1 # 100000000) + (1 # 100000000))%Q.
  Proof. rewrite Qn_S. ring. Qed.

  Lemma loop_monotone fuel : forall s r s', main_loop w I cf fuel s = (r, s') ->
    ext_leb (a_vLB s) (a_vLB s') = true /\
    ext_leb (a_vUB s') (ext_add (a_vUB s) (Qn fuel * (1 # 100000000))) = true.
  Proof.
    induction fuel as [|n IH]; intros s r s' H.
    - injection H as _ <-. split; [apply ext_leb_refl'|apply ext_add_le]. change (Qn 0) with 0%Q. lra.
    - cbn [main_loop] in H. unfold mbind in H. destruct (iteration w I cf s) as [[v|e] s1] eqn:E1.
      + apply iteration_monotone in E1 as [H1 H2].
        assert (D : ext_leb (a_vLB s) (a_vLB s1) = true /\ ext_leb (a_vUB s1) (ext_add (a_vUB s) (Qn (S n) * (1 # 100000000))) = true).
        { split; [assumption|]. eapply ext_leb_trans; [exact H2|]. apply ext_add_mono_r. rewrite Qn1. pose proof (Qn_nonneg n). lra. }
        destruct v; try (injection H as _ <-; exact D). apply IH in H as [H3 H4]. split.
        * eapply ext_leb_trans; eassumption.
        * eapply ext_leb_trans; [exact H4|]. eapply ext_leb_trans; [apply ext_add_mono; exact H2|].
          eapply ext_leb_trans; [apply ext_add_add|]. apply ext_add_mono_r. rewrite Qn1. lra.
      + injection H as _ <-. apply iteration_monotone in E1 as [H1 H2]. split; [assumption|].
        eapply ext_leb_trans; [exact H2|]. apply ext_add_mono_r. rewrite Qn1. pose proof (Qn_nonneg n). lra.
  Qed.

  (** ** Iteration log *)
  Definition row_le (a b : logrow) : Prop :=
    l_iter a <= l_iter b /\ ext_leb (l_nLB b) (l_nLB a) = true /\
    ext_leb (ext_opp (l_nUB b)) (ext_add (ext_opp (l_nUB a)) (1 # 100000000)) = true.
  Definition chain (l : list logrow) : Prop := forall l1 a b l2, l = l1 ++ a :: b :: l2 -> row_le a b.
  Definition log_ok (slack : Q) (s : ast) : Prop :=
    chain (a_log s) /\
    forall l r, a_log s = l ++ [r] -> l_iter r <= a_iter s /\ ext_leb (ext_opp (a_vLB s)) (l_nLB r) = true /\
      ext_leb (a_vUB s) (ext_add (ext_opp (l_nUB r)) slack) = true.

  Lemma chain_app l b : chain l -> (forall l' a, l = l' ++ [a] -> row_le a b) -> chain (l ++ [b]).
  Proof.
    intros H1 H2 l1 a c l2 E. destruct l2 as [|d l2] using rev_ind.
    - change (a :: [c]) with ([a] ++ [c]) in E. rewrite app_assoc in E. apply app_inj_tail in E as [E ->]. now apply (H2 l1).
    - clear IHl2. assert (E' : l1 ++ a :: c :: l2 ++ [d] = (l1 ++ a :: c :: l2) ++ [d]) by (now rewrite <- app_assoc).
      rewrite E' in E. apply app_inj_tail in E as [-> _]. now apply (H1 l1 a c l2).
  Qed.
  Lemma ext_opp_opp a : ext_opp (ext_opp a) = a \/ exists q q', a = Fin q /\ ext_opp (ext_opp a) = Fin q' /\ (q == q')%Q.
  Proof. destruct a; cbn; auto. right. do 2 eexists. split; [reflexivity|]. split; [reflexivity|]. now rewrite Qopp_involutive. Qed.
  Lemma ext_opp_opp_le a : ext_leb (ext_opp (ext_opp a)) a = true.
  Proof. destruct a; cbn; auto. apply Qle_bool_iff. rewrite Qopp_involutive. lra. Qed.
  Lemma ext_opp_opp_ge a : ext_leb a (ext_opp (ext_opp a)) = true.
  Proof. destruct a; cbn; auto. apply Qle_bool_iff. rewrite Qopp_involutive. lra. Qed.

  Lemma log_store e s tm g : (e <= 1 # 100000000)%Q -> log_ok e s -> log_ok 0 (set_log (a_log s ++ [row_of s tm g]) s).
  Proof.
    intros HE [H1 H2]. split; cbn [a_log set_log a_iter a_vLB a_vUB].
    - apply chain_app; [exact H1|]. intros l' a EL. destruct (H2 _ _ EL) as (A1 & A2 & A3).
      split; [exact A1|]. split; [exact A2|]. cbn [row_of l_nUB]. eapply ext_leb_trans; [apply ext_opp_opp_le|].
      eapply ext_leb_trans; [exact A3|]. now apply ext_add_mono_r.
    - intros l r E. apply app_inj_tail in E as [_ <-]. cbn [row_of l_iter l_nLB l_nUB]. split; [lia|]. split; [apply ext_leb_refl'|].
      eapply ext_leb_trans; [apply ext_opp_opp_ge|]. apply ext_add_le. lra.
  Qed.
  Lemma log_mono e e' s : (e <= e')%Q -> log_ok e s -> log_ok e' s.
  Proof.
    intros HE [H1 H2]. split; [exact H1|]. intros l r EL. destruct (H2 _ _ EL) as (A1 & A2 & A3).
    split; [exact A1|]. split; [exact A2|]. eapply ext_leb_trans; [exact A3|]. now apply ext_add_mono_r.
  Qed.
  Lemma log_lax e : (0 <= e)%Q -> (e <= 1 # 100000000)%Q -> lax (log_ok e).
  Proof.
    intros HE HE'. constructor; try (intros; assumption).
    - intros s v np [H1 H2] H3. split; [exact H1|]. intros l r EL. destruct (H2 _ _ EL) as (A1 & A2 & A3).
      split; [exact A1|]. split; [|exact A3]. eapply ext_leb_trans; [|exact A2]. cbn [a_vLB set_vLB]. now apply ext_leb_opp.
    - intros s tm g H. apply log_mono with 0%Q; [lra|]. now apply log_store with e.
  Qed.
  Lemma log_iteration s : log_ok 0 s -> wp (fun _ => log_ok (1 # 100000000)) (iteration w I cf) (fun _ => log_ok 0) s.
  Proof.
    intro S0. set (e := 1 # 100000000). assert (L0 : lax (log_ok 0)) by (apply log_lax; lra).
    assert (L1 : lax (log_ok e)) by (apply log_lax; unfold e; lra).
    assert (W : forall s, log_ok 0 s -> log_ok e s) by (intro; apply log_mono; unfold e; lra).
    rewrite iteration_eq. apply wp_bind. rewrite bound_phase_eq.
    apply wp_bind, wp_mono with (1 := pres_gap _ s S0); [|intros e1 s1 H1; exact (W s1 H1)]. intros _ s1 H1.
    apply wp_bind, wp_mono with (1 := lax_big_M _ L0 s1 H1); [|intros e1 s2 H2; exact (W s2 H2)]. intros _ s2 H2.
    apply wp_bind, wp_mono with (E := fun _ => log_ok e) (Q := fun _ => log_ok 0); [| |intros e1 s3 H3; exact H3].
    { refine (lax_upper _ _ _ L0 L1 L0 W (fun _ X => X) W _ _ s2 H2).
      - intros s3 v np [A1 A2] A3. split; [exact A1|]. intros l r EL. destruct (A2 _ _ EL) as (B1 & B2 & B3).
        split; [exact B1|]. split; [exact B2|]. cbn [a_vUB set_vUB]. eapply ext_leb_trans; [exact A3|].
        eapply ext_leb_trans; [apply ext_add_mono, B3|]. eapply ext_leb_trans; [apply ext_add_add|]. apply ext_add_mono_r. unfold e. lra.
      - intros s3 tm g. apply log_store. unfold e. lra. }
    clear s1 H1 s2 H2. intros [x ok] s2 H2.
    assert (HI : forall s, log_ok 0 s -> log_ok 0 (set_iter (S (a_iter s)) s)).
    { intros s3 [A1 A2]. split; [exact A1|]. intros l r EL. destruct (A2 _ _ EL) as (B1 & B2 & B3).
      split; [|split; assumption]. cbn [a_iter set_iter]. lia. }
    assert (HR := lax_rest _ L0 x ok HI s2 H2). unfold wp, mbind in HR |- *.
    destruct (after_upper x ok s2) as [[?|?] s3]; [|exact (W _ HR)].
    destruct (after_bounds _ s3) as [[?|?] s4]; [exact HR|exact (W _ HR)].
  Qed.

  Ltac pt := repeat (pres_step; auto).

  Lemma log_main_loop fuel : forall s, log_ok 0 s ->
    wp (fun _ => log_ok (1 # 100000000)) (main_loop w I cf fuel) (fun _ => log_ok 0) s.
  Proof.
    induction fuel as [|n IH]; intros s H; cbn [main_loop].
    - apply wp_raise. revert H. apply log_mono. lra.
    - apply wp_bind. eapply wp_mono; [apply log_iteration, H| |auto].
      intros [] s' H'; try exact H'. now apply IH.
  Qed.

  (** Before the loop the log is empty. *)
  Lemma construct_frame (P : ast -> Prop) : (forall s t, P s -> P (set_t t s)) -> (forall s v, P s -> P (set_start v s)) ->
    (forall s v, P s -> P (set_nb v s)) -> (forall s v, P s -> P (set_perm v s)) -> (forall s v, P s -> P (set_part v s)) ->
    (forall s v, P s -> P (set_view v s)) -> (forall s v, P s -> P (set_vUB (Fin v) true s)) -> (forall s v, P s -> P (set_bigM v s)) ->
    pres P (construct w I cf).
  Proof.
    intros. unfold construct. apply pres_bind; [pt|intro]. apply pres_bind; [pt|intro]. apply pres_bind; [pt|intro].
    apply pres_bind; [|intro; pt]. unfold setup_initial_partition, all_scenario_costs.
    apply pres_bind; [pt|intro]. apply pres_bind; [pt|intro]. apply pres_bind.
    - destruct (c_init cf); pt.
    - intro costs. apply pres_get; intro s0. pt.
  Qed.
  Lemma prologue_frame (P : ast -> Prop) num : (forall s t, P s -> P (set_t t s)) -> (forall s v, P s -> P (set_costs v s)) ->
    (forall s v, P s -> P (set_sols v s)) -> (forall s, P s -> P (set_iter 1 s)) -> (forall cands, pres P (improve_vlb w I cands)) ->
    pres P (prologue w I cf num).
  Proof. intros. unfold prologue, partition_cost. pt. Qed.

  Lemma run_log fuel r s : run w I cf fuel = (r, s) -> chain (a_log s).
  Proof.
    intro H. unfold run in H.
    set (C := fun s : ast => chain (a_log s)). set (N := fun s : ast => a_log s = []).
    assert (NC : forall s, N s -> C s). { intros s0 H0. unfold C. rewrite H0. intros l1 a b l2 E. destruct l1; discriminate. }
    assert (G : wp (fun _ => C) (mbind (construct w I cf) (solve w I cf fuel)) (fun _ => C) (ast0 I)).
    { apply wp_bind. apply wp_mono with (E := fun _ => N) (Q := fun _ => N); [apply construct_frame; auto; reflexivity| |intros e s0; apply NC].
      assert (HI : forall cands, pres N (improve_vlb w I cands)).
      { intros cands s0 H0. unfold improve_vlb. apply wp_bind, wp_get. destruct (incumbent_bound _ _ _ _ _ _) as [[x v]|]; [|exact H0].
        revert s0 H0. change (pres N (mbind (put w (set_xLB (Some x))) (fun _ => put w (set_vLB (Fin v) true)))). pt. }
      intros num s1 H1. unfold solve. apply wp_bind. apply wp_mono with (E := fun _ => N) (Q := fun _ => N); [apply prologue_frame; auto| |intros e s0; apply NC].
      { intros v s2 H2. apply wp_bind.
        assert (L : log_ok 0 s2). { split; [apply NC, H2|]. intros l q E. unfold N in H2. rewrite H2 in E. destruct l; discriminate. }
        eapply wp_mono with (E := fun _ => log_ok (1 # 100000000)) (Q := fun _ => log_ok 0);
          [destruct v; try exact L; apply log_main_loop, L| |intros e s0 [A _]; exact A].
        intros v' s3 [A _]. assert (PC : pres C (epilogue w v')) by (unfold epilogue; destruct v'; pt). apply PC, A. } }
    apply (wp_run _ _ _ _ _ _ G) in H. destruct r; exact H.
  Qed.

  Lemma solve_monotone fuel num s r s' : solve w I cf fuel num s = (r, s') ->
    (ext_leb (a_vLB s) (a_vLB s') = true \/ a_vLB s' = a_vUB s') /\
    ext_leb (a_vUB s') (ext_add (a_vUB s) (Qn fuel * (1 # 100000000))) = true.
  Proof.
    intro H. set (P := within (a_vLB s) (ext_add (a_vUB s) (Qn fuel * (1 # 100000000)))).
    set (Q0 := fun s' : ast => (ext_leb (a_vLB s) (a_vLB s') = true \/ a_vLB s' = a_vUB s') /\
      ext_leb (a_vUB s') (ext_add (a_vUB s) (Qn fuel * (1 # 100000000))) = true).
    assert (S0 : within (a_vLB s) (a_vUB s) s) by (split; apply ext_leb_refl').
    assert (EP : forall s, ext_leb (a_vUB s) (ext_add (a_vUB s) (Qn fuel * (1 # 100000000))) = true).
    { intro s0. apply ext_add_le. pose proof (Qn_nonneg fuel). lra. }
    assert (PQ : forall s0, P s0 -> Q0 s0) by (intros s0 [A1 A2]; split; auto).
    assert (G : wp (fun _ => Q0) (solve w I cf fuel num) (fun _ => Q0) s).
    { unfold solve. apply wp_bind.
      apply wp_mono with (E := fun _ => within (a_vLB s) (a_vUB s)) (Q := fun _ => within (a_vLB s) (a_vUB s)).
      - apply prologue_frame; auto. apply lax_improve, within_lax.
      - intros v s1 [A1 A2]. apply wp_bind. apply wp_mono with (E := fun _ => P) (Q := fun _ => P); [| |auto].
        + destruct v; try (split; [exact A1|]; eapply ext_leb_trans; [exact A2|apply EP]).
          unfold wp. destruct (main_loop w I cf fuel s1) as [[v|e] s2] eqn:EL; apply loop_monotone in EL as [B1 B2];
            (split; [eapply ext_leb_trans; eassumption|]; eapply ext_leb_trans; [exact B2|]; now apply ext_add_mono).
        + intros v' s2 H2. unfold epilogue. destruct v'; try (apply PQ; exact H2). destruct H2 as [B1 B2].
          apply wp_bind, wp_put; intros _; [split; [now right|exact B2]|].
          apply wp_bind, wp_put; intros _; (split; [now right|exact B2]).
      - intros e s1 [A1 A2]. apply PQ. split; [exact A1|]. eapply ext_leb_trans; [exact A2|apply EP]. }
    apply (wp_run _ _ _ _ _ _ G) in H. destruct r; exact H.
  Qed.

  (** ** Two rows per iteration, for a clock that does not go back *)
  Definition expired (s : ast) : Prop := exists t, t <= a_t s /\ (c_limit cf - (w_clock w t - a_start s) <= 0)%Q.
  Definition logged (L : list logrow) (i nb : nat) (vl : ext) (s : ast) : Prop :=
    a_log s = L /\ a_iter s = i /\ a_nb s = nb /\ a_vLB s = vl.

  Lemma two_upper L i nb vl s : logged L i nb vl s ->
    wp (fun _ _ => True) (upper_bound_step w I cf) (fun r s' =>
      (snd r = false /\ expired s') \/
      exists u, logged (L ++ [u]) i nb vl s' /\ l_iter u = i /\ l_nb u = nb /\ l_nLB u = ext_opp vl /\ l_nUB u = ext_opp (a_vUB s')) s.
  Proof.
    intro Hs. unfold upper_bound_step. apply wp_bind, wp_get.
    apply wp_bind, wp_mono with (E := fun _ => logged L i nb vl) (Q := fun _ => logged L i nb vl); [| |auto].
    { destruct (a_nb s =? min_size I); [apply pres_lift|apply pres_partition_bound]; auto. }
    clear s Hs. intros [[[x z] vo] vb] s Hs. apply wp_bind, wp_available.
    destruct (Qle_bool _ 0) eqn:ET.
    { apply wp_bind, wp_get, wp_ret. left. split; [reflexivity|]. apply Qle_bool_iff in ET. exists (a_t s).
      split; [cbn; lia|]. cbn [a_start bump set_t]. eapply Qle_trans; [apply Q.le_max_l|exact ET]. }
    destruct (check_feasibility (w_norm w) I x) as [ok f].
    apply wp_bind, wp_put; intros _; [exact Logic.I|]. apply wp_bind, wp_put; intros _; [exact Logic.I|]. apply wp_bind, wp_get.
    eapply wp_bind_mono with (P := fun _ => logged L i nb vl).
    - match goal with |- wp _ ?m _ ?s0 => assert (PR : pres (logged L i nb vl) m) by pt; assert (H0 : logged L i nb vl s0) by exact Hs end.
      eapply wp_mono; [apply PR, H0|auto|auto].
    - intros _ s' H'. apply wp_bind, wp_put; intros _; [exact Logic.I|]. apply wp_bind. unfold store_info. apply wp_bind.
      unfold gap_now. apply wp_bind, wp_get, wp_lift; [|auto]. intros g _. apply wp_bind, wp_clock. apply wp_put; intros _; [exact Logic.I|].
      apply wp_ret. right. destruct H' as (A1 & A2 & A3 & A4).
      eexists. split; [repeat split; cbn [a_log set_log bump set_t a_iter a_nb a_vLB]; [rewrite <- A1; reflexivity|assumption..]|].
      cbn. rewrite A2, A3, A4. auto.
  Qed.
  Lemma two_lower x L i nb vl vu s : logged L i nb vl s -> a_vUB s = vu ->
    wp (fun _ _ => True) (lower_bound_step w I cf x) (fun _ s' =>
      exists l, a_log s' = L ++ [l] /\ a_iter s' = i /\ l_iter l = i /\ l_nb l = nb /\ l_nLB l = ext_opp (a_vLB s') /\
        l_nUB l = ext_opp vu) s.
  Proof.
    intros Hs HU. unfold lower_bound_step.
    set (P := fun s : ast => a_log s = L /\ a_iter s = i /\ a_nb s = nb /\ a_vUB s = vu).
    assert (PS : P s) by (destruct Hs as (? & ? & ? & ?); repeat split; assumption). clear Hs HU.
    apply wp_bind, wp_mono with (E := fun _ => P) (Q := fun _ => P); [apply pres_deterministic; auto| |auto].
    clear s PS. intros [y v] s Hs. apply wp_bind, wp_get.
    eapply wp_bind_mono with (P := fun _ => P).
    - match goal with |- wp _ ?m _ ?s0 => assert (PR : pres P m) by pt end. eapply wp_mono; [apply PR, Hs|auto|auto].
    - clear s Hs. intros _ s (A1 & A2 & A3 & A4). apply wp_bind. unfold gap_now. apply wp_bind, wp_get, wp_lift; [|auto]. intros g _.
      apply wp_bind. unfold store_info. apply wp_bind.
      unfold gap_now. apply wp_bind, wp_get, wp_lift; [|auto]. intros g' _. apply wp_bind, wp_clock. apply wp_put; intros _; [exact Logic.I|].
      apply wp_ret. eexists. split; [cbn [a_log set_log bump set_t]; rewrite A1; reflexivity|].
      cbn. rewrite A2, A3, A4. auto.
  Qed.

  Lemma two_rows s s' : (forall t t', t <= t' -> (w_clock w t <= w_clock w t')%Q) ->
    iteration w I cf s = (Ok Continue, s') ->
    exists u l, a_log s' = a_log s ++ [u; l] /\ a_iter s' = S (a_iter s) /\
      l_iter u = a_iter s /\ l_iter l = a_iter s /\ l_nb u = a_nb s /\ l_nb l = a_nb s /\
      l_nLB u = ext_opp (a_vLB s) /\ l_nUB u = l_nUB l.
  Proof.
    intros MC H. set (L := a_log s). set (i := a_iter s). set (nb := a_nb s). set (vl := a_vLB s).
    set (G := fun (s' : ast) (j : nat) => exists u l, a_log s' = L ++ [u; l] /\ a_iter s' = j /\
      l_iter u = i /\ l_iter l = i /\ l_nb u = nb /\ l_nb l = nb /\ l_nLB u = ext_opp vl /\ l_nUB u = l_nUB l).
    assert (W : wp (fun _ _ => True) (iteration w I cf) (fun v s' => v = Continue -> G s' (S i)) s).
    2: { unfold wp in W. rewrite H in W. destruct (W eq_refl) as (u & l & W'). exists u, l. exact W'. }
    rewrite iteration_eq. apply wp_bind. rewrite bound_phase_eq.
    assert (S0 : logged L i nb vl s) by (repeat split). clearbody L i nb vl. clear H.
    apply wp_bind, wp_mono with (1 := pres_gap _ s S0); [|auto]. intros _ s1 H1.
    apply wp_bind, wp_mono with (E := fun _ => logged L i nb vl) (Q := fun _ => logged L i nb vl); [apply pres_big_M; auto| |auto].
    intros _ s2 H2.
    apply wp_bind, wp_mono with (1 := two_upper L i nb vl s2 H2); [|auto].
    clear s S0 s1 H1 s2 H2. intros [x ok] s1 H1. unfold after_upper.
    destruct ok; [apply wp_ret; unfold after_bounds; apply wp_ret; discriminate|].
    apply wp_bind, wp_available. destruct (Qle_bool _ 0) eqn:ET; [apply wp_ret; unfold after_bounds; apply wp_ret; discriminate|].
    destruct H1 as [[_ (t & T1 & T2)] | (u & H1 & U1 & U2 & U3 & U4)].
    { exfalso. pose proof (MC _ _ T1). assert (Qle_bool (Qmax (c_limit cf - (w_clock w (a_t s1) - a_start s1)) 0) 0 = true).
      { apply Qle_bool_iff. apply Q.max_lub; lra. } congruence. }
    apply wp_bind. apply wp_mono with (E := fun _ _ => True) (Q := fun (_ : gapv) s' => G s' i); [| |auto].
    - eapply wp_mono; [eapply two_lower; [exact H1|reflexivity]| |auto].
      intros _ s2 (l & B1 & B2 & B3 & B4 & B5 & B6). exists u, l. rewrite B1, <- app_assoc.
      repeat (split; [try assumption; reflexivity|]). rewrite U4, B6. reflexivity.
    - clear s1 H1 U4 ET. intros g s1 HG.
      destruct (gap_leb g (c_gap cf)); [apply wp_ret; unfold after_bounds; apply wp_ret; discriminate|].
      apply wp_bind, wp_available. destruct (Qle_bool _ 0); [apply wp_ret; unfold after_bounds; apply wp_ret; discriminate|].
      apply wp_ret. unfold after_bounds. apply wp_bind. set (P := fun s => G s i).
      assert (PI : forall cands, pres P (improve_vlb w I cands)) by (intro; apply pres_improve0; auto).
      apply wp_mono with (E := fun _ => P) (Q := fun _ => P); [apply pres_split0; auto| |auto].
      intros [R nc] s2 H2. apply wp_bind.
      apply wp_mono with (E := fun _ => P) (Q := fun _ => P); [apply pres_merge0; auto| |auto].
      intros _ s3 (u' & l' & C1 & C2 & C3). unfold next_iteration. apply wp_bind, wp_available.
      destruct (Qle_bool _ 0); [apply wp_ret; discriminate|]. apply wp_bind, wp_put; intros _; [exact Logic.I|].
      apply wp_bind, wp_available. destruct (Qle_bool _ 0); apply wp_ret; [discriminate|]. intros _. exists u', l'.
      cbn [a_iter a_log set_iter bump set_t]. rewrite C2. auto.
  Qed.
End Mono.
