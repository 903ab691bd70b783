(** Proofs for C90. *)
From Verif Require Import Base BaseFacts Spec Instance InstanceFacts OptModels Initial Bounds Refine CostRefine Merge MergeFacts
  Knapsack Violations BigM Adaptive AdaptiveSpec AdaptiveWp ResultText StopSpec StopFacts StopRuns TurnsSpec TurnsFacts LimitSpec.

Lemma cclp_timed V ub lz bM st pr gap q q' : match cclp_model V ub lz bM st pr gap q, cclp_model V ub lz bM st pr gap q' with
  | Ok m, Ok m' => exists m0, m = timed m0 q /\ m' = timed m0 q'
  | Err e, Err e' => e = e'
  | _, _ => False
  end.
Proof.
  unfold cclp_model. destruct (negb _); [reflexivity|]. destruct (if ub then _ else _) as [rows|e]; cbn [rbind]; [|reflexivity].
  destruct (negb _); [reflexivity|]. exists (mkModel (v_n V) (v_cont V) (v_k V) (v_c V) 0 (rows ++ chance_row V :: map CFix0 pr) st (Some gap) None lz). now split.
Qed.

Section Limit.
  Variable w : world.
  Variable I : inst.
  Variable cf : cfg.
  Variables q q' : Q.
  Hypothesis LE : (q <= q')%Q.
  Hypothesis HM : clock_mono w.
  Hypothesis HQ : quick w.
  Local Notation cf1 := (limited cf q).
  Local Notation cf2 := (limited cf q').
  (** The first run is cut, in the sense of C, or goes on as the second. *)
  Definition cut {A} (C : res A -> ast -> Prop) (k : nat) (m m' : M A) (s : ast) : Prop :=
    m s = m' s \/ (C (fst (m s)) (snd (m s)) /\ ahead k (snd (m s)) (snd (m' s))).
  Definition refused {A} (r : res A) (s : ast) : Prop := r = Err GurobiError.
  Lemma cut_pre {A B} C k (m : M A) (f f' : A -> M B) s : (forall a s', m s = (Ok a, s') -> cut C k (f a) (f' a) s') -> cut C k (mbind m f) (mbind m f') s.
  Proof. intro H. unfold cut, mbind. destruct (m s) as [[a|e] s1] eqn:E; [now apply H|now left]. Qed.
  Lemma cut_same {A} C k (m : M A) s : cut C k m m s. Proof. now left. Qed.
  (** A refusal is passed on. *)
  Lemma cut_refused {A B} (C : res B -> ast -> Prop) k1 k2 k (m m' : M A) (f f' : A -> M B) s : cut refused k1 m m' s ->
    (forall a s', m' s = (Ok a, s') -> cut C k2 (f a) (f' a) s') -> (forall a, up k2 (f' a)) -> (forall s, C (Err GurobiError) s) ->
    k1 + k2 <= k -> cut C k (mbind m f) (mbind m' f') s.
  Proof.
    intros [E|[E H]] HF U HC L; unfold cut, mbind.
    - rewrite E. destruct (m' s) as [[a|e] s1]; [|now left]. destruct (HF a s1 eq_refl) as [F|[F1 F2]]; [now left|right]. split; [exact F1|eapply ahead_le; [exact F2|lia]].
    - right. unfold refused in E. destruct (m s) as [[a|e] s1]; [discriminate|]. cbn [fst snd] in *. split; [injection E as ->; apply HC|].
      destruct (m' s) as [[a|e'] s2]; cbn [snd] in *; [|eapply ahead_le; [exact H|lia]].
      eapply ahead_le; [eapply ahead_trans; [exact H|apply U]|exact L].
  Qed.

  Definition late (s : ast) : Prop := (q - (w_clock w (pred (a_t s)) - a_start s) <= 0)%Q.
  Lemma available_val L s : available w (limited cf L) s = (Ok (Qmax (L - (w_clock w (a_t s) - a_start s)) 0), bump s).
  Proof. reflexivity. Qed.
  Lemma le0 x : Qle_bool (Qmax x 0) 0 = Qle_bool x 0.
  Proof.
    destruct (Qle_bool x 0) eqn:E.
    - apply Qle_bool_iff in E. apply Qle_bool_iff. apply Q.max_lub; lra.
    - apply not_true_iff_false in E. apply not_true_iff_false. intro H. apply E. apply Qle_bool_iff in H. apply Qle_bool_iff. eapply Qle_trans; [|exact H]. apply Q.le_max_l.
  Qed.
  (** A time test: the second run is in time if the first is. *)
  Lemma cut_test {A} (C : res A -> ast -> Prop) k (a a' m m' : M A) s : 
    (late (bump s) -> C (fst (a (bump s))) (snd (a (bump s))) /\ ahead 0 (snd (a (bump s))) (bump s) /\ up k m') ->
    a' = a -> cut C k m m' (bump s) ->
    cut C k (let! t := available w cf1 in if Qle_bool t 0 then a else m) (let! t := available w cf2 in if Qle_bool t 0 then a' else m') s.
  Proof.
    intros H -> HC. unfold cut, mbind. rewrite !available_val, !le0.
    set (d := (w_clock w (a_t s) - a_start s)%Q). destruct (Qle_bool (q - d) 0) eqn:E1.
    - apply Qle_bool_iff in E1. destruct (Qle_bool (q' - d) 0); [now left|right]. destruct (H E1) as (H1 & H2 & H3).
      split; [exact H1|]. eapply ahead_le; [eapply ahead_trans; [exact H2|apply H3]|lia].
    - destruct (Qle_bool (q' - d) 0) eqn:E2; [|exact HC]. apply Qle_bool_iff in E2. apply not_true_iff_false in E1. exfalso. apply E1, Qle_bool_iff. lra.
  Qed.

  Lemma up_bind {A B} k1 k2 k (m : M A) (f : A -> M B) : up k1 m -> (forall a, up k2 (f a)) -> k1 + k2 <= k -> up k (mbind m f).
  Proof.
    intros H1 H2 L s. unfold mbind. specialize (H1 s). destruct (m s) as [[a|e] s1]; cbn [snd] in *; [|eapply ahead_le; [exact H1|lia]].
    eapply ahead_le; [eapply ahead_trans; [exact H1|apply H2]|exact L].
  Qed.
  Lemma up_ret {A} k (a : A) : up k (mret a). Proof. intro s. apply ahead_refl. Qed.
  Lemma up_lift {A} k (r : res A) : up k (lift r). Proof. intro s. apply ahead_refl. Qed.
  Lemma up_le {A} k k' (m : M A) : up k m -> k <= k' -> up k' m. Proof. intros H L s. eapply ahead_le; [apply H|exact L]. Qed.

  (** Gurobi is given more time and answers the same. *)
  Lemma cut_call m t t' s : cut (A := outcome) refused 0 (call w (timed m t)) (call w (timed m t')) s.
  Proof. left. unfold call, mbind, tick. destruct (w_intr w (a_t s)); [reflexivity|]. now rewrite (HQ _ m t t'). Qed.
  Lemma HS0 : forall t, w_intr w t = true -> w_intr w t = true. Proof. trivial. Qed.
  Lemma cut_cclp V ub lz bM st pr t t' gap s : (t <= t')%Q -> cut refused 0 (solve_cclp w V ub lz bM st pr t gap) (solve_cclp w V ub lz bM st pr t' gap) s.
  Proof.
    intro LT. pose proof HS0 as HS. unfold solve_cclp. apply cut_pre. intros t1 s1 _.
    assert (X := cclp_timed V ub lz bM st pr gap t t'). destruct (cclp_model V ub lz bM st pr gap t) as [m|e], (cclp_model V ub lz bM st pr gap t') as [m'|e']; try contradiction X;
      [|subst e'; apply cut_same]. clear X.
    assert (U : up 0 (let! m := lift (Ok m') in let! t2 := clock w in let limit := grb_time_limit t' t1 t2 in if Qlt_bool limit 0 then mraise GurobiError else
      let! m := lift (cclp_model V ub lz bM st pr gap limit) in let! o := call w m in lift (get_solution o))).
    { apply (up_okk w 0 (fun w => let! m := lift (Ok m') in let! t2 := clock w in let limit := grb_time_limit t' t1 t2 in if Qlt_bool limit 0 then mraise GurobiError else
        let! m := lift (cclp_model V ub lz bM st pr gap limit) in let! o := call w m in lift (get_solution o))). intro s2.
      apply okk_last; [flat|]. intros. apply okk_last; [flat|]. intros t2 s3. cbv zeta. walk. }
    assert (E : forall (m : model) (t : Q), (let! _ := lift (Ok m) in let! t2 := clock w in let limit := grb_time_limit t t1 t2 in if Qlt_bool limit 0 then mraise GurobiError else
        let! m := lift (cclp_model V ub lz bM st pr gap limit) in let! o := call w m in lift (get_solution o)) s1 =
      (if Qlt_bool (grb_time_limit t t1 (w_clock w (a_t s1))) 0 then mraise GurobiError else
        let! m := lift (cclp_model V ub lz bM st pr gap (grb_time_limit t t1 (w_clock w (a_t s1)))) in let! o := call w m in lift (get_solution o)) (bump s1)) by reflexivity.
    specialize (U s1). cbv zeta in *. unfold cut. rewrite E in U |- *. rewrite E. clear E. set (l := grb_time_limit t t1 _). set (l' := grb_time_limit t' t1 _) in *.
    destruct (Qlt_bool l 0) eqn:E1.
    - right. split; [reflexivity|]. cbn [mraise snd]. destruct U as [U1 U2 U3 U4]. constructor; assumption.
    - assert (E2 : Qlt_bool l' 0 = false).
      { apply not_true_iff_false. intro H. apply not_true_iff_false in E1. apply E1. rewrite Qlt_bool_iff in *. unfold l, l', grb_time_limit in *. lra. }
      rewrite E2. left. unfold mbind, lift. assert (X := cclp_timed V ub lz bM st pr gap l l').
      destruct (cclp_model V ub lz bM st pr gap l) as [n|e], (cclp_model V ub lz bM st pr gap l') as [n'|e']; try contradiction X; [|now subst e'].
      destruct X as (n0 & -> & ->). destruct (cut_call n0 l l' (bump s1)) as [X|[X Y]]; [now rewrite X|]. exfalso. revert X. unfold refused, call, mbind, tick.
      destruct (w_intr w (a_t (bump s1))); [discriminate|]. cbn. destruct (w_solve w _ _); discriminate.
  Qed.
  Definition cut_bind_available {A} C k (f f' : Q -> M A) s :
    cut C k (f (Qmax (q - (w_clock w (a_t s) - a_start s)) 0)) (f' (Qmax (q' - (w_clock w (a_t s) - a_start s)) 0)) (bump s) ->
    cut C k (mbind (available w cf1) f) (mbind (available w cf2) f') s := fun H => H.
  Lemma cut_partition s : cut refused 0 (partition_bound w I cf1) (partition_bound w I cf2) s.
  Proof.
    unfold partition_bound. apply cut_bind_available. cbn [c_bigM c_lazy limited].
    apply cut_pre. intros s1 s2 _. apply cut_pre. intros z s3 _. apply cut_refused with (k1 := 0) (k2 := 0).
    - apply cut_cclp. apply Q.max_le_compat_r. lra.
    - intros a s4 _. apply cut_same.
    - intros [[[x z'] vo] vb]. apply (up_bind 0 0); [intro; apply ahead_refl| |lia]. intro s4. apply (up_bind 0 0); [apply up_lift|intro; apply up_ret|lia].
    - reflexivity.
    - lia.
  Qed.
  Lemma up_record x z vo vb : up 1 (let '(ok, f) := check_feasibility (w_norm w) I x in
      put w (set_fe (Some f)) ;;;
      put w (set_zUB (Some z)) ;;;
      let! s := mget in
      (if ext_leb (Fin vb) (ext_add (a_vUB s) (1 # 100000000)) then
         (if ext_leb (Fin vo) (ext_add (a_vUB s) (1 # 100000000)) then put w (set_xUB (Some x)) else mret tt) ;;;
         put w (set_vUB (Fin vb) false)
       else mret tt) ;;;
      put w (fun s => set_lb (save_feasible (a_lb s) (get_feasible_scenarios f)) s) ;;;
      store_info w ;;;
      mret (Some x, ok)).
  Proof.
    pose proof HS0 as HS. apply (up_okk w 1 (fun w0 => let '(ok, f) := check_feasibility (w_norm w) I x in
      put w0 (set_fe (Some f)) ;;;
      put w0 (set_zUB (Some z)) ;;;
      let! s := mget in
      (if ext_leb (Fin vb) (ext_add (a_vUB s) (1 # 100000000)) then
         (if ext_leb (Fin vo) (ext_add (a_vUB s) (1 # 100000000)) then put w0 (set_xUB (Some x)) else mret tt) ;;;
         put w0 (set_vUB (Fin vb) false)
       else mret tt) ;;;
      put w0 (fun s => set_lb (save_feasible (a_lb s) (get_feasible_scenarios f)) s) ;;;
      store_info w0 ;;;
      mret (Some x, ok))).
    intro s0. destruct (check_feasibility (w_norm w) I x) as [ok f]. do 2 (apply okk_first; [walk|intros ? ? _]).
    apply okk_first; [flat|]. intros s5 s6 E. injection E as <- <-.
    apply okk_last.
    - destruct (ext_leb (Fin vb) (ext_add (a_vUB s'0) (1 # 100000000))) eqn:EB; [|apply okk_le with (k := 0); [flat|lia]].
      apply okk_first; [walk|]. intros u s6 E6. apply okk_put; [exact HS|].
      assert (EU : a_vUB s6 = a_vUB s'0).
      { destruct (ext_leb (Fin vo) _); [|unfold mret in E6; now injection E6 as _ <-].
        unfold put, mbind, tick in E6. destruct (w_intr w _); [discriminate|]. now injection E6 as _ <-. }
      constructor; cbn; [exists []; now rewrite app_nil_r|lia|apply ext_leb_refl'|]. rewrite EU.
      change (ext_leb (Fin vb) (ext_add (a_vUB s'0) (Qn 1 * (1 # 100000000))) = true).
      eapply ext_leb_trans; [exact EB|]. apply ext_add_mono_r. vm_compute. discriminate.
    - intros u s6. apply okk_last; [walk|]. intros. apply okk_last; [now apply ok_store|intros; flat].
  Qed.
  Definition cutU (r : res (option (list Q) * bool)) (s : ast) : Prop := r = Err GurobiError \/ exists x, r = Ok (x, false) /\ late s.
  Lemma up_available k L : up k (available w (limited cf L)).
  Proof. intro s. rewrite available_val. now apply ahead_same. Qed.
  Lemma cut_upper s : cut cutU 1 (upper_bound_step w I cf1) (upper_bound_step w I cf2) s.
  Proof.
    pose proof HS0 as HS. unfold upper_bound_step. apply cut_pre. intros s0 s1 _.
    apply cut_refused with (k1 := 0) (k2 := 1).
    - destruct (a_nb s0 =? min_size I); [apply cut_same|apply cut_partition].
    - intros [[[x z] vo] vb] s2 _. apply cut_test; [|reflexivity|apply cut_same]. intro L. split; [right; eexists; split; [reflexivity|exact L]|].
      split; [apply ahead_refl|]. apply up_record.
    - intros [[[x z] vo] vb]. apply (up_bind 0 1); [apply up_available| |lia]. intro t. destruct (Qle_bool t 0); [|apply up_record].
      intro s2. apply ahead_refl.
    - intros. now left.
    - lia.
  Qed.
  Definition cutB (r : res (verdict + option (list Q))) (s : ast) : Prop := r = Err GurobiError \/ r = Ok (inl TimeUp).
  Definition after_upper (c : cfg) (x : option (list Q)) (ok : bool) : M (verdict + option (list Q)) :=
    if ok then mret (inl Feasible)
    else
      let! t := available w c in
      if Qle_bool t 0 then mret (inl TimeUp)
      else
        let! g := lower_bound_step w I c x in
        if gap_leb g (c_gap c) then mret (inl GapReached)
        else
          let! t := available w c in
          if Qle_bool t 0 then mret (inl TimeUp) else mret (inr x).
  Lemma up_lower x : up 0 (lower_bound_step w I cf2 x).
  Proof. apply (up_okk w 0 (fun w => lower_bound_step w I cf2 x)). intro. apply ok_lower. exact HS0. Qed.
  Lemma up_lower_tail x : up 0 (let! g := lower_bound_step w I cf2 x in if gap_leb g (c_gap cf2) then mret (inl GapReached)
    else let! t := available w cf2 in if Qle_bool t 0 then mret (inl TimeUp) else mret (A := verdict + option (list Q)) (inr x)).
  Proof.
    apply (up_bind 0 0); [apply up_lower| |lia]. intro g. destruct (gap_leb g _); [apply up_ret|].
    apply (up_bind 0 0); [apply up_available| |lia]. intro t. destruct (Qle_bool t 0); apply up_ret.
  Qed.
  Lemma up_after x ok : up 0 (after_upper cf2 x ok).
  Proof.
    unfold after_upper. destruct ok; [apply up_ret|]. apply (up_bind 0 0); [apply up_available| |lia]. intro t. destruct (Qle_bool t 0); [apply up_ret|apply up_lower_tail].
  Qed.
  Lemma cut_after x ok s : cut cutB 0 (after_upper cf1 x ok) (after_upper cf2 x ok) s.
  Proof.
    unfold after_upper. destruct ok; [apply cut_same|]. apply cut_test; [|reflexivity|].
    - intros _. split; [now right|]. split; [apply ahead_refl|]. apply up_lower_tail.
    - change (lower_bound_step w I cf1 x) with (lower_bound_step w I cf2 x). apply cut_pre. intros g s1 _. change (c_gap cf1) with (c_gap cf2).
      destruct (gap_leb g (c_gap cf2)); [apply cut_same|]. apply cut_test; [|reflexivity|apply cut_same].
      intros _. split; [now right|]. split; [apply ahead_refl|apply up_ret].
  Qed.
  Lemma late_again x s : late s -> fst (after_upper cf1 x false s) = Ok (inl TimeUp) /\ ahead 0 (snd (after_upper cf1 x false s)) s.
  Proof.
    intro L. unfold after_upper, mbind. rewrite available_val, le0.
    assert (E : Qle_bool (q - (w_clock w (a_t s) - a_start s)) 0 = true).
    { apply Qle_bool_iff. unfold late in L. pose proof (HM (pred (a_t s)) (a_t s) ltac:(lia)). lra. }
    rewrite E. split; [reflexivity|now apply ahead_same].
  Qed.
  Lemma cut_bounds s : cut cutB 1 (bound_phase w I cf1) (bound_phase w I cf2) s.
  Proof.
    unfold bound_phase. apply cut_pre. intros g s1 _. change (big_M w I cf1) with (big_M w I cf2). apply cut_pre. intros u s2 _.
    change (cut cutB 1 (mbind (upper_bound_step w I cf1) (fun '(x, ok) => after_upper cf1 x ok)) (mbind (upper_bound_step w I cf2) (fun '(x, ok) => after_upper cf2 x ok)) s2).
    unfold mbind. destruct (cut_upper s2) as [E|[C A]].
    - unfold cut. rewrite E. destruct (upper_bound_step w I cf2 s2) as [[[x ok]|e] s3]; [|now left].
      destruct (cut_after x ok s3) as [F|[F1 F2]]; [now left|right]. split; [exact F1|]. eapply ahead_le; [exact F2|lia].
    - right. destruct (upper_bound_step w I cf1 s2) as [r s3]. cbn [fst snd] in C, A.
      assert (G : forall s4, ahead 0 s4 s3 -> ahead 1 s4 (snd (let (r, s') := upper_bound_step w I cf2 s2 in match r with Ok a => (let '(x, ok) := a in after_upper cf2 x ok) s' | Err e => (Err e, s') end))).
      { intros s4 H4. destruct (upper_bound_step w I cf2 s2) as [[[x ok]|e] s5]; cbn [snd] in A.
        - eapply ahead_le; [eapply ahead_trans; [exact H4|eapply ahead_trans; [exact A|apply up_after]]|lia].
        - cbn [snd]. eapply ahead_le; [eapply ahead_trans; [exact H4|exact A]|lia]. }
      destruct C as [->|(x & -> & L)].
      + split; [now left|]. apply G, ahead_refl.
      + destruct (late_again x s3 L) as [F1 F2]. split; [right; exact F1|]. apply G, F2.
  Qed.
  Definition cutV (r : res verdict) (s : ast) : Prop := r = Err GurobiError \/ r = Ok TimeUp.
  Lemma up_next : up 0 (next_iteration w cf2).
  Proof. apply (up_okk w 0 (fun w => next_iteration w cf2)). intro. apply ok_next. exact HS0. Qed.
  Lemma up_rest x : up 0 (let! (R, nc) := split_step w I cf2 in merge_step w I cf2 x R nc ;;; next_iteration w cf2).
  Proof.
    apply (up_bind 0 0); [apply (up_okk w 0 (fun w => split_step w I cf2)); intro; apply ok_split; exact HS0| |lia]. intros [R nc].
    apply (up_bind 0 0); [apply (up_okk w 0 (fun w => merge_step w I cf2 x R nc)); intro; apply ok_merge; exact HS0|intro; apply up_next|lia].
  Qed.
  Lemma cut_next s : cut cutV 0 (next_iteration w cf1) (next_iteration w cf2) s.
  Proof.
    unfold next_iteration.
    assert (U : up 0 (let! t := available w cf2 in if Qle_bool t 0 then mret TimeUp else mret Continue)).
    { apply (up_bind 0 0); [apply up_available| |lia]. intro t. destruct (Qle_bool t 0); apply up_ret. }
    apply cut_test; [|reflexivity|].
    - intros _. split; [now right|]. split; [apply ahead_refl|]. apply (up_bind 0 0); [|intro; exact U|lia].
      apply (up_okk w 0 (fun w => put w (fun s => set_iter (S (a_iter s)) s))). intro s1. apply okk_put; [exact HS0|].
      constructor; cbn; [exists []; now rewrite app_nil_r|lia|apply ext_leb_refl'|apply ext_add_le, (slack_pos 0)].
    - apply cut_pre. intros u s1 _. apply cut_test; [|reflexivity|apply cut_same]. intros _. split; [now right|]. split; [apply ahead_refl|apply up_ret].
  Qed.
  Lemma cut_iteration s : cut cutV 1 (iteration w I cf1) (iteration w I cf2) s.
  Proof.
    unfold iteration, mbind at 1 4. unfold cut at 1.
    destruct (cut_bounds s) as [E|[C A]].
    - unfold mbind at 1 3 5 7. rewrite E. destruct (bound_phase w I cf2 s) as [[[v|x]|e] s1]; [now left| |now left].
      change (split_step w I cf1) with (split_step w I cf2).
      assert (X : cut cutV 0 (let! (R, nc) := split_step w I cf2 in merge_step w I cf1 x R nc ;;; next_iteration w cf1)
        (let! (R, nc) := split_step w I cf2 in merge_step w I cf2 x R nc ;;; next_iteration w cf2) s1).
      { apply cut_pre. intros [R nc] s2 _. change (merge_step w I cf1 x R nc) with (merge_step w I cf2 x R nc). apply cut_pre. intros u s3 _. apply cut_next. }
      destruct X as [X|[X1 X2]]; [now left|right]. split; [exact X1|]. eapply ahead_le; [exact X2|lia].
    - right. unfold mbind at 1 3 5. destruct (bound_phase w I cf1 s) as [r s1]. cbn [fst snd] in C, A.
      assert (G : ahead 1 s1 (snd ((let! r := bound_phase w I cf2 in match r with inl v => mret v | inr x => let! (R, nc) := split_step w I cf2 in merge_step w I cf2 x R nc ;;; next_iteration w cf2 end) s))).
      { unfold mbind at 1. destruct (bound_phase w I cf2 s) as [[[v|x]|e] s2]; cbn [snd] in A; [exact A| |exact A].
        eapply ahead_le; [eapply ahead_trans; [exact A|apply up_rest]|lia]. }
      destruct C as [->| ->]; (split; [|exact G]); [now left|now right].
  Qed.
  Lemma up_loop fuel : up fuel (main_loop w I cf2 fuel).
  Proof. apply (up_okk w fuel (fun w => main_loop w I cf2 fuel)). intro. apply ok_loop. exact HS0. Qed.
  Lemma cut_loop : forall fuel s, cut cutV fuel (main_loop w I cf1 fuel) (main_loop w I cf2 fuel) s.
  Proof.
    induction fuel as [|fuel IH]; intro s; cbn [main_loop]; [apply cut_same|]. unfold cut, mbind. destruct (cut_iteration s) as [E|[C A]].
    - rewrite E. destruct (iteration w I cf2 s) as [[v|e] s1]; [|now left]. destruct v; [|now left..].
      destruct (IH s1) as [F|[F1 F2]]; [now left|right]. split; [exact F1|]. eapply ahead_le; [exact F2|lia].
    - right. destruct (iteration w I cf1 s) as [r s1]. cbn [fst snd] in C, A.
      assert (G : ahead (S fuel) s1 (snd (let (r, s') := iteration w I cf2 s in match r with Ok a => match a with Continue => main_loop w I cf2 fuel | _ => mret a end s' | Err e => (Err e, s') end))).
      { destruct (iteration w I cf2 s) as [[v|e] s2]; cbn [snd] in A; [|cbn [snd]; eapply ahead_le; [exact A|lia]].
        destruct v; try (eapply ahead_le; [exact A|lia]). eapply ahead_le; [eapply ahead_trans; [exact A|apply up_loop]|lia]. }
      destruct C as [->| ->]; (split; [|exact G]); [now left|now right].
  Qed.
  Lemma solve_limit fuel num s : solve w I cf1 fuel num s = solve w I cf2 fuel num s \/
    (cutV (fst (solve w I cf1 fuel num s)) (snd (solve w I cf1 fuel num s)) /\ later fuel (snd (solve w I cf1 fuel num s)) (snd (solve w I cf2 fuel num s))).
  Proof.
    assert (P : cut cutV 0 (prologue w I cf1 num) (prologue w I cf2 num) s).
    { unfold prologue. apply cut_pre; intros s0 s1 _. apply cut_pre. intros [costs sols] s2 _. do 5 (apply cut_pre; intros ? ? _).
      unfold cut, mbind. rewrite !available_val, !le0. match goal with |- context [Qle_bool (q - ?d) 0] => set (dd := d) end.
      destruct (Qle_bool (q - dd) 0) eqn:E1; [right; split; [now right|apply ahead_refl]|].
      destruct (Qle_bool (q' - dd) 0) eqn:E2; [|now left]. apply Qle_bool_iff in E2. apply not_true_iff_false in E1. exfalso. apply E1, Qle_bool_iff. lra. }
    set (m1 := mbind (prologue w I cf1 num) (fun v => match v with Continue => main_loop w I cf1 fuel | _ => mret v end)).
    set (m2 := mbind (prologue w I cf2 num) (fun v => match v with Continue => main_loop w I cf2 fuel | _ => mret v end)).
    assert (EQ1 : solve w I cf1 fuel num s = mbind m1 (epilogue w) s).
    { unfold solve, m1, mbind. destruct (prologue w I cf1 num s) as [[v|e] s1]; reflexivity. }
    assert (EQ2 : solve w I cf2 fuel num s = mbind m2 (epilogue w) s).
    { unfold solve, m2, mbind. destruct (prologue w I cf2 num s) as [[v|e] s1]; reflexivity. }
    assert (C : cut cutV fuel m1 m2 s).
    { unfold cut, m1, m2, mbind. destruct P as [E|[C A]].
      - rewrite E. destruct (prologue w I cf2 num s) as [[v|e] s1]; [|now left]. destruct v; [apply cut_loop|now left..].
      - right. destruct (prologue w I cf1 num s) as [r s1]. cbn [fst snd] in C, A.
        assert (G : ahead fuel s1 (snd (let (r, s') := prologue w I cf2 num s in match r with Ok a => match a with Continue => main_loop w I cf2 fuel | _ => mret a end s' | Err e => (Err e, s') end))).
        { destruct (prologue w I cf2 num s) as [[v|e] s2]; cbn [snd] in A; [|cbn [snd]; eapply ahead_le; [exact A|lia]].
          destruct v; try (eapply ahead_le; [exact A|lia]). eapply ahead_le; [eapply ahead_trans; [exact A|apply up_loop]|lia]. }
        destruct C as [->| ->]; (split; [|exact G]); [now left|now right]. }
    rewrite EQ1, EQ2. unfold mbind at 1 2 3 4 5. destruct C as [E|[C A]]; [rewrite E; now left|right].
    destruct (m1 s) as [r s1]. cbn [fst snd] in C, A.
    assert (G : later fuel s1 (snd (let (r, s') := m2 s in match r with Ok a => epilogue w a s' | Err e => (Err e, s') end))).
    { destruct (m2 s) as [[v|e] s2]; cbn [snd] in *; [|now apply ahead_later]. eapply later_trans; [exact A|]. apply (epilogue_later w (w_intr w) HS0). }
    destruct C as [->| ->]; (split; [|exact G]); [now left|now right].
  Qed.
  Lemma run_limit fuel : run w I cf1 fuel = run w I cf2 fuel \/
    ((fst (run w I cf1 fuel) = Ok TimeUp \/ fst (run w I cf1 fuel) = Err GurobiError) /\ later fuel (snd (run w I cf1 fuel)) (snd (run w I cf2 fuel))).
  Proof.
    unfold run. change (construct w I cf1) with (construct w I cf2). unfold mbind. destruct (construct w I cf2 (ast0 I)) as [[b|e] s]; [|now left].
    destruct (solve_limit fuel b s) as [E|[[C|C] L]]; [now left|right; auto..].
  Qed.
  Lemma iteration_limit fuel : exists t, iteration_file (snd (run w I cf2 fuel)) = iteration_file (snd (run w I cf1 fuel)) ++ t.
  Proof. destruct (run_limit fuel) as [E|[_ L]]; [rewrite E; exists []; now rewrite app_nil_r|now apply later_file in L]. Qed.
End Limit.
