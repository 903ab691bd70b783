(** Time limits handed to Gurobi (C81). *)
From Coq Require Import String.
From Verif Require Import Base BaseFacts Spec Instance OptModels OptFacts Initial Bounds Refine CostRefine Merge BigM Adaptive AdaptiveSpec AdaptiveWp LogSpec AdaptiveLog Milp Report Main.

Lemma cclp_time V ub lz bM st pr g t t' m : cclp_model V ub lz bM st pr g t = Ok m -> exists m', cclp_model V ub lz bM st pr g t' = Ok m' /\ m_time m' = Some t'.
Proof.
  unfold cclp_model. destruct (negb (forallb (fun kv => fst kv <? v_k V) st)); [discriminate|]. destruct (if ub then _ else _) as [rows|e]; cbn [rbind]; [|discriminate].
  destruct (negb (forallb (fun s => s <? v_k V) pr)); [discriminate|]. intros _. eexists. split; reflexivity.
Qed.
Lemma get_time V ub lz bM st pr g t m : cclp_model V ub lz bM st pr g t = Ok m -> m_time m = Some t.
Proof. intro E. destruct (cclp_time V ub lz bM st pr g t t m E) as (m' & E' & H). congruence. Qed.
Lemma qmax_case a : (0 <= a)%Q /\ (Qmax a 0 == a)%Q \/ (a <= 0)%Q /\ (Qmax a 0 == 0)%Q.
Proof. destruct (Qlt_le_dec a 0) as [L|L]; [right|left]; (split; [lra|]); apply Qle_antisym; try apply Q.max_lub; try lra; try apply Q.le_max_l; apply Q.le_max_r. Qed.

Lemma rmap_not {A B} (f : A -> res B) e l : (forall a, f a <> Err e) -> rmap f l <> Err e.
Proof.
  intros H. induction l as [|a l IH]; cbn; [discriminate|]. assert (X := H a). destruct (f a) as [b|e']; cbn; [|congruence].
  destruct (rmap f l) as [r|e']; cbn; [discriminate|congruence].
Qed.
Lemma geti_not {A} (l : list A) i : geti l i <> Err GurobiError.
Proof. unfold geti. destruct (nth_error l i); discriminate. Qed.
Lemma cclp_not_gurobi V ub lz bM st pr g t : cclp_model V ub lz bM st pr g t <> Err GurobiError.
Proof.
  unfold cclp_model. destruct (negb (forallb (fun kv => fst kv <? v_k V) st)); [discriminate|].
  assert (X : (if ub then all_big_m_rows V bM else Ok (all_indicator_rows V)) <> Err GurobiError).
  { destruct ub; [|discriminate]. unfold all_big_m_rows.
    assert (Y : rmap (fun s => do M <- geti bM s ;; big_m_rows V s M) (seq 0 (v_k V)) <> Err GurobiError).
    { apply rmap_not. intro s. assert (G := geti_not bM s). destruct (geti bM s) as [M|e]; cbn; [|congruence]. unfold big_m_rows.
      assert (Z : rmap (fun i => do q <- geti M i ;; if Qle_bool big_m_threshold q then Ok [CBigM (v_row V s i) (v_rhs V s i) q s]
        else if all_continuous V then Ok [] else Ok [CLe (v_row V s i) (v_rhs V s i + q)%Q]) (seq 0 (v_m V s)) <> Err GurobiError).
      { apply rmap_not. intro i. assert (G2 := geti_not M i). destruct (geti M i) as [q|e]; cbn [rbind]; [|congruence].
        destruct (Qle_bool _ _); [discriminate|]. destruct (all_continuous V); discriminate. }
      destruct (rmap _ (seq 0 (v_m V s))) as [r|e]; cbn [rbind]; [discriminate|congruence]. }
    destruct (rmap _ _) as [r|e]; cbn [rbind]; [discriminate|congruence]. }
  destruct (if ub then _ else _) as [rows|e]; cbn [rbind]; [|congruence]. destruct (negb (forallb (fun s => s <? v_k V) pr)); discriminate.
Qed.

Section Deadline.
  Variables (w : world) (I : inst) (cf : cfg).

  (** What solve_cclp does with the time it is given. *)
  Lemma cclp_steps V ub lz bM st pr time gap s : wp (fun e s' => e = GurobiError -> (grb_time_limit time (w_clock w (a_t s)) (w_clock w (S (a_t s))) < 0)%Q /\ s' = bump (bump s))
    (solve_cclp w V ub lz bM st pr time gap) (fun r s' => exists m limit, w_solve w (a_t s + 3) m = Solved (fst (fst (fst r))) (snd (fst (fst r))) (snd (fst r)) (snd r) /\
      m_time m = Some limit /\ limit = grb_time_limit time (w_clock w (a_t s)) (w_clock w (S (a_t s))) /\ (0 <= limit)%Q /\ (exists t, s' = set_t t s)) s.
  Proof.
    unfold solve_cclp. apply wp_bind, wp_clock. apply wp_bind, wp_lift.
    2:{ intros e E H. subst e. now apply cclp_not_gurobi in E. }
    intros m0 E0. apply wp_bind, wp_clock.
    change (a_t (bump s)) with (S (a_t s)). set (limit := grb_time_limit _ _ _). destruct (Qlt_bool limit 0) eqn:EL.
    { intros _. split; [|reflexivity]. destruct (Qlt_le_dec limit 0) as [L|L]; [exact L|]. unfold Qlt_bool in EL. apply Qle_bool_iff in L. rewrite L in EL. discriminate EL. }
    unfold Qlt_bool in EL. apply negb_false_iff, Qle_bool_iff in EL. destruct (cclp_time _ _ _ _ _ _ _ _ limit _ E0) as (m & EM & TM).
    rewrite EM. apply wp_bind, wp_lift; [|discriminate]. intros m' E'. injection E' as <-. apply wp_bind, wp_call; [intros _ X; discriminate X|intros _ X; discriminate X|]. intros _.
    apply wp_lift; [|intros e E X; subst e; destruct (w_solve w _ m); discriminate E].
    intros [[[x z] vo] vb] EG. change (a_t (bump (bump s))) with (S (S (a_t s))) in EG. replace (a_t s + 3) with (S (S (S (a_t s)))) by lia.
    destruct (w_solve w _ m) as [x' z' vo' vb'| | |] eqn:EW; cbn [get_solution] in EG; try discriminate. injection EG as -> -> -> ->.
    exists m, limit. split; [exact EW|]. split; [exact TM|]. split; [reflexivity|]. split; [exact EL|]. exists (S (S (S (S (a_t s))))). destruct s. reflexivity.
  Qed.
  Lemma cclp_error V ub lz bM st pr time gap m0 s : cclp_model V ub lz bM st pr gap time = Ok m0 ->
    ((exists s', solve_cclp w V ub lz bM st pr time gap s = (Err GurobiError, s')) <-> (grb_time_limit time (w_clock w (a_t s)) (w_clock w (S (a_t s))) < 0)%Q).
  Proof.
    intro E0. split.
    - intros (s' & E). assert (W := cclp_steps V ub lz bM st pr time gap s). unfold wp in W. rewrite E in W. now apply W.
    - intro L. exists (bump (bump s)). unfold solve_cclp, mbind, clock, lift. change (a_t (bump s)) with (S (a_t s)). rewrite E0.
      destruct (Qlt_bool _ 0) eqn:EL; [reflexivity|]. unfold Qlt_bool in EL. apply negb_false_iff, Qle_bool_iff in EL. lra.
  Qed.

  (** The relaxation of the adaptive method *)
  Lemma deadline s x z vo vb s' : in_time w cf (a_start s) (a_t s) -> partition_bound w I cf s = (Ok (x, z, vo, vb), s') ->
    exists t m limit, w_solve w t m = Solved x z vo vb /\ m_time m = Some limit /\ (0 <= limit)%Q /\
      (w_clock w (a_t s + 2) + limit == a_start s + c_limit cf + (w_clock w (a_t s + 1) - w_clock w (a_t s)))%Q.
  Proof.
    intros IT E.
    assert (W : wp (fun _ _ => True) (partition_bound w I cf) (fun r _ => exists t m limit, w_solve w t m = Solved (fst (fst (fst r))) (snd (fst (fst r))) (snd (fst r)) (snd r) /\
      m_time m = Some limit /\ (0 <= limit)%Q /\ (w_clock w (a_t s + 2) + limit == a_start s + c_limit cf + (w_clock w (a_t s + 1) - w_clock w (a_t s)))%Q) s).
    2:{ apply (wp_run _ _ _ _ _ _ W) in E. exact E. }
    clear E. unfold partition_bound. apply wp_bind, wp_available. apply wp_bind, wp_get. apply wp_bind, wp_lift; [|auto]. intros zUB _.
    eapply wp_bind_mono; [eapply wp_mono; [apply cclp_steps|intros a s1 H; exact H|auto]|]. cbv beta. intros [[[x1 z1] vo1] vb1] s1 (m & limit & H1 & H2 & H3 & H4 & _).
    apply wp_bind, wp_get. apply wp_bind, wp_lift; [|auto]. intros _ _. apply wp_ret. exists (a_t (bump s) + 3), m, limit. split; [exact H1|]. split; [exact H2|]. split; [exact H4|].
    unfold grb_time_limit in H3. change (a_t (bump s)) with (S (a_t s)) in H3. replace (a_t s + 2) with (S (S (a_t s))) by lia. replace (a_t s + 1) with (S (a_t s)) by lia.
    unfold in_time in IT. destruct (qmax_case (c_limit cf - (w_clock w (a_t s) - a_start s))) as [[_ M]|[M _]]; [|lra]. rewrite H3, M. ring.
  Qed.
  Lemma too_late s : ~ in_time w cf (a_start s) (a_t s) -> (w_clock w (a_t s + 1) < w_clock w (a_t s + 2))%Q -> forall r s', partition_bound w I cf s <> (Ok r, s').
  Proof.
    intros IT LT r s' E.
    assert (W : wp (fun _ _ => True) (partition_bound w I cf) (fun _ _ => False) s); [|apply (wp_run _ _ _ _ _ _ W) in E; exact E].
    clear E. unfold partition_bound. apply wp_bind, wp_available. apply wp_bind, wp_get. apply wp_bind, wp_lift; [|auto]. intros zUB _.
    eapply wp_bind_mono; [eapply wp_mono; [apply cclp_steps|intros a s1 H; exact H|auto]|]. cbv beta. intros [[[x1 z1] vo1] vb1] s1 (m & limit & H1 & H2 & H3 & H4 & _). exfalso.
    unfold grb_time_limit in H3. change (a_t (bump s)) with (S (a_t s)) in H3. replace (a_t s + 2) with (S (S (a_t s))) in LT by lia. replace (a_t s + 1) with (S (a_t s)) in LT by lia.
    unfold in_time in IT. rewrite H3 in H4. destruct (qmax_case (c_limit cf - (w_clock w (a_t s) - a_start s))) as [[_ M]|[_ M]]; rewrite M in H4; lra.
  Qed.

  (** MilpSolver *)
  Lemma milp_in_time ub meth s bt s' : (forall t, (w_clock w t < w_clock w (S t))%Q) -> milp_solve w I cf ub meth s = (Ok bt, s') ->
    forall b, bt = Some b -> (b < c_limit cf)%Q.
  Proof.
    intros LT E.
    assert (W : wp (fun _ _ => True) (milp_solve w I cf ub meth) (fun bt _ => forall b, bt = Some b -> (b < c_limit cf)%Q) s); [|apply (wp_run _ _ _ _ _ _ W) in E; exact E].
    clear E. unfold milp_solve.
    eapply wp_bind_mono with (P := fun bt s1 => forall b, bt = Some b -> (b == c_limit cf - Qmax (c_limit cf - (w_clock w (pred (a_t s1)) - a_start s1)) 0)%Q /\ 0 < a_t s1).
    { destruct ub; [|apply wp_ret; discriminate]. unfold milp_compute_big_m. apply wp_bind, wp_steps; [auto|]. intros [] s1 _. apply wp_bind, wp_available. apply wp_ret, wp_ret.
      intros b H. injection H as <-. split; [reflexivity|cbn; lia]. }
    cbv beta. intros o s1 H1. apply wp_bind, wp_available. apply wp_bind, wp_available. apply wp_bind, wp_get.
    eapply wp_bind_mono; [eapply wp_mono; [apply cclp_steps|intros a s2 H; exact H|auto]|]. cbv beta. intros [[[x1 z1] vo1] vb1] s2 (m & limit & _ & _ & H3 & H4 & _).
    assert (R : forall b, o = Some b -> (b < c_limit cf)%Q).
    { intros b Hb. destruct (H1 b Hb) as [H5 H6]. unfold grb_time_limit in H3. change (a_t (bump (bump s1))) with (S (S (a_t s1))) in H3.
      assert (L1 := LT (S (S (a_t s1)))). assert (L2 := LT (pred (a_t s1))). replace (S (pred (a_t s1))) with (a_t s1) in L2 by lia.
      rewrite H3 in H4. destruct (qmax_case (c_limit cf - (w_clock w (a_t s1) - a_start s1))) as [[_ M]|[_ M]]; rewrite M in H4; [|lra].
      destruct (qmax_case (c_limit cf - (w_clock w (pred (a_t s1)) - a_start s1))) as [[_ M2]|[M1 M2]]; rewrite M2 in H5; lra. }
    clear H1 H3. repeat (apply wp_bind; apply wp_put; [auto|]; intros _). apply wp_ret. exact R.
  Qed.
End Deadline.

(** main.py *)
Lemma main_in_time w I name path fuel rfuel m r files : m = 1%Z \/ m = 2%Z -> (forall t, (w_clock w t < w_clock w (S t))%Q) ->
  main w I name path fuel rfuel m = (r, files) -> files <> [] ->
  exists b s, milp_run w I (cfgM rfuel) true (if (m =? 1)%Z then Song else Belotti) = (Ok (Some b), s) /\ (b < 3600)%Q.
Proof.
  intros HM LT E NE.
  assert (A : forall str meth, bigm_of_string str = meth -> main_milp w I name path rfuel str = (r, files) ->
    exists b s, milp_run w I (cfgM rfuel) true meth = (Ok (Some b), s) /\ (b < 3600)%Q).
  { intros str meth ES H. unfold main_milp in H. rewrite ES in H. destruct (milp_run w I (cfgM rfuel) true meth) as [[bt|e] s] eqn:ER.
    2:{ injection H as _ <-. now elim NE. }
    unfold milp_run, mbind at 1 in ER. destruct (milp_construct w I (ast0 I)) as [[u|e] s1]; [|discriminate ER].
    assert (T := milp_in_time w I (cfgM rfuel) true meth s1 bt s LT ER).
    assert (SB : exists b, bt = Some b).
    { revert ER. unfold milp_solve, mbind at 1 2. destruct (milp_compute_big_m _ _ _ _ _) as [[b|e] s2]; [|discriminate]. unfold mret at 1.
      intro ER. exists b.
      assert (W : wp (fun _ _ => True) (let! time := available w (cfgM rfuel) in let! _ := available w (cfgM rfuel) in let! s := mget in
        let! (x, _, v_obj, v_bnd) := solve_cclp w (milp_view I) true false (a_bigM s) [] [] time (c_gap (cfgM rfuel)) in
        put w (set_xLB (Some x)) ;;; put w (set_vLB (Fin v_obj) false) ;;; put w (set_vUB (Fin v_bnd) false) ;;; mret (Some b))%mon (fun o _ => o = Some b) s2).
      { apply wp_bind, wp_available. apply wp_bind, wp_available. apply wp_bind, wp_get. eapply wp_bind_mono; [eapply wp_mono; [apply cclp_steps|intros a s3 HH; exact HH|auto]|]. intros [[[x z] vo] vb] s3 _.
        repeat (apply wp_bind; apply wp_put; [auto|]; intros _). now apply wp_ret. }
      apply (wp_run _ _ _ _ _ _ W) in ER. exact ER. }
    destruct SB as (b & ->). exists b, s. split; [reflexivity|]. now apply T. }
  destruct HM as [-> | ->]; [apply (A "song"%string)|apply (A "belotti"%string)]; auto.
Qed.
