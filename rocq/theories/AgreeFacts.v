(** MilpSolver and AdaptivePartitioner return the optimal value (C70). *)
From Verif Require Import Base BaseFacts Spec Instance InstanceFacts OptModels OptFacts PartitionFacts Initial InitialFacts Bounds BoundsFacts
  Refine RefineFacts CostRefine CostRefineFacts Merge MergeFacts Violations ViolTable BigM BigMFacts2 SongFacts Adaptive AdaptiveSpec AdaptiveWp AdaptiveStruct AdaptiveStart
  AdaptiveBounds NearSpec ContFacts AdaptiveEnd NearFacts Milp MilpFacts AgreeSpec Mip.

Lemma exact_ok m o : outcome_exact m o -> outcome_ok 0 m o.
Proof. destruct o as [x z v b| | |]; cbn; auto. intros (H1 & H2 & H3 & H4). split; [assumption|]. split; [assumption|]. split; [lra|assumption]. Qed.
Lemma exact_solver_ok w I : exact_answers w -> solver_ok w I 0 0.
Proof.
  intro HX. constructor.
  - unfold tol6. lra.
  - lra.
  - intros t m. apply exact_ok, HX.
  - intros S v x (t & z & b & E) y Hy. assert (X := HX t (deter_model I S)). rewrite E in X. assert (H := exact_ok _ _ X). cbn in X.
    rewrite (proj1 (proj2 (proj2 X))). now apply (deter_bound I S 0 x z v b H).
  - intros t m x z v b _ E. assert (X := HX t m). rewrite E in X. cbn in X. destruct X as (_ & _ & X & _). lra.
Qed.
Lemma exact_calm w cf : exact_answers w -> undisturbed w cf -> calm w cf.
Proof.
  intros HX (U1 & U2 & U3). constructor; auto; [|intros t m _; exact (exact_finished m _ (HX t m))]. intros t m E. assert (X := HX t m). now rewrite E in X.
Qed.
Lemma exact_cont w I : exact_answers w -> exact_if_cont w I.
Proof. intros HX _ t m _. apply HX. Qed.

Lemma optimum_unique I v v' : optimum I v -> optimum I v' -> (v == v')%Q.
Proof. intros [(x & F & E) U] [(x' & F' & E') U']. assert (A := U x' F'). assert (B := U' x F). lra. Qed.

(** ** The problem has an optimum *)
Section Exists.
  Variable I : inst.
  Hypothesis HW : wf_inst I.
  Hypothesis HP : packing I.
  Hypothesis HE : (0 <= i_eps I)%Q.

  Lemma plain_model lz Ms g t : exists m, cclp_model (milp_view I) false lz Ms [] [] g t = Ok m.
  Proof. unfold cclp_model. cbn [forallb negb rbind]. eauto. Qed.
  Lemma optimum_exists : exists x, cc_feasible I 0 x /\ forall y, cc_feasible I 0 y -> (obj I y <= obj I x)%Q.
  Proof.
    destruct (plain_model false [] 0%Q 0%Q) as (m & EM). assert (X := mip_exact m). assert (F0 := MilpFacts.zero_feasible I HW HP HE).
    assert (AD := fun y F => milp_admits I HW false false [] 0%Q 0%Q m y EM F ltac:(discriminate)).
    destruct (mip m) as [x z v b| | |]; cbn in X; try contradiction.
    - destruct X as (X1 & X2 & X3 & X4). exists x. assert (F := indicator_feasible I HW false _ _ _ m 0 x z EM X1 (within_zero I)). split; [exact F|].
      intros y Fy. destruct (AD y Fy) as [E1 E2]. destruct (AD x F) as [E3 _]. assert (L := X4 _ _ E2). lra.
    - exfalso. destruct (AD _ F0) as [_ E2]. exact (X _ _ E2).
  Qed.
End Exists.

(** ** MilpSolver *)
Section MilpTotal.
  Variables (w : world) (I : inst) (cf : cfg).
  Hypothesis HA : argsort_ok (w_argsort w).
  Hypothesis HSo : sort_spec (w_sort w).
  Hypothesis HW : wf_inst I.
  Hypothesis HP : packing I.
  Hypothesis HEps : eps_ok I.
  Hypothesis HE1 : (i_eps I < 1)%Q.
  Hypothesis HX : exact_answers w.
  Hypothesis HU : undisturbed w cf.
  Hypothesis HN : 0 < i_n I.
  Local Notation V := (milp_view I).
  Local Notation never := (fun (_ : exn) (_ : ast) => False).

  Let HC : calm w cf := exact_calm w cf HX HU.
  Let HXc : exact_if_cont w I := exact_cont w I HX.
  Let HS : solver_ok w I 0 0 := exact_solver_ok w I HX.
  Let E0 : (0 <= i_eps I)%Q := proj1 HEps.

  Lemma choose_safe meth s : meth <> OtherM -> (meth = Song -> tolerated I + 1 < i_k I) -> a_bigM s = naive_all V (i_k I) -> a_start s = w_clock w 0 ->
    wp never (milp_choose_big_m w I meth) (fun _ s' => bigM_shape V (a_bigM s') /\ a_start s' = w_clock w 0) s.
  Proof.
    intros NO SG EB ES. destruct meth; cbn [milp_choose_big_m].
    - apply wp_bind. unfold all_scenario_costs. apply wp_bind. apply (wp_mmap_map _ (subset_cost w I) (fun s => [s])).
      apply (ext_safe w I cf 0 0 HP HS HC HXc). apply ext_mmap_cost. intros r t HF. apply wp_ret.
      assert (LR : length (map fst r) = i_k I).
      { apply Forall2_len in HF. rewrite map_length, seq_length in HF. now rewrite map_length. }
      apply wp_bind, wp_lift.
      + intros [[i v]|] EA.
        * assert (UB : upper_bound I v).
          { apply (ahmed_upper_bound (w_argsort w) I (map fst r) i v); try assumption; [apply HW|].
            intros t0 y Ht Hy. destruct (Forall2_nth_singletons w I (i_k I) 0 r HF t0 Ht) as (x & Hx). exact (so_eval _ _ _ _ HS _ _ _ Hx y Hy). }
          assert (Z : ext_leb (Fin 0) (Fin v) = true).
          { cbn. apply Qle_bool_iff. apply (zero_ub I HP v UB). eexists. apply (MilpFacts.zero_feasible I HW HP E0). }
          set (s1 := set_t t s). apply wp_bind. unfold wp at 1.
          destruct (belotti_total 0 (w_argsort w) (w_solve w) I V (Fin v) (a_t s1) HA HW HP (mv_is I) HN Z (so_ok _ _ _ _ HS) ltac:(intros _ t0 m0 _; assert (X := HX t0 m0); destruct (w_solve w t0 m0); cbn in *; tauto)) as (Ms & t' & EM & SM & _).
          change (v_k V) with (i_k I) in EM. rewrite EM. apply (run_put w cf HC). split; [exact SM|exact ES].
        * exfalso. apply ahmed_none in EA; [|exact HA|now rewrite uniform_length|apply uniform_nonneg|rewrite uniform_length; apply HW].
          assert (KP : 0 < i_k I) by apply HW. rewrite (uniform_sum (i_k I) KP) in EA. assert (X := eps_below I HW HEps HE1 HN). lra.
      + intros e EA. exfalso. revert EA. apply ahmed_no_error; [exact HA|now rewrite uniform_length].
    - destruct (proj2 (song_plain (w_sort w) HSo I HW (proj1 (proj2 HP)) E0) (SG eq_refl)) as (Ms & EM & L1 & L2 & _).
      apply wp_bind, wp_lift.
      + intros Ms' E'. rewrite EM in E'. cbn [rbind] in E'. rewrite to_floats_fin in E'. injection E' as <-. apply (run_put w cf HC). split; [|exact ES].
        split; [exact L1|]. intros c Hc. cbn [a_bigM bump set_t set_bigM]. rewrite (L2 c Hc). symmetry. now apply mv_m.
      + intros e E'. rewrite EM in E'. cbn [rbind] in E'. rewrite to_floats_fin in E'. discriminate.
    - apply wp_ret. split; [rewrite EB; apply naive_shape|exact ES].
    - now contradiction NO.
  Qed.
  Lemma solve_safe um Ms time gap s : (um = true -> bigM_shape V Ms /\ Ms_ok I Ms) -> (w_clock w (S (a_t s)) - w_clock w (a_t s) <= time)%Q ->
    wp never (solve_cclp w V um false Ms [] [] time gap) (fun r _ => (snd (fst r) == snd r)%Q) s.
  Proof.
    intros HM HT. unfold solve_cclp. apply wp_bind, wp_clock.
    assert (BU : forall l, exists m, cclp_model V um false Ms [] [] gap l = Ok m).
    { intro l. destruct (plain_model I false Ms gap l) as (m0 & EM0). destruct um; [|eauto]. apply (bigM_builds _ _ _ _ _ _ _ _ _ (proj1 (HM eq_refl)) EM0). }
    destruct (BU time) as (m0 & EM0). apply wp_bind, wp_lift; [|intros e E; rewrite EM0 in E; discriminate]. intros _ _. clear m0 EM0.
    apply wp_bind, wp_clock. unfold grb_time_limit.
    set (limit := (time - (w_clock w (a_t (bump s)) - w_clock w (a_t s)))%Q).
    assert (L0 : Qlt_bool limit 0 = false).
    { unfold Qlt_bool. apply negb_false_iff, Qle_bool_iff. unfold limit. change (a_t (bump s)) with (S (a_t s)). lra. }
    rewrite L0. destruct (BU limit) as (m & EM). apply wp_bind, wp_lift; [|intros e E; rewrite EM in E; discriminate].
    intros m' E'. rewrite EM in E'. injection E' as <-. assert (EC : m_cont m = i_cont I).
    { apply cclp_shape in EM as (r & _ & -> & _). reflexivity. }
    apply wp_bind, (run_call w I cf 0 0 HS (fun _ => eq_refl) HC HXc); [exact EC|]. intros o (_ & _ & XO) (t0 & ->). assert (XO' := HX t0 m). clear XO. rename XO' into XO. destruct (w_solve w t0 m) as [x z v b| | |]; cbn in XO; try contradiction.
    - apply wp_lift; [|discriminate]. intros r E. injection E as <-. cbn [fst snd]. apply XO.
    - exfalso. destruct (milp_admits I HW um false Ms gap limit m _ EM (MilpFacts.zero_feasible I HW HP E0)) as [_ A].
      { intros Eu. apply (proj2 (HM Eu)). apply (MilpFacts.zero_feasible I HW HP E0). }
      exact (XO _ _ A).
  Qed.

  Lemma milp_total um meth : (um = true -> meth <> OtherM /\ (meth = Song -> tolerated I + 1 < i_k I)) ->
    exists bt s x v, milp_run w I cf um meth = (Ok bt, s) /\ (bt = None <-> um = false) /\ a_xLB s = Some x /\ a_vLB s = Fin v /\
      (exists u, a_vUB s = Fin u /\ (u == v)%Q) /\ (v == obj I x)%Q /\ cc_feasible I 0 x /\ optimum I v.
  Proof.
    intro HM. assert (UM := proj1 (proj2 HU)). assert (UL := proj2 (proj2 HU)).
    assert (W : wp never (milp_construct w I;;; milp_solve w I cf um meth)
      (fun bt s' => (bt = None <-> um = false) /\ exists v u, a_vLB s' = Fin v /\ a_vUB s' = Fin u /\ (v == u)%Q) (ast0 I)).
    { unfold milp_construct. apply wp_bind, wp_bind, wp_clock. apply wp_bind, (run_put w cf HC). apply (run_put w cf HC).
      set (s := bump _). assert (EB : a_bigM s = naive_all V (i_k I)) by reflexivity. assert (ES : a_start s = w_clock w 0) by reflexivity. clearbody s.
      unfold milp_solve. eapply wp_bind_mono with (P := fun bt s' => a_start s' = w_clock w 0 /\ (bt = None <-> um = false) /\
        (um = true -> bigM_shape V (a_bigM s') /\ Ms_ok I (a_bigM s'))).
      { destruct um; [|apply wp_ret; split; [exact ES|split; [split; auto|discriminate]]]. destruct (HM eq_refl) as [M1 M2].
        unfold milp_compute_big_m. apply wp_bind, wp_bind.
        eapply wp_mono; [eapply wp_conj; [exact (choose_safe meth s M1 M2 EB ES)|exact (choose_spec w I 0 HA HSo HW HP E0 (so_ok _ _ _ _ HS) meth s (fun _ => so_eval _ _ _ _ HS) EB)]| |].
        - cbv beta. intros [] s1 [[G1 G2] [G3 _]]. apply wp_bind, wp_available. apply wp_ret, wp_ret. split; [exact G2|]. split; [split; discriminate|].
          intros _. split; [exact G1|exact G3].
        - cbv beta. intros e s1 [[] _]. }
      intros bt s1 (S1 & S2 & S3). apply wp_bind, (run_avail w cf HC); [exact S1|]. intros time _ ET. apply wp_bind, wp_available. apply wp_bind, wp_get.
      set (s2 := bump (bump s1)). assert (ET2 : a_t s2 = S (S (a_t s1))) by reflexivity.
      change (a_bigM s2) with (a_bigM s1). clearbody s2.
      eapply wp_bind_mono; [apply (solve_safe um (a_bigM s1) time (c_gap cf) s2 S3)|].
      { assert (A := UM (a_t s1) (a_t s2) ltac:(lia)). assert (B := UL (S (a_t s2))). rewrite ET. lra. }
      intros [[[x z] vo] vb] s3 EV. cbn [fst snd] in EV.
      apply wp_bind, (run_put w cf HC). apply wp_bind, (run_put w cf HC). apply wp_bind, (run_put w cf HC). apply wp_ret. split; [exact S2|].
      exists vo, vb. split; [reflexivity|]. split; [reflexivity|exact EV]. }
    unfold milp_run. unfold wp in W. destruct ((milp_construct w I;;; milp_solve w I cf um meth) (ast0 I)) as [[bt|e] s] eqn:ER; [|destruct W].
    destruct W as (W1 & v & u & W2 & W3 & W4).
    destruct (milp_run_spec w I cf 0 HA HSo HW HP E0 (Qle_refl 0) (so_ok _ _ _ _ HS) um meth bt s (fun _ _ => so_eval _ _ _ _ HS) ER)
      as (x & v' & u' & X1 & X2 & X3 & X4 & X5 & X6 & X7 & X8).
    rewrite X2 in W2. injection W2 as ->. rewrite X3 in W3. injection W3 as ->.
    assert (F : cc_feasible I 0 x) by (apply X8; [apply within_zero|right; right; right; reflexivity]).
    exists bt, s, x, v. split; [reflexivity|]. split; [exact W1|]. split; [exact X1|]. split; [exact X2|]. split; [exists u; split; [exact X3|lra]|].
    split; [exact X5|]. split; [exact F|]. split; [exists x; split; [exact F|lra]|]. intros y Fy. rewrite W4. now apply X7.
  Qed.
End MilpTotal.

Lemma milp_other w I cf : (forall t, w_intr w t = false) -> exists s, milp_run w I cf true OtherM = (Err ValueError, s).
Proof.
  intro NI. unfold milp_run, milp_construct, milp_solve, milp_compute_big_m, milp_choose_big_m, mbind, clock, put, mraise, mret. cbn. unfold tick. cbn. rewrite !NI. eauto.
Qed.
Lemma milp_song w I cf : (forall t, w_intr w t = false) -> sort_spec (w_sort w) -> wf_inst I -> packing I -> (0 <= i_eps I)%Q -> 0 < i_m I ->
  i_k I <= tolerated I + 1 -> exists s, milp_run w I cf true Song = (Err IndexError, s).
Proof.
  intros NI HSo HW HP E0 HM HK. assert (X := proj1 (song_plain (w_sort w) HSo I HW (proj1 (proj2 HP)) E0) HM HK).
  unfold milp_run, milp_construct, milp_solve, milp_compute_big_m, milp_choose_big_m, lift, mbind, clock, put, mraise, mret.
  rewrite X. cbn [rbind]. cbn. unfold tick. cbn. rewrite !NI. cbn. eauto.
Qed.

(** ** AdaptivePartitioner *)
Section Adapt.
  Variables (w : world) (I : inst) (cf : cfg).
  Hypothesis HO : oracles_ok w I.
  Hypothesis HSo : sort_spec (w_sort w).
  Hypothesis HW : wf_inst I.
  Hypothesis HP : packing I.
  Hypothesis HEps : eps_ok I.
  Hypothesis HE1 : (i_eps I < 1)%Q.
  Hypothesis HX : exact_answers w.
  Hypothesis HU : undisturbed w cf.
  Hypothesis HOp : options_ok w I cf.
  Hypothesis HN : 0 < i_n I.

  Let HC : calm w cf := exact_calm w cf HX HU.
  Let HXc : exact_if_cont w I := exact_cont w I HX.
  Let HS : solver_ok w I 0 0 := exact_solver_ok w I HX.

  Lemma adaptive_feasible fuel s : tight I -> run w I cf fuel = (Ok Feasible, s) ->
    exists x v, a_xLB s = Some x /\ a_xUB s = Some x /\ a_vLB s = Fin v /\ a_vUB s = Fin v /\ (v == obj I x)%Q /\ cc_feasible I 0 x /\ optimum I v.
  Proof.
    intros T E. destruct (feasible_optimal w I cf 0 0 HO HSo HW HP HEps HS fuel s T ltac:(lra) E) as (x & v & X1 & X2 & X3 & X4 & X5 & X6 & X7 & X8).
    exists x, v. assert (EV : (v == obj I x)%Q) by lra. do 6 (split; [assumption|]). split; [|exact X6]. exists x. split; [exact X5|lra].
  Qed.
  Lemma adaptive_gap fuel s v : tight I -> (0 <= c_gap cf)%Q -> optimum I v -> run w I cf fuel = (Ok GapReached, s) ->
    exists x l u, a_xLB s = Some x /\ a_vLB s = Fin l /\ a_vUB s = Fin u /\ cc_feasible I 0 x /\ (l <= obj I x)%Q /\ (l <= v /\ v <= u)%Q /\
      (u <= l * (1 + c_gap cf))%Q.
  Proof.
    intros T G0 [(y & Fy & Ey) OV] E. destruct (gap_optimal w I cf 0 0 HO HSo HW HP HEps HS fuel s G0 E) as (x & l & u & X1 & X2 & X3 & X4 & X5 & X6 & X7 & X8).
    exists x, l, u. split; [exact X1|]. split; [exact X2|]. split; [exact X3|]. assert (Fx := T x X4). split; [exact Fx|]. split; [exact X6|].
    split; [split|exact X7]; [assert (A := OV x Fx); lra|].
    apply run_explore in E as (r0 & s0 & E & [(-> & -> & NF)|(-> & U & X & L & [EI|[EI XL]])]); try discriminate.
    apply (explore_out w I cf 0 0 HO HSo HW HP HEps HS) in E as [B _]. assert (UB := bracket_tight I s0 T B u). rewrite <- Ey. apply UB; [|exact Fy]. congruence.
  Qed.

  Lemma opt : exists v, optimum I v.
  Proof.
    destruct (optimum_exists I HW HP (proj1 HEps)) as (x & F & H). exists (obj I x). split; [exists x; split; [exact F|reflexivity]|exact H].
  Qed.

  (** Binary variables. *)
  Local Notation bin_result := (bin_result I cf).
  Lemma bin_ok fuel vd s v : tight I -> (0 <= c_gap cf)%Q -> optimum I v -> vd = Feasible \/ vd = GapReached -> run w I cf fuel = (Ok vd, s) -> bin_result vd s v.
  Proof.
    intros T G0 OV [-> | ->] E.
    - destruct (adaptive_feasible fuel s T E) as (x & v' & X1 & X2 & X3 & X4 & X5 & X6 & X7). assert (EV := optimum_unique I v' v X7 OV).
      exists x, v', v'. do 4 (split; [assumption|]). left. split; [reflexivity|]. split; [exact EV|]. split; [exact EV|lra].
    - destruct (adaptive_gap fuel s v T G0 OV E) as (x & l & u & X1 & X2 & X3 & X4 & X5 & X6 & X7).
      exists x, l, u. do 4 (split; [assumption|]). right. split; [reflexivity|]. destruct OV as [_ OV]. assert (A := OV x X4). lra.
  Qed.
  Lemma bin_run fuel vd s v : i_cont I = false -> tight I -> (0 <= c_gap cf)%Q -> optimum I v -> run w I cf fuel = (Ok vd, s) -> bin_result vd s v.
  Proof.
    intros CO T G0 OV E. apply (bin_ok fuel vd s v T G0 OV); [|exact E].
    destruct (safe_run w I cf 0 0 HO HSo HW HP HEps HE1 HS (within_zero I) HC HOp T CO HN fuel _ s E) as [H|[H|[H|[H _]]]]; try discriminate; injection H as ->; auto.
  Qed.
  Lemma bin_total fuel : i_cont I = false -> tight I -> (0 <= c_gap cf)%Q -> (exists y, det_feasible I (seq 0 (i_k I)) 0 y /\ (0 < obj I y)%Q) ->
    c_merger cf = false -> i_k I - tolerated I <= fuel ->
    exists vd s v, run w I cf fuel = (Ok vd, s) /\ a_iter s <= i_k I - tolerated I /\ optimum I v /\ bin_result vd s v.
  Proof.
    intros CO T G0 PO NM HF. destruct (run w I cf fuel) as [r s] eqn:E. destruct opt as (v & OV).
    destruct (never_raises w I cf 0 0 HO HSo HW HP HEps HE1 HS (within_zero I) HC HOp T CO HN PO fuel r s NM HF E) as [R IT].
    destruct R as [-> | ->]; (do 2 eexists; exists v; split; [reflexivity|]; split; [exact IT|]; split; [exact OV|]; apply (bin_ok fuel); auto).
  Qed.

  (** Continuous variables. *)
  Local Notation cont_result := (cont_result cf).
  Lemma near_low v q : near I -> optimum I v -> lower_ok I 0 (Fin q) -> (q < v + (1 # 1000))%Q.
  Proof.
    intros NE [_ OV] [H|(q' & x & H & F & L)]; [discriminate|]. injection H as <-. destruct (NE x F) as (y & Fy & Hy). assert (A := OV y Fy). lra.
  Qed.
  Lemma near_up v l u : near I -> optimum I v -> lower_ok I 0 l -> upper_ok I (Fin u) l -> (v <= u)%Q.
  Proof.
    intros NE OV LO UP. pose proof OV as [(y & Fy & Ey) _]. destruct (UP y Fy) as [H|H]; [apply Qle_bool_iff in H; lra|]. exfalso.
    destruct l as [|q|]; [discriminate| |destruct LO as [LO|(q' & x & LO & _)]; discriminate].
    assert (A := near_low v q NE OV LO). apply Qle_bool_iff in H. lra.
  Qed.
  Lemma cont_ok fuel vd s v : near I -> (0 <= c_gap cf)%Q -> optimum I v -> vd = Feasible \/ vd = GapReached -> run w I cf fuel = (Ok vd, s) -> cont_result vd s v.
  Proof.
    intros NE G0 OV HV E. destruct (bracket_run w I cf 0 0 HO HSo HW HP HEps HS fuel _ s E) as (B1 & l0 & _ & B2 & B3).
    assert (X : exists l u, a_vLB s = Fin l /\ a_vUB s = Fin u /\ ((vd = Feasible /\ l = u) \/ (vd = GapReached /\ (u <= l * (1 + c_gap cf))%Q))).
    { destruct HV as [-> | ->].
      - apply run_explore in E as (r0 & s0 & E & [(-> & -> & NF)|(-> & U & X & L & _)]); [now contradiction NF|].
        apply (explore_out w I cf 0 0 HO HSo HW HP HEps HS) in E as [_ H]. destruct (H _ eq_refl) as [_ [EX _]]. destruct (EX eq_refl) as (x & u & vb & X1 & X2 & X3 & X4).
        exists u, u. split; [congruence|]. split; [congruence|]. left. auto.
      - destruct (gap_optimal w I cf 0 0 HO HSo HW HP HEps HS fuel s G0 E) as (x & l & u & X1 & X2 & X3 & X4 & X5 & X6 & X7 & X8).
        exists l, u. split; [exact X2|]. split; [exact X3|]. right. auto. }
    destruct X as (l & u & X1 & X2 & X3). exists l, u. split; [exact X1|]. split; [exact X2|]. rewrite X1 in B1. rewrite X2 in B3.
    split; [exact (near_low v l NE OV B1)|]. split; [exact (near_up v l0 u NE OV B2 B3)|exact X3].
  Qed.
  Lemma cont_run fuel vd s v : near I -> (0 <= c_gap cf)%Q -> optimum I v -> run w I cf fuel = (Ok vd, s) -> cont_result vd s v.
  Proof.
    intros NE G0 OV E. apply (cont_ok fuel vd s v NE G0 OV); [|exact E].
    destruct (safe_run_any w I cf 0 0 HO HSo HW HP HEps HE1 HS (within_zero I) (fun _ => eq_refl) HC HOp NE HXc HN fuel _ s E) as [H|[H|[H|[[H _]|(e & H & _)]]]]; try discriminate; injection H as ->; auto.
  Qed.
  Lemma cont_total fuel : i_cont I = true -> (0 < qsum (i_c I))%Q -> (forall s i, s < i_k I -> i < i_m I -> (qsum (i_c I) <= 1000 * rhs I s i)%Q) ->
    (0 <= c_gap cf)%Q -> c_merger cf = false -> i_k I - tolerated I <= fuel ->
    exists r s, run w I cf fuel = (r, s) /\ ((exists vd v, r = Ok vd /\ a_iter s <= i_k I - tolerated I /\ optimum I v /\ cont_result vd s v) \/
      exists e, r = Err e /\ close_failed w I cf e s).
  Proof.
    intros CO C0 HR G0 NM HF. destruct (run w I cf fuel) as [r s] eqn:E. exists r, s. split; [reflexivity|]. destruct opt as (v & OV).
    destruct (cont_never_raises w I cf HO HSo HW HP HEps HE1 HS HC HOp HXc HN CO C0 HR fuel r s NM HF E) as [[R IT]|R]; [left|right; exact R].
    destruct R as [-> | ->]; (eexists; exists v; split; [reflexivity|]; split; [exact IT|]; split; [exact OV|]; apply (cont_ok fuel); auto; now apply near_cont).
  Qed.
End Adapt.

(** ** Two methods on the same binary instance *)
Lemma methods_agree w1 w2 I cf1 cf2 um meth : argsort_ok (w_argsort w1) -> sort_spec (w_sort w1) -> oracles_ok w2 I -> sort_spec (w_sort w2) ->
  wf_inst I -> packing I -> eps_ok I -> (i_eps I < 1)%Q -> exact_answers w1 -> exact_answers w2 -> undisturbed w1 cf1 -> undisturbed w2 cf2 -> options_ok w2 I cf2 ->
  0 < i_n I -> i_cont I = false -> tight I -> (0 <= c_gap cf2)%Q -> (um = true -> meth <> OtherM /\ (meth = Song -> tolerated I + 1 < i_k I)) ->
  forall bt s1 fuel vd s2, milp_run w1 I cf1 um meth = (Ok bt, s1) -> run w2 I cf2 fuel = (Ok vd, s2) ->
  exists v l u, a_vLB s1 = Fin v /\ a_vLB s2 = Fin l /\ a_vUB s2 = Fin u /\ (l <= v /\ v <= u /\ u <= v * (1 + c_gap cf2))%Q /\
    (vd = Feasible \/ (c_gap cf2 == 0)%Q -> (l == v /\ u == v)%Q).
Proof.
  intros A1 S1 O2 S2 HW HP HEps HE1 X1 X2 U1 U2 OP HN CO T G0 HM bt s1 fuel vd s2 E1 E2.
  destruct (milp_total w1 I cf1 A1 S1 HW HP HEps HE1 X1 U1 HN um meth HM) as (bt' & s1' & x & v & R & _ & _ & V & _ & EV & F & OV).
  rewrite E1 in R. injection R as <- <-.
  assert (VN : (0 <= v)%Q) by (rewrite EV; apply obj_nonneg; [exact HP|apply F]).
  assert (VG : (0 <= v * c_gap cf2)%Q) by now apply Qmult_le_0_compat.
  destruct (bin_run w2 I cf2 O2 S2 HW HP HEps HE1 X2 U2 OP HN fuel vd s2 v CO T G0 OV E2) as (x2 & l & u & Y1 & Y2 & Y3 & Y4 & [(Y5 & Y6 & Y7 & Y8)|(Y5 & Y6 & Y7 & Y8 & Y9)]).
  - exists v, l, u. split; [exact V|]. split; [exact Y2|]. split; [exact Y3|]. split; [lra|]. intros _. split; assumption.
  - exists v, l, u. split; [exact V|]. split; [exact Y2|]. split; [exact Y3|].
    assert (LV : (l * (1 + c_gap cf2) <= v * (1 + c_gap cf2))%Q) by (apply Qmult_le_compat_r; lra).
    split; [lra|]. intros [H|H]; [congruence|]. assert (Z : (v * c_gap cf2 == 0)%Q) by (rewrite H; ring). assert (Z2 : (l * c_gap cf2 == 0)%Q) by (rewrite H; ring). split; lra.
Qed.

(** Answers within tolerances and gaps: both results enclose the optimal value. *)
Lemma methods_close w1 w2 I cf1 cf2 tau1 tau2 delta1 delta2 um meth : argsort_ok (w_argsort w1) -> sort_spec (w_sort w1) -> oracles_ok w2 I -> sort_spec (w_sort w2) ->
  wf_inst I -> packing I -> eps_ok I -> solver_ok w1 I tau1 delta1 -> solver_ok w2 I tau2 delta2 -> eps_within I tau1 -> i_cont I = false -> tight I -> (0 <= c_gap cf2)%Q ->
  forall bt s1 fuel vd s2, milp_run w1 I cf1 um meth = (Ok bt, s1) -> run w2 I cf2 fuel = (Ok vd, s2) -> vd = Feasible \/ vd = GapReached ->
  exists opt v u l, optimum I opt /\ a_vLB s1 = Fin v /\ a_vUB s1 = Fin u /\ a_vLB s2 = Fin l /\ (v <= opt /\ opt <= u)%Q /\
    (l <= opt + delta2)%Q /\ (opt <= l * (1 + c_gap cf2))%Q /\ (vd = Feasible -> opt <= l)%Q /\
    (l <= u + delta2 /\ v <= l * (1 + c_gap cf2))%Q.
Proof.
  intros A1 S1 O2 S2 HW HP HEps X1 X2 W1 CO T G0 bt s1 fuel vd s2 E1 E2 HV.
  destruct (optimum_exists I HW HP (proj1 HEps)) as (o & Fo & Uo).
  destruct (milp_run_spec w1 I cf1 tau1 A1 S1 HW HP (proj1 HEps) (proj1 (so_tau _ _ _ _ X1)) (so_ok _ _ _ _ X1) um meth bt s1 (fun _ _ => so_eval _ _ _ _ X1) E1)
    as (x & v & u & Y1 & Y2 & Y3 & Y4 & Y5 & Y6 & Y7 & Y8).
  assert (FX : cc_feasible I 0 x).
  { apply T. destruct (Y8 W1 ltac:(auto)) as [D F]. split; [exact D|]. eapply Qle_trans; [|exact F]. apply Qn_le. 
    apply nviol_mono_tau. apply (so_tau _ _ _ _ X1). }
  exists (obj I o), v, u.
  assert (VO : (v <= obj I o)%Q) by (rewrite Y5; apply Uo, FX). assert (OU : (obj I o <= u)%Q) by apply Y7, Fo.
  assert (ON : (0 <= obj I o)%Q) by (apply obj_nonneg; [exact HP|apply Fo]).
  assert (OO : optimum I (obj I o)) by (split; [exists o; split; [exact Fo|reflexivity]|exact Uo]).
  assert (D2 := so_delta _ _ _ _ X2).
  destruct HV as [-> | ->].
  - destruct (feasible_value w2 I cf2 tau2 delta2 O2 S2 HW HP HEps X2 fuel s2 T E2) as (y & l & Z1 & Z2 & Z3 & Z4 & Z5).
    exists l. assert (OL : (obj I o <= l)%Q) by apply Z4, Fo. assert (YO := Uo y Z3).
    assert (LG : (0 <= l * c_gap cf2)%Q) by (apply Qmult_le_0_compat; lra).
    do 4 (split; [assumption|]). split; [lra|]. split; [lra|]. split; [lra|]. split; [auto|]. split; lra.
  - destruct (gap_optimal w2 I cf2 tau2 delta2 O2 S2 HW HP HEps X2 fuel s2 G0 E2) as (y & l & u2 & Z1 & Z2 & Z3 & Z4 & Z5 & Z6 & Z7 & Z8).
    exists l. assert (OL := Z8 o Fo). assert (YO := Uo y (T y Z4)).
    do 4 (split; [assumption|]). split; [lra|]. split; [lra|]. split; [lra|]. split; [discriminate|]. split; lra.
Qed.
