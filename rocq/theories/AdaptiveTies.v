(** With merging the relaxations keep improving; a run on an instance without ties is finite (C80). *)
From Verif Require Import Base BaseFacts Spec Instance InstanceFacts OptModels OptFacts PartitionFacts Initial InitialFacts Bounds BoundsFacts
  Refine RefineFacts RefineSum CostRefine CostRefineFacts Merge MergeFacts Violations ViolTable BigM BigMFacts2 SongFacts Adaptive AdaptiveSpec AdaptiveWp AdaptiveStruct AdaptiveStart
  AdaptiveBounds NearSpec AdaptiveEnd BruteForce BruteForceFacts TieSpec.

(** ** Split and merge *)
Lemma merge_select_points norm V I mu old R costs x y kind p' ms : refinement_ok (i_k I) (violated I x) mu old R -> 0 < mu ->
  0 < nunsat I tol6 x (rf_part R) -> nunsat I tol6 x (rf_part R) <= length old -> length costs = length (rf_part R) ->
  merge_select norm V (rf_part R) (length (rf_part R)) costs (rf_feasible R) (rf_mu R) (Some y) = Ok (kind, p', ms) ->
  forall q, (exists c, In c (rf_new R) /\ subset_sat I 0 q (nth c (rf_part R) [])) \/ nunsat I 0 q old <= nunsat I 0 q p'.
Proof.
  intros HR Hmu H1 H2 LC E q. rewrite <- nb_bad_nunsat in H1, H2.
  destruct (merge_select_spec norm V (i_k I) (violated I x) mu old R costs y HR Hmu H1 H2 LC) as (kd & p2 & ms2 & cands & E2 & EM & ND & FC & LN & _).
  rewrite E in E2. injection E2 as <- <- <-. apply merged_points. intros f Hf. exact (merge_relaxes _ _ _ _ _ _ _ _ f HR ND FC LN EM Hf).
Qed.

(** ** Binary points *)
Definition refused (I : inst) : list (list Q) := filter (fun x => tolerated I <? nviol I tol6 x) (all_bin (i_n I)).
Definition rank (I : inst) (u : Q) : nat := count (fun x => Qlt_bool (obj I x) u) (refused I).
Lemma all_bin_length n : length (all_bin n) = 2 ^ n.
Proof.
  induction n as [|n IH]; [reflexivity|]. cbn [all_bin Nat.pow]. rewrite <- IH. generalize (all_bin n). intro l.
  induction l as [|a l IH']; [reflexivity|]. cbn [flat_map app length]. rewrite IH'. lia.
Qed.
Lemma canon_facts I y : i_cont I = false -> in_dom I y -> In (map canon y) (all_bin (i_n I)) /\ (obj I y == obj I (map canon y))%Q /\
  nviol I tol6 (map canon y) = nviol I tol6 y.
Proof.
  intros CO [[L _] B]. specialize (B CO). assert (E := canon_eq y B). split; [now apply canon_In|]. split; [apply dot_compat, E|].
  unfold nviol. apply count_ext. intros s _. f_equal. apply eq_true_iff_eq. rewrite !satb_iff. unfold sat.
  split; intros H i Hi; specialize (H i Hi); [rewrite (dot_compat _ _ _ E)|rewrite <- (dot_compat _ _ _ E)]; exact H.
Qed.
Lemma canon_refused I y : i_cont I = false -> in_dom I y -> tolerated I < nviol I tol6 y -> In (map canon y) (refused I) /\ (obj I y == obj I (map canon y))%Q.
Proof.
  intros CO D V. destruct (canon_facts I y CO D) as (C1 & C2 & C3). split; [|exact C2]. apply filter_In. split; [exact C1|].
  apply Nat.ltb_lt. lia.
Qed.
Lemma qlt_iff a b : Qlt_bool a b = true <-> (a < b)%Q.
Proof.
  unfold Qlt_bool. rewrite negb_true_iff. split.
  - intro H. destruct (Qlt_le_dec a b) as [L|L]; [exact L|]. apply Qle_bool_iff in L. congruence.
  - intro H. destruct (Qle_bool b a) eqn:E; [|reflexivity]. apply Qle_bool_iff in E. lra.
Qed.
Lemma count_less {A} (f g : A -> bool) l a : In a l -> f a = false -> g a = true -> (forall b, f b = true -> g b = true) -> count f l < count g l.
Proof.
  intros H Fa Ga M. induction l as [|b l IH]; [contradiction|]. rewrite !count_cons. destruct H as [->|H].
  - rewrite Fa, Ga. assert (L := count_mono f g l (fun b _ => M b)). lia.
  - specialize (IH H). specialize (M b). destruct (f b), (g b); lia.
Qed.
Lemma rank_less I y u : i_cont I = false -> in_dom I y -> tolerated I < nviol I tol6 y -> (obj I y < u)%Q -> rank I (obj I y) < rank I u.
Proof.
  intros CO D V L. destruct (canon_refused I y CO D V) as [C1 C2]. apply (count_less _ _ _ _ C1).
  - destruct (Qlt_bool _ _) eqn:E; [|reflexivity]. apply qlt_iff in E. lra.
  - apply qlt_iff. lra.
  - intros b Hb. apply qlt_iff in Hb. apply qlt_iff. lra.
Qed.
Lemma rank_bound I y : packing I -> (0 <= i_eps I)%Q -> i_cont I = false -> in_dom I y -> tolerated I < nviol I tol6 y -> rank I (obj I y) + 2 <= 2 ^ i_n I.
Proof.
  intros HP HE CO D V. destruct (canon_refused I y CO D V) as [C1 C2].
  assert (A : rank I (obj I y) < length (refused I)).
  { replace (length (refused I)) with (count (fun _ => true) (refused I)).
    - apply (count_less _ _ _ _ C1); [|reflexivity|auto]. destruct (Qlt_bool _ _) eqn:E; [|reflexivity]. apply qlt_iff in E. lra.
    - unfold count. clear. generalize (refused I). intro l. induction l as [|a l IH]; [reflexivity|]. cbn. now rewrite IH. }
  assert (B : length (refused I) < length (all_bin (i_n I))).
  { change (length (refused I)) with (count (fun x => tolerated I <? nviol I tol6 x) (all_bin (i_n I))).
    replace (length (all_bin (i_n I))) with (count (fun _ => true) (all_bin (i_n I))).
    - apply (count_less _ _ _ (repeat 0%Q (i_n I))); [| |reflexivity|auto].
      + apply all_bin_In. split; [apply repeat_length|]. apply Forall_forall. intros v Hv. apply repeat_spec in Hv. now left.
      + destruct (zero_cc I HP HE) as [[_ Z] _]. apply tolerated_le in Z; [|exact HE]. apply Nat.ltb_ge.
        assert (M : nviol I tol6 (repeat 0%Q (i_n I)) <= nviol I 0 (repeat 0%Q (i_n I))); [|lia].
        apply count_mono. intros s _ H. apply negb_true_iff in H. apply negb_true_iff. destruct (satb I 0 _ s) eqn:E; [|reflexivity].
        assert (satb I tol6 (repeat 0%Q (i_n I)) s = true); [|congruence]. apply satb_iff. apply satb_iff in E. intros i Hi. specialize (E i Hi). unfold tol6. lra.
    - unfold count. clear. generalize (all_bin (i_n I)). intro l. induction l as [|a l IH]; [reflexivity|]. cbn. now rewrite IH. }
  rewrite all_bin_length in B. lia.
Qed.

Section Ties.
  Variables (w : world) (I : inst) (cf : cfg).
  Hypothesis HO : oracles_ok w I.
  Hypothesis HSo : sort_spec (w_sort w).
  Hypothesis HW : wf_inst I.
  Hypothesis HP : packing I.
  Hypothesis HEps : eps_ok I.
  Hypothesis HE1 : (i_eps I < 1)%Q.
  Hypothesis HS : solver_ok w I 0 0.
  Hypothesis HC : calm w cf.
  Hypothesis HOp : options_ok w I cf.
  Hypothesis HX : exact_if_cont w I.
  Hypothesis HN : 0 < i_n I.
  Hypothesis HT : near I.
  Local Notation head_ok := (head_ok w I 0 0).
  Local Notation zde := (zde w I cf).

  Lemma exact_plain : plain I 0 0.
  Proof. split; [reflexivity|now right]. Qed.
  Lemma turn_safe s : head_ok s -> wp zde (iteration w I cf) (fun v s' =>
    (v = Feasible /\ a_iter s' = a_iter s) \/ (v = GapReached /\ a_iter s' = a_iter s) \/
    (v = Continue /\ head_ok s' /\ a_iter s' = S (a_iter s) /\ grown cf (a_part s) s' /\ turn I 0 0 (a_part s) (a_vUB s) s')) s.
  Proof.
    intro H. eapply wp_mono; [exact (iteration_safe w I cf 0 0 HO HSo HW HP HEps HS (within_zero I) (fun _ => eq_refl) HC HOp HT HX HN s H)| |auto].
    cbv beta. intros v s' [A|[A|(A & B & C & G & D)]]; auto 10.
  Qed.

  Lemma reach_head s : head_reach w I cf s -> head_ok s.
  Proof.
    intro H. induction H as [b s0 s E1 E2|s s' H IH E].
    - assert (W := start_safe w I cf 0 0 HO HW HP HEps HE1 HS HC HOp HX HN never (fun v => fun s => (Ok v, s)) (fun v s => v = Continue /\ head_ok s)
        ltac:(intros s1 H1 _ _; exact (conj eq_refl H1))).
      unfold wp, mbind in W. rewrite E1, E2 in W. apply W.
    - assert (W := turn_safe s IH). unfold wp in W. rewrite E in W. destruct W as [[A _]|[[A _]|(_ & A & _)]]; [discriminate|discriminate|exact A].
  Qed.

  (** Every turn: the point solves the relaxation of the partition, and its value, the new upper bound, is at most the previous one. *)
  Lemma relaxation_solved s r s1 : head_reach w I cf s -> bound_phase w I cf s = (Ok r, s1) ->
    exists y u, a_xUB s1 = Some y /\ (forall x, r = inr x -> x = Some y) /\ part_feasible I (a_part s) 0 y /\
      (forall q, part_feasible I (a_part s) 0 q -> (obj I q <= obj I y)%Q) /\ a_vUB s1 = Fin u /\ (u == obj I y)%Q /\ ext_leb (Fin u) (a_vUB s) = true.
  Proof.
    intros HR E. assert (H := reach_head s HR). destruct H as [OK FE ZF ST JI XI].
    assert (W := wp_conj _ _ _ _ _ _ (bound_safe w I cf 0 0 HO HSo HW HP HEps HS (within_zero I) (fun _ => eq_refl) HC HOp HT HX HN s OK ZF ST JI XI)
      (bound_good w I cf 0 0 HO HSo HW HP HEps HS s OK)).
    unfold wp in W. rewrite E in W. destruct W as ((_ & _ & _ & J & AX & _) & G & _).
    destruct (AX exact_plain) as (y & (A1 & A2 & A3 & u & A4 & A5) & A6). exists y, u. split; [exact A1|]. split; [exact A6|]. split; [exact A2|].
    split; [|split; [exact A4|split; [exact A5|rewrite (ext_leb_eq _ _ _ A5); exact A3]]].
    intros q Q. assert (B := below I HP HEps HT (a_part s) s1 q (proj1 G) (J exact_plain) Q). rewrite A4 in B. cbn in B. apply Qle_bool_iff in B. lra.
  Qed.

  (** Two consecutive turns. *)
  Lemma next_point s s1 s2 : head_reach w I cf s -> iteration w I cf s = (Ok Continue, s1) -> iteration w I cf s1 = (Ok Continue, s2) ->
    exists y1 y2, a_xUB s1 = Some y1 /\ a_xUB s2 = Some y2 /\ (obj I y2 <= obj I y1)%Q /\ exists t, t < i_k I /\ violated I y1 t = true /\ violated I y2 t = false.
  Proof.
    intros HR E1 E2. assert (W1 := turn_safe s (reach_head s HR)). unfold wp in W1. rewrite E1 in W1.
    destruct W1 as [[A _]|[[A _]|(_ & H1 & _ & _ & T1)]]; try discriminate.
    assert (W2 := turn_safe s1 H1). unfold wp in W2. rewrite E2 in W2. destruct W2 as [[A _]|[[A _]|(_ & H2 & _ & _ & T2)]]; try discriminate.
    destruct (T1 exact_plain) as (y1 & (A1 & A2 & A3 & u1 & A4 & A5) & A6 & A7). destruct (T2 exact_plain) as (y2 & (B1 & B2 & B3 & u2 & B4 & B5) & B6 & B7).
    exists y1, y2. split; [exact A1|]. split; [exact B1|]. split; [rewrite A4 in B3; cbn in B3; apply Qle_bool_iff in B3; lra|].
    apply part_iff in B2 as [_ B2]; [|apply HEps].
    assert (B2' : nunsat I tol6 y2 (a_part s1) <= tolerated I) by (eapply Nat.le_trans; [apply (nunsat_mono_tau I 0 tol6); unfold tol6; lra|exact B2]).
    destruct (existsb (fun t => violated I y1 t && negb (violated I y2 t)) (seq 0 (i_k I))) eqn:EX.
    - apply existsb_exists in EX as (t & T3 & T4). apply in_seq in T3. apply andb_prop in T4 as [T4 T5]. apply negb_true_iff in T5. exists t. split; [lia|auto].
    - exfalso. assert (M : nunsat I tol6 y1 (a_part s1) <= nunsat I tol6 y2 (a_part s1)); [|lia]. rewrite <- !nb_bad_nunsat. apply count_mono.
      intros S HIn HB. apply existsb_exists in HB as (t & T3 & T4). apply existsb_exists. exists t. split; [exact T3|].
      assert (SK : t < i_k I).
      { assert (VL := vp_lt _ _ (sh_valid _ _ _ (proj2 (hd_state _ _ _ _ _ H1)))). rewrite Forall_forall in VL. destruct (VL S HIn) as [_ VL2]. rewrite Forall_forall in VL2. now apply VL2. }
      destruct (violated I y2 t) eqn:EV; [reflexivity|exfalso]. assert (X : existsb (fun t => violated I y1 t && negb (violated I y2 t)) (seq 0 (i_k I)) = true); [|congruence].
      apply existsb_exists. exists t. split; [apply in_seq; lia|]. now rewrite T4, EV.
  Qed.

  (** ** Termination *)
  Section Ends.
    Hypothesis HB : i_cont I = false.

    Definition last (s : ast) (y : list Q) : Prop := in_dom I y /\ (exists u, a_vUB s = Fin u /\ (u == obj I y)%Q) /\
      tolerated I < nviol I tol6 y /\ tolerated I < nunsat I tol6 y (a_part s).
    Lemma turn_last p u0 s : turn I 0 0 p u0 s -> exists y, last s y /\ nunsat I tol6 y p <= tolerated I /\ ext_leb (Fin (obj I y)) u0 = true.
    Proof.
      intro T. destruct (T exact_plain) as (y & (A1 & A2 & A3 & A4) & A5 & A6). exists y. apply part_iff in A2 as [D A2]; [|apply HEps].
      split; [repeat split; auto; apply D|]. split; [|exact A3]. eapply Nat.le_trans; [apply (nunsat_mono_tau I 0 tol6); unfold tol6; lra|exact A2].
    Qed.
    (** Turns that neither grow the partition nor lower the bound *)
    Definition ext_rank (u : ext) : nat := match u with Fin q => rank I q | PInf => length (refused I) | NInf => 0 end.
    Lemma count_all {A} (l : list A) : count (fun _ => true) l = length l.
    Proof. unfold count. induction l as [|a l IH]; [reflexivity|]. cbn. now rewrite IH. Qed.
    Lemma rank_le u : rank I u <= length (refused I).
    Proof. rewrite <- count_all. apply count_mono. auto. Qed.
    Lemma ext_rank_mono u v : ext_leb u v = true -> ext_rank u <= ext_rank v.
    Proof.
      destruct u as [|u|], v as [|v|]; cbn [ext_rank ext_leb]; try discriminate; try lia.
      - intro H. apply Qle_bool_iff in H. apply count_mono. intros x _ X. apply qlt_iff in X. apply qlt_iff. lra.
      - intros _. apply rank_le.
    Qed.
    Lemma ext_rank_less s' y u : last s' y -> ext_leb u (a_vUB s') = false -> ext_rank (a_vUB s') < ext_rank u.
    Proof.
      intros (D & (q & E & U) & V & _) H. rewrite E in *. cbn [ext_rank]. assert (R : rank I q = rank I (obj I y)).
      { apply count_ext. intros x _. apply eq_true_iff_eq. rewrite !qlt_iff. split; lra. }
      rewrite R. destruct u as [|u|]; cbn in H; try discriminate; cbn [ext_rank].
      - apply (rank_less I y u HB D V). destruct (Qlt_le_dec (obj I y) u) as [X|X]; [exact X|]. assert (L : (u <= q)%Q) by lra. apply Qle_bool_iff in L. congruence.
      - destruct (canon_refused I y HB D V) as [C1 C2]. rewrite <- (count_all (refused I)). apply (count_less _ _ _ _ C1); [|reflexivity|auto].
        destruct (Qlt_bool _ _) eqn:F; [|reflexivity]. apply qlt_iff in F. lra.
    Qed.
    Lemma progress_bound l : forall s, head_ok s -> consecutive w I cf (s :: l) -> progress (s :: l) <= (i_k I - length (a_part s)) + ext_rank (a_vUB s).
    Proof.
      induction l as [|s' l IH]; intros s H C; [cbn; lia|]. destruct C as [E C]. assert (W := turn_safe s H). unfold wp in W. rewrite E in W.
      destruct W as [[A _]|[[A _]|(_ & H' & _ & (G1 & G2 & _) & T)]]; try discriminate.
      specialize (IH s' H' C). apply turn_last in T as (y & LA & _ & LE). assert (L := vp_length _ _ (sh_valid _ _ _ (proj2 (hd_state _ _ _ _ _ H')))).
      assert (M : ext_rank (a_vUB s') <= ext_rank (a_vUB s)).
      { apply ext_rank_mono. destruct LA as (_ & (q & Eq & U) & _). rewrite Eq, (ext_leb_eq _ _ _ U). exact LE. }
      change (progress (s :: s' :: l)) with ((if a_merged s' && ext_leb (a_vUB s) (a_vUB s') then 0 else 1) + progress (s' :: l)).
      destruct (a_merged s') eqn:EM; cbn [andb].
      - destruct (ext_leb (a_vUB s) (a_vUB s')) eqn:EL; [lia|]. assert (X := ext_rank_less s' y _ LA EL). lia.
      - specialize (G2 eq_refl). lia.
    Qed.
    Lemma refused_less : length (refused I) < 2 ^ i_n I.
    Proof.
      rewrite <- all_bin_length. change (length (refused I)) with (count (fun x => tolerated I <? nviol I tol6 x) (all_bin (i_n I))).
      rewrite <- count_all. apply (count_less _ _ _ (repeat 0%Q (i_n I))); [| |reflexivity|auto].
      - apply all_bin_In. split; [apply repeat_length|]. apply Forall_forall. intros v Hv. apply repeat_spec in Hv. now left.
      - destruct (zero_cc I HP (proj1 HEps)) as [[_ Z] _]. apply tolerated_le in Z; [|apply HEps]. apply Nat.ltb_ge.
        eapply Nat.le_trans; [apply (nviol_mono_tau I 0 tol6); unfold tol6; lra|exact Z].
    Qed.
    Lemma stalls s l : head_reach w I cf s -> consecutive w I cf (s :: l) -> progress (s :: l) + tolerated I + 2 <= i_k I + 2 ^ i_n I.
    Proof.
      intros HR C. assert (H := reach_head s HR). assert (B := progress_bound l s H C). assert (SH := proj2 (hd_state _ _ _ _ _ H)).
      assert (L := vp_length _ _ (sh_valid _ _ _ SH)). assert (M := sh_min _ _ _ SH). rewrite (sh_nb _ _ _ SH) in M.
      assert (R := refused_less). assert (E : ext_rank (a_vUB s) <= length (refused I)) by (destruct (a_vUB s); cbn [ext_rank]; [lia|apply rank_le|lia]). lia.
    Qed.

    Hypothesis HA : alike I.
    Lemma refused_not y : tolerated I < nviol I tol6 y -> ~ cc_feasible I tol6 y.
    Proof. intros V [_ C]. apply tolerated_le in C; [|apply HEps]. lia. Qed.
    Lemma strictly_below s y y' : head_ok s -> last s y -> in_dom I y' -> tolerated I < nviol I tol6 y' -> nunsat I tol6 y' (a_part s) <= tolerated I ->
      ext_leb (Fin (obj I y')) (a_vUB s) = true -> (obj I y' < obj I y)%Q.
    Proof.
      intros H (D & (u & E & U) & V & C) D' V' C' L. rewrite E in L. cbn in L. apply Qle_bool_iff in L.
      destruct (Qlt_le_dec (obj I y') (obj I y)) as [X|X]; [exact X|exfalso].
      assert (EQ : (obj I y' == obj I y)%Q) by lra. assert (A := HA y' y D' D (refused_not y' V') (refused_not y V) EQ).
      assert (M : nunsat I tol6 y (a_part s) = nunsat I tol6 y' (a_part s)); [|lia]. rewrite <- !nb_bad_nunsat. apply count_ext. intros S HIn.
      assert (VL := vp_lt _ _ (sh_valid _ _ _ (proj2 (hd_state _ _ _ _ _ H)))). rewrite Forall_forall in VL. destruct (VL S HIn) as [_ VL2].
      clear -A VL2. induction VL2 as [|t S Ht VL2 IH]; [reflexivity|]. cbn [existsb]. now rewrite IH, (A t Ht).
    Qed.
    Lemma loop_finite fuel : forall s y, head_ok s -> last s y -> rank I (obj I y) < fuel ->
      wp zde (main_loop w I cf fuel) (fun v s' => (v = Feasible \/ v = GapReached) /\ a_iter s' <= a_iter s + rank I (obj I y)) s.
    Proof.
      induction fuel as [|n IH]; intros s y H L HF; [lia|]. cbn [main_loop]. apply wp_bind. eapply wp_mono; [exact (turn_safe s H)| |auto]. cbv beta.
      intros v s' [[-> E]|[[-> E]|(-> & H' & E & _ & T)]]; [apply wp_ret; split; [now left|lia]|apply wp_ret; split; [now right|lia]|].
      apply turn_last in T as (y' & L' & C' & U'). assert (SB := strictly_below s y y' H L (proj1 L') (proj1 (proj2 (proj2 L'))) C' U').
      assert (R := rank_less I y' (obj I y) HB (proj1 L') (proj1 (proj2 (proj2 L'))) SB).
      eapply wp_mono; [apply (IH s' y' H' L'); lia| |auto]. cbv beta. intros v s2 [X1 X2]. split; [exact X1|]. lia.
    Qed.
    Lemma loop_all fuel s : head_ok s -> 2 ^ i_n I <= fuel ->
      wp zde (main_loop w I cf fuel) (fun v s' => (v = Feasible \/ v = GapReached) /\ a_iter s' + 1 <= a_iter s + 2 ^ i_n I) s.
    Proof.
      intros H HF. assert (P1 : 1 <= 2 ^ i_n I) by (clear; induction (i_n I) as [|n IH]; cbn; lia).
      destruct fuel as [|n]; [lia|]. cbn [main_loop]. apply wp_bind. eapply wp_mono; [exact (turn_safe s H)| |auto]. cbv beta.
      intros v s' [[-> E]|[[-> E]|(-> & H' & E & _ & T)]]; [apply wp_ret; split; [now left|lia]|apply wp_ret; split; [now right|lia]|].
      apply turn_last in T as (y' & L' & _). assert (R := rank_bound I y' HP (proj1 HEps) HB (proj1 L') (proj1 (proj2 (proj2 L')))).
      eapply wp_mono; [apply (loop_finite n s' y' H' L'); lia| |auto]. cbv beta. intros v s2 [X1 X2]. split; [exact X1|]. lia.
    Qed.
    Lemma finite_run fuel r s : 2 ^ i_n I <= fuel -> run w I cf fuel = (r, s) ->
      ((r = Ok Feasible \/ r = Ok GapReached) /\ a_iter s <= 2 ^ i_n I) \/ zero_bound r s.
    Proof.
      intros HF ER.
      assert (W : wp zde (let! b := construct w I cf in let! v := prologue w I cf b in
        (let! v := match v with Continue => main_loop w I cf fuel | _ => mret v end in epilogue w v))%mon
        (fun v s' => (v = Feasible \/ v = GapReached) /\ a_iter s' <= 2 ^ i_n I) (ast0 I)).
      { apply (start_safe w I cf 0 0 HO HW HP HEps HE1 HS HC HOp HX HN). intros s' H IT _. eapply wp_bind_mono; [exact (loop_all fuel s' H HF)|]. cbv beta. intros v s2 [HV HI].
        apply (epilogue_safe w cf HC). intros s3 ->. split; [exact HV|lia]. }
      apply (wp_run _ _ _ _ _ _ W) in ER. destruct r as [v|e]; cbv beta iota in ER.
      - left. destruct ER as [[->| ->] H]; auto.
      - right. destruct ER as [(-> & _ & ER)|ER]; [split; [reflexivity|exact ER]|]. now apply bin_close in ER.
    Qed.
    Lemma finite_positive : (exists y, det_feasible I (seq 0 (i_k I)) 0 y /\ (0 < obj I y)%Q) ->
      forall fuel r s, 2 ^ i_n I <= fuel -> run w I cf fuel = (r, s) -> (r = Ok Feasible \/ r = Ok GapReached) /\ a_iter s <= 2 ^ i_n I.
    Proof.
      intros HPos fuel r s HF E. destruct (finite_run fuel r s HF E) as [H|[H _]]; [exact H|exfalso].
      destruct (safe_pos_any w I cf 0 0 HO HSo HW HP HEps HE1 HS (within_zero I) (fun _ => eq_refl) HC HOp HT HX HN HPos fuel r s E) as [X|[X|[X|(e & X & Y)]]]; try congruence.
      now apply bin_close in Y.
    Qed.
  End Ends.
End Ties.

Lemma finite_tight w I cf : oracles_ok w I -> sort_spec (w_sort w) -> wf_inst I -> packing I -> eps_ok I -> (i_eps I < 1)%Q ->
  solver_ok w I 0 0 -> calm w cf -> options_ok w I cf -> 0 < i_n I -> tight I -> i_cont I = false -> alike I ->
  forall fuel r s, 2 ^ i_n I <= fuel -> run w I cf fuel = (r, s) ->
  ((r = Ok Feasible \/ r = Ok GapReached) /\ a_iter s <= 2 ^ i_n I) \/ zero_bound r s.
Proof.
  intros HO HSo HW HP HE HE1 HS HC HOp HN HT HB HA.
  exact (finite_run w I cf HO HSo HW HP HE HE1 HS HC HOp (bin_exact w I HB) HN (tight_near I HT) HB HA).
Qed.
Lemma finite_never w I cf : oracles_ok w I -> sort_spec (w_sort w) -> wf_inst I -> packing I -> eps_ok I -> (i_eps I < 1)%Q ->
  solver_ok w I 0 0 -> calm w cf -> options_ok w I cf -> 0 < i_n I -> tight I -> i_cont I = false -> alike I ->
  (exists y, det_feasible I (seq 0 (i_k I)) 0 y /\ (0 < obj I y)%Q) ->
  forall fuel r s, 2 ^ i_n I <= fuel -> run w I cf fuel = (r, s) -> (r = Ok Feasible \/ r = Ok GapReached) /\ a_iter s <= 2 ^ i_n I.
Proof.
  intros HO HSo HW HP HE HE1 HS HC HOp HN HT HB HA.
  exact (finite_positive w I cf HO HSo HW HP HE HE1 HS HC HOp (bin_exact w I HB) HN (tight_near I HT) HB HA).
Qed.
Lemma stalls_tight w I cf : oracles_ok w I -> sort_spec (w_sort w) -> wf_inst I -> packing I -> eps_ok I -> (i_eps I < 1)%Q ->
  solver_ok w I 0 0 -> calm w cf -> options_ok w I cf -> 0 < i_n I -> tight I -> i_cont I = false ->
  forall s l, head_reach w I cf s -> consecutive w I cf (s :: l) -> progress (s :: l) + tolerated I + 2 <= i_k I + 2 ^ i_n I.
Proof.
  intros HO HSo HW HP HE HE1 HS HC HOp HN HT HB.
  exact (stalls w I cf HO HSo HW HP HE HE1 HS HC HOp (bin_exact w I HB) HN (tight_near I HT) HB).
Qed.
