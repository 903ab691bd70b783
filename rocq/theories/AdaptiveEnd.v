(** Outcomes of runs without signals and within the time limit: from the outcomes of all runs (AdaptiveAny). *)
From Coq Require Import Qabs.
From Verif Require Import Base BaseFacts Spec Instance InstanceFacts OptModels OptFacts PartitionFacts Initial InitialFacts Bounds BoundsFacts
  Refine RefineFacts RefineSum CostRefine CostRefineFacts Merge MergeFacts Violations ViolTable BigM BigMFacts2 SongFacts Adaptive AdaptiveSpec AdaptiveWp AdaptiveStruct AdaptiveStart
  AdaptiveBounds NearSpec ContFacts.
From Verif Require Export AdaptiveAny.

(** Nothing comes from outside. *)
Definition quiet (e : exn) : Prop := False.
Lemma calm_regular w I cf : calm w cf -> exact_if_cont w I -> regular w I cf quiet False.
Proof.
  intros HC HX. constructor.
  - apply (cm_mono _ _ HC).
  - intros t E. rewrite (cm_intr _ _ HC) in E. discriminate.
  - intros t m E. now apply (cm_solved _ _ HC) in E.
  - intros t m E. right. left. destruct (i_cont I) eqn:CO; [exact (exact_finished m _ (HX CO t m E))|exact (cm_answer _ _ HC t m E)].
  - intros CO t m E. assert (X := HX CO t m E). destruct (w_solve w t m); auto.
  - intros t L. assert (X := cm_limit _ _ HC t). lra.
Qed.
Lemma quiet_opens E : opens quiet E. Proof. intros e s []. Qed.

Section End.
  Variable w : world.
  Variable I : inst.
  Variable cf : cfg.
  Variables tau delta : Q.
  Hypothesis HO : oracles_ok w I.
  Hypothesis HSo : sort_spec (w_sort w).
  Hypothesis HW : wf_inst I.
  Hypothesis HP : packing I.
  Hypothesis HEps : eps_ok I.
  Hypothesis HE1 : (i_eps I < 1)%Q.
  Hypothesis HS : solver_ok w I tau delta.
  Hypothesis HTau : eps_within I tau.
  Hypothesis HCTau : i_cont I = true -> tau = 0%Q.
  Hypothesis HC : calm w cf.
  Hypothesis HOp : options_ok w I cf.
  Hypothesis HT : near I.
  Hypothesis HX : exact_if_cont w I.
  Hypothesis HN : 0 < i_n I.

  Local Notation shaped := (shaped w I).
  Local Notation state_ok := (state_ok w I).
  Local Notation fe_of := (fe_of w I).
  Local Notation fe_ok := (fe_ok w I).
  Local Notation ms_ok := (ms_ok I cf).
  Local Notation bnd := (bnd I).
  Local Notation good := (good I).

  Definition never (e : exn) (s : ast) : Prop := False.
  Local Notation zde := (zde w I cf).
  Local Notation chk := (chk w I cf).
  Local Notation plain := (plain I tau delta).
  Local Notation jinv := (jinv I tau delta).
  Local Notation xinv := (xinv I tau delta).
  Local Notation at_point := (at_point I).
  Local Notation zfits := (zfits I).
  Local Notation head_ok := (head_ok w I tau delta).
  Local Notation shape_ok := (shape_ok I cf).
  Local Notation ms_part := (ms_part I cf).
  Local Notation turn := (turn I tau delta).
  Local Notation grown := (grown cf).
  Local Notation jv := (jv I).

  Let HR := calm_regular w I cf HC HX.
  Lemma run_put E f (Q : unit -> ast -> Prop) s : Q tt (bump (f s)) -> wp E (put w f) Q s.
  Proof.
    intro H. apply wp_put; [|auto]. intro C. rewrite (cm_intr _ _ HC) in C. discriminate.
  Qed.
  (** Every answer is exact for continuous variables. *)
  Definition ans (m : model) (o : outcome) : Prop := outcome_ok tau m o /\ finished o /\ (i_cont I = true -> outcome_exact m o).
  Lemma exact_all t m : m_cont m = i_cont I -> ans m (w_solve w t m).
  Proof.
    intro E. split; [apply (so_ok _ _ _ _ HS)|]. destruct (i_cont I) eqn:EM.
    - assert (X := HX EM t m E). split; [now apply exact_finished in X|auto].
    - split; [now apply (cm_answer _ _ HC)|discriminate].
  Qed.
  Lemma run_call E m (Q : outcome -> ast -> Prop) s : m_cont m = i_cont I ->
    (forall o, ans m o -> (exists t, o = w_solve w t m) -> Q o (bump (bump s))) -> wp E (call w m) Q s.
  Proof.
    intros Hm H. apply wp_call.
    - intro C. rewrite (cm_intr _ _ HC) in C. discriminate.
    - intro C. now apply (cm_solved _ _ HC) in C.
    - intros _. apply H; [now apply exact_all|eauto].
  Qed.
  Lemma run_avail E (Q : Q -> ast -> Prop) s : a_start s = w_clock w 0 ->
    (forall t, Qle_bool t 0 = false -> t == (c_limit cf - (w_clock w (a_t s) - w_clock w 0)) -> Q t (bump s))%Q -> wp E (available w cf) Q s.
  Proof.
    intros ES H. apply (AdaptiveAny.run_avail w cf); [exact ES|intros t H1 _ H2; exact (H t H1 H2)|]. intros L. assert (X := cm_limit _ _ HC (a_t s)). unfold after in L. lra.
  Qed.
  Lemma gap_safe (Q : gapv -> ast -> Prop) s : (forall g, Q g s) -> wp zde gap_now Q s.
  Proof. intro H. eapply wp_mono; [apply (AdaptiveAny.gap_safe w I cf quiet Q s H)|auto|]. intros e s' [X|[]]. exact X. Qed.
  Lemma ext_safe {A} (E : exn -> ast -> Prop) (m : M A) Q s : wp (fun e _ => external w I e) m Q s -> wp E m Q s.
  Proof.
    intro H. apply (AdaptiveAny.ext_safe w I cf tau delta quiet False HP HS HR (OE := quiet_opens E)). exact H.
  Qed.
  Lemma big_M_safe s : state_ok s -> wp never (big_M w I cf) (fun _ s' => (exists t v, s' = set_t t (set_bigM v s)) /\ shape_ok s' /\ ms_part s') s.
  Proof.
    intro OK. eapply wp_mono; [exact (AdaptiveAny.big_M_safe w I cf tau delta quiet False HO HSo HW HP HEps HS HR HOp HN s OK)|auto|intros e s' []].
  Qed.
  Lemma upper_safe s : state_ok s -> ms_ok s -> shape_ok s -> ms_part s -> zfits s -> a_start s = w_clock w 0 -> jinv (a_part s) s -> xinv s ->
    wp zde (upper_bound_step w I cf) (fun r s' => a_start s' = a_start s /\ a_iter s' = a_iter s /\
      (exists z, a_zUB s' = Some z /\ length z = a_nb s) /\
      jinv (a_part s) s' /\
      exists x, fst r = Some x /\ nunsat I tol6 x (a_part s) <= tolerated I /\ (snd r = false -> fe_of x s') /\ (plain -> at_point (a_part s) (a_vUB s) x s')) s.
  Proof.
    intros OK MS SO MP ZF ST JI XI.
    eapply wp_mono; [exact (AdaptiveAny.upper_safe w I cf tau delta quiet False HW HP HEps HS HTau HCTau HR HT HN s OK MS SO MP ZF ST JI XI)| |intros e s' [X|[]]; exact X].
    cbv beta. intros r s' (A1 & A2 & [[_ A3]|A3]); [|auto]. destruct (rg_late _ _ _ _ _ HR _ A3) as [[] _].
  Qed.
  Lemma bound_safe s : state_ok s -> zfits s -> a_start s = w_clock w 0 -> jinv (a_part s) s -> xinv s ->
    wp zde (bound_phase w I cf) (fun r s' => a_start s' = a_start s /\ a_iter s' = a_iter s /\
      (exists z, a_zUB s' = Some z /\ length z = a_nb s) /\ jinv (a_part s) s' /\
      (plain -> exists y, at_point (a_part s) (a_vUB s) y s' /\ forall x, r = inr x -> x = Some y) /\
      match r with
      | inl v => v = Feasible \/ v = GapReached
      | inr x => exists y, x = Some y /\ nunsat I tol6 y (a_part s) <= tolerated I /\ fe_of y s'
      end) s.
  Proof.
    intros OK ZF ST JI XI.
    eapply wp_mono; [exact (AdaptiveAny.bound_safe w I cf tau delta quiet False HO HSo HW HP HEps HS HTau HCTau HR HOp HT HN s OK ZF ST JI XI)| |intros e s' [X|[]]; exact X].
    cbv beta. intros r s' (A1 & A2 & [[_ []]|A3]). auto.
  Qed.
  Lemma iteration_safe s : head_ok s -> wp zde (iteration w I cf) (fun v s' =>
    (v = Feasible /\ a_iter s' = a_iter s) \/ (v = GapReached /\ a_iter s' = a_iter s) \/
    (v = Continue /\ head_ok s' /\ a_iter s' = S (a_iter s) /\ grown (a_part s) s' /\ turn (a_part s) (a_vUB s) s')) s.
  Proof.
    intro H. eapply wp_mono; [exact (AdaptiveAny.iteration_safe w I cf tau delta quiet False HO HSo HW HP HEps HS HTau HCTau HR HOp HT HN s H)| |intros e s' [X|[]]; exact X].
    cbv beta. intros v s' [(_ & [] & _)|X]. exact X.
  Qed.
  Lemma start_safe {A} (E : exn -> ast -> Prop) (k : verdict -> M A) (Q : A -> ast -> Prop) :
    (forall s, head_ok s -> a_iter s = 1 -> length (a_part s) = tolerated I + 1 -> wp E (k Continue) Q s) ->
    wp E (let! b := construct w I cf in let! v := prologue w I cf b in k v)%mon Q (ast0 I).
  Proof.
    intro K. exact (AdaptiveAny.start_safe w I cf tau delta quiet False HO HW HP HEps HE1 HS HR HOp HN E (OE := quiet_opens E) k Q (fun X => False_ind _ X) K).
  Qed.
  Lemma epilogue_safe E v s (Q : verdict -> ast -> Prop) : (forall s', a_iter s' = a_iter s -> Q v s') -> wp E (epilogue w v) Q s.
  Proof.
    intro H. unfold epilogue. destruct v; try (apply wp_ret; apply H; reflexivity).
    apply wp_bind, run_put. apply wp_bind, run_put. apply wp_ret. apply H; reflexivity.
  Qed.
  Lemma safe_run_any fuel r s : run w I cf fuel = (r, s) ->
    r = Ok Feasible \/ r = Ok GapReached \/ r = Err NonTermination \/ zero_bound r s \/ exists e, r = Err e /\ close_failed w I cf e s.
  Proof.
    intro ER. destruct (safe_run_out w I cf tau delta quiet False HO HSo HW HP HEps HE1 HS HTau HCTau HR HOp HT HN fuel r s ER) as [(v & -> & [[_ []]|[->| ->]])|[H|[H|(e & -> & [H|[]])]]]; auto.
    right. right. right. right. exists e. auto.
  Qed.
  Lemma ends_run_any fuel r s : c_merger cf = false -> i_k I - tolerated I <= fuel -> run w I cf fuel = (r, s) ->
    (r = Ok Feasible /\ a_iter s <= i_k I - tolerated I) \/ (r = Ok GapReached /\ a_iter s <= i_k I - tolerated I) \/
    zero_bound r s \/ exists e, r = Err e /\ close_failed w I cf e s.
  Proof.
    intros NM HF ER. destruct (ends_run_out w I cf tau delta quiet False HO HSo HW HP HEps HE1 HS HTau HCTau HR HOp HT HN fuel r s NM HF ER) as [(v & -> & [[_ []]|[->| ->]] & L)|[H|(e & -> & [H|[]])]]; auto.
    right. right. right. exists e. auto.
  Qed.

  Section Positive.
    Hypothesis HPos : exists y, det_feasible I (seq 0 (i_k I)) 0 y /\ (0 < obj I y)%Q.
    Lemma iteration_pos s : head_ok s -> lbpos s -> wp (fun _ => lbpos) (iteration w I cf) (fun _ => lbpos) s.
    Proof. exact (AdaptiveAny.iteration_pos w I cf tau delta quiet False HO HSo HW HP HEps HS HR HN HPos s). Qed.
    Lemma start_pos {A} (E : exn -> ast -> Prop) (k : verdict -> M A) (Q : A -> ast -> Prop) :
      (forall s, head_ok s -> lbpos s -> a_iter s = 1 -> length (a_part s) = tolerated I + 1 -> wp E (k Continue) Q s) ->
      wp E (let! b := construct w I cf in let! v := prologue w I cf b in k v)%mon Q (ast0 I).
    Proof. intro K. exact (AdaptiveAny.start_pos w I cf tau delta quiet False HO HW HP HEps HE1 HS HR HOp HN E (OE := quiet_opens E) k Q (fun X => False_ind _ X) K). Qed.
    Lemma never_raises_any fuel r s : c_merger cf = false -> i_k I - tolerated I <= fuel -> run w I cf fuel = (r, s) ->
      ((r = Ok Feasible \/ r = Ok GapReached) /\ a_iter s <= i_k I - tolerated I) \/ exists e, r = Err e /\ close_failed w I cf e s.
    Proof.
      intros NM HF ER. destruct (never_raises_out w I cf tau delta quiet False HO HSo HW HP HEps HE1 HS HTau HCTau HR HOp HT HN HPos fuel r s NM HF ER) as [(v & -> & [[_ []]|[->| ->]] & L)|(e & -> & [H|[]])]; auto.
      right. exists e. auto.
    Qed.
    Lemma safe_pos_any fuel r s : run w I cf fuel = (r, s) ->
      r = Ok Feasible \/ r = Ok GapReached \/ r = Err NonTermination \/ exists e, r = Err e /\ close_failed w I cf e s.
    Proof.
      intro ER. destruct (safe_pos_out w I cf tau delta quiet False HO HSo HW HP HEps HE1 HS HTau HCTau HR HOp HT HN HPos fuel r s ER) as [(v & -> & [[_ []]|[->| ->]])|[H|(e & -> & [H|[]])]]; auto.
      right. right. right. exists e. auto.
    Qed.
  End Positive.
End End.

(** ** Binary variables *)
Lemma tight_near I : tight I -> near I.
Proof. intros H x Hx. exists x. split; [now apply H|lra]. Qed.
Lemma bin_exact w I : i_cont I = false -> exact_if_cont w I.
Proof. intros H C. congruence. Qed.
Lemma bin_tau I (tau : Q) : i_cont I = false -> i_cont I = true -> tau = 0%Q.
Proof. congruence. Qed.
Lemma within_zero I : eps_within I 0.
Proof. unfold eps_within. apply Qfloor_comp. lra. Qed.
Lemma bin_close w I cf e s : i_cont I = false -> ~ close_failed w I cf e s.
Proof. intros H [C _]. congruence. Qed.

Section Binary.
  Variable w : world.
  Variable I : inst.
  Variable cf : cfg.
  Variables tau delta : Q.
  Hypothesis HO : oracles_ok w I.
  Hypothesis HSo : sort_spec (w_sort w).
  Hypothesis HW : wf_inst I.
  Hypothesis HP : packing I.
  Hypothesis HEps : eps_ok I.
  Hypothesis HE1 : (i_eps I < 1)%Q.
  Hypothesis HS : solver_ok w I tau delta.
  Hypothesis HTau : eps_within I tau.
  Hypothesis HC : calm w cf.
  Hypothesis HOp : options_ok w I cf.
  Hypothesis HT : tight I.
  Hypothesis HB : i_cont I = false.
  Hypothesis HN : 0 < i_n I.

  Let HT' := tight_near I HT.
  Let HX := bin_exact w I HB.
  Let HCT := bin_tau I tau HB.

  Lemma safe_run fuel r s : run w I cf fuel = (r, s) ->
    r = Ok Feasible \/ r = Ok GapReached \/ r = Err NonTermination \/ zero_bound r s.
  Proof.
    intro E. destruct (safe_run_any w I cf tau delta HO HSo HW HP HEps HE1 HS HTau HCT HC HOp HT' HX HN fuel r s E) as [H|[H|[H|[H|(e & _ & H)]]]]; auto.
    now apply bin_close in H.
  Qed.
  Lemma ends_run fuel r s : c_merger cf = false -> i_k I - tolerated I <= fuel -> run w I cf fuel = (r, s) ->
    (r = Ok Feasible /\ a_iter s <= i_k I - tolerated I) \/ (r = Ok GapReached /\ a_iter s <= i_k I - tolerated I) \/ zero_bound r s.
  Proof.
    intros NM HF E. destruct (ends_run_any w I cf tau delta HO HSo HW HP HEps HE1 HS HTau HCT HC HOp HT' HX HN fuel r s NM HF E) as [H|[H|[H|(e & _ & H)]]]; auto.
    now apply bin_close in H.
  Qed.
  Lemma never_raises : (exists y, det_feasible I (seq 0 (i_k I)) 0 y /\ (0 < obj I y)%Q) ->
    forall fuel r s, c_merger cf = false -> i_k I - tolerated I <= fuel -> run w I cf fuel = (r, s) ->
    (r = Ok Feasible \/ r = Ok GapReached) /\ a_iter s <= i_k I - tolerated I.
  Proof.
    intros HPos fuel r s NM HF E.
    destruct (never_raises_any w I cf tau delta HO HSo HW HP HEps HE1 HS HTau HCT HC HOp HT' HX HN HPos fuel r s NM HF E) as [H|(e & _ & H)]; auto.
    now apply bin_close in H.
  Qed.
  Lemma safe_pos : (exists y, det_feasible I (seq 0 (i_k I)) 0 y /\ (0 < obj I y)%Q) ->
    forall fuel r s, run w I cf fuel = (r, s) -> r = Ok Feasible \/ r = Ok GapReached \/ r = Err NonTermination.
  Proof.
    intros HPos fuel r s E.
    destruct (safe_pos_any w I cf tau delta HO HSo HW HP HEps HE1 HS HTau HCT HC HOp HT' HX HN HPos fuel r s E) as [H|[H|[H|(e & _ & H)]]]; auto.
    now apply bin_close in H.
  Qed.
End Binary.
