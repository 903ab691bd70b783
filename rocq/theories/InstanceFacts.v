(** Proofs about the instance model. *)
From Verif Require Import Base BaseFacts Spec Instance.

(** ** Satisfaction *)
Lemma satb_iff I tau x s : satb I tau x s = true <-> sat I tau x s.
Proof.
  unfold satb, sat. rewrite forallb_forall. split; intros H i Hi.
  - apply Qle_bool_iff, H, in_seq. lia.
  - apply in_seq in Hi. apply Qle_bool_iff, H. lia.
Qed.
Lemma satb_false I tau x s : satb I tau x s = false <->
  exists i, i < i_m I /\ (rhs I s i + tau < dot (row I s i) x)%Q.
Proof.
  unfold satb. split; intro H.
  - assert (E : existsb (fun i => negb (Qle_bool (dot (row I s i) x) (rhs I s i + tau))) (seq 0 (i_m I)) = true).
    { revert H. induction (seq 0 (i_m I)) as [|i l IH]; simpl; [discriminate|].
      destruct (Qle_bool _ _); simpl; auto. }
    apply existsb_exists in E as (i & Hi & E). apply in_seq in Hi.
    exists i; split; [lia|]. apply negb_true_iff in E. now qb.
  - destruct H as (i & Hi & Hlt).
    destruct (forallb _ _) eqn:E; [|reflexivity].
    rewrite forallb_forall in E. specialize (E i). rewrite in_seq in E.
    assert (Hle := E ltac:(lia)). qb. exfalso. exact (Qlt_not_le _ _ Hlt Hle).
Qed.

Lemma satb_mono_tau I tau tau' x s : (tau <= tau')%Q -> satb I tau x s = true -> satb I tau' x s = true.
Proof.
  rewrite !satb_iff. intros Ht H i Hi. specialize (H i Hi). lra.
Qed.

Lemma subset_satb_iff I tau x S : subset_satb I tau x S = true <-> subset_sat I tau x S.
Proof.
  unfold subset_satb, subset_sat. rewrite forallb_forall.
  split; intros H s Hs; apply satb_iff; auto.
Qed.
Lemma subset_satb_false I tau x S : subset_satb I tau x S = false <->
  exists s, In s S /\ satb I tau x s = false.
Proof.
  unfold subset_satb. induction S as [|s S IH]; simpl; [split; [discriminate|intros (s & [] & _)]|].
  rewrite andb_false_iff, IH. split.
  - intros [E|(t & Ht & E)]; [exists s|exists t]; auto.
  - intros (t & [<-|Ht] & E); [now left|right; now exists t].
Qed.

Lemma nviol_mono_tau I tau tau' x : (tau <= tau')%Q -> nviol I tau' x <= nviol I tau x.
Proof.
  intro Ht. unfold nviol. apply count_mono. intros s _ H.
  apply negb_true_iff in H. apply negb_true_iff.
  destruct (satb I tau x s) eqn:E; [|reflexivity].
  apply (satb_mono_tau I tau tau') in E; congruence.
Qed.

Lemma filter_seq_sorted (f : nat -> bool) a n : StronglySorted lt (filter f (seq a n)).
Proof.
  assert (G : StronglySorted lt (filter f (seq a n)) /\ forall t, In t (filter f (seq a n)) -> a <= t);
    [|apply G].
  revert a; induction n as [|n IH]; intro a; [split; [constructor|intros t []]|].
  destruct (IH (S a)) as [A1 A2]. simpl. destruct (f a).
  - split; [constructor; [assumption|]|].
    + apply Forall_forall. intros t Ht. apply A2 in Ht. lia.
    + intros t [<-|Ht]; [lia|]. apply A2 in Ht. lia.
  - split; [assumption|]. intros t Ht. apply A2 in Ht. lia.
Qed.

(** ** C01/C02: feasibility verdicts *)
Section Norm.
  Variable norm : list Q -> Q.

  Lemma violated_iff I x s i :
    Qlt_bool tol6 (constraint_violation (row I s i) x (rhs I s i)) = true <->
    (rhs I s i + tol6 < dot (row I s i) x)%Q.
  Proof.
    rewrite Qlt_bool_iff. unfold constraint_violation.
    destruct (Q.max_spec (dot (row I s i) x - rhs I s i) 0) as [[H E]|[H E]]; rewrite E; unfold tol6.
    - split; intro; lra.
    - split; intro; lra.
  Qed.

  Lemma scenario_infeasibility_length I x s :
    length (scenario_infeasibility norm I x s) =
    count (fun i => Qlt_bool (rhs I s i + tol6) (dot (row I s i) x)) (seq 0 (i_m I)).
  Proof.
    unfold scenario_infeasibility. induction (seq 0 (i_m I)) as [|i l IH]; [reflexivity|].
    cbn [flat_map]. rewrite app_length, IH, count_cons. clear IH. f_equal.
    destruct (Qlt_bool tol6 (constraint_violation (row I s i) x (rhs I s i))) eqn:E.
    - apply violated_iff, Qlt_bool_iff in E. rewrite E. reflexivity.
    - destruct (Qlt_bool (rhs I s i + tol6) _) eqn:E'; [|reflexivity].
      apply Qlt_bool_iff, violated_iff in E'. congruence.
  Qed.

  Lemma is_scenario_infeasible_spec I x s :
    is_scenario_infeasible norm I x s = negb (satb I tol6 x s).
  Proof.
    unfold is_scenario_infeasible. f_equal. rewrite scenario_infeasibility_length.
    destruct (satb I tol6 x s) eqn:E.
    - apply Nat.eqb_eq, count_zero. intros i Hi. apply in_seq in Hi.
      apply satb_iff in E. specialize (E i ltac:(lia)). now qb.
    - apply Nat.eqb_neq. intro C. rewrite count_zero in C.
      apply satb_false in E as (i & Hi & E).
      specialize (C i ltac:(apply in_seq; lia)). qb. exact (Qlt_not_le _ _ E C).
  Qed.

  Lemma flags_count I x :
    count (fun f : bool => f) (map (is_scenario_infeasible norm I x) (seq 0 (i_k I))) =
    nviol I tol6 x.
  Proof.
    rewrite count_map. unfold nviol. apply count_ext. intros; apply is_scenario_infeasible_spec.
  Qed.

  Lemma is_feasible_spec I x ok nb t flags infeas :
    is_feasible norm I x = (ok, nb, t, flags, infeas) ->
    (ok = true <-> (Qn (nviol I tol6 x) <= i_eps I * Qn (i_k I))%Q) /\
    nb = nviol I tol6 x /\
    t = (i_eps I * Qn (i_k I))%Q /\
    length flags = i_k I /\ length infeas = i_k I /\
    forall s, s < i_k I ->
      (nth s flags false = true <-> ~ sat I tol6 x s) /\
      length (nth s infeas []) =
        count (fun i => Qlt_bool (rhs I s i + tol6) (dot (row I s i) x)) (seq 0 (i_m I)) /\
      (nth s infeas [] = [] <-> sat I tol6 x s).
  Proof.
    unfold is_feasible. rewrite flags_count. intro E. injection E as <- <- <- <- <-.
    rewrite Qle_bool_iff, !map_length, seq_length.
    repeat (split; [reflexivity|]). intros s Hs.
    assert (N1 : nth s (map (is_scenario_infeasible norm I x) (seq 0 (i_k I))) false = negb (satb I tol6 x s)).
    { rewrite (nth_indep _ _ (is_scenario_infeasible norm I x 0)) by (rewrite map_length, seq_length; lia).
      rewrite map_nth, seq_nth by assumption. apply is_scenario_infeasible_spec. }
    assert (N2 : nth s (map (scenario_infeasibility norm I x) (seq 0 (i_k I))) [] = scenario_infeasibility norm I x s).
    { rewrite (nth_indep _ _ (scenario_infeasibility norm I x 0)) by (rewrite map_length, seq_length; lia).
      rewrite map_nth, seq_nth by assumption. reflexivity. }
    rewrite N1, N2. split; [|split].
    - rewrite negb_true_iff, <- satb_iff. destruct (satb I tol6 x s); split; congruence.
    - apply scenario_infeasibility_length.
    - assert (H := is_scenario_infeasible_spec I x s). unfold is_scenario_infeasible in H.
      rewrite <- satb_iff. destruct (scenario_infeasibility norm I x s); simpl in H;
        destruct (satb I tol6 x s); simpl in H; split; congruence.
  Qed.

  (** Verdict only (first component), used by the algorithms. *)
  Lemma is_feasible_verdict I x :
    fst (fst (fst (fst (is_feasible norm I x)))) = true <->
    (Qn (nviol I tol6 x) <= i_eps I * Qn (i_k I))%Q.
  Proof.
    unfold is_feasible. simpl. rewrite flags_count. apply Qle_bool_iff.
  Qed.

  Hypothesis norm_nonneg : forall r, (0 <= norm r)%Q.

  Lemma infeasibility_pos I x s :
    Forall (fun v => 0 < v)%Q (scenario_infeasibility norm I x s).
  Proof.
    unfold scenario_infeasibility. apply Forall_forall. intros v Hv.
    apply in_flat_map in Hv as (i & _ & Hv).
    destruct (Qlt_bool tol6 _) eqn:E; [|destruct Hv].
    apply Qlt_bool_iff in E. unfold tol6 in E.
    set (w := constraint_violation _ _ _) in *.
    destruct Hv as [<-|[]]. destruct (Qeq_bool _ 0) eqn:E0; [lra|].
    apply Qeq_bool_neq in E0. assert (H := norm_nonneg (row I s i)).
    apply Qlt_shift_div_l; lra.
  Qed.

  Lemma qmax_list_zero l : Forall (fun v => 0 < v)%Q l ->
    (Qeq_bool (qmax_list l) 0 = true <-> l = []).
  Proof.
    intros H. destruct H as [|v l Hv H]; [split; reflexivity|]. cbn [qmax_list fold_right].
    rewrite Qeq_bool_iff. split; [|discriminate]. intro E.
    assert (v <= Qmax v (fold_right Qmax 0 l))%Q by apply Q.le_max_l. lra.
  Qed.

  Lemma filter_flags (f : nat -> bool) (a k : nat) :
    map fst (filter snd (combine (seq a k) (map f (seq a k)))) = filter f (seq a k).
  Proof.
    revert a; induction k as [|k IH]; intro a; [reflexivity|].
    simpl. destruct (f a); simpl; rewrite IH; reflexivity.
  Qed.

  Lemma check_feasibility_infeasible I x :
    f_infeasible (snd (check_feasibility norm I x)) =
    filter (fun s => negb (satb I tol6 x s)) (seq 0 (i_k I)).
  Proof.
    unfold check_feasibility, is_feasible. cbn [snd f_infeasible].
    rewrite map_length, seq_length, filter_flags.
    apply filter_ext. intro; apply is_scenario_infeasible_spec.
  Qed.
  Lemma check_feasibility_flags I x :
    f_flags (snd (check_feasibility norm I x)) =
    map (fun s => negb (satb I tol6 x s)) (seq 0 (i_k I)).
  Proof.
    unfold check_feasibility, is_feasible. cbn [snd f_flags].
    apply map_ext. intro; apply is_scenario_infeasible_spec.
  Qed.
  Lemma check_feasibility_verdict I x :
    fst (check_feasibility norm I x) = true <->
    (Qn (nviol I tol6 x) <= i_eps I * Qn (i_k I))%Q.
  Proof. rewrite <- is_feasible_verdict. reflexivity. Qed.

  Lemma check_feasibility_feasible I x :
    get_feasible_scenarios (snd (check_feasibility norm I x)) =
    map (satb I tol6 x) (seq 0 (i_k I)).
  Proof.
    unfold get_feasible_scenarios, check_feasibility, is_feasible. cbn [snd f_max].
    rewrite !map_map. apply map_ext. intro s.
    assert (H := is_scenario_infeasible_spec I x s). unfold is_scenario_infeasible in H.
    destruct (Qeq_bool _ 0) eqn:E.
    - apply qmax_list_zero in E; [|apply infeasibility_pos]. rewrite E in H. simpl in H.
      destruct (satb I tol6 x s); [reflexivity|discriminate].
    - destruct (satb I tol6 x s) eqn:Es; [|reflexivity]. simpl in H.
      apply negb_false_iff, Nat.eqb_eq, length_zero_iff_nil in H.
      rewrite H in E. discriminate.
  Qed.

  Lemma check_feasibility_spec I x ok f :
    check_feasibility norm I x = (ok, f) ->
    (ok = true <-> (Qn (nviol I tol6 x) <= i_eps I * Qn (i_k I))%Q) /\
    StronglySorted lt (f_infeasible f) /\
    (forall s, In s (f_infeasible f) <-> s < i_k I /\ ~ sat I tol6 x s) /\
    length (get_feasible_scenarios f) = i_k I /\
    (forall s, s < i_k I -> (nth s (get_feasible_scenarios f) false = true <-> sat I tol6 x s)) /\
    length (f_infeasible f) = nviol I tol6 x.
  Proof.
    intro E.
    assert (E1 := check_feasibility_verdict I x). assert (E2 := check_feasibility_infeasible I x).
    assert (E3 := check_feasibility_feasible I x). rewrite E in *. cbn [fst snd] in *.
    split; [assumption|]. rewrite E2, E3. split; [|split; [|split; [|split]]].
    - apply filter_seq_sorted.
    - intro s. rewrite filter_In, in_seq, negb_true_iff, <- satb_iff.
      destruct (satb I tol6 x s); split; intros [H1 H2]; split; try lia; congruence.
    - now rewrite map_length, seq_length.
    - intros s Hs. rewrite (nth_indep _ _ (satb I tol6 x 0)) by (rewrite map_length, seq_length; lia).
      rewrite map_nth, seq_nth by assumption. apply satb_iff.
    - reflexivity.
  Qed.
End Norm.

(** ** Rounding (C06) *)
Lemma Qfloor_bounds q : (inject_Z (Qfloor q) <= q /\ q < inject_Z (Qfloor q) + 1)%Q.
Proof.
  split; [apply Qfloor_le|]. assert (H := Qlt_floor q). rewrite inject_Z_plus in H. exact H.
Qed.

Lemma Qrnd_bounds q : (inject_Z (Qrnd q) - (1 # 2) <= q /\ q <= inject_Z (Qrnd q) + (1 # 2))%Q.
Proof.
  destruct (Qfloor_bounds q) as [H1 H2]. unfold Qrnd.
  destruct (Qlt_bool (q - inject_Z (Qfloor q)) (1 # 2)) eqn:E1; qb; [split; lra|].
  destruct (Qlt_bool (1 # 2) (q - inject_Z (Qfloor q))) eqn:E2; qb.
  - rewrite inject_Z_plus. change (inject_Z 1) with 1%Q. split; lra.
  - destruct (Z.even _); [split; lra|].
    rewrite inject_Z_plus. change (inject_Z 1) with 1%Q. split; lra.
Qed.

Lemma Qrnd_mono q q' : (q <= q')%Q -> (Qrnd q <= Qrnd q')%Z.
Proof.
  intro H. assert (F : (Qfloor q <= Qfloor q')%Z) by now apply Qfloor_resp_le.
  assert (L : forall r, (Qfloor r <= Qrnd r <= Qfloor r + 1)%Z).
  { intro r. unfold Qrnd. repeat (destruct (_ : bool)); lia. }
  destruct (Z.eq_dec (Qfloor q) (Qfloor q')) as [E|E].
  - unfold Qrnd. rewrite <- E. set (f := Qfloor q) in *.
    destruct (Qlt_bool (q - inject_Z f) (1 # 2)) eqn:E1;
    destruct (Qlt_bool (q' - inject_Z f) (1 # 2)) eqn:E2; qb;
    destruct (Qlt_bool (1 # 2) (q - inject_Z f)) eqn:E3;
    destruct (Qlt_bool (1 # 2) (q' - inject_Z f)) eqn:E4; qb;
    try (exfalso; lra); destruct (Z.even f); try lia; exfalso; lra.
  - assert (H1 := L q). assert (H2 := L q'). lia.
Qed.

Global Instance Qrnd_proper : Proper (Qeq ==> eq) Qrnd.
Proof.
  intros a b H. apply Z.le_antisymm; apply Qrnd_mono; rewrite H; apply Qle_refl.
Qed.

Lemma Qrnd_Z z : Qrnd (inject_Z z) = z.
Proof.
  unfold Qrnd. rewrite Qfloor_Z.
  assert (E : (inject_Z z - inject_Z z == 0)%Q) by ring.
  destruct (Qlt_bool (inject_Z z - inject_Z z) (1 # 2)) eqn:E1; [reflexivity|].
  qb. exfalso. lra.
Qed.

Lemma round1_close q : (round1 q - (1 # 20) <= q /\ q <= round1 q + (1 # 20))%Q.
Proof.
  unfold round1. destruct (Qrnd_bounds (10 * q)) as [H1 H2].
  set (z := inject_Z (Qrnd (10 * q))) in *.
  assert (E : (z / 10 == (1 # 10) * z)%Q) by field. rewrite E. split; lra.
Qed.
Lemma round1_mono q q' : (q <= q' -> round1 q <= round1 q')%Q.
Proof.
  intro H. unfold round1. assert (Z : (Qrnd (10 * q) <= Qrnd (10 * q'))%Z) by (apply Qrnd_mono; lra).
  rewrite Zle_Qle in Z. unfold Qdiv. apply Qmult_le_compat_r; [assumption|]. discriminate.
Qed.
Global Instance round1_proper : Proper (Qeq ==> Qeq) round1.
Proof. intros a b H. unfold round1. rewrite H. reflexivity. Qed.
Lemma round1_idem q : (round1 (round1 q) == round1 q)%Q.
Proof.
  unfold round1. assert (E : (10 * (inject_Z (Qrnd (10 * q)) / 10) == inject_Z (Qrnd (10 * q)))%Q) by field.
  rewrite E, Qrnd_Z. reflexivity.
Qed.
Lemma round1_nonneg q : (0 <= q -> 0 <= round1 q)%Q.
Proof. intro H. assert (E : (round1 0 == 0)%Q) by reflexivity. rewrite <- E. now apply round1_mono. Qed.
Lemma round4_mono q q' : (q <= q' -> round4 q <= round4 q')%Q.
Proof.
  intro H. unfold round4. assert (Z : (Qrnd (10000 * q) <= Qrnd (10000 * q'))%Z) by (apply Qrnd_mono; lra).
  rewrite Zle_Qle in Z. unfold Qdiv. apply Qmult_le_compat_r; [assumption|]. discriminate.
Qed.
Lemma round4_nonneg q : (0 <= q -> 0 <= round4 q)%Q.
Proof. intro H. assert (E : (round4 0 == 0)%Q) by reflexivity. rewrite <- E. now apply round4_mono. Qed.
Lemma gen_entry_nonneg q : (0 <= gen_entry q)%Q.
Proof. unfold gen_entry. apply round4_nonneg. destruct (Qlt_bool q 0) eqn:E; qb; lra. Qed.

(** Effect of rounding on one constraint. *)
Lemma dot_round u x :
  length u = length x ->
  Forall (fun v => 0 <= v /\ v <= 1)%Q x ->
  (dot u x <= dot (map round1 u) x + Qn (length u) * (1 # 20))%Q.
Proof.
  intros HL Hx; revert u HL; induction Hx as [|v x [H0 H1] Hx IH]; intros [|a u] HL; simpl in HL; try discriminate.
  cbn [dot map]. specialize (IH u ltac:(lia)). destruct (round1_close a) as [_ Ha].
  cbn [length]. rewrite Qn_S. nra.
Qed.

Lemma round_constraint u x b :
  length u = length x -> Forall (fun v => 0 <= v /\ v <= 1)%Q x ->
  (dot (map round1 u) x <= round1 b)%Q ->
  (dot u x <= b + (Qn (length u) + 1) * (1 # 20))%Q.
Proof.
  intros HL Hx H. assert (H1 := dot_round u x HL Hx). destruct (round1_close b) as [H2 _]. nra.
Qed.

(** ** Parsing (C03, C05) *)
Definition tenth (q : Q) : Prop := exists z, (q == inject_Z z / 10)%Q.
Lemma round1_tenth q : tenth (round1 q). Proof. eexists; reflexivity. Qed.

Lemma rmap_length {A B} (f : A -> res B) l l' : rmap f l = Ok l' -> length l' = length l.
Proof.
  revert l'; induction l as [|a l IH]; simpl; intros l' H; [now injection H as <-|].
  destruct (f a); simpl in H; [|discriminate]. destruct (rmap f l); simpl in H; [|discriminate].
  injection H as <-. simpl. f_equal. now apply IH.
Qed.
Lemma rmap_nth {A B} (f : A -> res B) l l' d d' i : rmap f l = Ok l' -> i < length l ->
  f (nth i l d) = Ok (nth i l' d').
Proof.
  revert l' i; induction l as [|a l IH]; simpl; intros l' i H Hi; [lia|].
  destruct (f a) as [b|] eqn:E; simpl in H; [|discriminate].
  destruct (rmap f l) as [bs|]; simpl in H; [|discriminate].
  injection H as <-. destruct i; simpl; [assumption|]. apply IH; [reflexivity|lia].
Qed.
Lemma rmap_ok {A B} (f : A -> res B) (g : A -> B) l :
  (forall a, In a l -> f a = Ok (g a)) -> rmap f l = Ok (map g l).
Proof.
  induction l as [|a l IH]; simpl; intro H; [reflexivity|].
  rewrite (H a) by auto. simpl. rewrite IH by auto. reflexivity.
Qed.
Lemma geti_ok {A} (l : list A) i d : i < length l -> geti l i = Ok (nth i l d).
Proof.
  intro H. unfold geti. rewrite (nth_error_nth' l d H). reflexivity.
Qed.
Lemma geti_inv {A} (l : list A) i a d : geti l i = Ok a -> i < length l /\ nth i l d = a.
Proof.
  unfold geti. destruct (nth_error l i) eqn:E; [|discriminate]. intro H; injection H as ->.
  split; [apply nth_error_Some; congruence|]. now apply nth_error_nth.
Qed.

Ltac dores H :=
  repeat match type of H with
  | rbind ?m _ = Ok _ =>
      let E := fresh "E" in destruct m eqn:E; cbn [rbind] in H; [|discriminate H]
  | (if ?b then _ else _) = Ok _ =>
      let E := fresh "E" in destruct b eqn:E; [discriminate H|]
  end.

Lemma parse_tenths rows cont eps I : parse rows cont eps = Ok I ->
  Forall tenth (i_c I) /\ Forall (Forall (Forall tenth)) (i_A I) /\ Forall (Forall tenth) (i_b I).
Proof.
  unfold parse. intro H. cbv zeta in H. dores H. injection H as <-. simpl.
  assert (F : forall l, Forall tenth (map round1 l)).
  { intro l. apply Forall_forall. intros q Hq. apply in_map_iff in Hq as (r & <- & _). apply round1_tenth. }
  assert (FF : forall l, Forall (Forall tenth) (map (map round1) l)).
  { intro l. apply Forall_forall. intros q Hq. apply in_map_iff in Hq as (r & <- & _). apply F. }
  repeat split; auto. apply Forall_forall. intros q Hq. apply in_map_iff in Hq as (r & <- & _). apply FF.
Qed.

Lemma nth_Forall {A} (P : A -> Prop) l i d : P d -> Forall P l -> P (nth i l d).
Proof.
  intros Hd H. destruct (nth_in_or_default i l d) as [Hin| ->]; [|assumption].
  rewrite Forall_forall in H. auto.
Qed.

Lemma tenth_dot u x : Forall tenth u -> is_bin x -> tenth (dot u x).
Proof.
  intros Hu Hx; revert u Hu; induction Hx as [|v x Hv Hx IH]; intros u Hu.
  - rewrite dot_nil_r. exists 0%Z. reflexivity.
  - destruct Hu as [|a u [z Hz] Hu]; [exists 0%Z; reflexivity|].
    destruct (IH u Hu) as [w Hw]. simpl.
    destruct Hv as [E|E].
    + exists w. rewrite E, Hw. ring.
    + exists (z + w)%Z. rewrite E, Hz, Hw, inject_Z_plus. field.
Qed.

Lemma tenth_le_tol a b : tenth a -> tenth b -> (a <= b + tol6)%Q -> (a <= b)%Q.
Proof.
  intros [z Hz] [w Hw] H. rewrite Hz, Hw in *. unfold tol6 in H.
  assert (L : (z <= w)%Z).
  { apply Z.lt_succ_r. rewrite Zlt_Qlt. unfold Z.succ. rewrite inject_Z_plus.
    change (inject_Z 1) with 1%Q.
    assert (Ez : (inject_Z z / 10 == (1#10) * inject_Z z)%Q) by field.
    assert (Ew : (inject_Z w / 10 == (1#10) * inject_Z w)%Q) by field.
    rewrite Ez, Ew in H. lra. }
  rewrite Zle_Qle in L. unfold Qdiv. apply Qmult_le_compat_r; [assumption|discriminate].
Qed.

Lemma tolerance_irrelevant I x s :
  Forall (Forall (Forall tenth)) (i_A I) -> Forall (Forall tenth) (i_b I) -> is_bin x ->
  satb I tol6 x s = satb I 0 x s.
Proof.
  intros HA Hb Hx. destruct (satb I 0 x s) eqn:E.
  - eapply satb_mono_tau; [|exact E]. discriminate.
  - destruct (satb I tol6 x s) eqn:E'; [|reflexivity]. exfalso.
    apply satb_false in E as (i & Hi & E). apply satb_iff in E'. specialize (E' i Hi).
    apply tenth_le_tol in E'.
    + lra.
    + apply tenth_dot; [|assumption]. unfold row.
      apply (nth_Forall (Forall tenth)); [constructor|].
      apply (nth_Forall (Forall (Forall tenth))); [constructor|assumption].
    + unfold rhs. apply (nth_Forall tenth); [exists 0%Z; reflexivity|].
      apply (nth_Forall (Forall tenth)); [constructor|assumption].
Qed.

Lemma parse_tolerance rows eps I x norm :
  parse rows false eps = Ok I -> is_bin x ->
  forall s, is_scenario_infeasible norm I x s = true <-> ~ sat I 0 x s.
Proof.
  intros H Hx s. destruct (parse_tenths _ _ _ _ H) as (_ & HA & Hb).
  rewrite is_scenario_infeasible_spec, tolerance_irrelevant by assumption.
  rewrite negb_true_iff, <- satb_iff. destruct (satb I 0 x s); split; congruence.
Qed.

Lemma nviol_tol_irrelevant I x :
  Forall (Forall (Forall tenth)) (i_A I) -> Forall (Forall tenth) (i_b I) -> is_bin x ->
  nviol I tol6 x = nviol I 0 x.
Proof.
  intros HA Hb Hx. unfold nviol. apply count_ext. intros s _. now rewrite tolerance_irrelevant.
Qed.

(** ** Packing monotonicity (C04) *)
Lemma satb_packing I tau x y s :
  Forall (Forall (Forall (fun a => 0 <= a)%Q)) (i_A I) -> Forall2 Qle y x ->
  satb I tau x s = true -> satb I tau y s = true.
Proof.
  rewrite !satb_iff. intros HA Hyx H i Hi. specialize (H i Hi).
  eapply Qle_trans; [|exact H]. apply dot_mono; [|assumption].
  unfold row. apply (nth_Forall (Forall (fun a => 0 <= a)%Q)); [constructor|].
  apply (nth_Forall (Forall (Forall (fun a => 0 <= a)%Q))); [constructor|assumption].
Qed.

Lemma packing_monotone norm I x y :
  Forall (Forall (Forall (fun a => 0 <= a)%Q)) (i_A I) -> Forall2 Qle y x ->
  (fst (check_feasibility norm I x) = true -> fst (check_feasibility norm I y) = true) /\
  incl (f_infeasible (snd (check_feasibility norm I y))) (f_infeasible (snd (check_feasibility norm I x))).
Proof.
  intros HA Hyx. split.
  - rewrite !check_feasibility_verdict. intro H. eapply Qle_trans; [|exact H].
    apply Qn_le. unfold nviol. apply count_mono. intros s _ E. apply negb_true_iff in E. apply negb_true_iff.
    destruct (satb I tol6 x s) eqn:Ex; [|reflexivity].
    apply (satb_packing I tol6 x y s HA Hyx) in Ex. congruence.
  - intro s. rewrite !check_feasibility_infeasible, !filter_In. intros [H1 H2]. split; [assumption|].
    apply negb_true_iff in H2. apply negb_true_iff.
    destruct (satb I tol6 x s) eqn:Ex; [|reflexivity].
    apply (satb_packing I tol6 x y s HA Hyx) in Ex. congruence.
Qed.

(** ** Round trip of the generator (C05) *)
Lemma Qtrunc_Qn n : Qtrunc (Qn n) = Z.of_nat n.
Proof.
  unfold Qtrunc. destruct (Qlt_bool (Qn n) 0) eqn:E; qb.
  - assert (H := Qn_nonneg n). exfalso. lra.
  - unfold Qn. apply Qfloor_Z.
Qed.

Lemma nth_concat_rect {A} (M : list (list A)) m d : Forall (fun r => length r = m) M ->
  forall s i, i < m -> s < length M -> nth (s * m + i) (concat M) d = nth i (nth s M []) d.
Proof.
  induction 1 as [|r M Hr HM IH]; intros s i Hi Hs; simpl in *; [lia|].
  destruct s as [|s]; simpl.
  - rewrite app_nth1 by lia. reflexivity.
  - rewrite app_nth2 by lia. rewrite <- IH by lia. f_equal. lia.
Qed.
Lemma length_concat_rect {A} (M : list (list A)) m : Forall (fun r => length r = m) M ->
  length (concat M) = length M * m.
Proof. induction 1 as [|r M Hr HM IH]; simpl; [reflexivity|]. rewrite app_length, IH. lia. Qed.

Lemma map_nth_seq {A} (l : list A) d : map (fun i => nth i l d) (seq 0 (length l)) = l.
Proof.
  apply (nth_ext _ _ d d); [now rewrite map_length, seq_length|].
  intros i Hi. rewrite map_length, seq_length in Hi.
  rewrite (nth_indep _ _ (nth 0 l d)) by now rewrite map_length, seq_length.
  rewrite (map_nth (fun i => nth i l d)), seq_nth by assumption. reflexivity.
Qed.

Lemma uniform_sum k : 0 < k -> (qsum (uniform k) == 1)%Q.
Proof.
  intro H. unfold uniform. rewrite qsum_repeat. field. apply Qn_pos in H. lra.
Qed.

Lemma gen_parse n m c samples b cont eps :
  0 < length samples ->
  Forall (fun M => length M = m /\ Forall (fun r => length r = n) M) samples ->
  length b = m ->
  parse (gen_rows n m c samples b) cont eps =
    Ok (mkInst n m (length samples) cont eps (map round1 c)
          (map (map (map (fun v => round1 (gen_entry v)))) samples)
          (repeat (map round1 b) (length samples))).
Proof.
  intros Hk HS Hb. set (k := length samples) in *.
  set (M := map (map (map gen_entry)) samples).
  assert (HM : Forall (fun r => length r = m) M).
  { unfold M. apply Forall_forall. intros r Hr. apply in_map_iff in Hr as (r' & <- & Hr).
    rewrite Forall_forall in HS. apply HS in Hr. rewrite map_length. tauto. }
  assert (HMl : length M = k) by (unfold M; now rewrite map_length).
  assert (HA : rmap (fun s => rmap (fun i => geti (gen_rows n m c samples b) (2 + s * m + i)) (seq 0 m)) (seq 0 k) = Ok M).
  { rewrite (rmap_ok _ (fun s => nth s M [])).
    - rewrite <- HMl, map_nth_seq. reflexivity.
    - intros s Hs. apply in_seq in Hs. rewrite (rmap_ok _ (fun i => nth i (nth s M []) [])).
      + f_equal. assert (L : length (nth s M []) = m).
        { rewrite Forall_forall in HM. apply HM, nth_In. lia. }
        rewrite <- L at 1. apply map_nth_seq.
      + intros i Hi. apply in_seq in Hi. unfold gen_rows. fold M.
        assert (LC := length_concat_rect M m HM).
        assert (s * m + i < k * m) by nia.
        rewrite (geti_ok _ _ []).
        * cbn [nth Nat.add]. rewrite app_nth1 by (rewrite LC, HMl; assumption).
          rewrite (nth_concat_rect M m) by (try assumption; lia). reflexivity.
        * cbn [length]. rewrite app_length, LC, HMl. simpl. lia. }
  assert (HR : rectangular M = true).
  { unfold rectangular. assert (G : Forall (fun r => length r = n) (concat M)).
    { apply Forall_concat. unfold M. apply Forall_forall. intros r Hr.
      apply in_map_iff in Hr as (r' & <- & Hr). rewrite Forall_forall in HS. apply HS in Hr as [_ Hr].
      apply Forall_forall. intros q Hq. apply in_map_iff in Hq as (q' & <- & Hq).
      rewrite map_length. rewrite Forall_forall in Hr. auto. }
    destruct G as [|r rs Hr G]; [reflexivity|].
    apply forallb_forall. intros r' Hr'. rewrite Forall_forall in G. apply Nat.eqb_eq.
    rewrite (G _ Hr'). congruence. }
  assert (HL : last (gen_rows n m c samples b) [] = b).
  { unfold gen_rows. change (?a :: ?b' :: ?x ++ ?y) with ((a :: b' :: x) ++ y). apply last_last. }
  unfold parse. cbv zeta.
  unfold gen_rows at 1. cbn [geti nth_error rbind].
  rewrite !Qtrunc_Qn. rewrite !Nat2Z.id.
  assert (((Z.of_nat n <? 0)%Z || (Z.of_nat (length samples) <? 0)%Z) = false) as ->
    by (apply orb_false_iff; split; apply Z.ltb_ge; lia).
  replace (geti (gen_rows n m c samples b) 1) with (Ok c) by reflexivity. cbn [rbind].
  fold k. rewrite HA. cbn [rbind]. rewrite HR. cbn [negb].
  assert (Nat.eqb k 0 = false) as -> by (apply Nat.eqb_neq; lia).
  assert ((Z.of_nat m <? 0)%Z = false) as -> by (apply Z.ltb_ge; lia).
  rewrite HL. unfold broadcast. rewrite Hb, Nat.eqb_refl. cbn [rbind].
  f_equal. f_equal.
  - unfold M. rewrite map_map. apply map_ext. intro a. rewrite map_map. apply map_ext. intro r.
    rewrite map_map. reflexivity.
  - apply map_repeat.
Qed.

Lemma gen_nonneg_uniform v k : 0 < k ->
  (0 <= round1 (gen_entry v))%Q /\ (qsum (uniform k) == 1)%Q /\ length (uniform k) = k.
Proof.
  intro H. split; [apply round1_nonneg, gen_entry_nonneg|]. split; [now apply uniform_sum|].
  apply repeat_length.
Qed.

Lemma rounding q q' :
  (round1 q - (1 # 20) <= q /\ q <= round1 q + (1 # 20) /\
   round1 (round1 q) == round1 q /\ (q <= q' -> round1 q <= round1 q'))%Q /\
  exists z, (round1 q == inject_Z z / 10)%Q.
Proof.
  destruct (round1_close q) as [H1 H2]. split; [|apply round1_tenth].
  repeat split; auto using round1_idem, round1_mono.
Qed.

(** One constraint 1*x <= 0 and x = 5e-7. *)
Lemma tolerance_continuous : exists rows eps I x,
  parse rows true eps = Ok I /\ in_dom I x /\ ~ sat I 0 x 0 /\
  forall norm, is_scenario_infeasible norm I x 0 = false.
Proof.
  exists [[1; 1; 1]; [1]; [1]; [0]]%Q, 0%Q. eexists. exists [5 # 10000000]%Q.
  split; [vm_compute; reflexivity|]. split; [|split].
  - split; [|simpl; congruence]. split; [reflexivity|].
    constructor; [|constructor]. split; vm_compute; discriminate.
  - intro C. specialize (C 0 ltac:(simpl; lia)). vm_compute in C. congruence.
  - intro norm. rewrite is_scenario_infeasible_spec. vm_compute. reflexivity.
Qed.
