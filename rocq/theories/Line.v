(** A concrete exact solver for models with one continuous variable: for every 0/1 vector of indicators the end of the feasible
    interval, and the best of them.  It has no counterpart in the repository; binary models are left to the enumeration. *)
From Verif Require Import Base BaseFacts Spec Instance InstanceFacts OptModels OptFacts BruteForce BruteForceFacts.

Definition h0 (a : list Q) : Q := nth 0 a 0%Q.
(** A constraint as a*x <= b. *)
Definition linof (z : list Q) (c : cstr) : Q * Q :=
  match c with
  | CLe a b => (h0 a, b)
  | CGe a (Fin b) => (- h0 a, - b)%Q
  | CGe _ NInf => (0, 0)%Q
  | CGe _ PInf => (0, -1)%Q
  | CBigM a b M s => (h0 a, b + M * (1 - nth s z 0))%Q
  | CInd s a b => if Qeq_bool (nth s z 0%Q) 1 then (h0 a, b) else (0, 0)%Q
  | CChance p r => (0, if Qle_bool r (dot p z) then 0 else -1)%Q
  | CFix0 s => (0, if Qeq_bool (nth s z 0) 0 then 0 else -1)%Q
  end.
Definition hi_end (l : list (Q * Q)) : Q := fold_right (fun ab h => if Qlt_bool 0 (fst ab) then Qmin h (snd ab / fst ab) else h)%Q 1%Q l.
Definition lo_end (l : list (Q * Q)) : Q := fold_right (fun ab h => if Qlt_bool (fst ab) 0 then Qmax h (snd ab / fst ab) else h)%Q 0%Q l.
Definition line_point (m : model) (z : list Q) : list Q :=
  let l := map (linof z) (m_cstrs m) in
  [Qred (if Qle_bool 0 (h0 (m_obj m)) then hi_end l else lo_end l)].
Definition line_candidates (m : model) : list (list Q * list Q) :=
  filter (fun xz => forallb (cstr_okb (fst xz) (snd xz)) (m_cstrs m) && Qle_bool 0 (h0 (fst xz)) && Qle_bool (h0 (fst xz)) 1)
         (map (fun z => (line_point m z, z)) (all_bin (m_nz m))).
Definition line (m : model) : outcome :=
  if negb (m_cont m) then brute m
  else if negb (m_n m =? 1) then NoSolution
  else match line_candidates m with
       | [] => Infeasible
       | c :: cs => let '(x, z) := best (fun xz => m_val m (fst xz)) c cs in
                    Solved x z (m_val m x) (m_val m x)
       end.

Lemma dot_1 a x : (dot a [x] == h0 a * x)%Q.
Proof. destruct a as [|q a]; unfold h0; cbn; [ring|]. destruct a; cbn; ring. Qed.
Lemma linof_ok z c x : cstr_ok 0 [x] z c <-> (fst (linof z c) * x <= snd (linof z c))%Q.
Proof.
  destruct c as [a b|a [|b|]|a b M s|s a b|p r|s]; cbn [cstr_ok linof fst snd]; try rewrite dot_1.
  - split; intro; lra.
  - split; [intros; lra|auto].
  - split; intro; lra.
  - split; [tauto|intros; lra].
  - split; intro; lra.
  - destruct (Qeq_bool (nth s z 0%Q) 1) eqn:E; cbn [fst snd].
    + apply Qeq_bool_iff in E. assert (D := dot_1 a x). split; [intro H; specialize (H E); lra|intros H _; lra].
    + split; [intros; lra|]. intros _ E1. apply Qeq_bool_iff in E1. congruence.
  - destruct (Qle_bool r (dot p z)) eqn:E; qb; split; intro; lra.
  - destruct (Qeq_bool (nth s z 0%Q) 0) eqn:E; [apply Qeq_bool_iff in E; split; intro; lra|].
    split; [intro H; apply Qeq_bool_iff in H; congruence|intros; lra].
Qed.
Lemma Qle_div a b x : (0 < a -> x <= b / a <-> a * x <= b)%Q.
Proof.
  intro H. split; intro K.
  - assert (E : (b == a * (b / a))%Q) by (field; lra). rewrite E. rewrite !(Qmult_comm a). apply Qmult_le_compat_r; [exact K|lra].
  - apply Qle_shift_div_l; [exact H|]. lra.
Qed.
Lemma Qge_div a b x : (a < 0 -> b / a <= x <-> a * x <= b)%Q.
Proof.
  intro H. assert (E : (b / a == - (b / - a))%Q) by (field; lra). rewrite E.
  assert (L := Qle_div (- a) b (- x) ltac:(lra)). split; intro K.
  - assert (X : (- x <= b / - a)%Q) by lra. apply L in X. lra.
  - assert (X : (- a * - x <= b)%Q) by lra. apply L in X. lra.
Qed.
Lemma hi_end_spec l x : (x <= hi_end l)%Q <-> (x <= 1)%Q /\ Forall (fun ab => 0 < fst ab -> fst ab * x <= snd ab)%Q l.
Proof.
  induction l as [|[a b] l IH]; cbn [hi_end fold_right fst snd]; [split; [intro H; split; [exact H|constructor]|tauto]|]. fold (hi_end l).
  destruct (Qlt_bool 0 a) eqn:E; qb.
  - rewrite Q.min_glb_iff, IH, (Qle_div a b x E). split.
    + intros ((H1 & H2) & H3). split; [exact H1|]. constructor; [intros _; exact H3|exact H2].
    + intros (H1 & H2). inversion H2 as [|? ? H3 H4]; subst. split; [now split|]. apply H3. exact E.
  - rewrite IH. split; [intros (H1 & H2); split; [exact H1|constructor; [cbn [fst snd]; intro; exfalso; lra|exact H2]]|].
    intros (H1 & H2). inversion H2; subst. now split.
Qed.
Lemma lo_end_spec l x : (lo_end l <= x)%Q <-> (0 <= x)%Q /\ Forall (fun ab => fst ab < 0 -> fst ab * x <= snd ab)%Q l.
Proof.
  induction l as [|[a b] l IH]; cbn [lo_end fold_right fst snd]; [split; [intro H; split; [exact H|constructor]|tauto]|]. fold (lo_end l).
  destruct (Qlt_bool a 0) eqn:E; qb.
  - rewrite Q.max_lub_iff, IH, (Qge_div a b x E). split.
    + intros ((H1 & H2) & H3). split; [exact H1|]. constructor; [intros _; exact H3|exact H2].
    + intros (H1 & H2). inversion H2 as [|? ? H3 H4]; subst. split; [now split|]. apply H3. exact E.
  - rewrite IH. split; [intros (H1 & H2); split; [exact H1|constructor; [cbn [fst snd]; intro; exfalso; lra|exact H2]]|].
    intros (H1 & H2). inversion H2; subst. now split.
Qed.

(** Moving a feasible point to the end of the interval. *)
Lemma move_up l x : (0 <= x <= 1)%Q -> Forall (fun ab => fst ab * x <= snd ab)%Q l ->
  (x <= hi_end l)%Q /\ (hi_end l <= 1)%Q /\ Forall (fun ab => fst ab * hi_end l <= snd ab)%Q l.
Proof.
  intros Hx HF. assert (H1 : (x <= hi_end l)%Q).
  { apply hi_end_spec. split; [lra|]. eapply Forall_impl; [|exact HF]. intros ab H _. exact H. }
  destruct (proj1 (hi_end_spec l (hi_end l)) (Qle_refl _)) as [H2 H3]. split; [exact H1|]. split; [exact H2|].
  rewrite Forall_forall in *. intros [a b] Hab. specialize (HF _ Hab). specialize (H3 _ Hab). cbn [fst snd] in *.
  destruct (Qlt_le_dec 0 a) as [P|P]; [now apply H3|]. assert (a * hi_end l <= a * x)%Q; [|lra].
  assert (0 <= (- a) * (hi_end l - x))%Q by (apply Qmult_le_0_compat; lra). lra.
Qed.
Lemma move_down l x : (0 <= x <= 1)%Q -> Forall (fun ab => fst ab * x <= snd ab)%Q l ->
  (lo_end l <= x)%Q /\ (0 <= lo_end l)%Q /\ Forall (fun ab => fst ab * lo_end l <= snd ab)%Q l.
Proof.
  intros Hx HF. assert (H1 : (lo_end l <= x)%Q).
  { apply lo_end_spec. split; [lra|]. eapply Forall_impl; [|exact HF]. intros ab H _. exact H. }
  destruct (proj1 (lo_end_spec l (lo_end l)) (Qle_refl _)) as [H2 H3]. split; [exact H1|]. split; [exact H2|].
  rewrite Forall_forall in *. intros [a b] Hab. specialize (HF _ Hab). specialize (H3 _ Hab). cbn [fst snd] in *.
  destruct (Qlt_le_dec a 0) as [P|P]; [now apply H3|]. assert (a * lo_end l <= a * x)%Q; [|lra].
  assert (0 <= a * (x - lo_end l))%Q by (apply Qmult_le_0_compat; lra). lra.
Qed.

Lemma line_candidates_ok m x z : m_cont m = true -> m_n m = 1 -> In (x, z) (line_candidates m) -> model_ok 0 m x z.
Proof.
  intros Hc Hn H. apply filter_In in H as [H1 H2]. apply in_map_iff in H1 as (z' & E & Hz). injection E as E <-.
  apply andb_true_iff in H2 as [H2 H4]. apply andb_true_iff in H2 as [H2 H3]. cbn [fst snd] in *.
  assert (LX : exists q, x = [q]) by (rewrite <- E; unfold line_point; eauto). destruct LX as (q & ->). cbn in H3, H4. qb.
  apply all_bin_bin in Hz as [Bz Dz]. split; [split; [split; [rewrite Hn; reflexivity|constructor; [cbv [h0 nth] in *; lra|constructor]]|congruence]|].
  split; [apply Dz|]. split; [exact Bz|]. rewrite forallb_forall in H2. apply Forall_forall. intros c Hin. apply cstr_okb_iff. auto.
Qed.
Lemma line_candidates_complete m x z : m_cont m = true -> m_n m = 1 -> model_ok 0 m x z ->
  exists c, In c (line_candidates m) /\ (m_val m x <= m_val m (fst c))%Q.
Proof.
  intros Hc Hn (([LX HX] & _) & Lz & Bz & C). rewrite Hn in LX. destruct x as [|q [|]]; try discriminate. clear LX.
  inversion HX as [|? ? [B0 B1] _]; subst.
  set (z1 := map canon z). assert (C1 : Forall (cstr_ok 0 [q] z1) (m_cstrs m)).
  { eapply Forall_impl; [|exact C]. intros c. apply cstr_compat; [constructor; [reflexivity|constructor]|now apply canon_eq]. }
  set (l := map (linof z1) (m_cstrs m)). assert (CL : Forall (fun ab => fst ab * q <= snd ab)%Q l).
  { unfold l. apply Forall_map. eapply Forall_impl; [|exact C1]. intros c. apply linof_ok. }
  destruct (move_up l q) as (U1 & U2 & U3); [lra|exact CL|]. destruct (move_down l q) as (D1 & D2 & D3); [lra|exact CL|].
  set (e := if Qle_bool 0 (h0 (m_obj m)) then hi_end l else lo_end l).
  assert (PE : (0 <= e <= 1)%Q /\ Forall (fun ab => fst ab * e <= snd ab)%Q l /\ (h0 (m_obj m) * q <= h0 (m_obj m) * e)%Q).
  { unfold e. destruct (Qle_bool 0 (h0 (m_obj m))) eqn:E; qb.
    - split; [lra|]. split; [exact U3|]. assert (0 <= h0 (m_obj m) * (hi_end l - q))%Q by (apply Qmult_le_0_compat; lra). lra.
    - split; [lra|]. split; [exact D3|]. assert (0 <= (- h0 (m_obj m)) * (q - lo_end l))%Q by (apply Qmult_le_0_compat; lra). lra. }
  destruct PE as (P1 & P2 & P3). assert (RE := Qred_correct e).
  exists ([Qred e], z1). split.
  - apply filter_In. split; [apply in_map_iff; exists z1; split; [reflexivity|now apply canon_In]|]. cbn [fst snd]. unfold h0. cbn [nth].
    rewrite !andb_true_iff. split; [split|]; [|apply Qle_bool_iff; rewrite RE; lra|apply Qle_bool_iff; rewrite RE; lra].
    apply forallb_forall. intros c Hin. apply cstr_okb_iff, linof_ok. rewrite RE. rewrite Forall_forall in P2. apply (P2 (linof z1 c)). unfold l. now apply in_map.
  - unfold m_val. cbn [fst]. rewrite !dot_1, RE. lra.
Qed.
Lemma line_exact m : m_cont m = false \/ m_n m = 1 -> outcome_exact m (line m).
Proof.
  intro H. unfold line. destruct (m_cont m) eqn:Hc; cbn [negb]; [|now apply brute_exact]. destruct H as [H|Hn]; [discriminate|]. rewrite Hn. cbn [Nat.eqb negb].
  destruct (line_candidates m) as [|c cs] eqn:E.
  - intros x z H. apply line_candidates_complete in H as (c & H & _); try assumption. rewrite E in H. destruct H.
  - destruct (best_spec (fun xz => m_val m (fst xz)) cs c) as [H1 H2]. destruct (best _ c cs) as [x z] eqn:EB. rewrite <- E in H1, H2. cbn [fst] in H2.
    split; [now apply line_candidates_ok|]. split; [reflexivity|]. split; [reflexivity|].
    intros x' z' H. apply line_candidates_complete in H as (c' & H & Hv); try assumption. specialize (H2 _ H). lra.
Qed.
