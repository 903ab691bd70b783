(** The enumeration solver is exact on binary models. *)
From Verif Require Import Base BaseFacts Spec Instance InstanceFacts OptModels OptFacts BruteForce.

Lemma dot_compat u : forall x y, Forall2 Qeq x y -> (dot u x == dot u y)%Q.
Proof.
  induction u as [|a u IH]; intros x y H; [reflexivity|].
  destruct H as [|v w x y E H]; [reflexivity|]. simpl. rewrite E, (IH _ _ H). reflexivity.
Qed.
Lemma nth_compat x y : Forall2 Qeq x y -> forall i, (nth i x 0 == nth i y 0)%Q.
Proof. induction 1 as [|v w x y E H IH]; intros [|i]; simpl; try reflexivity; auto. Qed.

Lemma cstr_compat x y z w c : Forall2 Qeq x y -> Forall2 Qeq z w -> cstr_ok 0 x z c -> cstr_ok 0 y w c.
Proof.
  intros Hx Hz. assert (D := fun a => dot_compat a x y Hx). assert (Dz := fun a => dot_compat a z w Hz).
  assert (N := nth_compat z w Hz).
  destruct c as [a q|a [|q|]|a q M s|s a q|p r|s]; simpl; rewrite <- ?D, <- ?Dz, <- ?N; tauto.
Qed.

Lemma cstr_okb_iff x z c : cstr_okb x z c = true <-> cstr_ok 0 x z c.
Proof.
  destruct c as [a q|a [|q|]|a q M s|s a q|p r|s]; simpl.
  - rewrite Qle_bool_iff. split; intro; lra.
  - tauto.
  - rewrite Qle_bool_iff. split; intro; lra.
  - split; [discriminate|tauto].
  - rewrite Qle_bool_iff. split; intro; lra.
  - rewrite orb_true_iff, negb_true_iff, Qle_bool_iff. split.
    + intros [E|H] E1; [|lra]. apply Qeq_bool_iff in E1. congruence.
    + intro H. destruct (Qeq_bool (nth s z 0%Q) 1) eqn:E; [right|now left].
      apply Qeq_bool_iff in E. specialize (H E). lra.
  - rewrite Qplus_0_r. apply Qle_bool_iff.
  - apply Qeq_bool_iff.
Qed.

Definition canon (v : Q) : Q := if Qeq_bool v 1 then 1%Q else 0%Q.
Lemma canon_eq x : is_bin x -> Forall2 Qeq x (map canon x).
Proof.
  induction 1 as [|v x H Hx IH]; simpl; constructor; auto. unfold canon.
  destruct (Qeq_bool v 1) eqn:E; [now apply Qeq_bool_iff|].
  destruct H as [H|H]; [assumption|]. apply Qeq_bool_iff in H. congruence.
Qed.
Lemma all_bin_In n x : In x (all_bin n) <-> length x = n /\ Forall (fun v => v = 0%Q \/ v = 1%Q) x.
Proof.
  revert x; induction n as [|n IH]; intro x; simpl.
  - split; [intros [<-|[]]; auto|]. intros [H _]. destruct x; [auto|discriminate].
  - rewrite in_flat_map. split.
    + intros (l & Hl & [<-|[<-|[]]]); apply IH in Hl as [H1 H2]; simpl; split; auto.
    + intros [H1 H2]. destruct x as [|v x]; [discriminate|]. inversion H2 as [|? ? H3 H4]; subst.
      exists x. split; [apply IH; simpl in H1; auto|]. simpl. destruct H3 as [-> | ->]; auto.
Qed.
Lemma canon_In x n : length x = n -> In (map canon x) (all_bin n).
Proof.
  intro H. apply all_bin_In. rewrite map_length. split; [assumption|].
  apply Forall_forall. intros v Hv. apply in_map_iff in Hv as (w & <- & _). unfold canon.
  destruct (Qeq_bool w 1); auto.
Qed.
Lemma all_bin_bin n x : In x (all_bin n) -> is_bin x /\ in_box n x.
Proof.
  intro H. apply all_bin_In in H as [H1 H2]. split.
  - eapply Forall_impl; [|exact H2]. simpl. intros a [-> | ->]; [left|right]; reflexivity.
  - split; [assumption|]. eapply Forall_impl; [|exact H2]. simpl.
    intros a [-> | ->]; split; discriminate.
Qed.

Lemma best_spec {A} (key : A -> Q) l : forall cur, In (best key cur l) (cur :: l) /\
  forall a, In a (cur :: l) -> (key a <= key (best key cur l))%Q.
Proof.
  induction l as [|b l IH]; intro cur; cbn [best].
  - split; [now left|]. intros a [<-|[]]. lra.
  - destruct (Qlt_bool (key cur) (key b)) eqn:E; qb.
    + destruct (IH b) as [H1 H2]. split; [right; exact H1|].
      intros a [<-|H]; [|now apply H2]. specialize (H2 b (or_introl eq_refl)). lra.
    + destruct (IH cur) as [H1 H2]. split.
      * destruct H1 as [H1|H1]; [left; exact H1|right; now right].
      * intros a [<-|[<-|H]]; [apply H2; now left| |apply H2; now right].
        specialize (H2 cur (or_introl eq_refl)). lra.
Qed.

Lemma brute_candidates_ok m x z : m_cont m = false ->
  In (x, z) (brute_candidates m) -> model_ok 0 m x z.
Proof.
  intros Hc H. apply filter_In in H as [H1 H2]. apply in_prod_iff in H1 as [Hx Hz]. cbn [fst snd] in H2.
  apply all_bin_bin in Hx as [Bx Dx]. apply all_bin_bin in Hz as [Bz Dz].
  split; [split; [exact Dx|intros _; exact Bx]|]. split; [apply Dz|]. split; [exact Bz|].
  rewrite forallb_forall in H2. apply Forall_forall. intros c Hin. apply cstr_okb_iff. auto.
Qed.
Lemma brute_candidates_complete m x z : m_cont m = false -> model_ok 0 m x z ->
  In (map canon x, map canon z) (brute_candidates m) /\ (m_val m x == m_val m (map canon x))%Q.
Proof.
  intros Hc ((Dx & Bx) & Lz & Bz & C). specialize (Bx Hc). split.
  - apply filter_In. split.
    + apply in_prod; [apply canon_In, Dx|now apply canon_In].
    + apply forallb_forall. intros c Hin. rewrite Forall_forall in C. apply cstr_okb_iff. cbn [fst snd].
      eapply cstr_compat; [apply canon_eq, Bx|apply canon_eq, Bz|now apply C].
  - unfold m_val. rewrite (dot_compat _ _ _ (canon_eq x Bx)). reflexivity.
Qed.

Lemma brute_exact m : m_cont m = false -> outcome_exact m (brute m).
Proof.
  intro Hc. unfold brute. rewrite Hc.
  destruct (brute_candidates m) as [|c cs] eqn:E.
  - intros x z H. apply brute_candidates_complete in H as [H _]; [|assumption]. rewrite E in H. destruct H.
  - destruct (best_spec (fun xz => m_val m (fst xz)) cs c) as [H1 H2].
    destruct (best _ c cs) as [x z] eqn:EB. rewrite <- E in H1, H2. cbn [fst] in H2.
    split; [now apply brute_candidates_ok|]. split; [reflexivity|]. split; [reflexivity|].
    intros x' z' H. apply brute_candidates_complete in H as [H Hv]; [|assumption]. rewrite Hv.
    apply (H2 _ H).
Qed.

(** Decision procedures for the examples. *)
Definition in_domb (I : inst) (x : list Q) : bool :=
  (length x =? i_n I) && forallb (fun v => Qle_bool 0 v && Qle_bool v 1) x &&
  (i_cont I || forallb (fun v => Qeq_bool v 0 || Qeq_bool v 1) x).
Lemma in_domb_ok I x : in_domb I x = true -> in_dom I x.
Proof.
  unfold in_domb. rewrite !andb_true_iff. intros [[H1 H2] H3]. apply Nat.eqb_eq in H1.
  rewrite forallb_forall in H2. split; [split; [assumption|]|].
  - apply Forall_forall. intros v Hv. apply H2 in Hv. apply andb_prop in Hv as [A B]. qb. auto.
  - intro Hc. rewrite Hc in H3. simpl in H3. rewrite forallb_forall in H3.
    apply Forall_forall. intros v Hv. apply H3 in Hv. apply orb_prop in Hv as [A|A]; apply Qeq_bool_iff in A; auto.
Qed.
Lemma det_feasible_dec I S x : in_domb I x && subset_satb I 0 x S = true -> det_feasible I S 0 x.
Proof.
  intro H. apply andb_prop in H as [H1 H2]. split; [now apply in_domb_ok|now apply subset_satb_iff].
Qed.
Lemma brute_det_opt I S v : i_cont I = false ->
  match brute (deter_model I S) with Solved _ _ w _ => Qeq_bool w v | _ => false end = true -> det_opt I S v.
Proof.
  intros Hc H. assert (E := brute_exact (deter_model I S) Hc).
  destruct (brute (deter_model I S)) as [x z w b| | |]; try discriminate.
  apply Qeq_bool_iff in H. apply deter_exact_opt in E as [(y & F & Ey) U]. split.
  - exists y. split; [assumption|]. now rewrite Ey.
  - intros u Hu. rewrite <- H. now apply U.
Qed.
