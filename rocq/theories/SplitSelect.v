(** One refinement by cost with an exact split model: the costs of the table and the subset that is split. *)
From Coq Require Import ListDec.
From Verif Require Import Base BaseFacts Spec Instance InstanceFacts OptModels Refine RefineFacts Post CostRefine CostRefineFacts RefineSum AccRef SplitSpec SplitDual.

Lemma ext_leb_Qeq v w u : (v == w)%Q -> ext_leb (Fin v) u = ext_leb (Fin w) u.
Proof. intro E. destruct u as [|q|]; cbn; auto. apply eq_true_iff_eq. rewrite !Qle_bool_iff. now rewrite E. Qed.
Lemma admissible_sets s s' i i' l r : NoDup s -> NoDup s' -> (forall a, In a s' <-> In a s) -> (forall a, In a s -> (In a i' <-> In a i)) ->
  admissible s' i' l r -> admissible s i l r.
Proof.
  intros N1 N2 HS HI (P & (a & A1 & A2) & (b & B1 & B2)). assert (P2 : Permutation s' s) by now apply NoDup_Permutation.
  assert (PS : Permutation (l ++ r) s) by (etransitivity; eassumption).
  split; [exact PS|]. split; [exists a|exists b]; (split; [assumption|]; apply HI; [eapply Permutation_in; [exact PS|]; apply in_app_iff; auto|assumption]).
Qed.
Lemma best_sets I s s' i i' l r v : NoDup s -> NoDup s' -> (forall a, In a s' <-> In a s) -> (forall a, In a s -> (In a i' <-> In a i)) ->
  best_split I s' i' l r v -> best_split I s i l r v.
Proof.
  intros N1 N2 HS HI (A & B & C). split; [now apply (admissible_sets s s' i i')|]. split; [exact B|]. intros l' r' v' A' B'. apply (C l' r'); [|exact B'].
  apply (admissible_sets s' s i' i); auto; [intro a; now rewrite HS|]. intros a Ha. rewrite HI; [reflexivity|now apply HS].
Qed.
Lemma best_unique I s i l r v l' r' v' : best_split I s i l r v -> best_split I s i l' r' v' -> (v == v')%Q.
Proof. intros (A & B & C) (A' & B' & C'). apply Qle_antisym; [now apply (C l' r')|now apply (C' l r)]. Qed.
Lemma dget_In {B} c (v : B) d : NoDup (map fst d) -> (dget c d = Ok v <-> In (c, v) d).
Proof.
  induction d as [|[a b] d IH]; intro N; cbn; [split; [discriminate|intros []]|]. inversion N as [|? ? N1 N2]; subst. destruct (Nat.eqb_spec c a) as [->|Ne].
  - split; [intro E; injection E as ->; now left|]. intros [E|C]; [now injection E as ->|]. destruct N1. now apply (in_map fst) in C.
  - rewrite IH by exact N2. split; [auto|]. intros [E|C]; [congruence|exact C].
Qed.

Section Select.
  Variable acc : nat -> list nat -> list nat -> acc_outcome.
  Variable argsort : list Q -> list nat.
  Variable I : inst.
  Hypothesis W : wf_inst I.
  Hypothesis P : packing I.
  Hypothesis X : acc_exact I acc.
  Hypothesis HA : argsort_ok argsort.
  Hypothesis He : (0 <= i_eps I)%Q.

  Lemma exact_total : acc_total I acc.
  Proof. intros t s i HQ. destruct (X t s i HQ) as (p & E & H & _). now exists p. Qed.
  Lemma exact_low t s i p : acc_query I s i -> acc t s i = AccSolved p -> (- 1000000 <= ap_alpha p)%Q.
  Proof. apply (packing_low I acc W P). apply acc_total_sound, exact_total. Qed.

  Lemma exact_answer t s i v l r : acc_query I s i -> acc_read s (acc t s i) = Ok (v, l, r) -> best_split I s i l r v.
  Proof.
    intros HQ E. destruct (X t s i HQ) as (p & EA & HF & HO). rewrite EA in E. cbn [acc_read] in E. destruct (acc_subsets s p) as [l0 r0] eqn:ES. injection E as <- <- <-.
    destruct (optimum_spec I s i W HQ (packing_relax I s i P) p l0 r0 HF HO ES) as [H1 H2]. split; [exact (acc_sides I s i p l0 r0 HF ES)|]. split; assumption.
  Qed.

  Variables (bad : nat -> bool) (costs : list Q) (vUB : ext) (cs0 : cstate) (old : list (list nat)).
  Hypothesis HC : cost_reachable acc argsort I cs0.
  Hypothesis V : valid_partition (i_k I) old.
  Hypothesis HL : length costs = length old.
  Hypothesis Hb : nb_bad bad old <= tolerated I.
  Hypothesis Ht : tolerated I < count bad (seq 0 (i_k I)).
  Notation round := (cost_round acc argsort I bad costs vUB cs0 old).
  Notation Hacc := (acc_hyp I acc (acc_total_sound I acc exact_total) exact_low).

  Lemma round_inv st cs : round st cs -> rinv (i_k I) bad old st /\ r_cnt st <= tolerated I + 1 - nb_bad bad old /\ cinv acc (i_k I) bad (r_part st) cs (splittable bad (r_part st)).
  Proof.
    induction 1 as [cs1 E|st cs st' cs' _ (IH1 & IH2 & IH3) HLt E].
    - split; [now apply rinv_init|]. split; [cbn; lia|]. cbn [r_part].
      assert (HP : Permutation (argsort costs) (seq 0 (length old))) by (destruct (HA costs) as [H _]; now rewrite HL in H).
      assert (HM := reachable_mem acc argsort I (acc_total_sound I acc exact_total) exact_low HA He cs0 HC).
      assert (G := evaluate_spec acc acc_exn (i_k I) Hacc bad old cs0 (argsort costs) V HP HM). now rewrite E in G.
    - assert (HB : nb_bad bad (r_part st) < count bad (seq 0 (i_k I))) by (destruct IH1 as ((_ & _ & _ & HB & _) & _); lia).
      assert (G := perform_spec acc acc_exn (i_k I) Hacc bad old vUB st cs IH1 IH3 HB). rewrite E in G. destruct G as (G1 & G2 & G3). split; [exact G1|]. split; [lia|exact G2].
  Qed.

  (** The table holds a best split of every subset with two infeasible scenarios, and its cost. *)
  Lemma round_table st cs : round st cs -> forall c, In c (map fst (c_cost cs)) <-> c < length (r_part st) /\ 2 <= count bad (nth c (r_part st) []).
  Proof. intro R. destruct (round_inv st cs R) as (_ & _ & _ & HK & _). exact HK. Qed.
  Lemma round_costs st cs : round st cs -> forall c v, dget c (c_cost cs) = Ok v ->
    exists l r, dget c (c_left cs) = Ok l /\ dget c (c_right cs) = Ok r /\ best_split I (nth c (r_part st) []) (filter bad (nth c (r_part st) [])) l r v.
  Proof.
    intros R c v E. destruct (round_inv st cs R) as (HR & _ & ND & HK & HSd & _). assert (Hc : In c (map fst (c_cost cs))).
    { apply dget_In in E; [|exact ND]. now apply (in_map fst) in E. }
    destruct (HSd c Hc) as (l & r & D1 & D2 & _ & _ & _ & v' & t & s & i & D3 & D4 & D5 & D6 & D7). rewrite E in D3. injection D3 as <-.
    exists l, r. split; [exact D1|]. split; [exact D2|]. assert (Vp : valid_partition (i_k I) (r_part st)) by apply HR.
    assert (B := exact_answer t s i v l r D4 D7). apply (best_sets I (nth c (r_part st) []) s (filter bad (nth c (r_part st) [])) i l r v); auto.
    - now apply (vp_nth_NoDup (i_k I)).
    - apply D4.
    - intros a Ha. rewrite D6, filter_In. tauto.
  Qed.

  Lemma round_step st cs : round st cs -> r_cnt st < tolerated I + 1 - nb_bad bad old ->
    exists st' cs' c v l r, perform_accurate_split acc (filter bad (seq 0 (i_k I))) vUB st cs = Ok (st', cs') /\
      c < length (r_part st) /\ r_part st' = upd c l (r_part st) ++ [r] /\ best_split I (nth c (r_part st) []) (filter bad (nth c (r_part st) [])) l r v /\
      ((ext_leb (Fin v) vUB = true /\ forall c' l' r' v', c' < length (r_part st) -> best_split I (nth c' (r_part st) []) (filter bad (nth c' (r_part st) [])) l' r' v' ->
          ext_leb (Fin v') vUB = true -> (v' <= v)%Q) \/
       (forall c' l' r' v', c' < length (r_part st) -> best_split I (nth c' (r_part st) []) (filter bad (nth c' (r_part st) [])) l' r' v' ->
          ext_leb (Fin v') vUB = false /\ (v <= v')%Q)).
  Proof.
    intros R HLt. destruct (round_inv st cs R) as (HR & _ & HCI). assert (HCI' := HCI). destruct HCI' as (ND & HK & HSd & H6 & HM).
    assert (HB : nb_bad bad (r_part st) < count bad (seq 0 (i_k I))) by (destruct HR as ((_ & _ & _ & HB & _) & _); lia).
    assert (Vp : valid_partition (i_k I) (r_part st)) by apply HR.
    assert (G := perform_spec acc no_exn (i_k I) (acc_hyp_total I acc exact_total exact_low) bad old vUB st cs HR HCI HB).
    apply post_ok in G as ([st' cs'] & E & _). exists st', cs'.
    destruct (perform_selected acc _ _ _ _ _ _ E) as (c & l & r & S1 & S2 & S3 & S4 & S5 & S6).
    assert (TB : forall c' l' r' v', c' < length (r_part st) -> best_split I (nth c' (r_part st) []) (filter bad (nth c' (r_part st) [])) l' r' v' ->
      exists w, In (c', w) (c_cost cs) /\ (w == v')%Q).
    { intros c' l' r' v' Hc' B. assert (NDc : NoDup (nth c' (r_part st) [])) by (eapply vp_nth_NoDup; eassumption).
      assert (Hin : In c' (map fst (c_cost cs))).
      { apply HK. split; [exact Hc'|]. destruct B as ((PB & (a & A1 & A2) & (b & B1 & B2)) & _). apply filter_In in A2 as [A2 A3]. apply filter_In in B2 as [B2 B3].
        unfold count. assert (Nab : a <> b).
        { intros ->. assert (N := Permutation_NoDup (Permutation_sym PB) NDc). destruct (NoDup_app_inv l' r' N) as (_ & _ & Dj). exact (Dj b A1 B1). }
        assert (IN : incl [a; b] (filter bad (nth c' (r_part st) []))) by (intros z [<-|[<-|[]]]; apply filter_In; auto).
        assert (N2 : NoDup [a; b]) by (constructor; [intros [C|[]]; congruence|constructor; [intros []|constructor]]).
        exact (NoDup_incl_length N2 IN). }
      apply in_map_iff in Hin as ([c2 w] & E2 & Hin). cbn in E2. subst c2. exists w. split; [exact Hin|]. apply dget_In in Hin; [|exact ND].
      destruct (round_costs st cs R c' w Hin) as (l2 & r2 & _ & _ & B2). exact (best_unique I _ _ _ _ _ _ _ _ B2 B). }
    assert (Hne : c_cost cs <> []).
    { intro C. rewrite C in S1. discriminate. }
    rewrite Forall_forall in H6. destruct (existsb (freeb vUB) (c_cost cs)) eqn:EF.
    - apply existsb_exists in EF as ([c0 v0] & Hin & Hf). destruct (select_split_free (c_cost cs) vUB) as (c1 & v & pre & post & T1 & T2 & T3 & T4 & T5).
      { exists c0, v0. split; [exact Hin|]. split; [exact Hf|]. now apply (H6 (c0, v0)). }
      rewrite S1 in T1. injection T1 as <-. assert (Hin2 : In (c, v) (c_cost cs)) by (rewrite T2; apply in_app_iff; right; now left).
      assert (Hg := proj2 (dget_In c v _ ND) Hin2). destruct (round_costs st cs R c v Hg) as (l2 & r2 & D1 & D2 & B2). rewrite S3 in D1. rewrite S4 in D2. injection D1 as <-. injection D2 as <-.
      exists c, v, l, r. split; [exact E|]. split; [exact S2|]. split; [exact S5|]. split; [exact B2|]. left. split; [exact T3|]. intros c' l' r' v' Hc' B' F'.
      destruct (TB c' l' r' v' Hc' B') as (w & Hw & Ew). rewrite <- (ext_leb_Qeq w v' vUB Ew) in F'. rewrite <- Ew. rewrite T2 in Hw. apply in_app_iff in Hw as [Hw|[Hw|Hw]].
      + now apply (T4 c').
      + injection Hw as -> ->. apply Qle_refl.
      + apply Qlt_le_weak. now apply (T5 c').
    - assert (NF : forall c' v', In (c', v') (c_cost cs) -> ext_leb (Fin v') vUB = false).
      { intros c' v' Hin. destruct (ext_leb (Fin v') vUB) eqn:F; [|reflexivity]. assert (existsb (freeb vUB) (c_cost cs) = true); [|congruence]. apply existsb_exists. exists (c', v'). auto. }
      destruct (select_split_none (c_cost cs) vUB Hne NF) as (c1 & v & pre & post & T1 & T2 & T3 & T4).
      rewrite S1 in T1. injection T1 as <-. assert (Hin2 : In (c, v) (c_cost cs)) by (rewrite T2; apply in_app_iff; right; now left).
      assert (Hg := proj2 (dget_In c v _ ND) Hin2). destruct (round_costs st cs R c v Hg) as (l2 & r2 & D1 & D2 & B2). rewrite S3 in D1. rewrite S4 in D2. injection D1 as <-. injection D2 as <-.
      exists c, v, l, r. split; [exact E|]. split; [exact S2|]. split; [exact S5|]. split; [exact B2|]. right. intros c' l' r' v' Hc' B'.
      destruct (TB c' l' r' v' Hc' B') as (w & Hw & Ew). rewrite <- (ext_leb_Qeq w v' vUB Ew). split; [now apply (NF c')|]. rewrite <- Ew. rewrite T2 in Hw. apply in_app_iff in Hw as [Hw|[Hw|Hw]].
      + apply Qlt_le_weak. now apply (T3 c').
      + injection Hw as -> ->. apply Qle_refl.
      + now apply (T4 c').
  Qed.
End Select.

(** ** The model is unbounded when no side of some split has a point *)
Lemma split_unbounded I scen inf l r : wf_inst I -> Forall (fun s => s < i_k I) scen -> NoDup scen -> admissible scen inf l r ->
  (forall x, ~ relax_sat I l x) -> (forall x, ~ relax_sat I r x) -> forall V, exists p, acc_feasible I scen inf p /\ ap_alpha p = V.
Proof.
  intros W HS ND A N1 N2 V. destruct (split_reached I scen inf l r V W HS ND A) as [(x & [X|X] & _)|(p & _ & _ & P1 & P2 & _)].
  - destruct (N1 x X).
  - destruct (N2 x X).
  - now exists p.
Qed.
Lemma split_any I scen inf l r V : wf_inst I -> Forall (fun s => s < i_k I) scen -> NoDup scen -> admissible scen inf l r -> split_within I l r V ->
  exists p l' r', acc_feasible I scen inf p /\ ap_alpha p = V /\ acc_subsets scen p = (l', r') /\ Permutation l' l /\ Permutation r' r.
Proof.
  intros W HS ND A B. destruct (split_reached I scen inf l r V W HS ND A) as [(x & X & XV)|H]; [|exact H]. specialize (B x X). lra.
Qed.
Lemma optimal_best I scen inf p l r : wf_inst I -> acc_query I scen inf -> (forall l r, admissible scen inf l r -> exists x, relax_sat I l x \/ relax_sat I r x) ->
  acc_optimal I scen inf p -> acc_subsets scen p = (l, r) -> best_split I scen inf l r (ap_alpha p).
Proof.
  intros W HQ F [HF HO] ES. destruct (optimum_spec I scen inf W HQ F p l r HF HO ES) as [H1 H2]. split; [exact (acc_sides I scen inf p l r HF ES)|]. split; assumption.
Qed.
Lemma optimal_exists I scen inf : wf_inst I -> acc_query I scen inf -> (forall l r, admissible scen inf l r -> exists x, relax_sat I l x \/ relax_sat I r x) ->
  exists p, acc_optimal I scen inf p.
Proof. intros W HQ F. destruct (optimum_exists I scen inf W HQ F) as (p & l & r & H1 & H2 & _). exists p. now split. Qed.

(** ** Exact solvers exist *)
Fixpoint lists_upto (k n : nat) : list (list nat) :=
  match n with O => [[]] | S n' => [] :: flat_map (fun l => map (fun a => a :: l) (seq 0 k)) (lists_upto k n') end.
Lemma in_lists k n l : Forall (fun a => a < k) l -> length l <= n -> In l (lists_upto k n).
Proof.
  revert l. induction n as [|n IH]; intros [|a l] HF HL; cbn in *; try lia; auto. right. inversion HF as [|? ? Ha HF']; subst.
  apply in_flat_map. exists l. split; [apply IH; [exact HF'|lia]|]. apply in_map_iff. exists a. split; [reflexivity|]. apply in_seq. lia.
Qed.
Lemma nodup_len k l : NoDup l -> Forall (fun a => a < k) l -> length l <= k.
Proof.
  intros N F. assert (H := NoDup_incl_length N (l' := seq 0 k)). rewrite seq_length in H. apply H. intros a Ha. rewrite Forall_forall in F. apply in_seq. specialize (F a Ha). lia.
Qed.
Lemma finite_choice {A B} (dec : forall a b : A, {a = b} + {a <> b}) (d : B) (R : A -> B -> Prop) (L : list A) :
  (forall a, In a L -> exists b, R a b) -> exists f, forall a, In a L -> R a (f a).
Proof.
  induction L as [|a L IH]; intro H; [exists (fun _ => d); intros ? []|]. destruct IH as (f & Hf); [intros b Hb; apply H; now right|].
  destruct (H a (or_introl eq_refl)) as (b & Hb). exists (fun x => if dec x a then b else f x). intros x Hx. destruct (dec x a) as [->|N]; [exact Hb|]. destruct Hx as [->|Hx]; [congruence|]. now apply Hf.
Qed.
Lemma acc_exact_exists I : wf_inst I -> packing I -> exists acc, acc_exact I acc.
Proof.
  intros W P. set (L := list_prod (lists_upto (i_k I) (i_k I)) (lists_upto (i_k I) (i_k I))).
  assert (D : forall a b : list nat * list nat, {a = b} + {a <> b}) by (repeat decide equality).
  destruct (finite_choice D AccNoSolution (fun si o => acc_query I (fst si) (snd si) -> exists p, o = AccSolved p /\ acc_optimal I (fst si) (snd si) p) L) as (f & Hf).
  - intros [s i] _. cbn [fst snd]. assert (Q : acc_query I s i \/ ~ acc_query I s i).
    { unfold acc_query. assert (Dn : forall l : list nat, NoDup l \/ ~ NoDup l) by (intro l; destruct (ListDec.NoDup_dec Nat.eq_dec l); auto).
      assert (Df : forall l k, Forall (fun a => a < k) l \/ ~ Forall (fun a => a < k) l) by (intros l k; destruct (Forall_dec (fun a => a < k) (fun a => lt_dec a k) l); auto).
      assert (Di : forall l m : list nat, incl l m \/ ~ incl l m) by (intros l m; destruct (ListDec.incl_dec Nat.eq_dec l m); auto).
      destruct (Dn s), (Df s (i_k I)), (Dn i), (Di i s), (le_dec 2 (length i)); tauto. }
    destruct Q as [Q|N]; [|exists AccNoSolution; intro; contradiction]. destruct (optimal_exists I s i W Q (packing_relax I s i P)) as (p & HP).
    exists (AccSolved p). intros _. now exists p.
  - exists (fun _ s i => f (s, i)). intros t s i HQ. apply (Hf (s, i)); [|exact HQ]. destruct HQ as (H1 & H2 & H3 & H4 & _).
    assert (F2 : Forall (fun a => a < i_k I) i) by (rewrite Forall_forall in *; intros a Ha; apply H2, H4, Ha).
    apply in_prod; apply in_lists; auto; now apply nodup_len.
Qed.

(** ** The states of a refinement *)
Lemma loop_round acc argsort I bad costs vUB cs0 old : forall n st cs st' cs', cost_round acc argsort I bad costs vUB cs0 old st cs ->
  r_cnt st + n <= tolerated I + 1 - nb_bad bad old -> cost_loop acc n (filter bad (seq 0 (i_k I))) vUB st cs = Ok (st', cs') ->
  cost_round acc argsort I bad costs vUB cs0 old st' cs' /\ r_cnt st' = r_cnt st + n.
Proof.
  induction n as [|n IH]; intros st cs st' cs' R HL E; cbn [cost_loop] in E.
  - injection E as <- <-. split; [exact R|lia].
  - destruct (perform_accurate_split _ _ _ _ _) as [[st1 cs1]|] eqn:E1; [|discriminate]. cbn [rbind] in E.
    assert (C : r_cnt st1 = S (r_cnt st)) by (destruct (perform_selected acc _ _ _ _ _ _ E1) as (? & ? & ? & _ & _ & _ & _ & _ & C); exact C).
    destruct (IH st1 cs1 st' cs') as [R' C']; [eapply CRd_step; [exact R|lia|exact E1]|lia|exact E|]. split; [exact R'|lia].
Qed.
Lemma refine_round acc argsort I bad fm costs vUB cs0 old R cs' : (0 <= i_eps I)%Q -> valid_partition (i_k I) old ->
  refine_cost acc argsort I (pattern (i_k I) bad fm) costs vUB cs0 old = Ok (R, cs') ->
  exists st, cost_round acc argsort I bad costs vUB cs0 old st cs' /\ r_part st = rf_part R /\ r_new st = rf_new R /\ r_cnt st = tolerated I + 1 - nb_bad bad old.
Proof.
  intros He V E. unfold refine_cost, refine_with in E. cbn [f_infeasible pattern] in E.
  rewrite (find_infeasible_spec (i_k I) bad old V), bad_indices_length, number_of_splits_spec in E by assumption.
  destruct (nb_bad bad old <=? tolerated I); [|discriminate]. cbn [rbind] in E. set (mu := tolerated I + 1 - nb_bad bad old) in *.
  destruct (split_top_mu_cost _ _ _ _ _ _ _ _) as [[st cs2]|] eqn:ES; [|discriminate]. cbn [rbind] in E. destruct (check_final_partition _ _ _ _); [|discriminate]. cbn [rbind] in E.
  destruct (find_infeasible_subsets (r_part st) _) as [fs is]. injection E as <- <-. cbn [rf_part rf_new].
  unfold split_top_mu_cost in ES. destruct (rassert _); [|discriminate]. cbn [rbind r_part] in ES.
  destruct (evaluate_accurate_splits _ _ _ _ _) as [cs1|] eqn:EV; [|discriminate]. cbn [rbind r_cnt] in ES. rewrite Nat.sub_0_r in ES.
  destruct (cost_loop _ _ _ _ _ _) as [[st1 cs3]|] eqn:EL; [|discriminate]. cbn [rbind] in ES. destruct (rassert (r_cnt st1 =? mu)); [|discriminate]. cbn [rbind] in ES. injection ES as <- <-.
  destruct (loop_round acc argsort I bad costs vUB cs0 old mu (mkR old [] 0) cs1 st1 cs3) as [R1 C1]; [now apply CRd_start|cbn; lia|exact EL|].
  exists st1. split; [exact R1|]. split; [reflexivity|]. split; [reflexivity|exact C1].
Qed.
