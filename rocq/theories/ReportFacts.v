(** Facts about the result rows and main.py (C48, C49). *)
From Coq Require Import String.
From Verif Require Import Base BaseFacts Spec Instance InstanceFacts OptModels Bounds Refine CostRefine Merge Knapsack Violations BigM
  Adaptive AdaptiveWp AdaptiveSpec Milp Report Main.

(** [r] is a multiple of 10^-3 at distance at most 5*10^-4 of [q]. *)
Definition near3 (q : Q) (g : gapv) : Prop :=
  exists z, g = Some (Fin (inject_Z z / 1000)%Q) /\ (inject_Z z / 1000 - (1 # 2000) <= q /\ q <= inject_Z z / 1000 + (1 # 2000))%Q.

Lemma fixed_near3 q : near3 q (fixed 3 (finite q)).
Proof.
  exists (Qrnd (q * pow10 3)). unfold fixed, finite. split; [reflexivity|]. 
  destruct (Qrnd_bounds (q * pow10 3)) as [H1 H2]. set (z := inject_Z (Qrnd (q * pow10 3))) in *. clearbody z.
  assert (E : (pow10 3 == 1000)%Q) by reflexivity. rewrite E in H1, H2.
  assert (D : (z / 1000 == z * (1 # 1000))%Q) by (field). rewrite D. split; lra.
Qed.

Lemma near3_comm a b g : near3 (a * b) g -> near3 (b * a) g.
Proof. intros (z & E & H). exists z. split; [exact E|]. split; lra. Qed.

Lemma Qeq_bool_false a b : ~ (a == b)%Q -> Qeq_bool a b = false.
Proof. intro H. destruct (Qeq_bool a b) eqn:E; [|reflexivity]. apply Qeq_bool_iff in E. contradiction. Qed.

Section Row.
  Variable w : world.
  Variable I : inst.
  Variable cf : cfg.

  Definition milp_shape (um : bool) (meth : bigm_method) (bt : option Q) (s : ast) : Prop :=
    (exists v u, a_vLB s = Fin v /\ a_vUB s = Fin u) /\ a_npL s = false /\ a_npU s = false /\
    a_start s = w_clock w 0 /\
    (um = false -> bt = None) /\ (um = true -> (exists t, bt = Some t /\ (t <= c_limit cf)%Q) /\ meth <> OtherM).

  Lemma milp_run_shape um meth bt s : milp_run w I cf um meth = (Ok bt, s) -> milp_shape um meth bt s.
  Proof.
    intro H. unfold milp_run in H.
    assert (G : wp (fun _ _ => True) (milp_construct w I;;; milp_solve w I cf um meth) (milp_shape um meth) (ast0 I)).
    { unfold milp_construct. apply wp_bind, wp_bind, wp_clock. apply wp_bind, wp_put; [auto|]. intros _. apply wp_put; [auto|]. intros _.
      set (s0 := bump _). assert (A0 : a_start s0 = w_clock w 0) by reflexivity. clearbody s0.
      unfold milp_solve. apply wp_bind.
      eapply wp_mono with (E := fun _ _ => True) (Q := fun bt s => a_start s = w_clock w 0 /\ (um = false -> bt = None) /\
         (um = true -> (exists t, bt = Some t /\ (t <= c_limit cf)%Q) /\ meth <> OtherM)); [| |auto].
      - destruct um; [|apply wp_ret; split; [exact A0|]; split; [auto|discriminate]].
        unfold milp_compute_big_m. apply wp_bind. apply wp_bind.
        eapply wp_mono with (E := fun _ _ => True) (Q := fun _ s => a_start s = w_clock w 0 /\ meth <> OtherM); [| |auto].
        + destruct meth; cbn [milp_choose_big_m].
          * apply wp_bind. unfold all_scenario_costs. apply wp_bind.
            eapply wp_mono with (E := fun _ _ => True) (Q := fun _ s => a_start s = w_clock w 0); [| |auto].
            { revert s0 A0. generalize (seq 0 (i_k I)). induction l as [|q l IH]; intros s0 A0; [apply wp_ret; exact A0|].
              cbn [mmap]. apply wp_bind. unfold subset_cost. apply wp_bind, wp_call; auto. intro NI. apply wp_bind, wp_lift; [|auto].
              intros [[[x z] v] b] _. apply wp_ret. apply wp_bind. eapply wp_mono; [apply IH; exact A0| |auto].
              intros r s9 A. apply wp_ret. exact A. }
            intros r s1 A1. apply wp_ret. apply wp_bind, wp_lift; [|auto]. intros [[i v]|] _; [|exact Logic.I].
            apply wp_bind. unfold wp at 1. destruct (belotti_all _ _ _ _ _ _) as [[Ms|e] t]; [|exact Logic.I].
            apply wp_put; [auto|]. intros _. split; [exact A1|discriminate].
          * apply wp_bind, wp_lift; [|auto]. intros Ms _. apply wp_put; [auto|]. intros _. split; [exact A0|discriminate].
          * apply wp_ret. split; [exact A0|discriminate].
          * exact Logic.I.
        + intros [] s1 [A1 A2]. apply wp_bind, wp_available. apply wp_ret. apply wp_ret. split; [exact A1|]. split; [discriminate|]. intros _. split; [|exact A2].
          eexists. split; [reflexivity|]. match goal with |- (_ - Qmax ?a 0 <= _)%Q => assert (0 <= Qmax a 0)%Q by apply Q.le_max_r end. lra.
      - intros bt0 s1 (A1 & A2 & A3). apply wp_bind, wp_available. apply wp_bind, wp_available. apply wp_bind, wp_get.
        set (s2 := bump (bump s1)). assert (B2 : a_start s2 = w_clock w 0) by exact A1. clearbody s2. clear A1.
        apply wp_bind. unfold solve_cclp. apply wp_bind, wp_clock. apply wp_bind, wp_lift; [|auto]. intros m0 _.
        apply wp_bind, wp_clock. match goal with |- wp _ (if ?b then _ else _) _ _ => destruct b end; [apply wp_raise; exact Logic.I|].
        apply wp_bind, wp_lift; [|auto]. intros m EM. apply wp_bind, wp_call; try (intros; exact Logic.I). intro NI.
        apply wp_lift; [|auto]. intros [[[x z] vo] vb] _.
        apply wp_bind, wp_put; [auto|]. intros _. apply wp_bind, wp_put; [auto|]. intros _. apply wp_bind, wp_put; [auto|]. intros _. apply wp_ret.
        split; [exists vo, vb; split; reflexivity|]. split; [reflexivity|]. split; [reflexivity|]. split; [exact B2|]. split; assumption. }
    unfold wp in G. rewrite H in G. exact G.
  Qed.

  (** ** C48 *)
  Lemma milp_row_spec name um m bt s final : milp_run w I cf um (bigm_of_string m) = (Ok bt, s) -> 0 < i_k I ->
    exists v u, a_vLB s = Fin v /\ a_vUB s = Fin u /\
      (i_n I = 0 -> milp_row name I cf um m bt (Some final) s = Err IndexError) /\
      (0 < i_n I -> (v == 0)%Q -> milp_row name I cf um m bt (Some final) s = Err ZeroDivisionError) /\
      (0 < i_n I -> ~ (v == 0)%Q -> um = false -> milp_row name I cf um m bt (Some final) s = Err AttributeError) /\
      (0 < i_n I -> ~ (v == 0)%Q -> um = true ->
        exists row r t, milp_row name I cf um m bt (Some final) s = Ok row /\ List.length row = 15 /\ read_row row = Ok (CText name, r) /\
          bt = Some t /\ (t <= c_limit cf)%Q /\ row_at (CText name, r) 10 = Ok (finite t) /\
          row_at (CText name, r) 9 = Ok (finite (if String.eqb m "naive" then 1 else 0)%Q) /\
          row_at (CText name, r) 1 = Ok (finite (Qn (i_n I))) /\ row_at (CText name, r) 2 = Ok (finite (Qn (i_m I))) /\
          row_at (CText name, r) 3 = Ok (finite (Qn (i_k I))) /\ row_at (CText name, r) 8 = Ok (finite 1) /\
          (exists g, row_at (CText name, r) 5 = Ok g /\ near3 (i_eps I) g) /\ (exists g, row_at (CText name, r) 6 = Ok g /\ near3 (c_limit cf) g) /\
          (exists g, row_at (CText name, r) 7 = Ok g /\ near3 (100 * c_gap cf) g) /\
          row_at (CText name, r) 4 = Ok (finite (if i_cont I then 1 else 0)%Q) /\
          (exists g, row_neg (CText name, r) 4 = Ok g /\ near3 (final - w_clock w 0) g) /\
          (exists g, row_neg (CText name, r) 3 = Ok g /\ near3 v g) /\
          (exists g, row_neg (CText name, r) 2 = Ok g /\ near3 u g) /\
          (exists g, row_neg (CText name, r) 1 = Ok g /\ near3 (100 * ((u - v) / v)) g)).
  Proof.
    intros H Hk. destruct (milp_run_shape _ _ _ _ H) as ((v & u & EL & EU) & NL & NU & ES & B0 & B1).
    exists v, u. split; [exact EL|]. split; [exact EU|].
    assert (K : (i_k I =? 0) = false) by (apply Nat.eqb_neq; lia).
    unfold milp_row, instance_details, computation_details. rewrite EL, EU, NL, NU, K. cbn [compute_gap orb].
    split; [intros ->; reflexivity|].
    assert (N : 0 < i_n I -> (i_n I =? 0) = false) by (intro; apply Nat.eqb_neq; lia).
    split; [|split].
    - intros Hn Hv. rewrite (N Hn). cbn [orb rbind]. apply Qeq_bool_iff in Hv. now rewrite Hv.
    - intros Hn Hv ->. rewrite (N Hn). cbn [orb rbind]. apply Qeq_bool_false in Hv. rewrite Hv. cbn [rbind]. now rewrite (B0 eq_refl).
    - intros Hn Hv ->. rewrite (N Hn). cbn [orb rbind]. apply Qeq_bool_false in Hv. rewrite Hv. cbn [rbind].
      destruct (B1 eq_refl) as ((t & Et & Lt) & HM). rewrite Et.
      do 3 eexists. split; [reflexivity|]. split; [reflexivity|]. split; [reflexivity|]. split; [reflexivity|]. split; [exact Lt|].
      split; [reflexivity|]. split.
      { cbn. unfold method_code. unfold bigm_of_string in HM. destruct (String.eqb m "belotti") eqn:E1; [apply String.eqb_eq in E1; subst m; reflexivity|].
        destruct (String.eqb m "song") eqn:E2; [apply String.eqb_eq in E2; subst m; reflexivity|].
        destruct (String.eqb m "naive") eqn:E3; [apply String.eqb_eq in E3; subst m; reflexivity|congruence]. }
      split; [reflexivity|]. split; [reflexivity|]. split; [reflexivity|]. split; [reflexivity|].
      split; [eexists; split; [reflexivity|apply fixed_near3]|]. split; [eexists; split; [reflexivity|apply fixed_near3]|].
      split; [eexists; split; [reflexivity|apply near3_comm, fixed_near3]|]. split; [cbn; destruct (i_cont I); reflexivity|].
      + split; [eexists; split; [reflexivity|]; rewrite ES; apply fixed_near3|].
        split; [eexists; split; [reflexivity|]; apply fixed_near3|].
        split; [eexists; split; [reflexivity|]; apply fixed_near3|].
        eexists; split; [reflexivity|]. cbn [times100]. destruct (fixed_near3 ((u - v) / v * 100)) as (z & E & F). exists z.
        split; [exact E|]. split; lra.
  Qed.
End Row.

(** ** C49 *)
Lemma split_not_in_dict split acc x : init_refiner split acc = Ok x -> counter_dict split = Err KeyError.
Proof.
  unfold init_refiner, split_of_string, counter_dict. destruct (String.eqb split "random") eqn:E1.
  - apply String.eqb_eq in E1. now subst.
  - destruct (String.eqb split "cost") eqn:E2; [|discriminate]. apply String.eqb_eq in E2. now subst.
Qed.
Lemma adaptive_row_keyerror name I cf split init proj acc x started final s : init_refiner split acc = Ok x ->
  adaptive_row name I cf split init proj true started final s = Err KeyError.
Proof. intro H. unfold adaptive_row, adaptive_details. cbn [negb]. now rewrite (split_not_in_dict _ _ _ H). Qed.

(** The three lookups succeed for two names only. *)
Definition in_dict (k : string) : Prop := k = "counter"%string \/ k = "rescaled_max_violation"%string.
(** Codes of these names. *)
Definition dict_code (k : string) : Q := if String.eqb k "counter" then 1%Q else 5%Q.
Lemma counter_dict_iff k : (exists z, counter_dict k = Ok z) <-> in_dict k.
Proof.
  unfold counter_dict, in_dict. split.
  - intros (z & H). destruct (String.eqb k "counter") eqn:E1; [left; now apply String.eqb_eq|].
    destruct (String.eqb k "rescaled_max_violation") eqn:E2; [right; now apply String.eqb_eq|discriminate].
  - intros [->| ->]; eexists; reflexivity.
Qed.
Lemma dict_code_spec k z : counter_dict k = Ok z -> z = if String.eqb k "counter" then 1%Z else 5%Z.
Proof.
  unfold counter_dict. destruct (String.eqb k "counter"); [intro H; injection H as <-; reflexivity|].
  destruct (String.eqb k "rescaled_max_violation"); [intro H; injection H as <-; reflexivity|discriminate].
Qed.
Lemma adaptive_row_inv name I cf split init proj solved started final s row :
  adaptive_row name I cf split init proj solved started final s = Ok row ->
  in_dict split /\ in_dict init /\ in_dict proj /\ solved = true /\ started = true /\
  List.length row = 18 /\ exists r t, final = Some t /\ read_row row = Ok (CText name, r) /\
    row_at (CText name, r) 1 = Ok (finite (Qn (i_n I))) /\ row_at (CText name, r) 2 = Ok (finite (Qn (i_m I))) /\
    row_at (CText name, r) 3 = Ok (finite (Qn (i_k I))) /\ row_at (CText name, r) 4 = Ok (finite (if i_cont I then 1 else 0)%Q) /\
    (exists g, row_at (CText name, r) 5 = Ok g /\ near3 (i_eps I) g) /\ (exists g, row_at (CText name, r) 6 = Ok g /\ near3 (c_limit cf) g) /\
    (exists g, row_at (CText name, r) 7 = Ok g /\ near3 (100 * c_gap cf) g) /\
    row_at (CText name, r) 8 = Ok (finite (if c_bigM cf then 1 else 0)%Q) /\
    row_at (CText name, r) 9 = Ok (finite (dict_code split)) /\ row_at (CText name, r) 10 = Ok (finite (dict_code init)) /\
    row_at (CText name, r) 11 = Ok (finite (dict_code proj)) /\
    row_neg (CText name, r) 6 = Ok (finite (Qn (a_iter s))) /\ row_neg (CText name, r) 5 = Ok (finite (Qn (v_k (a_view s)))) /\
    (exists g, row_neg (CText name, r) 4 = Ok g /\ near3 (t - a_start s) g) /\
    (forall v, a_vLB s = Fin v -> exists g, row_neg (CText name, r) 3 = Ok g /\ near3 v g) /\
    (forall u, a_vUB s = Fin u -> exists g, row_neg (CText name, r) 2 = Ok g /\ near3 u g) /\
    (forall v u, a_vLB s = Fin v -> a_vUB s = Fin u -> ~ (v == 0)%Q -> exists g, row_neg (CText name, r) 1 = Ok g /\ near3 (100 * ((u - v) / v)) g).
Proof.
  unfold adaptive_row, adaptive_details, instance_details, computation_details. destruct solved; [|discriminate]. cbn [negb].
  destruct (counter_dict split) as [a|] eqn:E1; cbn [rbind]; [|discriminate].
  destruct (counter_dict init) as [b|] eqn:E2; cbn [rbind]; [|discriminate].
  destruct (counter_dict proj) as [c|] eqn:E3; cbn [rbind]; [|discriminate].
  destruct ((i_n I =? 0) || (i_k I =? 0)); cbn [rbind]; [discriminate|]. destruct final as [t|]; cbn [rbind]; [|discriminate].
  destruct (compute_gap _ _ _ _) as [g|] eqn:EG; cbn [rbind]; [|discriminate]. destruct started; [|discriminate]. cbn [negb]. intro H. injection H as <-.
  split; [apply counter_dict_iff; eauto|]. split; [apply counter_dict_iff; eauto|]. split; [apply counter_dict_iff; eauto|].
  apply dict_code_spec in E1, E2, E3. subst a b c.
  split; [reflexivity|]. split; [reflexivity|]. split; [reflexivity|]. eexists. exists t. split; [reflexivity|]. split; [reflexivity|].
  split; [reflexivity|]. split; [reflexivity|]. split; [reflexivity|]. split; [cbn; destruct (i_cont I); reflexivity|].
  split; [eexists; split; [reflexivity|apply fixed_near3]|]. split; [eexists; split; [reflexivity|apply fixed_near3]|].
  split; [eexists; split; [reflexivity|apply near3_comm, fixed_near3]|]. split; [cbn; destruct (c_bigM cf); reflexivity|].
  split; [cbn; unfold dict_code; destruct (String.eqb split "counter"); reflexivity|].
  split; [cbn; unfold dict_code; destruct (String.eqb init "counter"); reflexivity|].
  split; [cbn; unfold dict_code; destruct (String.eqb proj "counter"); reflexivity|].
  split; [reflexivity|]. split; [reflexivity|]. split; [eexists; split; [reflexivity|apply fixed_near3]|].
  split; [intros v ->; eexists; split; [reflexivity|apply fixed_near3]|]. split; [intros u ->; eexists; split; [reflexivity|apply fixed_near3]|].
  intros v u Hv Hu Hz. eexists. split; [reflexivity|]. rewrite Hv, Hu in EG. cbn [compute_gap] in EG. rewrite (Qeq_bool_false _ _ Hz) in EG.
  destruct (a_npU s), (a_npL s); cbn in EG; injection EG as <-; cbn [times100]; apply near3_comm, fixed_near3.
Qed.

Section MainFacts.
  Variable w : world.
  Variable I : inst.
  Variables name path : string.
  Variables fuel rfuel : nat.

  Lemma main_adaptive_nothing cf kws split init acc x : init_refiner split acc = Ok x ->
    exists e, main_adaptive w I name path fuel cf kws split init = (Err e, []).
  Proof.
    intro H. unfold main_adaptive. destruct (construct w I cf (ast0 I)) as [[b|e] s]; [|eauto].
    destruct (bind_keywords _ _ _) as [u|e]; [|eauto].
    destruct (solve w I cf fuel b s) as [[v|e] s'].
    - rewrite (adaptive_row_keyerror _ _ _ _ _ _ _ _ _ _ _ H). eauto.
    - destruct e; eauto. rewrite (adaptive_row_keyerror _ _ _ _ _ _ _ _ _ _ _ H). eauto.
  Qed.
  Lemma main_adaptive_fails METHOD : METHOD = 3%Z \/ METHOD = 4%Z ->
    let cf := if (METHOD =? 3)%Z then cfg3 rfuel else cfg4 rfuel in
    main w I name path fuel rfuel METHOD =
    (match fst (construct w I cf (ast0 I)) with Ok _ => Err TypeError | Err e => Err e end, []).
  Proof.
    intros [->| ->]; cbn [Z.eqb Pos.eqb]; cbv zeta; cbn [main Z.eqb Pos.eqb]; unfold main_adaptive;
      destruct (construct w I _ (ast0 I)) as [[b|e] s]; reflexivity.
  Qed.
  Lemma main_milp_file METHOD : METHOD = 1%Z \/ METHOD = 2%Z ->
    (exists row, main w I name path fuel rfuel METHOD = (Ok tt, [(path, row)]) /\ List.length row = 15) \/
    (exists e, main w I name path fuel rfuel METHOD = (Err e, [])).
  Proof.
    intros HM.
    assert (G : forall m, (exists row, main_milp w I name path rfuel m = (Ok tt, [(path, row)]) /\ List.length row = 15) \/
                          (exists e, main_milp w I name path rfuel m = (Err e, []))).
    { intro m. unfold main_milp. destruct (milp_run _ _ _ _ _) as [[bt|e] s] eqn:E; [|eauto].
      destruct (milp_row _ _ _ _ _ _ _ _) as [row|e] eqn:ER; [|eauto]. left. exists row. split; [reflexivity|].
      unfold milp_row, instance_details, computation_details in ER. destruct ((i_n I =? 0) || (i_k I =? 0)); cbn [rbind] in ER; [discriminate|].
      destruct (compute_gap _ _ _ _) as [g|]; cbn [rbind] in ER; [|discriminate]. destruct bt; [|discriminate]. injection ER as <-. reflexivity. }
    destruct HM as [->| ->]; apply G.
  Qed.
  Lemma main_other METHOD : (METHOD < 1 \/ 4 < METHOD)%Z -> main w I name path fuel rfuel METHOD = (Err NameError, []).
  Proof.
    intro H. unfold main. destruct (Z.eqb_spec METHOD 1); [lia|]. destruct (Z.eqb_spec METHOD 2); [lia|].
    destruct (Z.eqb_spec METHOD 3); [lia|]. destruct (Z.eqb_spec METHOD 4); [lia|]. reflexivity.
  Qed.
End MainFacts.
