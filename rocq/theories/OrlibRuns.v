(** The shipped experiments with exact answers (C84). *)
From Coq Require Import Ascii String QArith Qabs Lqa.
From Verif Require Import Base BaseFacts Spec Instance InstanceFacts OptModels Initial Bounds Refine CostRefine Merge Violations ViolTable BigM Adaptive AdaptiveSpec
  NearSpec Milp AgreeSpec AgreeFacts Report Main ReportFacts NameFacts Export ExportFacts PipelineFacts.
From Verif Require Import ResultText Campaign CampaignSpec CampaignFacts CampaignExport.
From Verif Require Import Orlib OrlibSpec OrlibRead OrlibData OrlibFacts.
From Verif Require Text.
Local Open Scope nat_scope.
Local Open Scope list_scope.

(** ** The generated files *)
Definition places (ts : list (list ascii)) (scenarios : list Z) (copies : nat) (d : nat -> Z -> nat -> draws) (b : nat) : list (string * list ascii) :=
  flat_map (fun ft : nat * list ascii =>
    flat_map (fun k => match generate (snd ft) k copies (d (fst ft) k) with Ok l => l | Err _ => [] end) scenarios) (combine (seq b (List.length ts)) ts).
Lemma generated_names d scenarios copies : map fst (generate_all orlib_texts scenarios copies d) = generated orlib_sizes scenarios copies.
Proof.
  assert (G : forall ts nms b, Forall2 (fun t nm => exists o, read_orlib t = Ok o /\ Z.of_nat (or_n o) = fst nm /\ Z.of_nat (or_m o) = snd nm) ts nms ->
    map fst (places ts scenarios copies d b) = generated nms scenarios copies).
  { intros ts nms b H. revert b. induction H as [|t nm ts nms (o & R & E1 & E2) H IH]; intro b; [reflexivity|]. unfold places. cbn [List.length seq combine flat_map].
    fold (places ts scenarios copies d (S b)). rewrite map_app, IH. unfold generated. cbn [flat_map]. f_equal. cbn [fst snd]. unfold generate. rewrite R. cbn [rbind].
    clear IH. induction scenarios as [|k l IHl]; [reflexivity|]. cbn [flat_map]. rewrite map_app, IHl. f_equal. rewrite map_map. cbn [fst]. now rewrite E1, E2. }
  apply (G orlib_texts orlib_sizes 0).
  assert (K := files_check). rewrite forallb_forall in K. assert (LE : List.length orlib_texts = List.length orlib_sizes) by reflexivity.
  revert K LE. generalize orlib_texts orlib_sizes. intros ts. induction ts as [|t ts IH]; intros [|nm nms] K LE; try discriminate LE; constructor.
  - destruct (fileb_ok t nm) as (o & R & _ & _ & E1 & E2); [apply (K (t, nm)); now left|]. eauto.
  - apply IH; [|now injection LE]. intros x Hx. apply K. now right.
Qed.
Lemma generated_in d f k j : f < 8 -> In k orlib_scenarios -> 1 <= j <= orlib_copies ->
  exists o, orlib_fit o /\ In (instance_file (fst (nth f orlib_sizes (0, 0)%Z)) (snd (nth f orlib_sizes (0, 0)%Z)) k j, orlib_text o (d f k j) (Z.to_nat k))
    (generate_all orlib_texts orlib_scenarios orlib_copies d).
Proof.
  intros Hf Hk Hj. destruct (shipped_files_fit f Hf) as (o & F & FI & E). exists o. split; [exact FI|]. apply orlib_read in F.
  unfold generate_all. apply in_flat_map. exists (f, nth f orlib_texts []). split.
  - replace (f, nth f orlib_texts []) with (nth f (combine (seq 0 (List.length orlib_texts)) orlib_texts) (0, [])).
    + apply nth_In. rewrite combine_length, seq_length. change (f < 8). exact Hf.
    + rewrite combine_nth by now rewrite seq_length. f_equal. rewrite seq_nth; [reflexivity|exact Hf].
  - apply in_flat_map. exists k. split; [exact Hk|]. cbn [fst snd]. unfold generate. rewrite F. cbn [rbind]. apply in_map_iff. exists j. split; [|apply in_seq; lia].
    rewrite <- E. reflexivity.
Qed.

Lemma shipped_place c : In c shipped -> exists f, f < 8 /\
  input_file shipped_inpath c = (shipped_inpath ++ instance_file (fst (nth f orlib_sizes (0, 0)%Z)) (snd (nth f orlib_sizes (0, 0)%Z)) (cm_scen c) (cm_id c))%string.
Proof.
  assert (H : forallb (fun c => existsb (fun f => String.eqb (input_file shipped_inpath c)
      (shipped_inpath ++ instance_file (fst (nth f orlib_sizes (0, 0)%Z)) (snd (nth f orlib_sizes (0, 0)%Z)) (cm_scen c) (cm_id c))) (seq 0 8)) shipped = true) by (vm_compute; reflexivity).
  intros Hc. rewrite forallb_forall in H. apply H in Hc. apply existsb_exists in Hc as (f & Hf & E). apply String.eqb_eq in E. exists f. split; [apply in_seq in Hf; lia|exact E].
Qed.
Theorem shipped_loads data d c : stored data d -> In c shipped -> exists J, load_command shipped_inpath data c = Ok J /\
  i_k J = Z.to_nat (cm_scen c) /\ i_cont J = (cm_cont c =? 1)%Z /\ i_eps J = cm_eps c /\ ready J /\
  (cm_cont c = 1%Z \/ (forall f k j, within30 (d f k j)) -> positive J).
Proof.
  intros S Hc. destruct (shipped_place c Hc) as (f & Hf & EI). unfold shipped in Hc. apply commands_in in Hc as (_ & HS & HI & HC & HE & _).
  destruct (generated_in d f (cm_scen c) (cm_id c) Hf HS HI) as (o & FI & IN). apply S in IN. rewrite <- EI in IN.
  destruct (shipped_ready o (d f (cm_scen c) (cm_id c)) (cm_scen c) (cm_cont c =? 1)%Z (cm_eps c) FI HS HE) as (J & L & _ & _ & EK & EC & EE & R & P).
  exists J. unfold load_command. rewrite IN. cbn [rbind]. split; [exact L|]. do 3 (split; [assumption|]). split; [exact R|].
  intros [E|W]; apply P; [left; now apply Z.eqb_eq|right; apply W].
Qed.

(** ** Methods 1 and 2 *)
Lemma positive_optimum J v : ready J -> positive J -> optimum J v -> (0 < v)%Q.
Proof.
  intros R (y & [D F] & P) [_ O]. eapply Qlt_le_trans; [exact P|]. apply O. split; [exact D|].
  replace (nviol J 0 y) with 0.
  - change (Qn 0) with 0%Q. destruct (rd_eps J R) as [E _]. apply Qmult_le_0_compat; [exact E|]. unfold Qn. change 0%Q with (inject_Z 0). rewrite <- Zle_Qle. lia.
  - symmetry. unfold nviol. apply count_zero. intros s Hs. apply negb_false_iff, satb_iff. now apply F.
Qed.

(** The row of a run: bounds equal to the optimal value (printed with three decimals), gap 0, less than an hour. *)
Lemma optimal_main m J name path METHOD : fine m -> ready J -> positive J -> METHOD = 1%Z \/ METHOD = 2%Z ->
  exists v row nums, optimum J v /\ (0 < v)%Q /\ main (mc_world m) J name path (mc_fuel m) (mc_rfuel m) METHOD = (Ok tt, [(path, row)]) /\
    read_row row = Ok (CText name, nums) /\ good_row (CText name, nums) /\
    near3 v (field 3 (CText name, nums)) /\ near3 v (field 2 (CText name, nums)) /\
    (exists g, field 1 (CText name, nums) = finite g /\ (g == 0)%Q) /\
    (exists t, near3 t (field 4 (CText name, nums)) /\ (t < 3600)%Q).
Proof.
  intros (AS & SS & EX & UN) R P HM. set (w := mc_world m) in *. set (rf := mc_rfuel m) in *. set (fu := mc_fuel m) in *.
  assert (G : exists bm, main w J name path fu rf METHOD = main_milp w J name path rf bm /\ bigm_of_string bm = (if (METHOD =? 1)%Z then Song else Belotti)).
  { destruct HM as [-> | ->]; [exists "song"%string|exists "belotti"%string]; split; reflexivity. }
  destruct G as (bm & EM & EB). assert (HO : bigm_of_string bm <> OtherM) by (rewrite EB; destruct (METHOD =? 1)%Z; discriminate).
  destruct (milp_total w J (cfgM rf) AS SS (rd_wf J R) (rd_packing J R) (rd_eps J R) (rd_level J R) EX UN (rd_items J R) true (bigm_of_string bm)) as
    (bt & s & x & v & ER & NB & _ & EL & (u & EU & UV) & _ & _ & OP).
  { intros _. split; [exact HO|]. intros _. apply R. }
  assert (V0 := positive_optimum J v R P OP). assert (VN : ~ (v == 0)%Q) by lra. assert (K0 : 0 < i_k J) by apply (rd_wf J R).
  destruct (milp_row_spec w J (cfgM rf) name true bm bt s (w_clock w (a_t s)) ER K0) as (v' & u' & EL' & EU' & _ & _ & _ & RS).
  rewrite EL in EL'. injection EL' as <-. rewrite EU in EU'. injection EU' as <-.
  destruct (RS (rd_items J R) VN eq_refl) as (row & nums & t & ERow & LR & RR & _ & _ & _ & _ & _ & _ & _ & _ & _ & _ & _ & _ & (g4 & F4 & N4) & (g3 & F3 & N3) & (g2 & F2 & N2) & _).
  assert (MO : main w J name path fu rf METHOD = (Ok tt, [(path, row)])) by (rewrite EM; unfold main_milp; rewrite ER, ERow; reflexivity).
  destruct (main_milp_row w J name path fu rf METHOD _ HM K0 MO) as (row' & nums' & bt' & s' & v' & u' & EO & ER' & EL' & EU' & _ & RR' & LN & GR & _ & F4' & F1 & _).
  injection EO as <-. rewrite RR in RR'. injection RR' as <-.
  rewrite <- EB, ER in ER'. injection ER' as _ <-. rewrite EL in EL'. injection EL' as <-. rewrite EU in EU'. injection EU' as <-.
  assert (FD : forall i g, 1 <= i <= 14 -> row_neg (CText name, nums) i = Ok g -> g = field i (CText name, nums)).
  { intros i g Hi H. rewrite row_neg_field in H by (cbn [snd]; lia). now injection H. }
  apply FD in F2; [|lia]. apply FD in F3; [|lia]. apply FD in F4; [|lia]. subst g2 g3 g4.
  exists v, row, nums. split; [exact OP|]. split; [exact V0|]. split; [exact MO|]. split; [exact RR|]. split; [exact GR|]. split; [exact N3|].
  split; [|split].
  - destruct N2 as (g & E & N2). rewrite E. unfold near3. exists g. split; [reflexivity|]. rewrite <- UV. exact N2.
  - rewrite F1. cbn [times100 finite fixed]. eexists. split; [reflexivity|]. assert (Z : ((u - v) / v * 100 * pow10 3 == 0)%Q) by (rewrite UV; field; exact VN).
    rewrite (TextFacts.Qrnd_eq _ _ Z). vm_compute. reflexivity.
  - exists (w_clock w (a_t s) - w_clock w 0)%Q. split; [exact N4|]. destruct UN as (_ & _ & UN). apply UN.
Qed.

(** ** The result of a run *)
Lemma shipped_result pct outdir data machine d c : stored data d -> In c shipped -> cm_method c = 1%Z \/ cm_method c = 2%Z -> fine (machine c) ->
  cm_cont c = 1%Z \/ (forall f k j, within30 (d f k j)) ->
  exists J v r, load_command shipped_inpath data c = Ok J /\ optimum J v /\ (0 < v)%Q /\ run_row pct shipped_inpath outdir data machine c = Some r /\ good_row r /\
    near3 v (field 3 r) /\ near3 v (field 2 r) /\ (exists g, field 1 r = finite g /\ (g == 0)%Q) /\ (exists t, near3 t (field 4 r) /\ (t < 3600)%Q).
Proof.
  intros S Hc HM FI HW. destruct (shipped_loads data d c S Hc) as (J & L & _ & _ & _ & R & P). specialize (P HW).
  destruct (optimal_main (machine c) J (loaded_name shipped_inpath c) (result_path pct shipped_inpath outdir c) (cm_method c) FI R P HM)
    as (v & row & nums & OP & V0 & EM & RR & GR & N3 & N2 & N1 & N4).
  exists J, v, (CText (loaded_name shipped_inpath c), nums). split; [exact L|]. split; [exact OP|]. split; [exact V0|].
  split; [|split; [exact GR|split; [exact N3|split; [exact N2|split; [exact N1|exact N4]]]]].
  unfold run_row, run_cells. rewrite L, EM, RR. reflexivity.
Qed.

Lemma shipped_rows pct outdir data machine c : In c shipped ->
  run_rows pct shipped_inpath outdir data machine shipped (cm_cont c) (cm_file c) (cm_scen c) (cm_id c) (cm_eps c) (cm_method c) = run_row pct shipped_inpath outdir data machine c.
Proof.
  intro Hc. unfold run_rows. destruct (find _ shipped) as [k|] eqn:E.
  - apply find_some in E as [Hk E]. rewrite !andb_true_iff, !Z.eqb_eq, Nat.eqb_eq, String.eqb_eq, Qeq_bool_iff in E. destruct E as (((((E1 & E2) & E3) & E4) & E5) & E6).
    assert (EE : cm_eps k = cm_eps c).
    { unfold shipped in Hk, Hc. apply commands_in in Hk as (_ & _ & _ & _ & Hk & _). apply commands_in in Hc as (_ & _ & _ & _ & Hc & _).
      destruct Hk as [Ek|[Ek|[]]], Hc as [Ec|[Ec|[]]]; rewrite <- Ek, <- Ec in *; try reflexivity; exfalso; vm_compute in E5; discriminate E5. }
    destruct k, c; cbn in *; congruence.
  - exfalso. apply (find_none _ _ E) in Hc. apply not_true_iff_false in Hc. apply Hc. rewrite !Z.eqb_refl, Nat.eqb_refl, String.eqb_refl. cbn. rewrite andb_true_r.
    apply Qeq_bool_iff. reflexivity.
Qed.

(** ** Tables *)
Lemma present_rows {A B} (f : B -> option A) (P : A -> Prop) l : (forall j, In j l -> exists r, f j = Some r /\ P r) -> exists rows, map f l = map Some rows /\ Forall P rows.
Proof.
  induction l as [|j l IH]; intro H; [exists []; split; [reflexivity|constructor]|]. destruct (H j (or_introl eq_refl)) as (r & E & Pr).
  destruct IH as (rows & EM & F); [intros k Hk; apply H; now right|]. exists (r :: rows). cbn. rewrite E, EM. split; [reflexivity|now constructor].
Qed.
Lemma solved_cells exp ids milp part required c inst sc eps m : 0 < ids -> memZ m milp = true ->
  (forall j, 1 <= j <= ids -> exists r, exp c inst sc j eps m = Some r /\ good_row r /\ solvedb required r = true) ->
  exists t nb g q, method_cells exp ids milp part required c inst sc eps m = Ok (t, nb, g, [ETime (finite q)]).
Proof.
  intros ID HM H. destruct (present_rows (fun j => exp c inst sc j eps m) (fun r => good_row r /\ solvedb required r = true) (seq 1 ids)) as (rows & EM & F).
  { intros j Hj. apply in_seq in Hj. apply H. lia. }
  rewrite (method_cells_present exp ids milp part required c inst sc eps m rows EM). assert (LR : List.length rows = ids).
  { rewrite <- (map_length Some rows), <- EM, map_length, seq_length. reflexivity. }
  assert (FR : firstn ids rows = rows) by (rewrite <- LR; apply firstn_all).
  destruct (format_method_spec rows m ids required milp part ID) as (t & nb & g & en & a0 & a1 & E & NB & S1 & _ & TL & _).
  { lia. }
  { rewrite FR. eapply Forall_impl; [|exact F]. intros r [[G _] _]. exact G. }
  rewrite FR in *. assert (NI : nb = ids).
  { rewrite NB, <- LR. clear - F. induction F as [|r l [_ S] F IH]; [reflexivity|]. rewrite count_cons, S, IH. reflexivity. }
  destruct (S1 NI) as (MN & _ & _ & HD). rewrite HM in TL. destruct (all_finite (map (field 4) rows)) as (qs & EQ).
  { apply Forall_map. eapply Forall_impl; [|exact F]. intros r [(_ & G & _) _]. exact G. }
  destruct MN as (MN & _). destruct (MN qs EQ) as (v & -> & _). rewrite E. destruct en as [|x [|y en]]; cbn in HD, TL; [discriminate HD| |discriminate TL].
  subst x. cbn [fixed finite]. do 4 eexists. reflexivity.
Qed.
Lemma solved_table exp files scenarios epsilons ids methods milp part required :
  methods = [1; 2; 3; 4]%Z -> milp = [1; 2]%Z -> 0 < ids ->
  (forall c i s j e m r, exp c i s j e m = Some r -> good_row r) ->
  (forall c i s j e m, m = 3%Z \/ m = 4%Z -> exp c i s j e m = None) ->
  forall c i, i < List.length files ->
  (forall s j e m, In s scenarios -> 1 <= j <= ids -> In e epsilons -> m = 1%Z \/ m = 2%Z -> exists r, exp c (nth i files EmptyString) s j e m = Some r /\ solvedb required r = true) ->
  exists tab, instance_table exp files scenarios epsilons ids methods milp part required c i = Ok tab /\
    List.length tab = List.length epsilons * List.length scenarios /\
    forall e s, e < List.length epsilons -> s < List.length scenarios ->
      time_cell (nth 3 (nth (s + e * List.length scenarios) tab []) EDash) /\ time_cell (nth 4 (nth (s + e * List.length scenarios) tab []) EDash).
Proof.
  intros M4 MM ID HG HN c i Hi HS.
  destruct (adaptive_missing exp files scenarios epsilons ids methods milp part required M4 MM ID HG HN c i Hi) as (tab0 & E0 & _ & AE).
  destruct (exported_table exp files scenarios epsilons ids methods milp part required ID HG) with (c := c) (i := i) as (tab & E1 & E2 & E3); try assumption.
  - now rewrite M4.
  - rewrite M4. cbn. lia.
  - rewrite M4, MM. intros [|[|[|[|k]]]] Hk; try reflexivity. cbn in Hk. lia.
  - rewrite E1 in E0. injection E0 as <-. exists tab. split; [exact E1|]. split; [exact E2|]. intros e s He Hs. specialize (E3 e s He Hs). specialize (AE e s He Hs).
    set (row := nth (s + e * List.length scenarios) tab []) in *.
    destruct E3 as (cl & b & R1 & R2 & R3 & R4 & R5). rewrite M4 in R1. cbn [rmap] in R1.
    assert (X : forall m, m = 1%Z \/ m = 2%Z -> exists t nb g q,
      method_cells exp ids milp part required c (nth i files EmptyString) (nth s scenarios 0%Z) (nth e epsilons 0%Q) m = Ok (t, nb, g, [ETime (finite q)])).
    { intros m Hm. apply solved_cells; [exact ID|rewrite MM; destruct Hm as [-> | ->]; reflexivity|]. intros j Hj.
      destruct (HS (nth s scenarios 0%Z) j (nth e epsilons 0%Q) m) as (r & Er & Sr); auto using nth_In. exists r. split; [exact Er|]. split; [now apply HG in Er|exact Sr]. }
    destruct (X 1%Z) as (t1 & n1 & g1 & q1 & X1); [auto|]. destruct (X 2%Z) as (t2 & n2 & g2 & q2 & X2); [auto|]. rewrite X1, X2 in R1. cbn [rbind] in R1.
    destruct (method_cells exp ids milp part required c _ _ _ 3%Z) as [c3|]; [|discriminate R1]. cbn [rbind] in R1.
    destruct (method_cells exp ids milp part required c _ _ _ 4%Z) as [c4|]; [|discriminate R1]. cbn [rbind] in R1. injection R1 as <-.
    assert (T : forall n, (n = 3 \/ n = 4) -> time_cell (nth n row EDash)).
    { intros n Hn. destruct AE as (_ & _ & kk & x & Hk & EB).
      destruct (Nat.eq_dec n (3 + List.length (flat_map snd (firstn b [(t1, n1, g1, [ETime (finite q1)]); (t2, n2, g2, [ETime (finite q2)]); c3; c4])))) as [D|D].
      - rewrite D, R4. destruct b as [|[|b]].
        + exists q1. right. reflexivity.
        + exists q2. right. reflexivity.
        + exfalso. cbn in D. destruct c3 as [[[? ?] ?] l3], c4 as [[[? ?] ?] l4]. destruct Hn as [-> | ->]; destruct b; cbn in D; lia.
      - rewrite R5 by exact D. destruct Hn as [-> | ->]; [exists q1|exists q2]; left; reflexivity. }
    split; apply T; auto.
Qed.

Lemma ids_pos : 0 < shipped_ids.
Proof. unfold shipped_ids. lia. Qed.

Section Shipped.
  Variable pct : Q -> Q.
  Variable outdir : string.
  Variable data : string -> res (list ascii).
  Variable machine : command -> computer.
  Variable d : nat -> Z -> nat -> draws.
  Hypothesis ST : stored data d.
  Hypothesis W30 : forall f k j, within30 (d f k j).
  Hypothesis FINE : forall c, In c shipped -> cm_method c = 1%Z \/ cm_method c = 2%Z -> fine (machine c).
  Notation rows := (run_rows pct shipped_inpath outdir data machine shipped).

  Lemma shipped_row c i s j e m : In c shipped_conts -> In i shipped_files -> In s shipped_scenarios -> 1 <= j <= shipped_ids -> In e shipped_epsilons ->
    m = 1%Z \/ m = 2%Z -> exists r, rows c i s j e m = Some r /\ forall required, (0 <= required)%Q -> solvedb required r = true.
  Proof.
    intros Hc Hi Hs Hj He Hm. set (k := mkCommand i s j c e m). assert (Hk : In k shipped).
    { unfold shipped. apply commands_in. cbn. repeat split; auto; try lia; destruct Hm as [-> | ->]; cbn; auto. }
    destruct (shipped_result pct outdir data machine d k ST Hk Hm (FINE k Hk Hm) (or_intror W30)) as (J & v & r & _ & _ & _ & ER & _ & _ & _ & (g & F1 & G0) & _).
    exists r. split; [exact (eq_trans (shipped_rows pct outdir data machine k Hk) ER)|]. intros required RQ. unfold solvedb. rewrite F1. cbn. apply Qle_bool_iff. lra.
  Qed.

  Theorem shipped_tables part required c i : In c shipped_conts -> i < List.length shipped_files -> (0 <= required)%Q ->
    exists tab, instance_table rows shipped_files shipped_scenarios shipped_epsilons shipped_ids shipped_methods [1; 2]%Z part required c i = Ok tab /\
      List.length tab = 8 /\
      forall e s, e < 2 -> s < 4 -> time_cell (nth 3 (nth (s + e * 4) tab []) EDash) /\ time_cell (nth 4 (nth (s + e * 4) tab []) EDash).
  Proof.
    intros Hc Hi RQ. apply (solved_table rows shipped_files shipped_scenarios shipped_epsilons shipped_ids shipped_methods [1; 2]%Z part required); try reflexivity; try exact Hi.
    - unfold shipped_ids. lia.
    - intros c' i' s' j' e' m' r H. apply (rows_some pct shipped_inpath outdir data machine shipped_files shipped_scenarios shipped_conts shipped_epsilons shipped_methods shipped_ids eq_refl ids_pos) in H. apply H.
    - intros c' i' s' j' e' m' H. now apply (rows_none pct shipped_inpath outdir data machine shipped_files shipped_scenarios shipped_conts shipped_epsilons shipped_methods shipped_ids eq_refl ids_pos).
    - intros s j e m Hs Hj He Hm. destruct (shipped_row c (nth i shipped_files EmptyString) s j e m) as (r & E & S); auto using nth_In. eauto.
  Qed.
  Theorem shipped_times i : i < List.length shipped_files ->
    exists tab, instance_times rows shipped_files shipped_scenarios shipped_epsilons shipped_ids i = Ok tab /\ List.length tab = 4 /\
      forall s k, s < 4 -> 2 <= k < 5 -> time_cell (nth k (nth s tab []) EDash).
  Proof.
    intros Hi. destruct (exported_times rows shipped_files shipped_scenarios shipped_epsilons shipped_ids) with (i := i) as (tab & E & L & H); auto.
    - unfold shipped_ids. lia.
    - discriminate.
    - intros c' i' s' j' e' m' r H. apply (rows_some pct shipped_inpath outdir data machine shipped_files shipped_scenarios shipped_conts shipped_epsilons shipped_methods shipped_ids eq_refl ids_pos) in H. apply H.
    - exists tab. split; [exact E|]. split; [exact L|]. intros s k Hs Hk. destruct (H s Hs) as (e1 & e2 & e3 & EN & T1 & T2 & T3).
      assert (AF : forall c m, In c shipped_conts -> m = 1%Z \/ m = 2%Z -> exists rs, all_files rows shipped_epsilons shipped_ids c (nth i shipped_files EmptyString) (nth s shipped_scenarios 0%Z) m = map Some rs).
      { intros c m Hc Hm. unfold all_files. assert (X : forall l, (forall j, In j l -> 1 <= j <= shipped_ids) -> exists rs,
          flat_map (fun j => map (fun eps => rows c (nth i shipped_files EmptyString) (nth s shipped_scenarios 0%Z) j eps m) shipped_epsilons) l = map Some rs).
        { induction l as [|j l IH]; intro HJ; [now exists []|]. destruct IH as (rs & ER); [intros j' Hj'; apply HJ; now right|].
          destruct (present_rows (fun eps => rows c (nth i shipped_files EmptyString) (nth s shipped_scenarios 0%Z) j eps m) (fun _ => True) shipped_epsilons) as (r0 & E0 & _).
          { intros e He. destruct (shipped_row c (nth i shipped_files EmptyString) (nth s shipped_scenarios 0%Z) j e m) as (r & Er & _); auto using nth_In.
            - apply HJ. now left.
            - eauto. }
          exists (r0 ++ rs). cbn [flat_map]. rewrite ER, map_app. f_equal. exact E0. }
        apply X. intros j Hj. apply in_seq in Hj. lia. }
      assert (TC : forall l e, time_entry l e -> (exists rs, l = map Some rs) -> time_cell e).
      { intros l e [_ T] (rs & ->). destruct (T rs eq_refl) as (qs & v & _ & _ & ->). eexists. left. reflexivity. }
      rewrite EN. destruct (AF 0%Z 1%Z) as (r01 & E01); [cbn; auto|auto|]. destruct (AF 1%Z 1%Z) as (r11 & E11); [cbn; auto|auto|].
      destruct (AF 0%Z 2%Z) as (r02 & E02); [cbn; auto|auto|]. destruct (AF 1%Z 2%Z) as (r12 & E12); [cbn; auto|auto|].
      rewrite E01, E11 in T1. rewrite E12 in T2. rewrite E02 in T3. destruct k as [|[|[|[|[|k]]]]]; try lia; cbn [nth].
      + apply (TC _ _ T1). exists (r11 ++ r01). now rewrite map_app.
      + apply (TC _ _ T2). eauto.
      + apply (TC _ _ T3). eauto.
  Qed.
End Shipped.

(** AdaptivePartitioner on these instances, with exact answers, without signals and merging. *)
Theorem shipped_adaptive data d c : stored data d -> In c shipped -> exists J, load_command shipped_inpath data c = Ok J /\
  forall w cf fuel, oracles_ok w J -> sort_spec (w_sort w) -> exact_answers w -> undisturbed w cf -> options_ok w J cf -> (0 <= c_gap cf)%Q ->
    c_merger cf = false -> i_k J - tolerated J <= fuel ->
    (cm_cont c = 0%Z -> (forall f k j, within30 (d f k j)) ->
       exists vd s v, run w J cf fuel = (Ok vd, s) /\ a_iter s <= i_k J - tolerated J /\ optimum J v /\ bin_result J cf vd s v) /\
    (cm_cont c = 1%Z -> exists r s, run w J cf fuel = (r, s) /\
       ((exists vd v, r = Ok vd /\ a_iter s <= i_k J - tolerated J /\ optimum J v /\ cont_result cf vd s v) \/ exists e, r = Err e /\ close_failed w J cf e s)).
Proof.
  intros ST HC. destruct (shipped_loads data d c ST HC) as (J & L & _ & EC & _ & R & P). exists J. split; [exact L|].
  intros w cf fuel OO SS XA UN OP GP MG FU. split; intro HT; rewrite HT in EC.
  - intro W30. destruct R. apply bin_total; auto. exact (P (or_intror W30)).
  - destruct R. apply cont_total; auto.
Qed.
