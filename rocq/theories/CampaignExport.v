(** The tables exported after the shipped experiments (C83). *)
From Coq Require Import Ascii String Lia ZArith QArith.
From Verif Require Import Base BaseFacts Spec Instance InstanceFacts OptModels Bounds Refine CostRefine Merge Violations BigM Adaptive AdaptiveSpec
  Milp Report Main ReportFacts NameFacts Export ExportFacts PipelineFacts.
From Verif Require Text.
From Verif Require Import ResultText ResultSpec ResultFacts ResultRows ResultTables Campaign CampaignSpec CampaignFacts.
Local Open Scope nat_scope.
Local Open Scope list_scope.

(** A table of the four methods where the files of the last two are missing. *)
Lemma adaptive_missing : forall exp files scenarios epsilons ids methods milp part required,
  methods = [1; 2; 3; 4]%Z -> milp = [1; 2]%Z -> 0 < ids ->
  (forall c i s j e m r, exp c i s j e m = Some r -> good_row r) ->
  (forall c i s j e m, m = 3%Z \/ m = 4%Z -> exp c i s j e m = None) ->
  forall c i, i < List.length files -> exists tab,
    instance_table exp files scenarios epsilons ids methods milp part required c i = Ok tab /\
    List.length tab = List.length epsilons * List.length scenarios /\
    forall e s, e < List.length epsilons -> s < List.length scenarios -> adaptive_empty (nth (s + e * List.length scenarios) tab []).
Proof.
  intros exp files scenarios epsilons ids methods milp part required M4 MM ID HG HN c i Hi.
  destruct (exported_table exp files scenarios epsilons ids methods milp part required ID HG) with (c := c) (i := i) as (tab & E1 & E2 & E3); try assumption.
  - now rewrite M4.
  - rewrite M4. cbn. lia.
  - rewrite M4, MM. intros [|[|[|[|k]]]] Hk; try reflexivity. cbn in Hk. lia.
  - exists tab. split; [exact E1|]. split; [exact E2|]. intros e s He Hs. specialize (E3 e s He Hs). set (row := nth (s + e * List.length scenarios) tab []) in *.
    destruct E3 as (cl & b & R1 & R2 & R3 & R4 & R5). rewrite M4 in R1. cbn [rmap] in R1.
    set (F := method_cells exp ids milp part required c (nth i files EmptyString) (nth s scenarios 0%Z) (nth e epsilons 0%Q)) in *.
    assert (F3 : forall m, m = 3%Z \/ m = 4%Z -> F m = Ok (ginf, 0, ginf, [ENum None; ENum None])).
    { intros m Hm. unfold F. rewrite (method_cells_missing exp ids milp part required c _ _ _ m 1) by (lia || (apply HN; exact Hm)).
      rewrite MM. destruct Hm as [-> | ->]; reflexivity. }
    rewrite (F3 3%Z), (F3 4%Z) in R1 by auto.
    destruct (method_cells_ok exp ids milp part required ID HG c (nth i files EmptyString) (nth s scenarios 0%Z) (nth e epsilons 0%Q) 1) as (t1 & n1 & g1 & l1 & X1 & T1 & G1 & L1).
    destruct (method_cells_ok exp ids milp part required ID HG c (nth i files EmptyString) (nth s scenarios 0%Z) (nth e epsilons 0%Q) 2) as (t2 & n2 & g2 & l2 & X2 & T2 & G2 & L2).
    fold F in X1, X2. rewrite X1, X2 in R1. cbn [rbind] in R1. injection R1 as <-. rewrite MM in L1, L2. cbn in L1, L2.
    destruct l1 as [|a1 [|? ?]]; try discriminate L1. destruct l2 as [|a2 [|? ?]]; try discriminate L2.
    assert (HB : b = 0 \/ b = 1).
    { clear - R2 T1 G1 T2 G2. cbn [map fst snd] in R2. destruct R2 as (HB & B1 & B2). cbn [List.length] in HB.
      destruct b as [|[|b]]; [now left|now right|]. exfalso.
      assert (TB : nth (S (S b)) [t1; t2; ginf; ginf] None = ginf) by (destruct b as [|[|b]]; [reflexivity|reflexivity|lia]).
      assert (GB : nth (S (S b)) [g1; g2; ginf; ginf] None = ginf) by (destruct b as [|[|b]]; [reflexivity|reflexivity|lia]).
      assert (NB : nth (S (S b)) [n1; n2; 0; 0] 0 = 0) by (destruct b as [|[|b]]; [reflexivity|reflexivity|lia]).
      assert (FI : forall k t, k < 4 -> nth k [t1; t2; ginf; ginf] None = t -> gfinite t = true -> False).
      { intros k t Hk Et Ft. destruct B1 as (_ & B1 & _); [exists k; split; [exact Hk|now rewrite Et]|]. specialize (B1 k Hk). rewrite TB, Et in B1.
        destruct t as [[|q|]|]; try discriminate Ft; cbn in B1; discriminate B1. }
      destruct T1 as [T1|T1]; [exact (FI 0 t1 ltac:(lia) eq_refl T1)|]. destruct T2 as [T2|T2]; [exact (FI 1 t2 ltac:(lia) eq_refl T2)|].
      destruct B2 as (C1 & _ & C3).
      { intros k Hk. cbn in Hk. destruct k as [|[|[|[|k]]]]; [exact T1|exact T2|reflexivity|reflexivity|lia]. }
      specialize (C1 0 ltac:(cbn; lia)). rewrite NB in C1. cbn in C1. apply (C3 0 ltac:(lia)).
      - rewrite NB. cbn. lia.
      - rewrite GB. cbn. destruct g1 as [[|q|]|]; [reflexivity|reflexivity|reflexivity|congruence]. }
    cbn in R3. split; [exact R3|]. split.
    + intros k Hk. rewrite R5.
      * destruct k as [|[|[|[|[|[|[|[|[|k]]]]]]]]]; try lia; reflexivity.
      * destruct HB as [-> | ->]; cbn; lia.
    + destruct HB as [-> | ->]; cbn in R4; eauto 6.
Qed.


Section Export.
  Variable repr : gapv -> text.
  Variable pct : Q -> Q.
  Variables inpath outdir savedir : string.
  Variable data : string -> res text.
  Variable machine : command -> computer.
  Variable trace : command -> option text.
  Notation path := (result_path pct inpath outdir).
  Notation ipath := (iter_path pct inpath outdir).
  Notation run := (main_py repr pct inpath outdir data machine trace).
  Notation cells := (run_cells pct inpath outdir data machine).

  Lemma loaded_k : forall c J, load_command inpath data c = Ok J -> 0 < i_k J.
  Proof.
    intros c J H. unfold load_command in H. destruct (data (input_file inpath c)) as [t|]; [|discriminate]. cbn [rbind] in H.
    now apply loaded_fields in H.
  Qed.

  (** Nothing for the methods 3 and 4. *)
  Lemma adaptive_no_cells : forall c, cm_method c = 3%Z \/ cm_method c = 4%Z -> cells c = None.
  Proof.
    intros c HM. unfold run_cells. destruct (load_command inpath data c) as [J|]; [|reflexivity]. rewrite main_adaptive_fails by exact HM.
    now destruct (fst (construct _ _ _ _)).
  Qed.
  Lemma cells_row : forall c row, cm_method c = 1%Z \/ cm_method c = 2%Z -> cells c = Some row ->
    exists nums, read_row row = Ok (CText (loaded_name inpath c), nums) /\ List.length nums = 14 /\ good_row (CText (loaded_name inpath c), nums) /\
      gfinite (time_field (CText (loaded_name inpath c), nums)) = true.
  Proof.
    intros c row HM H. unfold run_cells in H. destruct (load_command inpath data c) as [J|] eqn:EL; [|discriminate H].
    destruct (main _ _ _ _ _ _ _) as [[u|] out] eqn:EM; [|discriminate H]. destruct u.
    destruct (main_milp_row _ _ _ _ _ _ _ _ HM (loaded_k c J EL) EM) as (row' & nums & bt & s & v & u & -> & _ & _ & _ & _ & R & LN & G & T & _).
    injection H as <-. exists nums. split; [exact R|]. split; [exact LN|]. split; [exact G|]. now rewrite T.
  Qed.

  Lemma run_text_cells : forall c, ipath c <> path c ->
    (forall J, load_command inpath data c = Ok J -> time_printed repr (mc_world (machine c)) J (mc_rfuel (machine c))) ->
    match text_files (snd (run c)) (path c), cells c with Some t, Some row => holds row t | None, None => True | _, _ => False end.
  Proof.
    intros c NE HT. unfold main_py, run_cells. destruct (load_command inpath data c) as [J|]; [|exact Logic.I]. specialize (HT J eq_refl).
    pose proof (main_text_rel repr (mc_world (machine c)) J (loaded_name inpath c) (path c) (ipath c) true (mc_fuel (machine c)) (mc_rfuel (machine c)) (cm_method c) HT) as X.
    destruct (main_text_out repr (mc_world (machine c)) J (loaded_name inpath c) (path c) (ipath c) true (mc_fuel (machine c)) (mc_rfuel (machine c)) (cm_method c))
      as [(r & E & NR) | (t & E & HM)]; rewrite E in X |- *; destruct (main _ _ _ _ _ _ _) as [r' out]; destruct X as [<- X]; cbn [snd];
      rewrite text_files_app, text_files_other.
    - cbn. inversion X; subst. now destruct r.
    - intros x Hx. destruct (trace c); [destruct (_ || _)|]; (destruct Hx as [<-|[]] || destruct Hx); exact NE.
    - inversion X as [|[p row] ? ? ? HS X']; subst. inversion X'; subst. cbn. rewrite String.eqb_refl. exact (proj2 HS).
    - intros x Hx. destruct (trace c); [destruct (_ || _)|]; (destruct Hx as [<-|[]] || destruct Hx); exact NE.
  Qed.

  Variable files : list string.
  Variables scenarios conts : list Z.
  Variable epsilons : list Q.
  Variable methods milp part : list Z.
  Variable ids : nat.
  Variable required : Q.
  Hypothesis NF : names_fit pct inpath files scenarios conts epsilons methods.
  Notation cs := (commands files scenarios ids conts epsilons methods).
  Notation keys := (dict_keys files scenarios epsilons ids methods conts).
  Notation rows := (run_rows pct inpath outdir data machine cs).

  Lemma keys_in : forall c i s j e m, In (c, i, s, j, e, m) keys <-> In (mkCommand i s j c e m) cs.
  Proof.
    intros c i s j e m. rewrite commands_in. cbn. unfold dict_keys. split.
    - intro H. apply in_flat_map in H as (c' & Hc & H). apply in_flat_map in H as (i' & Hi & H). apply in_flat_map in H as (s' & Hs & H).
      apply in_flat_map in H as (j' & Hj & H). apply in_flat_map in H as (e' & He & H). apply in_map_iff in H as (m' & E & Hm).
      injection E as <- <- <- <- <- <-. apply in_seq in Hj. repeat split; auto; lia.
    - intros (Hi & Hs & Hj & Hc & He & Hm). apply in_flat_map. exists c. split; [exact Hc|]. apply in_flat_map. exists i. split; [exact Hi|].
      apply in_flat_map. exists s. split; [exact Hs|]. apply in_flat_map. exists j. split; [apply in_seq; lia|].
      apply in_flat_map. exists e. split; [exact He|]. apply in_map_iff. exists m. now split.
  Qed.

  Lemma export_text_ext : forall fs fs', (forall c, In c cs -> fs (path c) = fs' (path c)) ->
    export_text repr pct outdir savedir files scenarios epsilons ids methods milp part conts required fs =
    export_text repr pct outdir savedir files scenarios epsilons ids methods milp part conts required fs'.
  Proof.
    intros fs fs' H. unfold export_text. replace (read_dict pct outdir files scenarios epsilons ids methods conts fs)
      with (read_dict pct outdir files scenarios epsilons ids methods conts fs'); [reflexivity|].
    unfold read_dict. assert (HK : forall k, In k keys -> In k keys) by auto. revert HK. generalize keys at 1 3 4 as l.
    induction l as [|[[[[[c i] s] j] e] m] l IH]; intro HK; [reflexivity|]. cbn [rmap]. rewrite IH by (intros k Hk; apply HK; now right).
    assert (E : read_experiment_text fs' outdir i s (Z.of_nat j) (pct e) c m = read_experiment_text fs outdir i s (Z.of_nat j) (pct e) c m).
    { pose proof (proj1 (keys_in c i s j e m) (HK _ (or_introl eq_refl))) as HC. specialize (H _ HC).
      rewrite (result_path_read _ _ _ _ _ _ _ _ _ NF _ HC) in H. cbn in H. unfold read_experiment_text. now rewrite H. }
    now rewrite E.
  Qed.

  Definition tfs (p : string) : option text :=
    match find (fun k => String.eqb p (path k)) cs with Some k => text_files (snd (run k)) (path k) | None => None end.
  Definition rfs (p : string) : option (list cell) :=
    match find (fun k => String.eqb p (path k)) cs with Some k => cells k | None => None end.

  Lemma find_path : forall c, In c cs -> find (fun k => String.eqb (path c) (path k)) cs = Some c.
  Proof.
    intros c Hc. destruct (find (fun k => String.eqb (path c) (path k)) cs) as [k|] eqn:E.
    - apply find_some in E as [Hk E]. apply String.eqb_eq in E. apply (result_path_inj _ _ _ _ _ _ _ _ _ NF _ _ Hc Hk) in E. now subst.
    - exfalso. apply (find_none _ _ E) in Hc. now rewrite String.eqb_refl in Hc.
  Qed.

  Hypothesis TP : forall c J, In c cs -> load_command inpath data c = Ok J -> time_printed repr (mc_world (machine c)) J (mc_rfuel (machine c)).
  Hypothesis HR : forall g g', same_real g g' -> repr g = repr g'.
  Hypothesis HP : forall e e', (e == e')%Q -> Qtrunc (pct e) = Qtrunc (pct e').

  Lemma tfs_rfs : forall p, match tfs p, rfs p with Some t, Some row => holds row t | None, None => True | _, _ => False end.
  Proof.
    intro p. unfold tfs, rfs. destruct (find _ cs) as [k|] eqn:E; [|exact Logic.I]. apply find_some in E as [Hk _].
    apply run_text_cells; [eapply iter_not_result; eauto|]. intros J. now apply TP.
  Qed.

  Lemma listed_rows : forall c i s j e m, listed_row pct outdir files scenarios epsilons ids methods conts rfs c i s j e m = rows c i s j e m.
  Proof.
    intros c i s j e m. unfold listed_row, run_rows.
    destruct (find _ cs) as [k|] eqn:E.
    - apply find_some in E as [Hk E]. destruct k as [i' s' j' c' e' m']. cbn in E.
      assert (EX : existsb (key_eqb (c, i, s, j, e, m)) keys = true).
      { apply existsb_exists. exists (c', i', s', j', e', m'). split; [now apply keys_in|]. cbn.
        rewrite !andb_true_iff in *. rewrite !Z.eqb_eq, !Nat.eqb_eq, !String.eqb_eq, !Qeq_bool_iff in *. destruct E as (((((-> & ->) & ->) & ->) & E) & ->).
        repeat split; auto. now symmetry. }
      rewrite EX. rewrite !andb_true_iff in E. rewrite !Z.eqb_eq, !Nat.eqb_eq, !String.eqb_eq, !Qeq_bool_iff in E.
      destruct E as (((((-> & ->) & ->) & ->) & E) & ->). unfold read_single_experiment.
      assert (EN : read_name outdir i s (Z.of_nat j) (pct e) c m = path (mkCommand i s j c e' m)).
      { rewrite (result_path_read _ _ _ _ _ _ _ _ _ NF _ Hk). cbn. unfold read_name. now rewrite (HP e e') by (now symmetry). }
      rewrite EN. unfold rfs. rewrite find_path by exact Hk. unfold run_row. destruct (cells _); [|reflexivity].
      now destruct (read_row _).
    - destruct (existsb (key_eqb (c, i, s, j, e, m)) keys) eqn:EX; [|reflexivity]. exfalso.
      apply existsb_exists in EX as ([[[[[c' i'] s'] j'] e'] m'] & HK & EK). apply keys_in in HK. apply (find_none _ _ E) in HK. cbn in HK, EK.
      apply not_true_iff_false in HK. apply HK. rewrite !andb_true_iff in *. rewrite !Z.eqb_eq, !Nat.eqb_eq, !String.eqb_eq, !Qeq_bool_iff in *.
      destruct EK as (((((-> & ->) & ->) & ->) & EK) & ->). repeat split; auto. now symmetry.
  Qed.

  (** The exported tables are those of the results of the runs. *)
  Lemma campaign_export : forall fs, (forall c, In c cs -> fs (path c) = None) ->
    export_text repr pct outdir savedir files scenarios epsilons ids methods milp part conts required
      (campaign repr pct inpath outdir data machine trace cs fs) =
    export_tables repr savedir files scenarios epsilons ids methods milp part conts required rows.
  Proof.
    intros fs HE. rewrite (export_text_ext _ tfs).
    - rewrite (export_text_rows repr HR pct outdir savedir files scenarios epsilons ids methods milp part conts required tfs rfs tfs_rfs HP).
      apply export_tables_same; [exact HR|]. intros c i s j e m. rewrite listed_rows. destruct (rows c i s j e m) as [r|]; [|exact Logic.I].
      cbn. unfold row_same, same_numbers. induction (snd r) as [|g l IH]; constructor; [|exact IH]. destruct g as [[|q|]|]; cbn; auto; reflexivity.
    - intros c Hc. rewrite (campaign_file _ _ _ _ _ _ _ _ _ _ _ _ _ NF) by exact Hc. unfold tfs. rewrite find_path, HE by assumption.
      now destruct (text_files _ _).
  Qed.

  (** ** Tables of the shipped methods *)
  Hypothesis M4 : methods = [1; 2; 3; 4]%Z.
  Hypothesis MM : milp = [1; 2]%Z.
  Hypothesis ID : 0 < ids.

  Lemma rows_some : forall c i s j e m r, rows c i s j e m = Some r -> (m = 1%Z \/ m = 2%Z) /\ good_row r /\ 10 <= List.length (snd r) /\ gfinite (time_field r) = true.
  Proof.
    intros c i s j e m r H. unfold run_rows in H. destruct (find _ cs) as [k|] eqn:E; [|discriminate H]. apply find_some in E as [Hk E].
    assert (EM : cm_method k = m) by (rewrite !andb_true_iff in E; apply Z.eqb_eq; apply E).
    apply commands_in in Hk as (_ & _ & _ & _ & _ & Hm). unfold run_row in H. destruct (cells k) as [row|] eqn:EC; [|discriminate H].
    assert (HM : cm_method k = 1%Z \/ cm_method k = 2%Z).
    { rewrite M4 in Hm. destruct Hm as [Hm|[Hm|[Hm|[Hm|[]]]]]; [left; lia|right; lia| |]; rewrite adaptive_no_cells in EC by (rewrite <- Hm; auto); discriminate EC. }
    destruct (cells_row k row HM EC) as (nums & R & LN & G & T). rewrite R in H. injection H as <-. rewrite <- EM. split; [exact HM|]. split; [exact G|].
    split; [cbn; lia|exact T].
  Qed.
  Lemma rows_none : forall c i s j e m, m = 3%Z \/ m = 4%Z -> rows c i s j e m = None.
  Proof.
    intros c i s j e m Hm. destruct (rows c i s j e m) as [r|] eqn:E; [|reflexivity]. apply rows_some in E as [E _]. lia.
  Qed.

  Lemma campaign_table : forall c i, i < List.length files -> exists tab,
    instance_table rows files scenarios epsilons ids methods milp part required c i = Ok tab /\
    List.length tab = List.length epsilons * List.length scenarios /\
    forall e s, e < List.length epsilons -> s < List.length scenarios -> adaptive_empty (nth (s + e * List.length scenarios) tab []).
  Proof.
    assert (G := fun c i s j e m r H => proj1 (proj2 (rows_some c i s j e m r H))). assert (N := rows_none).
    intros c i Hi. revert G N. generalize rows as exp. intros exp G N.
    apply (adaptive_missing exp files scenarios epsilons ids methods milp part required M4 MM ID G N c i Hi).
  Qed.
  Lemma campaign_times : epsilons <> [] -> forall i, i < List.length files -> exists tab,
    instance_times rows files scenarios epsilons ids i = Ok tab.
  Proof.
    intros HE i Hi. destruct (exported_times rows files scenarios epsilons ids ID HE (fun c i s j e m r H => proj2 (proj2 (rows_some c i s j e m r H))) i Hi) as (tab & E & _).
    eauto.
  Qed.
  Lemma write_tables_ok : forall suffix t, (forall i, i < List.length files -> exists tab, t i = Ok tab) ->
    exists l, write_tables repr savedir files suffix t = Ok l /\ map fst l = map (fun f => (savedir ++ f ++ suffix)%string) files.
  Proof.
    intros suffix t H. unfold write_tables.
    assert (X : forall l, (forall i, In i l -> i < List.length files) -> exists out,
      rmap (fun i => do tab <- t i ;; Ok ((savedir ++ nth i files EmptyString ++ suffix)%string, table_file repr tab)) l = Ok out /\
      map fst out = map (fun i => (savedir ++ nth i files EmptyString ++ suffix)%string) l).
    { induction l as [|i l IH]; intro HL; [exists []; split; reflexivity|]. destruct (H i) as (tab & ET); [apply HL; now left|].
      destruct IH as (out & EO & EM); [intros k Hk; apply HL; now right|]. cbn [rmap]. rewrite ET, EO. cbn [rbind]. eexists. split; [reflexivity|]. cbn. now rewrite EM. }
    destruct (X (seq 0 (List.length files))) as (out & EO & EM); [intros k Hk; apply in_seq in Hk; lia|].
    exists out. split; [exact EO|]. rewrite EM. clear. transitivity (map (fun f => (savedir ++ f ++ suffix)%string) (map (fun i => nth i files EmptyString) (seq 0 (List.length files)))).
    - now rewrite map_map.
    - f_equal. induction files as [|f l IH]; [reflexivity|]. cbn. f_equal. rewrite <- seq_shift, map_map. exact IH.
  Qed.
  Lemma campaign_ends : epsilons <> [] -> exists out,
    export_tables repr savedir files scenarios epsilons ids methods milp part conts required rows = (Ok tt, out) /\
    map fst out = map (fun f => (savedir ++ f ++ "-big-m-times.csv")%string) files ++
                  flat_map (fun c => map (fun f => (savedir ++ f ++ "-" ++ str_of_Z c ++ "-result-table.csv")%string) files) conts.
  Proof.
    intro HE. unfold export_tables. destruct (write_tables_ok "-big-m-times.csv" (instance_times rows files scenarios epsilons ids)) as (l & -> & EL).
    { intros i Hi. now apply campaign_times. }
    enough (X : forall ks, exists l', write_results repr savedir files scenarios epsilons ids methods milp part required rows ks = (Ok tt, l') /\
      map fst l' = flat_map (fun c => map (fun f => (savedir ++ f ++ "-" ++ str_of_Z c ++ "-result-table.csv")%string) files) ks).
    { destruct (X conts) as (l' & -> & EL'). eexists. split; [reflexivity|]. now rewrite map_app, EL, EL'. }
    induction ks as [|c ks (l' & E' & EL')]; [exists []; split; reflexivity|]. cbn [write_results flat_map].
    destruct (write_tables_ok ("-" ++ str_of_Z c ++ "-result-table.csv") (instance_table rows files scenarios epsilons ids methods milp part required c)) as (k & -> & EK).
    { intros i Hi. destruct (campaign_table c i Hi) as (tab & E & _). eauto. }
    rewrite E'. eexists. split; [reflexivity|]. now rewrite map_app, EK, EL'.
  Qed.
End Export.
