(** Facts about the shipped experiments (C83). *)
From Coq Require Import Ascii String Lia ZArith QArith.
From Verif Require Import Base BaseFacts Spec Instance InstanceFacts OptModels Bounds Refine CostRefine Merge Violations BigM Adaptive AdaptiveSpec
  Milp Report Main ReportFacts NameFacts Export ExportFacts PipelineFacts.
From Verif Require Text.
From Verif Require Import ResultText ResultSpec ResultFacts ResultRows ResultTables Campaign CampaignSpec.
Local Open Scope nat_scope.
Local Open Scope list_scope.

(** ** Commands *)

Lemma commands_in : forall files scenarios ids conts epsilons methods c,
  In c (commands files scenarios ids conts epsilons methods) <->
  In (cm_file c) files /\ In (cm_scen c) scenarios /\ 1 <= cm_id c <= ids /\ In (cm_cont c) conts /\ In (cm_eps c) epsilons /\ In (cm_method c) methods.
Proof.
  intros files scenarios ids conts epsilons methods c. unfold commands. split.
  - intro H. apply in_flat_map in H as (f & Hf & H). apply in_flat_map in H as (s & Hs & H). apply in_flat_map in H as (j & Hj & H).
    apply in_flat_map in H as (k & Hk & H). apply in_flat_map in H as (e & He & H). apply in_map_iff in H as (m & <- & Hm). cbn.
    apply in_seq in Hj. repeat split; auto; lia.
  - destruct c as [f s j k e m]. cbn. intros (Hf & Hs & Hj & Hk & He & Hm).
    apply in_flat_map. exists f. split; [exact Hf|]. apply in_flat_map. exists s. split; [exact Hs|].
    apply in_flat_map. exists j. split; [apply in_seq; lia|]. apply in_flat_map. exists k. split; [exact Hk|].
    apply in_flat_map. exists e. split; [exact He|]. apply in_map_iff. exists m. now split.
Qed.

Lemma NoDup_app_disj : forall A (a b : list A), NoDup a -> NoDup b -> (forall x, In x a -> In x b -> False) -> NoDup (a ++ b).
Proof.
  induction a as [|x a IH]; intros b Ha Hb H; [exact Hb|]. inversion Ha; subst. cbn. constructor.
  - intro HI. apply in_app_or in HI as [HI|HI]; [contradiction|]. apply (H x); [now left|exact HI].
  - apply IH; [assumption|assumption|]. intros y K1 K2. apply (H y); [now right|exact K2].
Qed.
Lemma NoDup_flat_map_key : forall A B (g : B -> A) (f : A -> list B) l, NoDup l -> (forall x, In x l -> NoDup (f x)) ->
  (forall x y, In y (f x) -> g y = x) -> NoDup (flat_map f l).
Proof.
  induction l as [|x l IH]; intros Hl Hf Hg; [constructor|]. inversion Hl; subst. cbn. apply NoDup_app_disj.
  - apply Hf. now left.
  - apply IH; [assumption| |exact Hg]. intros y Hy. apply Hf. now right.
  - intros y K1 K2. apply Hg in K1. apply in_flat_map in K2 as (x' & Hx' & K2). apply Hg in K2. subst. contradiction.
Qed.
Lemma commands_nodup : forall files scenarios ids conts epsilons methods, NoDup files -> NoDup scenarios -> NoDup conts -> NoDup epsilons -> NoDup methods ->
  NoDup (commands files scenarios ids conts epsilons methods).
Proof.
  intros files scenarios ids conts epsilons methods H1 H2 H3 H4 H5. unfold commands.
  apply (NoDup_flat_map_key _ _ cm_file); [exact H1| |].
  2:{ intros f c H. apply in_flat_map in H as (s & _ & H). apply in_flat_map in H as (j & _ & H). apply in_flat_map in H as (k & _ & H).
      apply in_flat_map in H as (e & _ & H). apply in_map_iff in H as (m & <- & _). reflexivity. }
  intros f _. apply (NoDup_flat_map_key _ _ cm_scen); [exact H2| |].
  2:{ intros s c H. apply in_flat_map in H as (j & _ & H). apply in_flat_map in H as (k & _ & H).
      apply in_flat_map in H as (e & _ & H). apply in_map_iff in H as (m & <- & _). reflexivity. }
  intros s _. apply (NoDup_flat_map_key _ _ cm_id); [apply seq_NoDup| |].
  2:{ intros j c H. apply in_flat_map in H as (k & _ & H). apply in_flat_map in H as (e & _ & H). apply in_map_iff in H as (m & <- & _). reflexivity. }
  intros j _. apply (NoDup_flat_map_key _ _ cm_cont); [exact H3| |].
  2:{ intros k c H. apply in_flat_map in H as (e & _ & H). apply in_map_iff in H as (m & <- & _). reflexivity. }
  intros k _. apply (NoDup_flat_map_key _ _ cm_eps); [exact H4| |].
  2:{ intros e c H. apply in_map_iff in H as (m & <- & _). reflexivity. }
  intros e _. apply FinFun.Injective_map_NoDup; [|exact H5]. intros a b E. now injection E.
Qed.
(** The files needed are generated. *)
Lemma shipped_generated : forall c, In c shipped ->
  exists f, In f (generated orlib_sizes orlib_scenarios orlib_copies) /\ input_file shipped_inpath c = (shipped_inpath ++ f)%string.
Proof.
  assert (H : forallb (fun c => existsb (fun f => String.eqb (input_file shipped_inpath c) (shipped_inpath ++ f))
    (generated orlib_sizes orlib_scenarios orlib_copies)) shipped = true) by (vm_compute; reflexivity).
  intros c Hc. rewrite forallb_forall in H. apply H in Hc. apply existsb_exists in Hc as (f & Hf & E). apply String.eqb_eq in E. eauto.
Qed.

Lemma instance_file_inj : forall n m s j n' m' s' j', (0 <= n)%Z -> (0 <= m)%Z -> (0 <= s)%Z -> (0 <= n')%Z -> (0 <= m')%Z -> (0 <= s')%Z ->
  instance_file n m s j = instance_file n' m' s' j' -> n = n' /\ m = m' /\ s = s' /\ j = j'.
Proof.
  intros n m s j n' m' s' j' H1 H2 H3 H1' H2' H3' E. apply (f_equal L) in E. unfold instance_file in E. rewrite !L_app in E. apply app_inv_head in E.
  change (L "-") with ["-"%char] in E. cbn [app] in E. rewrite !app_comm_cons, !app_assoc in E. apply app_inv_tail in E.
  assert (D : forall z, (0 <= z)%Z -> ~ In "-"%char (L (str_of_Z z))) by (intros z Hz; apply str_no; auto).
  apply last_sep in E as [E EJ]; [|apply D; lia|apply D; lia]. 
  apply last_sep in E as [E ES]; [|apply D; lia|apply D; lia].
  apply last_sep in E as [EN EM]; [|apply D; lia|apply D; lia].
  apply L_inj, str_inj in EJ. apply L_inj, str_inj in ES. apply L_inj, str_inj in EN. apply L_inj, str_inj in EM. repeat split; auto; lia.
Qed.

(** ** Paths *)

Lemma digits_in : forall z, (0 <= z)%Z -> exists c, In c (L (str_of_Z z)) /\ digit c.
Proof.
  intros z Hz. destruct (str_digits z Hz) as [H1 H2]. destruct (L (str_of_Z z)) as [|c l]; [congruence|]. exists c. split; [now left|]. now inversion H1.
Qed.
Lemma loaded_name_eq : forall inpath c, pathlike inpath -> no_char "/" (cm_file c) -> (0 <= cm_scen c)%Z ->
  loaded_name inpath c = (cm_file c ++ "-" ++ str_of_Z (cm_scen c) ++ "-" ++ str_of_Z (Z.of_nat (cm_id c)))%string.
Proof.
  intros inpath c H1 H2 H3. unfold loaded_name, input_file. apply (file_name_spec inpath _ "csv" "-").
  - exact H1.
  - intro H. rewrite !L_app in H.
    apply in_app_or in H as [H|H]; [exact (H2 H)|]. apply in_app_or in H as [H|H]; [cbn in H; destruct H as [H|[]]; discriminate H|].
    apply in_app_or in H as [H|H]; [revert H; apply str_no; auto|]. apply in_app_or in H as [H|H]; [cbn in H; destruct H as [H|[]]; discriminate H|].
    revert H. apply str_no; auto. lia.
  - intros [H|[H|[H|[]]]]; discriminate H.
  - intros [H|[H|[H|[]]]]; discriminate H.
  - rewrite L_app. apply in_or_app. right. now left.
  - discriminate.
Qed.
Lemma loaded_name_inj : forall inpath c c', pathlike inpath -> no_char "/" (cm_file c) -> no_char "/" (cm_file c') -> (0 <= cm_scen c)%Z -> (0 <= cm_scen c')%Z ->
  loaded_name inpath c = loaded_name inpath c' -> cm_file c = cm_file c' /\ cm_scen c = cm_scen c' /\ cm_id c = cm_id c'.
Proof.
  intros inpath c c' H1 H2 H2' H3 H3' E. rewrite !loaded_name_eq in E by assumption. apply (f_equal L) in E. rewrite !L_app in E.
  change (L "-") with ["-"%char] in E. cbn [app] in E. rewrite !app_comm_cons, !app_assoc in E.
  assert (D : forall z, (0 <= z)%Z -> ~ In "-"%char (L (str_of_Z z))) by (intros z Hz; apply str_no; auto).
  apply last_sep in E as [E EJ]; [|apply D; lia|apply D; lia].
  apply last_sep in E as [EF ES]; [|apply D; lia|apply D; lia].
  apply L_inj, str_inj in EJ. apply L_inj, str_inj in ES. apply L_inj in EF. repeat split; auto; lia.
Qed.

Section Paths.
  Variable pct : Q -> Q.
  Variables inpath outdir : string.
  Variable files : list string.
  Variables scenarios conts : list Z.
  Variable epsilons : list Q.
  Variable methods : list Z.
  Variable ids : nat.
  Hypothesis NF : names_fit pct inpath files scenarios conts epsilons methods.
  Notation cs := (commands files scenarios ids conts epsilons methods).
  Notation path := (result_path pct inpath outdir).
  Notation ipath := (iter_path pct inpath outdir).

  Lemma result_path_inj : forall c c', In c cs -> In c' cs -> path c = path c' -> c = c'.
  Proof.
    intros c c' H H' E. apply commands_in in H as (H1 & H2 & H3 & H4 & H5 & H6). apply commands_in in H' as (H1' & H2' & H3' & H4' & H5' & H6').
    unfold result_path in E. destruct NF as [N1 N2 N3 N4 N5 N6 N7].
    apply out_name_inj in E as (E1 & E2 & E3 & E4); [|apply N5; auto|apply N5; auto|auto|auto].
    apply loaded_name_inj in E1 as (F1 & F2 & F3); auto. apply N6 in E2; auto.
    assert (EC : cm_cont c = cm_cont c').
    { unfold cont_arg in E3. destruct (N4 _ H4) as [A|A], (N4 _ H4') as [B|B]; rewrite A, B in *; congruence || discriminate E3. }
    destruct c, c'. cbn in *. congruence.
  Qed.
  Lemma iter_not_result : forall c c', In c cs -> In c' cs -> ipath c <> path c'.
  Proof.
    intros c c' H H' E. apply commands_in in H as (H1 & H2 & H3 & H4 & H5 & H6). apply commands_in in H' as (H1' & H2' & H3' & H4' & H5' & H6').
    destruct NF as [N1 N2 N3 N4 N5 N6 N7]. unfold iter_path, result_path, out_name in E. apply (f_equal L) in E. rewrite !L_app in E. apply app_inv_head in E.
    change (L "-iter.csv") with (["-"%char] ++ L "iter" ++ L ".csv") in E. rewrite !app_assoc in E. apply app_inv_tail in E.
    assert (C : forall b : bool, L (if b then "-1-" else "-0-") = (["-"%char; (if b then "1" else "0")%char] ++ ["-"%char])%list) by (intros []; reflexivity).
    rewrite !C in E. rewrite !app_assoc in E.
    rewrite <- (app_assoc _ ["-"%char] (L "iter")) in E. rewrite <- (app_assoc _ ["-"%char] (L (str_of_Z (cm_method c')))) in E. cbn [app] in E.
    apply last_sep in E as [_ E].
    - pose proof (str_digits (cm_method c') (N7 _ H6')) as [D _]. rewrite <- E in D. inversion D as [|x l Hx _]; subst.
      unfold digit in Hx. cbn in Hx. decompose [or] Hx; try discriminate; contradiction.
    - intros [X|[X|[X|[X|[]]]]]; discriminate X.
    - apply str_no; auto.
  Qed.
  (** The file read by export_results.py. *)
  Lemma result_path_read : forall c, In c cs ->
    path c = read_name outdir (cm_file c) (cm_scen c) (Z.of_nat (cm_id c)) (pct (cm_eps c)) (cm_cont c) (cm_method c).
  Proof.
    intros c H. apply commands_in in H as (H1 & H2 & H3 & H4 & H5 & H6). destruct NF as [N1 N2 N3 N4 N5 N6 N7].
    unfold result_path, loaded_name, input_file.
    rewrite (proj2 (names_agree outdir inpath (cm_file c) (cm_scen c) (Z.of_nat (cm_id c)) (pct (cm_eps c)) (cont_arg c) (cm_method c) N1 (N2 _ H1) (N3 _ H2)
      ltac:(lia) (proj1 (N5 _ H5))) (proj2 (N5 _ H5))).
    f_equal. unfold cont_arg. destruct (N4 _ H4) as [-> | ->]; reflexivity.
  Qed.
End Paths.

(** Type of variables and level of a loaded instance. *)
Lemma loaded_fields : forall t cont eps J, Text.load_text t cont eps = Ok J -> i_cont J = cont /\ i_eps J = eps /\ 0 < i_k J.
Proof.
  intros t cont eps J H.
  unfold Text.load_text in H. destruct (Text.read_csv t) as [cl|]; [|discriminate]. cbn [rbind] in H.
  destruct (rmap _ cl) as [rows|]; [|discriminate]. cbn [rbind] in H. unfold parse in H.
  destruct (geti rows 0) as [info|]; [|discriminate]; cbn [rbind] in H.
  destruct (geti info 0) as [fn|]; [|discriminate]; cbn [rbind] in H.
  destruct (geti info 2) as [fk|]; [|discriminate]; cbn [rbind] in H.
  destruct (geti info 1) as [fm|]; [|discriminate]; cbn [rbind] in H.
  destruct (_ || _) in H; [discriminate|].
  destruct (geti rows 1) as [k|]; [|discriminate]; cbn [rbind] in H.
  destruct (rmap _ _) as [A|] in H; [|discriminate]; cbn [rbind] in H.
  destruct (negb _) in H; [discriminate|]. destruct (Nat.eqb _ _) eqn:EK in H; [discriminate|].
  destruct (_ <? _)%Z in H; [discriminate|].
  destruct (broadcast _ _ _) as [b|]; [|discriminate]. cbn [rbind] in H. injection H as <-. cbn. apply Nat.eqb_neq in EK. repeat split; auto. lia.
Qed.

(** ** Files of one run *)

Section Files.
  Variable repr : gapv -> text.
  Variable pct : Q -> Q.
  Variables inpath outdir : string.
  Variable data : string -> res text.
  Variable machine : command -> computer.
  Variable trace : command -> option text.
  Notation path := (result_path pct inpath outdir).
  Notation ipath := (iter_path pct inpath outdir).
  Notation run := (main_py repr pct inpath outdir data machine trace).
  Notation cells := (run_cells pct inpath outdir data machine).

  Lemma main_text_out : forall w J name p ip info fuel rfuel METHOD,
    (exists r, main_text repr w J name p ip info fuel rfuel METHOD = (r, []) /\ r <> Ok tt) \/
    (exists t, main_text repr w J name p ip info fuel rfuel METHOD = (Ok tt, [(p, t)]) /\ (METHOD = 1%Z \/ METHOD = 2%Z)).
  Proof.
    intros w J name p ip info fuel rfuel METHOD.
    assert (M : forall m, (exists r, main_milp_text repr w J name p rfuel m = (r, []) /\ r <> Ok tt) \/ (exists t, main_milp_text repr w J name p rfuel m = (Ok tt, [(p, t)]))).
    { intro m. unfold main_milp_text. destruct (milp_run _ _ _ _ _) as [[bt|e] s]; [|left; eexists; split; [reflexivity|discriminate]].
      destruct (milp_file _ _ _ _ _ _ _ _ _); [right; eauto|left; eexists; split; [reflexivity|discriminate]]. }
    destruct (Z.eq_dec METHOD 1) as [-> | N1]; [destruct (M "song"%string) as [?|(t & ?)]; [left|right]; eauto|].
    destruct (Z.eq_dec METHOD 2) as [-> | N2]; [destruct (M "belotti"%string) as [?|(t & ?)]; [left|right]; eauto|].
    left. destruct (Z.eq_dec METHOD 3) as [-> | N3]; [|destruct (Z.eq_dec METHOD 4) as [-> | N4]].
    - cbn [Z.eqb Pos.eqb main_text]. unfold main_adaptive_text. destruct (construct w J _ (ast0 J)) as [[b|e] s]; cbn [fst bind_keywords];
        eexists; (split; [reflexivity|discriminate]).
    - cbn [Z.eqb Pos.eqb main_text]. unfold main_adaptive_text. destruct (construct w J _ (ast0 J)) as [[b|e] s]; cbn [fst bind_keywords];
        eexists; (split; [reflexivity|discriminate]).
    - unfold main_text. rewrite !(proj2 (Z.eqb_neq _ _)) by assumption. eexists. split; [reflexivity|discriminate].
  Qed.

  (** Each run writes its result file at most once, and otherwise only the file of the bounds. *)
  Lemma main_py_out : forall c, exists tr, (forall x, In x tr -> fst x = ipath c) /\
    ((fst (run c) <> Ok tt /\ snd (run c) = tr) \/
     (exists t, fst (run c) = Ok tt /\ snd (run c) = tr ++ [(path c, t)] /\ (cm_method c = 1%Z \/ cm_method c = 2%Z))).
  Proof.
    intro c. unfold main_py. destruct (load_command inpath data c) as [J|e].
    2:{ exists []. split; [intros x []|]. left. split; [discriminate|reflexivity]. }
    match goal with |- context [match ?x with Some _ => _ | None => _ end ++ _] =>
      exists (match x with Some t => if (cm_method c =? 1)%Z || (cm_method c =? 2)%Z then [(ipath c, t)] else [] | None => [] end) end.
    destruct (main_text_out (mc_world (machine c)) J (loaded_name inpath c) (path c) (ipath c) true (mc_fuel (machine c)) (mc_rfuel (machine c)) (cm_method c))
      as [(r & -> & NE) | (t & -> & HM)]; cbn [fst snd].
    - split; [|left; split; [exact NE|now rewrite app_nil_r]].
      destruct (trace c); [destruct (_ || _)|]; intros x [<-|[]] || intros x []; reflexivity.
    - split; [|right; eauto].
      destruct (trace c); [destruct (_ || _)|]; intros x [<-|[]] || intros x []; reflexivity.
  Qed.

  (** A run reads its own instance file and runs the method on it. *)
  Lemma main_py_run : forall c, pathlike inpath -> no_char "/" (cm_file c) -> (0 <= cm_scen c)%Z ->
    let name := (cm_file c ++ "-" ++ str_of_Z (cm_scen c) ++ "-" ++ str_of_Z (Z.of_nat (cm_id c)))%string in
    match data (inpath ++ name ++ ".csv")%string with
    | Err e => run c = (Err e, [])
    | Ok t => match Text.load_text t (cm_cont c =? 1)%Z (cm_eps c) with
              | Err e => run c = (Err e, [])
              | Ok J => i_cont J = (cm_cont c =? 1)%Z /\ i_eps J = cm_eps c /\
                  let res := main_text repr (mc_world (machine c)) J name (path c) (ipath c) true (mc_fuel (machine c)) (mc_rfuel (machine c)) (cm_method c) in
                  exists tr, (forall x, In x tr -> fst x = ipath c) /\ run c = (fst res, tr ++ snd res)
              end
    end.
  Proof.
    intros c H1 H2 H3 name. assert (EI : input_file inpath c = (inpath ++ name ++ ".csv")%string) by reflexivity.
    assert (EN : loaded_name inpath c = name) by (now apply loaded_name_eq).
    assert (EC : load_command inpath data c = (do t <- data (inpath ++ name ++ ".csv")%string ;; Text.load_text t (cm_cont c =? 1)%Z (cm_eps c))) by reflexivity.
    unfold main_py. rewrite EC. destruct (data _) as [t|e]; [|reflexivity]. cbn [rbind].
    destruct (Text.load_text t (cm_cont c =? 1)%Z (cm_eps c)) as [J|e] eqn:EL; [|reflexivity].
    apply loaded_fields in EL as (E1 & E2 & _). split; [exact E1|]. split; [exact E2|]. rewrite EN.
    destruct (main_text _ _ _ _ _ _ _ _ _ _) as [r out]. cbn [fst snd]. eexists. split; [|reflexivity].
    destruct (trace c); [destruct (_ || _)|]; intros x [<-|[]] || intros x []; reflexivity.
  Qed.

  Lemma write_files_app : forall a b fs, write_files (a ++ b) fs = write_files b (write_files a fs).
  Proof. intros. unfold write_files. apply fold_left_app. Qed.
  Lemma write_files_other : forall out fs q, (forall x, In x out -> fst x <> q) -> write_files out fs q = fs q.
  Proof.
    induction out as [|x out IH]; intros fs q H; [reflexivity|]. unfold write_files in *. cbn [fold_left]. rewrite IH by (intros y Hy; apply H; now right).
    unfold write_file. destruct (String.eqb_spec q (fst x)) as [->|]; [|reflexivity]. exfalso. apply (H x); [now left|reflexivity].
  Qed.
  Lemma text_files_other : forall out q, (forall x, In x out -> fst x <> q) -> text_files out q = None.
  Proof.
    induction out as [|[p t] out IH]; intros q H; [reflexivity|]. cbn. destruct (String.eqb_spec q p) as [->|]; [|apply IH; intros y Hy; apply H; now right].
    exfalso. apply (H (p, t)); [now left|reflexivity].
  Qed.
  Lemma text_files_app : forall a b q, text_files (a ++ b) q = match text_files a q with Some t => Some t | None => text_files b q end.
  Proof. induction a as [|[p t] a IH]; intros b q; [reflexivity|]. cbn. destruct (String.eqb q p); [reflexivity|apply IH]. Qed.

  Variable files : list string.
  Variables scenarios conts : list Z.
  Variable epsilons : list Q.
  Variable methods : list Z.
  Variable ids : nat.
  Hypothesis NF : names_fit pct inpath files scenarios conts epsilons methods.
  Notation cs := (commands files scenarios ids conts epsilons methods).

  Lemma run_writes : forall c0 c fs, In c0 cs -> In c cs ->
    write_files (snd (run c0)) fs (path c) = (if String.eqb (path c) (path c0) then match text_files (snd (run c)) (path c) with Some t => Some t | None => fs (path c) end else fs (path c)).
  Proof.
    intros c0 c fs H0 H. destruct (String.eqb_spec (path c) (path c0)) as [E|E].
    - apply (result_path_inj _ _ _ _ _ _ _ _ _ NF _ _ H H0) in E. subst c0. destruct (main_py_out c) as (tr & HT & [[_ ->] | (t & _ & -> & _)]).
      + rewrite text_files_other, write_files_other; [reflexivity| |]; intros x Hx; rewrite (HT x Hx); eapply iter_not_result; eauto.
      + rewrite write_files_app, text_files_app, text_files_other.
        * cbn. unfold write_file. cbn. now rewrite String.eqb_refl.
        * intros x Hx. rewrite (HT x Hx). eapply iter_not_result; eauto.
    - apply write_files_other. intros x Hx. destruct (main_py_out c0) as (tr & HT & [[_ K] | (t & _ & K & _)]); rewrite K in Hx.
      + rewrite (HT x Hx). eapply iter_not_result; eauto.
      + apply in_app_or in Hx as [Hx|[<-|[]]]; [|cbn; congruence]. rewrite (HT x Hx). eapply iter_not_result; eauto.
  Qed.

  Lemma campaign_sub : forall l fs c, (forall c0, In c0 l -> In c0 cs) -> In c cs ->
    campaign repr pct inpath outdir data machine trace l fs (path c) =
    match (if existsb (fun k => String.eqb (path c) (path k)) l then text_files (snd (run c)) (path c) else None) with Some t => Some t | None => fs (path c) end.
  Proof.
    induction l as [|c0 l IH]; intros fs c HL Hc; [reflexivity|]. unfold campaign in *. cbn [fold_left existsb].
    rewrite IH by (auto; intros k Hk; apply HL; now right). rewrite run_writes by (auto; apply HL; now left).
    destruct (String.eqb (path c) (path c0)); cbn [orb]; [|reflexivity].
    destruct (existsb _ l); destruct (text_files _ _); reflexivity.
  Qed.
  Lemma campaign_file : forall fs c, In c cs ->
    campaign repr pct inpath outdir data machine trace cs fs (path c) =
    match text_files (snd (run c)) (path c) with Some t => Some t | None => fs (path c) end.
  Proof.
    intros fs c Hc. rewrite campaign_sub by auto. assert (E : existsb (fun k => String.eqb (path c) (path k)) cs = true).
    { apply existsb_exists. exists c. split; [exact Hc|apply String.eqb_refl]. }
    now rewrite E.
  Qed.
  (** Text of the result file: exactly that of a normal end with method 1 or 2. *)
  Lemma campaign_outcome : forall fs c, In c cs ->
    (fst (run c) = Ok tt /\ (cm_method c = 1%Z \/ cm_method c = 2%Z) /\
       exists tr t, snd (run c) = tr ++ [(path c, t)] /\ campaign repr pct inpath outdir data machine trace cs fs (path c) = Some t) \/
    (fst (run c) <> Ok tt /\ campaign repr pct inpath outdir data machine trace cs fs (path c) = fs (path c)).
  Proof.
    intros fs c Hc. rewrite campaign_file by exact Hc.
    assert (TR : forall tr, (forall x, In x tr -> fst x = ipath c) -> text_files tr (path c) = None).
    { intros tr HT. apply text_files_other. intros x Hx. rewrite (HT x Hx). eapply iter_not_result; eauto. }
    destruct (main_py_out c) as (tr & HT & [[E1 E2] | (t & E1 & E2 & HM)]).
    - right. split; [exact E1|]. rewrite E2, TR by exact HT. reflexivity.
    - left. split; [exact E1|]. split; [exact HM|]. exists tr, t. split; [exact E2|]. rewrite E2, text_files_app, TR by exact HT.
      cbn. now rewrite String.eqb_refl.
  Qed.
End Files.
