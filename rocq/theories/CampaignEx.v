(** The shipped lists and a small campaign (C83). *)
From Coq Require Import Ascii String Lia ZArith QArith Lqa.
From Verif Require Import Base BaseFacts Spec Instance InstanceFacts OptModels Bounds Refine CostRefine Merge Violations BigM Adaptive AdaptiveSpec
  Milp MilpFacts AdaptiveEx AdaptiveEx2 MilpEx Report Main ReportFacts NameFacts Export ExportFacts PipelineFacts ReportEx ExportEx.
From Verif Require Text TextFacts.
From Verif Require Import ResultText ResultSpec ResultFacts ResultRows ResultTables ResultEx Campaign CampaignSpec CampaignFacts CampaignExport.
Local Open Scope nat_scope.
Local Open Scope list_scope.

Lemma shipped_fit : forall pct, (pct (1 # 10) == 10)%Q -> (pct (1 # 5) == 20)%Q ->
  names_fit pct shipped_inpath shipped_files shipped_scenarios shipped_conts shipped_epsilons shipped_methods.
Proof.
  intros pct H1 H2.
  assert (R1 : Qrnd (pct (1 # 10)) = 10%Z) by (rewrite H1; reflexivity). assert (R2 : Qrnd (pct (1 # 5)) = 20%Z) by (rewrite H2; reflexivity).
  assert (T1 : Qtrunc (pct (1 # 10)) = 10%Z) by (rewrite (TextFacts.Qtrunc_eq _ _ H1); reflexivity).
  assert (T2 : Qtrunc (pct (1 # 5)) = 20%Z) by (rewrite (TextFacts.Qtrunc_eq _ _ H2); reflexivity).
  split.
  - right. exists "./data/cc-instances/knapsack"%string. reflexivity.
  - intros f Hf X. cbn in Hf. repeat (destruct Hf as [<-|Hf]; [vm_compute in X; repeat (destruct X as [X|X]; [discriminate X|]); exact X|]). exact Hf.
  - intros s Hs. cbn in Hs. lia.
  - intros c Hc. cbn in Hc. lia.
  - intros e He. cbn in He. destruct He as [<-|[<-|[]]]; (split; [lra|congruence]).
  - intros e e' He He' E. cbn in He, He'. destruct He as [<-|[<-|[]]], He' as [<-|[<-|[]]]; try reflexivity; congruence.
  - intros m Hm. cbn in Hm. lia.
Qed.

Lemma shipped_once : NoDup shipped /\ List.length shipped = 960.
Proof.
  split; [|vm_compute; reflexivity]. unfold shipped, shipped_files, shipped_scenarios, shipped_conts, shipped_epsilons, shipped_methods.
  apply commands_nodup; repeat constructor; cbn; intuition (try lia; discriminate).
Qed.
Lemma generated_once : NoDup (generated orlib_sizes orlib_scenarios orlib_copies) /\ List.length (generated orlib_sizes orlib_scenarios orlib_copies) = 160.
Proof.
  split; [|vm_compute; reflexivity]. set (l := generated _ _ _). enough (H : nodup string_dec l = l) by (rewrite <- H; apply NoDup_nodup).
  vm_compute. reflexivity.
Qed.

(** One instance file, both types of variables, one level. *)
Definition cx_text : text := chars (String.concat (String (ascii_of_nat 10) EmptyString) ["2,1,3"; "3.0,2.0"; "1.0,1.0"; "2.0,1.0"; "2.0,0.0"; "2.0"; ""]%string).
Definition cx_data (p : string) : res text := if String.eqb p "in/ccmk-2-1-3-1.csv" then Ok cx_text else Err IndexError.
Definition cx_cs : list command := commands ["ccmk-2-1"]%string [3]%Z 1 [0; 1]%Z [1 # 2]%Q [1; 2; 3; 4]%Z.
Definition cx_inst (c : command) : inst := match load_command "in/" cx_data c with Ok J => J | Err _ => exS end.
Definition cx_machine (c : command) : computer := mkComputer (brute_world (cx_inst c)) 20 20.
Definition cx_pct (e : Q) : Q := (e * 100)%Q.
Definition cx_trace (c : command) : option text := if (cm_method c =? 1)%Z then Some (chars "0.5,5.0,5.0") else None.
Definition cx_run := main_py ex_repr cx_pct "in/" "out/" cx_data cx_machine cx_trace.
Definition cx_after := campaign ex_repr cx_pct "in/" "out/" cx_data cx_machine cx_trace cx_cs (fun _ => None).
Definition cx_show (o : option text) : option string := match o with Some t => Some (str t) | None => None end.
Definition cx_export :=
  let '(r, l) := export_text ex_repr cx_pct "out/" "res/" ["ccmk-2-1"]%string [3]%Z [1 # 2]%Q 1 [1; 2; 3; 4]%Z [1; 2]%Z [3; 4]%Z [0; 1]%Z (1 # 100) cx_after in
  (r, map (fun '(p, t) => (p, str t)) l).
Lemma cx_fit : names_fit cx_pct "in/" ["ccmk-2-1"]%string [3]%Z [0; 1]%Z [1 # 2]%Q [1; 2; 3; 4]%Z.
Proof.
  split.
  - right. exists "in"%string. reflexivity.
  - intros f [<-|[]] X. vm_compute in X. repeat (destruct X as [X|X]; [discriminate X|]). exact X.
  - intros s Hs. cbn in Hs. lia.
  - intros c Hc. cbn in Hc. lia.
  - intros e [<-|[]]. vm_compute. split; [discriminate|reflexivity].
  - intros e e' [<-|[]] [<-|[]] _. reflexivity.
  - intros m Hm. cbn in Hm. lia.
Qed.
Lemma cx_repr : forall g g', same_real g g' -> ex_repr g = ex_repr g'.
Proof. intros g g' H. unfold ex_repr. now apply show_fixed_same. Qed.
Lemma cx_printed : forall c J, In c cx_cs -> load_command "in/" cx_data c = Ok J -> time_printed ex_repr (mc_world (cx_machine c)) J (mc_rfuel (cx_machine c)).
Proof.
  assert (Z0 : forall t, (t == 0)%Q -> repr_ok ex_repr (finite t)).
  { intros t Ht. assert (E : ex_repr (finite t) = chars "0.0") by (transitivity (ex_repr (finite 0)); [apply cx_repr; exact Ht|vm_compute; reflexivity]).
    unfold repr_ok. rewrite E. split.
    - apply to_real_iff. eexists. split; [vm_compute; reflexivity|]. cbn. rewrite Ht. reflexivity.
    - repeat constructor; vm_compute; intuition discriminate. }
  assert (B : forallb (fun c => match load_command "in/" cx_data c with
    | Ok J => forallb (fun m => match fst (milp_run (mc_world (cx_machine c)) J (cfgM (mc_rfuel (cx_machine c))) true m) with Ok (Some t) => Qeq_bool t 0 | _ => true end) [Song; Belotti; Naive; OtherM]
    | Err _ => true end) cx_cs = true) by (vm_compute; reflexivity).
  intros c J Hc HL m t s E. apply Z0. rewrite forallb_forall in B. specialize (B c Hc). rewrite HL in B. rewrite forallb_forall in B.
  assert (Hm : In m [Song; Belotti; Naive; OtherM]) by (destruct m; cbn; auto 6). specialize (B m Hm). rewrite E in B. now apply Qeq_bool_iff.
Qed.
