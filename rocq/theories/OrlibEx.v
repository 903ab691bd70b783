(** A small file in the format of data/orlib; the shipped experiments on the generated files with an exact solver (C84). *)
From Coq Require Import Ascii String QArith Qabs Lqa.
From Verif Require Import Base BaseFacts Spec Instance InstanceFacts OptModels Initial Bounds Refine CostRefine Merge Violations ViolTable BigM Adaptive AdaptiveSpec
  AdaptiveEx AdaptiveEx2 Ex NearSpec Mip ContEx Milp MilpEx ViolationsFacts AgreeSpec AgreeFacts AgreeEx Report Main ReportFacts NameFacts Export ExportFacts PipelineFacts.
From Verif Require Import ResultText ResultSpec ResultEx Campaign CampaignSpec CampaignFacts CampaignExport CampaignEx.
From Verif Require Import Orlib OrlibSpec OrlibRead OrlibData OrlibFacts OrlibRuns.
From Verif Require Text.
Local Open Scope nat_scope.
Local Open Scope list_scope.

(** Files to which the theorems apply: those of the generator, found by their name. *)
Definition lookup (d : nat -> Z -> nat -> draws) (p : string) : res (list ascii) :=
  match find (fun nt : string * list ascii => String.eqb (shipped_inpath ++ fst nt) p) (generate_all orlib_texts orlib_scenarios orlib_copies d) with
  | Some nt => Ok (snd nt)
  | None => Err IndexError
  end.
Lemma lookup_stored d : stored (lookup d) d.
Proof.
  intros name t H. unfold lookup. assert (ND : NoDup (map fst (generate_all orlib_texts orlib_scenarios orlib_copies d))).
  { rewrite generated_names. apply generated_once. }
  set (l := generate_all orlib_texts orlib_scenarios orlib_copies d) in *. clearbody l. induction l as [|[n0 t0] l IH]; [destruct H|]. cbn [map fst] in ND. inversion ND as [|? ? N0 ND']; subst.
  cbn [find fst snd]. destruct (String.eqb (shipped_inpath ++ n0) (shipped_inpath ++ name)) eqn:E.
  - apply String.eqb_eq in E. assert (n0 = name) by (revert E; clear; unfold shipped_inpath; cbn; intros [= ->]; reflexivity).
    subst n0. destruct H as [[= ->]|H]; [reflexivity|]. exfalso. apply N0. now apply (in_map fst) in H.
  - destruct H as [[= -> ->]|H]; [now rewrite String.eqb_refl in E|]. now apply IH.
Qed.
Definition ready_machine (data : string -> res (list ascii)) (c : command) : computer :=
  match load_command shipped_inpath data c with Ok J => mkComputer (mip_world J) 0 0 | Err _ => mkComputer (mip_world exMid) 0 0 end.
Lemma ready_machine_fine data c : fine (ready_machine data c).
Proof.
  unfold ready_machine. destruct (load_command _ _ _) as [J|]; (split; [exact argsort_ref_ok|split; [exact sort_ref_spec|split; [apply mip_answers|apply mip_undisturbed; reflexivity]]]).
Qed.

(** Three items, two constraints. *)
Definition nl : string := String (ascii_of_nat 10) EmptyString.
Definition crnl : string := String (ascii_of_nat 13) nl.
Definition or_string : string := String.concat nl ["3 2 7"; "9 5.5 4"; "1 2 3"; "0 1.50 2"; "10 8"; "2024"; ""]%string.
Definition or_small : orlib := mkOrlib 3 2 [(9%Z, 0); (55%Z, 1); (4%Z, 0)] [[(1%Z, 0); (2%Z, 0); (3%Z, 0)]; [(0%Z, 0); (150%Z, 2); (2%Z, 0)]] [(10%Z, 0); (8%Z, 0)].
Definition or_draws : draws := mkDraws (fun s i j => match s, i, j with 0, 0, 0 => (7 # 2)%Q | 1, 0, 2 => (-14)%Q | _, _, _ => 0%Q end) (fun s j => (s =? 1) && (j =? 1)).
Lemma small_file : orlib_file or_small (chars or_string) /\ orlib_fit or_small /\ read_orlib (chars or_string) = Ok or_small.
Proof.
  assert (R : read_orlib (chars or_string) = Ok or_small) by (vm_compute; reflexivity). split; [|split; [|exact R]].
  - apply orlib_file_of; [exists (removelast (chars or_string)); vm_compute; reflexivity|reflexivity|repeat constructor|exact R].
  - apply fitb_ok. vm_compute. reflexivity.
Qed.
Lemma small_generated : generate (chars or_string) 2 1 (fun _ => or_draws) =
  Ok [("ccmknap-3-2-2-1.csv"%string, chars (String.concat crnl ["3,2,2"; "9.0,5.5,4.0"; "1.35,2.0,3.0"; "0.0,1.5,2.0"; "1.0,0.0,0.0"; "0.0,0.0,2.0"; "10.0,8.0"; ""]%string))] /\
  read_orlib (chars "3 2") = Err IndexError /\ read_orlib (chars (String.concat nl ["2 1"; "1 x"; "1 2"; "3"]%string)) = Err ValueError.
Proof. split; [vm_compute; reflexivity|split; vm_compute; reflexivity]. Qed.
(** Item 0 of scenario 0 is 3.5 standard deviations above its mean 1; item 1 fails in scenario 1, item 2 would be negative there. *)
Lemma small_entries : let J := orlib_inst or_small or_draws 2 false (1 # 2) in
  (entry_of J 0 0 0 == 14 # 10 /\ entry_of J 1 0 1 == 0 /\ entry_of J 1 0 2 == 0 /\ entry_of J 1 1 2 == 2)%Q.
Proof. vm_compute. auto. Qed.
(** Every computer of the second campaign solves its models exactly, on files of the generator. *)
Definition mid_draws (f : nat) (k : Z) (j : nat) : draws := mkDraws (fun s i l => ((Z.of_nat ((s + i + l) mod 7) - 3) # 2)%Q) (fun s l => (s + l) mod 10 =? 0).
Lemma mid_hyps : stored (lookup mid_draws) mid_draws /\ (forall f k j, within30 (mid_draws f k j)) /\ (forall c, fine (ready_machine (lookup mid_draws) c)).
Proof.
  split; [apply lookup_stored|]. split; [|intro c; apply ready_machine_fine]. intros f k j s i l. cbn [mid_draws dr_normal].
  assert (B := Nat.mod_upper_bound (s + i + l) 7 ltac:(discriminate)). unfold Qle. cbn [Qnum Qden]. lia.
Qed.
