(** The result files hold the rows of Report.v and Export.v. *)
From Coq Require Import Ascii String Lia ZArith QArith Qabs Lqa.
From Verif Require Import Base Spec BaseFacts Instance InstanceFacts OptModels Bounds Refine CostRefine Merge Violations BigM Adaptive AdaptiveWp
  AdaptiveSpec Milp Report Main ReportFacts NameFacts Export ExportFacts PipelineFacts.
From Verif Require Import TextSpec ResultText ResultSpec ResultFacts.
Local Open Scope nat_scope.
Local Open Scope list_scope.

(** The field f is the text of the number g. *)
Definition number_field (g : gapv) (f : text) : Prop := denotes f g /\ Forall ordinary f.
(** The field f is the text of the number in the cell c. *)
Definition cell_field (c : cell) (f : text) : Prop :=
  match c with
  | CText _ => False
  | CInt z => number_field (finite (inject_Z z)) f
  | CFloat g => number_field g f
  end.
Definition row_fields (row : list cell) (fields : list text) : Prop :=
  match row, fields with
  | CText n :: cells, f :: fs => f = chars n /\ Forall2 cell_field cells fs
  | _, _ => False
  end.

Lemma plain_ordinary : forall f, Forall (fun c => TextFacts.plain c = true) f -> Forall ordinary f.
Proof. intros f H. eapply Forall_impl; [|exact H]. intros c Hc. now apply TextIff.ordinary_plain. Qed.

Lemma digits_plain : forall f, Forall (fun c => Text.is_digit c = true) f -> Forall (fun c => TextFacts.plain c = true) f.
Proof. intros f H. eapply Forall_impl; [|exact H]. intros c Hc. now apply TextFacts.digit_chars. Qed.

Lemma show_fixed_plain : forall d g, Forall (fun c => TextFacts.plain c = true) (show_fixed d g).
Proof.
  intros d [[| q |]|]; try (vm_compute; repeat constructor; fail).
  unfold show_fixed, show_places. assert (P := TextFacts.pow10_pos d).
  set (z := Z.abs _). assert (Hz : (0 <= z)%Z) by (unfold z; lia).
  apply Forall_app. split; [destruct (Qlt_bool q 0); repeat constructor|]. apply Forall_app. split.
  - apply digits_plain. apply TextFacts.show_nat_spec. apply Z.div_pos; lia.
  - destruct (d =? 0); [constructor|]. constructor; [reflexivity|]. apply digits_plain. now apply TextFacts.last_digits_spec.
Qed.

Lemma fixed_field : forall d g, number_field (fixed d g) (show_fixed d g).
Proof. intros d g. split; [apply to_real_iff; apply show_fixed_real|apply plain_ordinary, show_fixed_plain]. Qed.
Lemma int_field : forall z, number_field (finite (inject_Z z)) (show_int z).
Proof.
  intro z. split; [exists (finite (inject_Z z)); split; [constructor; apply show_int_number|apply same_real_refl]|].
  unfold show_int. apply Forall_app. split.
  - destruct (z <? 0)%Z; [|constructor]. apply plain_ordinary. repeat constructor.
  - apply plain_ordinary, digits_plain, TextFacts.show_nat_spec. lia.
Qed.

Lemma ordinary_universal : forall f, Forall ordinary f -> universal f = f.
Proof. intros f H. apply universal_plain. eapply Forall_impl; [|exact H]. intros c Hc. now apply TextIff.ordinary_plain. Qed.

Lemma fields_read : forall cells fs, Forall2 cell_field cells fs ->
  exists v v', rmap cell_float cells = Ok v /\ rmap to_real (map universal fs) = Ok v' /\ same_numbers v' v.
Proof.
  induction 1 as [|c f cells fs H HF (v & v' & E & E' & HS)]; [exists [], []; repeat split; constructor|].
  assert (X : exists g, number_field g f /\ cell_float c = Ok g) by (destruct c as [n|z|g]; [destruct H| |]; eexists; split; [exact H|reflexivity|exact H|reflexivity]).
  destruct X as (g & [D O] & EC). apply to_real_iff in D as (g' & E1 & E2).
  exists (g :: v), (g' :: v'). cbn. rewrite (ordinary_universal f O), EC, E, E1, E'. cbn. repeat split. now constructor.
Qed.

(** Reading a written row. *)
Lemma row_fields_read : forall row fields name rest, row_fields row fields -> hd_error row = Some (CText name) ->
  exists nums nums', read_row row = Ok (CText name, nums) /\
    read_result (csv_row fields ++ rest) = Ok (universal (chars name), nums') /\ same_numbers nums' nums.
Proof.
  intros [|[n| |] cells] [|f fs] name rest H HN; cbn in H; try tauto. cbn in HN. injection HN as <-. destruct H as [-> H].
  destruct (fields_read _ _ H) as (v & v' & E & E' & HS). exists v, v'. split; [cbn; now rewrite E|]. split; [|exact HS].
  unfold read_result. rewrite (read_table_record _ _ rest (csv_row_record (chars n :: fs))). cbn. now rewrite E'.
Qed.

Ltac fields := repeat (apply Forall2_app || (apply Forall2_cons; [first [apply fixed_field | apply int_field | idtac]|]) || apply Forall2_nil).

Section Rows.
  Variable repr : gapv -> text.

  Lemma instance_rel : forall name I,
    (exists e, instance_details name I = Err e /\ instance_fields name I = Err e) \/
    (exists cells fs, instance_details name I = Ok (CText name :: cells) /\ instance_fields name I = Ok (chars name :: fs) /\ Forall2 cell_field cells fs).
  Proof.
    intros name I. unfold instance_details, instance_fields. destruct ((i_n I =? 0) || (i_k I =? 0)); [left; eauto|right].
    do 2 eexists. split; [reflexivity|]. split; [reflexivity|]. fields.
  Qed.

  Lemma computation_rel : forall final s,
    (exists e, computation_details final s = Err e /\ computation_fields final s = Err e) \/
    (exists cells fs, computation_details final s = Ok cells /\ computation_fields final s = Ok fs /\ Forall2 cell_field cells fs).
  Proof.
    intros [t|] s; [|left; exists TypeError; split; reflexivity]. unfold computation_details, computation_fields.
    destruct (compute_gap _ _ _ _) as [g|e]; [right|left; cbn; eauto].
    cbn [rbind]. do 2 eexists. split; [reflexivity|]. split; [reflexivity|]. fields.
  Qed.

  Lemma milp_rel : forall name I cf um m bt final s, (forall t, bt = Some t -> repr_ok repr (finite t)) ->
    (exists e, milp_row name I cf um m bt final s = Err e /\ milp_fields repr name I cf um m bt final s = Err e) \/
    (exists row fs, milp_row name I cf um m bt final s = Ok row /\ milp_fields repr name I cf um m bt final s = Ok fs /\
       row_fields row fs /\ hd_error row = Some (CText name)).
  Proof.
    intros name I cf um m bt final s HR. unfold milp_row, milp_fields.
    destruct (instance_rel name I) as [(e & -> & ->) | (c1 & f1 & -> & -> & H1)]; [left; cbn; eauto|].
    destruct (computation_rel final s) as [(e & -> & ->) | (c2 & f2 & -> & -> & H2)]; [left; cbn; eauto|].
    cbn [rbind]. destruct bt as [t|]; [right|left; eauto].
    do 2 eexists. split; [reflexivity|]. split; [reflexivity|]. split; [|reflexivity].
    cbn [app row_fields]. split; [reflexivity|]. fields; try assumption. exact (HR t eq_refl).
  Qed.

  Lemma details_rel : forall split init proj,
    (exists e, adaptive_details split init proj = Err e /\ details_fields split init proj = Err e) \/
    (exists cells fs, adaptive_details split init proj = Ok cells /\ details_fields split init proj = Ok fs /\ Forall2 cell_field cells fs).
  Proof.
    intros a b c. unfold adaptive_details, details_fields.
    destruct (counter_dict a); [|left; cbn; eauto]. destruct (counter_dict b); [|left; cbn; eauto]. destruct (counter_dict c); [|left; cbn; eauto].
    cbn [rbind]. right. do 2 eexists. split; [reflexivity|]. split; [reflexivity|]. fields.
  Qed.

  Lemma adaptive_rel : forall name I cf split init proj solved started final s,
    (exists e, adaptive_row name I cf split init proj solved started final s = Err e /\
       adaptive_fields name I cf split init proj solved started final s = Err e) \/
    (exists row fs, adaptive_row name I cf split init proj solved started final s = Ok row /\
       adaptive_fields name I cf split init proj solved started final s = Ok fs /\
       row_fields row fs /\ hd_error row = Some (CText name)).
  Proof.
    intros name I cf split init proj solved started final s. unfold adaptive_row, adaptive_fields.
    destruct (negb solved); [left; eauto|]. cbv zeta.
    destruct (details_rel split init proj) as [(e & -> & ->) | (c0 & f0 & -> & -> & H0)]; [left; cbn; eauto|].
    destruct (instance_rel name I) as [(e & E1 & E2) | (c1 & f1 & E1 & E2 & H1)]; rewrite E1, E2; [left; cbn; eauto|].
    destruct (computation_rel final s) as [(e & -> & ->) | (c2 & f2 & -> & -> & H2)]; [left; cbn; eauto|].
    cbn [rbind]. destruct (negb started); [left; eauto|right].
    do 2 eexists. split; [reflexivity|]. split; [reflexivity|]. split; [|reflexivity].
    cbn [app row_fields]. split; [reflexivity|]. fields; assumption.
  Qed.

  (** The file t holds the row. *)
  Definition holds (row : list cell) (t : text) : Prop :=
    exists name nums, read_row row = Ok (CText name, nums) /\
      forall rest, exists nums', read_result (t ++ rest) = Ok (universal (chars name), nums') /\ same_numbers nums' nums.

  Lemma row_holds : forall row fs name, row_fields row fs -> hd_error row = Some (CText name) -> holds row (csv_row fs) /\
    exists nums, read_row row = Ok (CText name, nums).
  Proof.
    intros row fs name H HN. destruct (row_fields_read _ _ _ [] H HN) as (nums & nums' & E & _). split; [|eauto].
    exists name, nums. split; [exact E|]. intro rest. destruct (row_fields_read _ _ _ rest H HN) as (n2 & n2' & E2 & E3 & E4).
    rewrite E in E2. injection E2 as <-. eauto.
  Qed.

  Lemma milp_file_rel : forall name I cf um m bt final s, (forall t, bt = Some t -> repr_ok repr (finite t)) ->
    match milp_row name I cf um m bt final s, milp_file repr name I cf um m bt final s with
    | Ok row, Ok t => holds row t /\ exists nums, read_row row = Ok (CText name, nums)
    | Err e, Err e' => e = e'
    | _, _ => False
    end.
  Proof.
    intros name I cf um m bt final s HR. unfold milp_file.
    destruct (milp_rel name I cf um m bt final s HR) as [(e & -> & ->) | (row & fs & -> & -> & H & HN)]; [reflexivity|].
    now apply row_holds.
  Qed.

  Lemma adaptive_file_rel : forall name I cf split init proj solved started final s,
    match adaptive_row name I cf split init proj solved started final s, adaptive_file name I cf split init proj solved started final s with
    | Ok row, Ok t => holds row t /\ exists nums, read_row row = Ok (CText name, nums)
    | Err e, Err e' => e = e'
    | _, _ => False
    end.
  Proof.
    intros name I cf split init proj solved started final s. unfold adaptive_file.
    destruct (adaptive_rel name I cf split init proj solved started final s) as [(e & -> & ->) | (row & fs & -> & -> & H & HN)]; [reflexivity|].
    now apply row_holds.
  Qed.

  Variable w : world.
  Variable I : inst.
  Variable name path ipath : string.
  Variable info : bool.
  Variable fuel rfuel : nat.

  Definition time_printed : Prop := forall m t s, milp_run w I (cfgM rfuel) true m = (Ok (Some t), s) -> repr_ok repr (finite t).
  Definition same_file (x : string * list cell) (y : string * text) : Prop := fst x = fst y /\ holds (snd x) (snd y).

  Lemma main_text_rel : forall METHOD, time_printed ->
    let '(r, out) := main w I name path fuel rfuel METHOD in
    let '(r', out') := main_text repr w I name path ipath info fuel rfuel METHOD in
    r' = r /\ Forall2 same_file out out'.
  Proof.
    intros METHOD HR.
    assert (M : forall m, let '(r, out) := main_milp w I name path rfuel m in
       let '(r', out') := main_milp_text repr w I name path rfuel m in r' = r /\ Forall2 same_file out out').
    { intro m. unfold main_milp, main_milp_text. destruct (milp_run w I (cfgM rfuel) true (bigm_of_string m)) as [[bt|e] s] eqn:E; [|split; [reflexivity|constructor]].
      pose proof (milp_file_rel name I (cfgM rfuel) true m bt (Some (w_clock w (a_t s))) s) as X.
      assert (Y : forall t, bt = Some t -> repr_ok repr (finite t)) by (intros t ->; eapply HR; exact E). specialize (X Y).
      destruct (milp_row _ _ _ _ _ _ _ _), (milp_file _ _ _ _ _ _ _ _ _); try contradiction; [|subst; split; [reflexivity|constructor]].
      split; [reflexivity|]. constructor; [|constructor]. split; [reflexivity|]. apply X. }
    assert (A : METHOD = 3%Z \/ METHOD = 4%Z -> let '(r, out) := main w I name path fuel rfuel METHOD in
       let '(r', out') := main_text repr w I name path ipath info fuel rfuel METHOD in r' = r /\ Forall2 same_file out out').
    { intro HM. rewrite (main_adaptive_fails w I name path fuel rfuel METHOD HM).
      destruct HM as [-> | ->]; cbn [Z.eqb Pos.eqb main_text]; unfold main_adaptive_text;
        destruct (construct w I _ (ast0 I)) as [[b|e] s]; cbn [fst bind_keywords]; (split; [reflexivity|constructor]). }
    destruct (Z.eq_dec METHOD 1) as [-> | N1]; [apply (M "song"%string)|]. destruct (Z.eq_dec METHOD 2) as [-> | N2]; [apply (M "belotti"%string)|].
    destruct (Z.eq_dec METHOD 3) as [-> | N3]; [apply A; auto|]. destruct (Z.eq_dec METHOD 4) as [-> | N4]; [apply A; auto|].
    unfold main, main_text. rewrite !(proj2 (Z.eqb_neq _ _)) by assumption. split; [reflexivity|constructor].
  Qed.

  (** Written by main.py, read by export_results.py. *)
  Lemma text_read_back : forall METHOD out dir inpath i sn j pct, METHOD = 1%Z \/ METHOD = 2%Z -> 0 < i_k I -> time_printed ->
    pathlike inpath -> no_char "/" i -> (0 <= sn)%Z -> (0 <= j)%Z -> (0 <= pct)%Q ->
    (path = out_name dir (file_name (inpath ++ (i ++ "-" ++ str_of_Z sn ++ "-" ++ str_of_Z j) ++ "." ++ "csv")) pct (i_cont I) METHOD)%string ->
    Qrnd pct = Qtrunc pct ->
    main_text repr w I name path ipath info fuel rfuel METHOD = (Ok tt, out) ->
    exists row nums nums' t, main w I name path fuel rfuel METHOD = (Ok tt, [(path, row)]) /\ out = [(path, t)] /\
      read_row row = Ok (CText name, nums) /\ same_numbers nums' nums /\
      read_experiment_text (text_files out) dir i sn j pct (if i_cont I then 1 else 0) METHOD = Ok (Some (universal (chars name), nums')).
  Proof.
    intros METHOD out dir inpath i sn j pct HM Hk HR H1 H2 H3 H4 H5 EP ER EM.
    pose proof (main_text_rel METHOD HR) as X. rewrite EM in X.
    destruct (main w I name path fuel rfuel METHOD) as [r o] eqn:EO. destruct X as [<- X].
    destruct (proj1 (main_read_back w I name path fuel rfuel METHOD o dir inpath i sn j pct HM Hk H1 H2 H3 H4 H5 EP EO) ER) as (row & nums & -> & R & RS).
    inversion X as [|? [p t] ? ? [E1 E2] X']; subst. inversion X'; subst. clear X X'. cbn [fst snd] in *. try subst p.
    destruct E2 as (n & nm & EN & EH). rewrite R in EN. injection EN as <- <-. destruct (EH []) as (nums' & ET & ES). rewrite app_nil_r in ET.
    exists row, nums, nums', t. split; [reflexivity|]. split; [reflexivity|]. split; [exact R|]. split; [exact ES|].
    unfold read_experiment_text. unfold read_single_experiment in RS. cbn [files] in RS. cbn [text_files].
    destruct (String.eqb (read_name dir i sn j pct (if i_cont I then 1 else 0) METHOD) _); [|discriminate RS]. now rewrite ET.
  Qed.
End Rows.

(** ** The file of the iterations *)

Lemma show_fixed_shown : forall d g, shown d g (show_fixed d g).
Proof.
  intros d [[| q |]|]; [|apply show_fixed_places| |]; unfold shown, show_fixed.
  - apply (RT_infinity [] ["-"%char] true (chars "inf") []); [constructor|constructor|constructor|left; now apply inf_lower].
  - apply (RT_infinity [] [] false (chars "inf") []); [constructor|constructor|constructor|left; now apply inf_lower].
  - apply (RT_nan [] [] false (chars "nan") []); [constructor|constructor|constructor|now apply nan_lower].
Qed.

Definition iteration_shown (r : logrow) (row : list text) : Prop :=
  exists f0 f1 f2 f3 f4 f5, row = [f0; f1; f2; f3; f4; f5] /\
    denotes f0 (finite (Qn (l_iter r))) /\ shown 3 (finite (l_time r)) f1 /\ shown 3 (Some (l_nLB r)) f2 /\
    shown 3 (Some (l_nUB r)) f3 /\ shown 3 (times100 (l_gap r)) f4 /\ denotes f5 (finite (Qn (l_nb r))).

Lemma iteration_fields_shown : forall r, iteration_shown r (iteration_fields r).
Proof.
  intro r. do 6 eexists. split; [reflexivity|]. unfold Qn.
  repeat match goal with |- _ /\ _ => split end; first [apply show_fixed_shown | apply int_field].
Qed.

Lemma iteration_rows : forall s, exists rows, records_text rows (iteration_file s) /\ Forall2 iteration_shown (a_log s) rows.
Proof.
  intro s. exists (map iteration_fields (a_log s)). split; [apply csv_rows_records|].
  induction (a_log s); constructor; [apply iteration_fields_shown|assumption].
Qed.

Lemma denotes_unique : forall t g g', denotes t g -> denotes t g' -> same_real g g'.
Proof.
  intros t g g' H H'. apply to_real_iff in H as (a & E & S). apply to_real_iff in H' as (b & E' & S').
  rewrite E in E'. injection E' as <-. eapply same_real_trans; [apply same_real_sym; exact S|exact S'].
Qed.

Definition gap_leb (a b : gapv) : bool := match a, b with Some x, Some y => ext_leb x y | _, _ => false end.
Definition gap_plus (a : gapv) (q : Q) : gapv := match a with Some x => Some (ext_add x q) | None => None end.

Lemma same_leb : forall a a' b b', same_real a a' -> same_real b b' -> gap_leb a b = true -> gap_leb a' b' = true.
Proof.
  intros [[| p |]|] [[| p' |]|] [[| q |]|] [[| q' |]|] H1 H2; cbn in *; try tauto; try discriminate.
  rewrite !Qle_bool_iff. now rewrite H1, H2.
Qed.
Lemma same_plus : forall a a' q, same_real a a' -> same_real (gap_plus a q) (gap_plus a' q).
Proof. intros [[| p |]|] [[| p' |]|] q H; cbn in *; try tauto. now rewrite H. Qed.

Lemma fixed_mono : forall d a b, ext_leb a b = true -> gap_leb (fixed d (Some a)) (fixed d (Some b)) = true.
Proof.
  intros d [| p |] [| q |] H; cbn in *; try reflexivity; try discriminate. apply Qle_bool_iff in H. apply Qle_bool_iff.
  assert (P : (0 < pow10 d)%Q) by (unfold pow10; change 0%Q with (inject_Z 0); rewrite <- Zlt_Qlt; apply TextFacts.pow10_pos).
  apply Qle_shift_div_l; [exact P|]. setoid_replace (inject_Z (Qrnd (p * pow10 d)) / pow10 d * pow10 d)%Q with (inject_Z (Qrnd (p * pow10 d))) by (field; lra).
  rewrite <- Zle_Qle. apply Qrnd_mono. nra.
Qed.

Lemma fixed_slack : forall a b, ext_leb (ext_opp b) (ext_add (ext_opp a) (1 # 100000000)) = true ->
  gap_leb (fixed 3 (Some a)) (gap_plus (fixed 3 (Some b)) (1 # 1000)) = true.
Proof.
  intros [| p |] [| q |] H; cbn in *; try reflexivity; try discriminate. apply Qle_bool_iff in H. apply Qle_bool_iff.
  change (pow10 3) with 1000%Q.
  destruct (Qrnd_bounds (p * 1000)) as [A1 A2]. destruct (Qrnd_bounds (q * 1000)) as [B1 B2].
  assert (Z1 : (Qrnd (p * 1000) <= Qrnd (q * 1000) + 1)%Z).
  { apply Z.lt_succ_r. rewrite Zlt_Qlt. unfold Z.succ. rewrite !inject_Z_plus. change (inject_Z 1) with 1%Q. lra. }
  rewrite Zle_Qle, inject_Z_plus in Z1. change (inject_Z 1) with 1%Q in Z1.
  apply Qle_shift_div_r; [lra|]. setoid_replace ((inject_Z (Qrnd (q * 1000)) / 1000 + (1 # 1000)) * 1000)%Q with (inject_Z (Qrnd (q * 1000)) + 1)%Q by (field). exact Z1.
Qed.

Lemma map_split : forall A B (f : A -> B) l l1 a b l2, map f l = l1 ++ a :: b :: l2 ->
  exists k1 x y k2, l = k1 ++ x :: y :: k2 /\ a = f x /\ b = f y.
Proof.
  intros A B f l l1. revert l. induction l1 as [|c l1 IH]; intros l a b l2 H.
  - destruct l as [|x [|y l]]; try discriminate. injection H as <- <- _. now exists [], x, y, l.
  - destruct l as [|x l]; [discriminate|]. injection H as _ H. destruct (IH _ _ _ _ H) as (k1 & y & z & k2 & -> & -> & ->).
    now exists (x :: k1), y, z, k2.
Qed.

(** Fields without line ends: the rows are those of the text. *)
Lemma iteration_no_cr : forall s, Forall (Forall no_cr) (map iteration_fields (a_log s)).
Proof.
  intro s. apply Forall_forall. intros row H. apply in_map_iff in H as (r & <- & _).
  assert (O : forall f, Forall ordinary f -> no_cr f).
  { intros f HF X. rewrite Forall_forall in HF. apply (HF _ X). right. left. reflexivity. }
  repeat constructor; apply O; first [apply fixed_field | apply int_field].
Qed.

Lemma iteration_monotone : forall w I cf fuel r s, run w I cf fuel = (r, s) -> forall rows, records_text rows (iteration_file s) ->
  Forall (Forall no_cr) rows -> forall l1 a b l2, rows = l1 ++ a :: b :: l2 ->
  (forall x y, denotes (nth 0 a []) x -> denotes (nth 0 b []) y -> gap_leb x y = true) /\
  (forall x y, denotes (nth 2 a []) x -> denotes (nth 2 b []) y -> gap_leb y x = true) /\
  (forall x y, denotes (nth 3 a []) x -> denotes (nth 3 b []) y -> gap_leb x (gap_plus y (1 # 1000)) = true).
Proof.
  intros w I cf fuel r s HR rows HT HC l1 a b l2 E.
  assert (ER : rows = map iteration_fields (a_log s)).
  { eapply records_unique; [exact HC|apply iteration_no_cr|exact HT|apply csv_rows_records]. }
  rewrite ER in E. destruct (map_split _ _ _ _ _ _ _ _ E) as (k1 & x & y & k2 & EL & -> & ->).
  destruct (run_log w I cf fuel r s HR k1 x y k2 EL) as (M1 & M2 & M3).
  assert (U : forall f g v, number_field g f -> denotes f v -> same_real g v) by (intros f g v [D _] D'; eapply denotes_unique; eassumption).
  cbn [iteration_fields nth]. repeat split; intros u v Du Dv.
  - pose proof (U _ _ _ (int_field _) Du) as Su. pose proof (U _ _ _ (int_field _) Dv) as Sv.
    eapply same_leb; [exact Su|exact Sv|]. cbn. apply Qle_bool_iff. rewrite <- Zle_Qle. lia.
  - pose proof (U _ _ _ (fixed_field 3 _) Du) as Su. pose proof (U _ _ _ (fixed_field 3 _) Dv) as Sv.
    eapply same_leb; [exact Sv|exact Su|]. now apply fixed_mono.
  - pose proof (U _ _ _ (fixed_field 3 _) Du) as Su. pose proof (U _ _ _ (fixed_field 3 _) Dv) as Sv.
    eapply same_leb; [exact Su|eapply same_plus; exact Sv|]. now apply fixed_slack.
Qed.

(** ** Tables and bounds *)

Lemma table_records : forall repr tab, records_text (map (map (entry_text repr)) tab) (table_file repr tab).
Proof. intros. apply csv_rows_records. Qed.

(** Without special characters, the lines are the entries separated by commas. *)
Lemma show_field_ordinary : forall f, Forall ordinary f -> show_field f = f.
Proof.
  intros f H. unfold show_field. destruct (existsb special f) eqn:E; [|reflexivity]. apply existsb_exists in E as (c & Hc & E).
  rewrite Forall_forall in H. apply H, TextIff.ordinary_plain in Hc. rewrite special_plain, Hc in E. discriminate.
Qed.
Lemma map_show_ordinary : forall fs, Forall (Forall ordinary) fs -> map show_field fs = fs.
Proof. induction 1 as [|f fs H HF IH]; [reflexivity|]. cbn. now rewrite (show_field_ordinary f H), IH. Qed.

Lemma csv_row_ordinary : forall fs, Forall (Forall ordinary) fs -> fs <> [[]] ->
  exists line, line_text fs line /\ csv_row fs = line ++ [ascii_of_nat 13; ascii_of_nat 10].
Proof.
  intros fs H NE. exists (Text.join fs). split; [now apply TextIff.line_text_join|].
  unfold csv_row. rewrite (map_show_ordinary fs H). destruct fs as [|[|c f] [|g fs]]; try reflexivity. congruence.
Qed.

Lemma chars_ordinary : forall s, forallb TextFacts.plain (chars s) = true -> Forall ordinary (chars s).
Proof. intros s H. apply plain_ordinary. apply Forall_forall. now rewrite forallb_forall in H. Qed.

Lemma short_name_ordinary : forall l k, Forall ordinary l -> Forall ordinary (short_name k l).
Proof.
  induction l as [|c l IH]; intros k H; [constructor|]. inversion H as [|? ? Hc Hl]; subst.
  change (short_name k (c :: l)) with (match k with S k' => short_name k' l | 0 =>
    if text_eqb (firstn 7 (c :: l)) (chars "ccmknap") then chars "mk" ++ short_name 6 l else c :: short_name 0 l end).
  destruct k as [|k]; [|now apply IH]. destruct (text_eqb _ _).
  - apply Forall_app. split; [now apply chars_ordinary|now apply IH].
  - constructor; [exact Hc|now apply IH].
Qed.

(** The numbers and the names of an entry. *)
Fixpoint entry_ok (repr : gapv -> text) (e : entry) : Prop :=
  match e with
  | ENum g => repr_ok repr g
  | EEps (Some q) => repr_ok repr (finite q)
  | EInst s => Forall ordinary (chars s)
  | EBold e' => entry_ok repr e'
  | _ => True
  end.
Lemma entry_ordinary : forall repr e, entry_ok repr e -> Forall ordinary (entry_text repr e).
Proof.
  intro repr. induction e as [| g | g | g n | s | [q|] | n | e IH]; cbn [entry_ok entry_text]; intro H.
  - now apply chars_ordinary.
  - apply H.
  - apply Forall_app. split; [apply fixed_field|now apply chars_ordinary].
  - apply Forall_app. split; [apply fixed_field|]. apply Forall_app. split; [now apply chars_ordinary|]. apply Forall_app. split; [apply int_field|now apply chars_ordinary].
  - destruct (String.eqb s EmptyString); [constructor|]. apply Forall_app. split; [now apply chars_ordinary|].
    apply Forall_app. split; [now apply short_name_ordinary|now apply chars_ordinary].
  - apply H.
  - constructor.
  - apply int_field.
  - apply Forall_app. split; [now apply chars_ordinary|]. apply Forall_app. split; [now apply IH|now apply chars_ordinary].
Qed.

Lemma table_line : forall repr row, Forall (entry_ok repr) row -> 2 <= List.length row ->
  exists line, line_text (map (entry_text repr) row) line /\ table_file repr [row] = line ++ [ascii_of_nat 13; ascii_of_nat 10].
Proof.
  intros repr row H HL. destruct (csv_row_ordinary (map (entry_text repr) row)) as (line & E1 & E2).
  - clear HL. induction H; constructor; [now apply entry_ordinary|assumption].
  - destruct row as [|a [|b row]]; cbn in *; try lia. discriminate.
  - exists line. split; [exact E1|]. unfold table_file, csv_rows. cbn [map concat]. now rewrite app_nil_r.
Qed.

Lemma bounds_rows : forall repr data, Forall (fun '(t, o, b) => repr_ok repr (finite t) /\ repr_ok repr (finite o) /\ repr_ok repr (finite b)) data ->
  exists rows, records_text rows (bounds_file repr data) /\ Forall (Forall no_cr) rows /\
    Forall2 (fun '(t, o, b) row => Forall2 denotes row [finite t; finite o; finite b]) data rows.
Proof.
  intros repr data H. exists (map (fun '(t, o, b) => [repr (finite t); repr (finite o); repr (finite b)]) data).
  split; [apply csv_rows_records|].
  assert (O : forall f, Forall ordinary f -> no_cr f).
  { intros f HF X. rewrite Forall_forall in HF. apply (HF _ X). right. left. reflexivity. }
  induction H as [|[[t o] b] data ((D1 & O1) & (D2 & O2) & (D3 & O3)) HF (IH1 & IH2)]; [split; constructor|].
  cbn [map]. split; constructor; auto; repeat constructor; auto.
Qed.
