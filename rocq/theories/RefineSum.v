(** Properties of the refinement and merge steps, in the form used by the property files. *)
From Verif Require Import Base BaseFacts Spec Instance InstanceFacts PartitionFacts OptModels OptFacts Bounds BoundsFacts
  Refine RefineFacts CostRefine CostRefineFacts Merge MergeFacts AccRef.

(** ** C15, C16, C17 for the code path: feasibility check, then refinement *)
Lemma random_after_check norm perm I x old t fuel : perm_oracle perm -> (forall r, (0 <= norm r)%Q) ->
  (0 <= i_eps I)%Q -> valid_partition (i_k I) old -> nunsat I tol6 x old <= tolerated I ->
  fst (check_feasibility norm I x) = false -> tolerated I + 1 - nunsat I tol6 x old <= fuel ->
  exists R t', refine_random fuel perm I (snd (check_feasibility norm I x)) t old = Ok (R, t') /\
    refinement_ok (i_k I) (violated I x) (tolerated I + 1 - nunsat I tol6 x old) old R.
Proof.
  intros HP Hn He V Hb HF Hfuel. destruct (check_pattern norm I x Hn) as (fm & ->).
  apply check_infeasible_count in HF; [|assumption]. rewrite <- nb_bad_nunsat in *.
  now apply refine_random_ok.
Qed.

Lemma random_diverges_after_check norm perm I x old t fuel : perm_oracle perm -> (forall r, (0 <= norm r)%Q) ->
  (0 <= i_eps I)%Q -> valid_partition (i_k I) old -> fst (check_feasibility norm I x) = true ->
  refine_random fuel perm I (snd (check_feasibility norm I x)) t old = Err NonTermination.
Proof.
  intros HP Hn He V HF. destruct (check_pattern norm I x Hn) as (fm & ->).
  apply refine_random_diverges; try assumption.
  destruct (le_lt_dec (count (violated I x) (seq 0 (i_k I))) (tolerated I)) as [L|L]; [assumption|].
  apply (check_infeasible_count norm I x He) in L. congruence.
Qed.

Lemma refinement_cuts I x old mu R : (0 <= i_eps I)%Q ->
  refinement_ok (i_k I) (violated I x) mu old R -> tolerated I + 1 <= nunsat I tol6 x old + mu ->
  tolerated I < nunsat I tol6 x (rf_part R) /\
  forall tau, (tau <= tol6)%Q -> ~ part_feasible I (rf_part R) tau x.
Proof.
  intros He HR Hmu.
  assert (B : tolerated I < nb_bad (violated I x) (rf_part R)).
  { destruct HR as ((_ & _ & _ & B & _) & _). rewrite B, nb_bad_nunsat. lia. }
  split; [now rewrite <- nb_bad_nunsat|]. intros tau Ht. apply cut_not_feasible; try assumption.
  apply HR.
Qed.

Lemma merge_all_valid k p cands : valid_partition k p -> NoDup cands -> cands <> [] ->
  Forall (fun c => c < length p) cands ->
  exists m p' ms, In m cands /\ (forall c, In c cands -> m <= c) /\
    merge_all p cands = Ok (p', ms) /\
    ms_deleted ms = filter (fun c => negb (c =? m)) cands /\
    ms_target ms = (if 2 <=? length cands then [m] else []) /\
    valid_partition k p' /\ length p' + length cands = length p + 1 /\
    Permutation (nth m p' []) (concat (map (fun c => nth c p []) cands)) /\
    survivors [m] p' = survivors cands p /\
    (forall i, i < length p -> ~ In i cands ->
       new_index (ms_deleted ms) i < length p' /\ nth (new_index (ms_deleted ms) i) p' [] = nth i p []) /\
    (forall bad, nb_bad bad p' + count (fun c => existsb bad (nth c p [])) cands =
       nb_bad bad p + (if existsb (fun c => existsb bad (nth c p [])) cands then 1 else 0)).
Proof.
  intros V ND Hne HF. destruct (merge_all_spec p cands ND Hne HF) as (m & Hm & Hmin & E).
  assert (PO := others_perm m cands ND Hm). set (rest := others m cands) in *.
  assert (NDr : NoDup (m :: rest)) by now apply (Permutation_NoDup PO).
  assert (Hmp : m < length p) by (rewrite Forall_forall in HF; auto).
  assert (HR : Forall (fun i => m < i < length p) rest).
  { apply Forall_forall. intros i Hi. inversion NDr as [|? ? N1 _]; subst.
    assert (Hic : In i cands) by (apply filter_In in Hi; apply Hi).
    assert (m <> i) by (intros ->; contradiction). rewrite Forall_forall in HF. specialize (Hmin i Hic). specialize (HF i Hic). lia. }
  destruct (merged_facts k p m rest V Hmp NDr HR) as (M1 & M2 & M3 & M4 & M5).
  assert (Lc : length cands = S (length rest)) by (apply Permutation_length in PO; exact PO).
  exists m, (merged p m rest). eexists. split; [assumption|]. split; [assumption|]. split; [exact E|].
  cbn [ms_deleted ms_target]. split; [reflexivity|]. split; [|split; [assumption|split; [lia|split; [|split; [|split]]]]].
  - destruct rest; rewrite Lc; reflexivity.
  - rewrite M4. unfold gather. apply concat_perm, Permutation_map. now symmetry.
  - (* survivors of the result without the target *)
    unfold merged. rewrite (survivors_ext cands (rest ++ [m])).
    2:{ intros i _. rewrite in_app_iff. split; intro Hi.
        - apply (Permutation_in _ PO) in Hi. destruct Hi as [<-|Hi]; [right; now left|now left].
        - apply (Permutation_in (l := m :: rest)); [now symmetry|]. destruct Hi as [Hi|[<-|[]]]; [now right|now left]. }
    clear - Hmp HR. set (v := nth m p [] ++ _). clearbody v.
    destruct (upd_split m v p Hmp) as (u & w & d & Ep & Hu & Eu). rewrite Eu. rewrite Ep in HR |- *.
    (* all of rest is after position m *)
    assert (A : forall (e : list nat) , survivors rest (u ++ e :: w) = u ++ e :: map snd (filter (fun ia => kept rest (fst ia)) (combine (seq (S m) (length w)) w))).
    { intro e. unfold survivors. rewrite app_length, seq_app. cbn [length seq plus].
      assert (CA : forall (s1 s2 : list nat) (a b : list (list nat)), length s1 = length a -> combine (s1 ++ s2) (a ++ b) = combine s1 a ++ combine s2 b).
      { clear. induction s1 as [|x s1 IH]; intros s2 [|y a] b H; simpl in *; try discriminate; [reflexivity|].
        f_equal. apply IH. lia. }
      rewrite CA by apply seq_length. rewrite filter_app, map_app. f_equal.
      - rewrite filter_all; [apply map_snd_combine, seq_length|]. intros [i x] Hi. apply in_combine_l, in_seq in Hi.
        cbn [fst]. unfold kept. apply negb_true_iff, memb_false. intro C. rewrite Forall_forall in HR. apply HR in C. lia.
      - cbn [combine filter fst]. rewrite Hu.
        replace (kept rest m) with true; [reflexivity|]. symmetry. unfold kept. apply negb_true_iff, memb_false.
        intro C. rewrite Forall_forall in HR. apply HR in C. lia. }
    rewrite A. set (w' := map snd _).
    rewrite (survivors_ext (rest ++ [m]) (m :: rest)) by (intros i _; rewrite in_app_iff; simpl; tauto).
    assert (B : survivors [m] (u ++ v :: w') = u ++ w').
    { rewrite survivors_del by (try (intros ? []); rewrite app_length; simpl; lia). rewrite survivors_nil.
      destruct (del_split m (u ++ v :: w')) as (u2 & w2 & d2 & E1 & E2 & E3); [rewrite app_length; simpl; lia|].
      rewrite E3. assert (EE : u = u2 /\ v :: w' = d2 :: w2).
      { clear - E1 E2 Hu. clearbody w'. rewrite <- Hu in E2. clear Hu. revert u2 E1 E2. induction u as [|a u IH]; intros [|a2 u2] E1 E2; simpl in *; try discriminate; auto.
        injection E1 as -> E1. injection E2 as E2. destruct (IH u2 E1 E2) as [-> ?]. auto. }
      destruct EE as [-> EE]. now injection EE as -> ->. }
    rewrite B. unfold survivors. rewrite app_length, seq_app. cbn [length seq plus].
    assert (CA : forall (s1 s2 : list nat) (a b : list (list nat)), length s1 = length a -> combine (s1 ++ s2) (a ++ b) = combine s1 a ++ combine s2 b).
    { clear. induction s1 as [|x s1 IH]; intros s2 [|y a] b H; simpl in *; try discriminate; [reflexivity|].
      f_equal. apply IH. lia. }
    rewrite CA by apply seq_length. rewrite filter_app, map_app. f_equal.
    + rewrite filter_all; [symmetry; apply map_snd_combine, seq_length|]. intros [i x] Hi. apply in_combine_l, in_seq in Hi.
      cbn [fst]. unfold kept. apply negb_true_iff, memb_false. intros [C|C]; [lia|]. rewrite Forall_forall in HR. apply HR in C. lia.
    + cbn [combine filter fst]. rewrite Hu. replace (kept (m :: rest) m) with false.
      2:{ symmetry. unfold kept. apply negb_false_iff, memb_In. now left. }
      unfold w'. f_equal. apply filter_ext_in. intros [i x] Hi. apply in_combine_l, in_seq in Hi. cbn [fst].
      unfold kept. simpl. destruct (Nat.eqb i m) eqn:B1; [apply Nat.eqb_eq in B1; lia|reflexivity].
  - intros i Hi Hn.
    assert (Hn' : ~ In i (m :: rest)) by (intro C; apply Hn; eapply Permutation_in; [symmetry; exact PO|assumption]).
    split; [|now apply M5].
    destruct (survivors_nth rest (upd m (nth m p [] ++ concat (gather [] p rest)) p) i []) as [_ H].
    + now rewrite upd_length.
    + apply memb_false. intro C. apply Hn'. now right.
    + exact H.
  - intro bad.
    assert (B := merged_nb_bad bad p m rest Hmp NDr).
    assert (HR' : Forall (fun i => i < length p) rest) by (eapply Forall_impl; [|exact HR]; simpl; lia).
    specialize (B HR').
    assert (C1 : nb_bad bad (gather [] p (m :: rest)) = count (fun c => existsb bad (nth c p [])) cands).
    { rewrite (count_perm _ _ _ PO). unfold nb_bad, gather, count.
      generalize (m :: rest). clear. intro L. induction L as [|c L IH]; [reflexivity|]. simpl.
      destruct (existsb bad (nth c p [])); simpl; rewrite IH; reflexivity. }
    assert (C2 : existsb (existsb bad) (gather [] p (m :: rest)) = existsb (fun c => existsb bad (nth c p [])) cands).
    { rewrite (existsb_perm (fun c => existsb bad (nth c p [])) _ _ PO). unfold gather.
      generalize (m :: rest). clear. intro L. induction L as [|c L IH]; [reflexivity|]. simpl. now rewrite IH. }
    rewrite C1, C2 in B. exact B.
Qed.

(** ** C55: bound trajectory *)
Definition cb_inv (st : option (Q * Q) * list (Q * Q * Q)) : Prop :=
  match fst st with
  | None => snd st = []
  | Some (o, b) => exists t d, snd st = d ++ [(t, - o, - b)%Q]
  end /\
  forall i, S i < length (snd st) -> ~ same_bounds (nth i (snd st) (0, 0, 0)%Q) (nth (S i) (snd st) (0, 0, 0)%Q).

Lemma cb_step_inv st ev : cb_inv st -> cb_inv (cb_step st ev) /\
  (exists more, snd (cb_step st ev) = snd st ++ more /\ Forall (fun r => r = neg_event ev) more) /\
  exists d r, snd (cb_step st ev) = d ++ [r] /\ same_bounds r (neg_event ev).
Proof.
  destruct st as [cur data], ev as [[t o] b]. unfold cb_inv. cbn [fst snd cb_step]. intros [H1 H2].
  destruct cur as [[o' b']|].
  - destruct H1 as (t' & d & ->).
    destruct (negb (Qeq_bool o' o) || negb (Qeq_bool b' b)) eqn:E; cbn [fst snd].
    + split; [split|split].
      * exists t, (d ++ [(t', - o', - b')%Q]). reflexivity.
      * intros i Hi. rewrite !app_length in Hi. simpl in Hi.
        destruct (Nat.eq_dec i (length d)) as [->|Ne].
        -- rewrite (app_nth1 (d ++ _)) by (rewrite app_length; simpl; lia).
           rewrite (app_nth2 (d ++ _)) by (rewrite app_length; simpl; lia).
           rewrite app_nth2 by lia. rewrite app_length. simpl length. rewrite Nat.sub_diag.
           replace (S (length d) - (length d + 1)) with 0 by lia. cbn [nth same_bounds]. intros [C1 C2].
           apply orb_prop in E as [E|E]; apply negb_true_iff in E; apply Qeq_bool_neq in E; apply E; lra.
        -- rewrite !app_nth1 with (l := d ++ _) by (rewrite app_length; simpl; lia).
           apply H2. rewrite app_length. simpl. lia.
      * exists [(t, - o, - b)%Q]. split; [reflexivity|]. repeat constructor.
      * exists (d ++ [(t', - o', - b')%Q]), (t, - o, - b)%Q. split; [reflexivity|]. simpl. split; reflexivity.
    + apply orb_false_elim in E as [E1 E2]. apply negb_false_iff, Qeq_bool_iff in E1, E2. split; [split|split].
      * exists t', d. reflexivity.
      * assumption.
      * exists []. rewrite app_nil_r. split; [reflexivity|constructor].
      * exists d, (t', - o', - b')%Q. split; [reflexivity|]. simpl. rewrite E1, E2. split; reflexivity.
  - subst data. cbn [fst snd app]. split; [split|split].
    + exists t, []. reflexivity.
    + simpl. intros i Hi. lia.
    + exists [(t, - o, - b)%Q]. split; [reflexivity|]. repeat constructor.
    + exists [], (t, - o, - b)%Q. split; [reflexivity|]. simpl. split; reflexivity.
Qed.
Lemma cb_fold_inv evs : forall st, cb_inv st -> cb_inv (fold_left cb_step evs st).
Proof. induction evs as [|e evs IH]; intros st H; simpl; [assumption|]. apply IH, cb_step_inv, H. Qed.
Lemma cb_fold_prefix evs : forall st, cb_inv st -> exists more, snd (fold_left cb_step evs st) = snd st ++ more /\
  Forall (fun r => exists ev, In ev evs /\ r = neg_event ev) more.
Proof.
  induction evs as [|e evs IH]; intros st H; cbn [fold_left].
  - exists []. rewrite app_nil_r. split; [reflexivity|constructor].
  - destruct (cb_step_inv st e H) as (H1 & (m & E & F) & _). destruct (IH _ H1) as (m' & E' & F').
    exists (m ++ m'). rewrite E', E, app_assoc. split; [reflexivity|]. apply Forall_app. split.
    + eapply Forall_impl; [|exact F]. simpl. intros r ->. exists e. auto.
    + eapply Forall_impl; [|exact F']. simpl. intros r (ev & H2 & H3). exists ev. auto.
Qed.
Lemma cb_inv0 : cb_inv (None, []).
Proof. split; [reflexivity|]. simpl. intros; lia. Qed.

Lemma saved_bounds_facts evs :
  (forall i, S i < length (saved_bounds evs) ->
     ~ same_bounds (nth i (saved_bounds evs) (0, 0, 0)%Q) (nth (S i) (saved_bounds evs) (0, 0, 0)%Q)) /\
  (Forall (fun r => exists ev, In ev evs /\ r = neg_event ev) (saved_bounds evs)) /\
  (forall pre ev post, evs = pre ++ ev :: post ->
     (exists d r more, saved_bounds (pre ++ [ev]) = d ++ [r] /\ same_bounds r (neg_event ev) /\
        saved_bounds evs = d ++ r :: more)).
Proof.
  unfold saved_bounds. split; [|split].
  - apply (cb_fold_inv evs _ cb_inv0).
  - destruct (cb_fold_prefix evs _ cb_inv0) as (m & E & F). rewrite E. exact F.
  - intros pre ev post ->. rewrite !fold_left_app. cbn [fold_left].
    set (st := fold_left cb_step pre (None, [])).
    assert (Hst : cb_inv st) by apply cb_fold_inv, cb_inv0.
    destruct (cb_step_inv st ev Hst) as (H1 & _ & d & r & E & SB).
    destruct (cb_fold_prefix post _ H1) as (m & E' & _).
    exists d, r, m. split; [assumption|]. split; [assumption|]. rewrite E', E, <- app_assoc. reflexivity.
Qed.

Lemma random_mu_passes perm I bad fm old t : perm_oracle perm ->
  (0 <= i_eps I)%Q -> valid_partition (i_k I) old -> nb_bad bad old <= tolerated I ->
  tolerated I < count bad (seq 0 (i_k I)) ->
  exists R t', refine_random (tolerated I + 1 - nb_bad bad old) perm I (pattern (i_k I) bad fm) t old = Ok (R, t').
Proof.
  intros HP He V Hb Ht.
  destruct (refine_random_ok perm I bad fm old t (tolerated I + 1 - nb_bad bad old) HP He V Hb Ht (le_n _)) as (R & t' & E & _).
  eauto.
Qed.

Lemma perform_selected acc inf vUB st cs st' cs' :
  perform_accurate_split acc inf vUB st cs = Ok (st', cs') ->
  exists c l r, select_split (c_cost cs) vUB = Ok c /\ c < length (r_part st) /\
    dget c (c_left cs) = Ok l /\ dget c (c_right cs) = Ok r /\
    r_part st' = upd c l (r_part st) ++ [r] /\ r_cnt st' = S (r_cnt st).
Proof.
  unfold perform_accurate_split. intro H.
  destruct (select_split (c_cost cs) vUB) as [c|] eqn:E1; [|discriminate]. cbn [rbind] in H.
  destruct (dget c (c_left cs)) as [l|] eqn:E2; [|discriminate]. cbn [rbind] in H.
  destruct (geti (r_part st) c) as [s|] eqn:E3; [|discriminate]. cbn [rbind] in H.
  destruct (dget c (c_right cs)) as [r|] eqn:E4; [|discriminate]. cbn [rbind] in H. cbv zeta in H.
  destruct (geti _ c) as [nc|] in H; [|discriminate]. cbn [rbind] in H.
  destruct (if 2 <=? nc then _ else _) as [cs1|] in H; [|discriminate]. cbn [rbind] in H.
  destruct (geti _ _) as [nn|] in H; [|discriminate]. cbn [rbind] in H.
  destruct (if 2 <=? nn then _ else _) as [cs2|] in H; [|discriminate]. cbn [rbind] in H.
  injection H as <- <-. exists c, l, r. apply (geti_inv _ _ _ []) in E3. split; [reflexivity|]. split; [apply E3|]. auto.
Qed.

Lemma merge_keeps_bad k p cands : valid_partition k p -> NoDup cands -> cands <> [] ->
  Forall (fun c => c < length p) cands ->
  forall bad, count (fun c => existsb bad (nth c p [])) cands <= 1 ->
  exists p' ms, merge_all p cands = Ok (p', ms) /\ nb_bad bad p' = nb_bad bad p.
Proof.
  intros V ND Hne HF bad H1.
  destruct (merge_all_valid k p cands V ND Hne HF) as (m & p' & ms & _ & _ & E & _ & _ & _ & _ & _ & _ & _ & B).
  exists p', ms. split; [assumption|]. specialize (B bad).
  rewrite existsb_count0 in B. destruct (count _ cands) as [|[|n]]; simpl in B; lia.
Qed.

Lemma merge_chained :
  exists k p cands inf p' ms, valid_partition k p /\ NoDup cands /\ NoDup inf /\ length cands = length inf /\
    Forall (fun c => c < length p) (cands ++ inf) /\
    merge p cands inf = Ok (p', ms) /\ exists s, s < k /\ ~ In s (concat p').
Proof.
  exists 3, [[0]; [1]; [2]], [1; 2], [0; 1], [[0; 1]], (mkMs [0; 1] [1; 2]).
  split; [split; [reflexivity|repeat constructor; discriminate]|].
  split; [repeat constructor; simpl; intuition lia|]. split; [repeat constructor; simpl; intuition lia|].
  split; [reflexivity|]. split; [repeat constructor|]. split; [vm_compute; reflexivity|].
  exists 2. split; [lia|]. simpl. intuition lia.
Qed.

Lemma find_inf_wrong_order : exists inf costs vUB a b,
  Forall (fun c => c < length costs) inf /\ NoDup inf /\
  find_inf_candidate inf costs vUB = Ok [a; b] /\ (nth a costs 0 < nth b costs 0)%Q.
Proof.
  exists [0; 2], [5; 1; 9]%Q, (Fin 10), 0, 2. split; [repeat constructor|].
  split; [repeat constructor; simpl; intuition lia|]. split; [vm_compute; reflexivity|]. reflexivity.
Qed.
