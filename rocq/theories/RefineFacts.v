(** Refinement by random splits. *)
From Verif Require Import Base BaseFacts Spec Instance InstanceFacts PartitionFacts Bounds BoundsFacts Refine.

Lemma set_eqb_iff l l' : set_eqb l l' = true <-> (forall a, In a l <-> In a l').
Proof.
  unfold set_eqb. rewrite andb_true_iff, !forallb_forall. split.
  - intros [H1 H2] a. split; intro H; apply memb_In; auto.
  - intro H. split; intros a Ha; apply memb_In, H, Ha.
Qed.
Lemma set_eqb_perm l l' : Permutation l l' -> set_eqb l l' = true.
Proof. intro H. apply set_eqb_iff. intro a. split; apply Permutation_in; [assumption|now symmetry]. Qed.
Lemma set_eqb_NoDup l l' : NoDup l -> NoDup l' -> set_eqb l l' = true -> Permutation l l'.
Proof. intros H1 H2 H. apply NoDup_Permutation; [assumption|assumption|]. now apply set_eqb_iff. Qed.

Lemma shuffle_perm perm t l : (forall t n, Permutation (perm t n) (seq 0 n)) ->
  Permutation (shuffle perm t l) l.
Proof.
  intro H. unfold shuffle. rewrite (Permutation_map _ (H t (length l))), map_nth_seq. reflexivity.
Qed.

Lemma existsb_count {A} (f : A -> bool) l : existsb f l = true <-> 1 <= count f l.
Proof.
  rewrite existsb_exists. rewrite <- count_pos. split; lia.
Qed.
Lemma existsb_count0 {A} (f : A -> bool) l : existsb f l = (negb (count f l =? 0)).
Proof.
  destruct (existsb f l) eqn:E.
  - apply existsb_count in E. symmetry. apply negb_true_iff, Nat.eqb_neq. lia.
  - symmetry. apply negb_false_iff, Nat.eqb_eq. destruct (count f l) eqn:C; [reflexivity|].
    assert (existsb f l = true) by (apply existsb_count; lia). congruence.
Qed.
Lemma existsb_perm {A} (f : A -> bool) l l' : Permutation l l' -> existsb f l = existsb f l'.
Proof. intro H. rewrite !existsb_count0. now rewrite (count_perm f _ _ H). Qed.

(** ** One split *)
Lemma concat_upd_split (p : list (list nat)) c l r : c < length p -> Permutation (l ++ r) (nth c p []) ->
  Permutation (concat (upd c l p ++ [r])) (concat p).
Proof.
  intros Hc HP. destruct (upd_split c l p Hc) as (u & w & d & E & Hl & ->).
  assert (D : nth c p [] = d). { rewrite E, <- Hl, app_nth2, Nat.sub_diag by lia. reflexivity. }
  rewrite D in HP. rewrite E, !concat_app. simpl. rewrite app_nil_r, <- HP, <- !app_assoc.
  apply Permutation_app_head. apply Permutation_app_head. apply Permutation_app_comm.
Qed.
Lemma count_upd_split {A} (f : A -> bool) (p : list A) c l r d : c < length p ->
  count f (upd c l p ++ [r]) + (if f (nth c p d) then 1 else 0) =
  count f p + (if f l then 1 else 0) + (if f r then 1 else 0).
Proof.
  intros Hc. destruct (upd_split c l p Hc) as (u & w & e & E & Hl & ->).
  assert (D : nth c p d = e). { rewrite E, <- Hl, app_nth2, Nat.sub_diag by lia. reflexivity. }
  rewrite D, E, !count_app, !count_cons, count_nil. lia.
Qed.

Lemma nodup_member {A} (p : list (list A)) S : NoDup (concat p) -> In S p -> NoDup S.
Proof.
  intros H HS. apply in_split in HS as (u & v & ->). rewrite concat_app in H. cbn in H.
  apply NoDup_app_inv in H as (_ & H & _). now apply NoDup_app_inv in H as (H & _ & _).
Qed.

Definition rinv (k : nat) (bad : nat -> bool) (old : list (list nat)) (st : rstate) : Prop :=
  refined_by k bad (r_cnt st) old (r_part st) /\
  changed_indices old (r_part st) (r_new st) /\
  (forall c, In c (r_new st) -> existsb bad (nth c (r_part st) []) = true).

Lemma rinv_init k bad old : valid_partition k old -> rinv k bad old (mkR old [] 0).
Proof.
  intro H. split; [|split]; simpl.
  - repeat split; try apply H; try (simpl; lia).
    + apply Forall_forall. intros S HS. exists S. split; [assumption|apply incl_refl].
    + apply incl_refl.
  - repeat split; try constructor; [|intros c _ []]. simpl. now rewrite Nat.sub_diag.
  - intros c [].
Qed.

Lemma valid_upd_split k p c l r : valid_partition k p -> c < length p ->
  Permutation (l ++ r) (nth c p []) -> l <> [] -> r <> [] -> valid_partition k (upd c l p ++ [r]).
Proof.
  intros [V1 V2] Hc HP Hl Hr. split; [now rewrite concat_upd_split|].
  destruct (upd_split c l p Hc) as (u & w & d & E & _ & ->). rewrite E in V2.
  rewrite Forall_app, Forall_cons_iff in V2. destruct V2 as (A & _ & B).
  rewrite !Forall_app, Forall_cons_iff. repeat split; try assumption. constructor; [assumption|constructor].
Qed.

Lemma nth_In_new (p : list (list nat)) c l r S : In S (upd c l p ++ [r]) -> c < length p ->
  S = l \/ S = r \/ In S p.
Proof.
  intros H Hc. apply in_app_iff in H as [H|[<-|[]]]; [|auto].
  destruct (upd_split c l p Hc) as (u & w & d & E & _ & E2). rewrite E2 in H. rewrite E.
  rewrite in_app_iff in *. simpl in *. intuition.
Qed.

Lemma rinv_split k bad old st c l r : rinv k bad old st -> c < length (r_part st) ->
  Permutation (l ++ r) (nth c (r_part st) []) -> existsb bad l = true -> existsb bad r = true ->
  let p' := upd c l (r_part st) ++ [r] in
  rinv k bad old (mkR p' (add_new (r_new st) c (length p' - 1)) (S (r_cnt st))).
Proof.
  destruct st as [p new n]. intros ((V & HL & HR & HB & HI) & (ND & HF & HB2 & HU & HD) & HN) Hc HP Bl Br.
  cbn [r_part r_new r_cnt] in *. cbv zeta.
  assert (Lp : length (upd c l p ++ [r]) = S (length p)) by (rewrite app_length, upd_length; simpl; lia).
  assert (Nl : l <> []) by (intros ->; discriminate).
  assert (Nr : r <> []) by (intros ->; discriminate).
  assert (BS : existsb bad (nth c p []) = true).
  { rewrite <- (existsb_perm _ _ _ HP), existsb_app, Bl. reflexivity. }
  assert (Il : incl l (nth c p [])). { intros a Ha. eapply Permutation_in; [exact HP|]. apply in_app_iff; auto. }
  assert (Ir : incl r (nth c p [])). { intros a Ha. eapply Permutation_in; [exact HP|]. apply in_app_iff; auto. }
  assert (Nth : forall i, i <> c -> i < length p -> nth i (upd c l p ++ [r]) [] = nth i p []).
  { intros i Hi Hip. rewrite app_nth1 by (rewrite upd_length; lia). now apply nth_upd_neq; auto. }
  assert (Nc : nth c (upd c l p ++ [r]) [] = l).
  { rewrite app_nth1 by (rewrite upd_length; lia). now apply nth_upd_eq. }
  replace (length (upd c l p ++ [r]) - 1) with (length p) by lia.
  assert (InA : forall i, In i (add_new new c (length p)) <-> In i new \/ i = c \/ i = length p).
  { intro i. unfold add_new. destruct (memb c new) eqn:M.
    - apply memb_In in M. rewrite in_app_iff. simpl. intuition. subst. tauto.
    - rewrite !in_app_iff. simpl. intuition. }
  split; [|split]; cbn [r_part r_new r_cnt].
  - split; [now apply valid_upd_split|]. split; [lia|]. split.
    { unfold refines in *. rewrite Forall_forall in HR. apply Forall_forall. intros T HT.
      assert (HS : exists U, In U old /\ incl (nth c p []) U) by (apply HR, nth_In, Hc).
      destruct HS as (U & HU1 & HU2).
      apply nth_In_new in HT as [-> | [-> | HT]]; [| |now apply HR|assumption];
        exists U; split; try assumption; eapply incl_tran; eassumption. }
    split.
    { unfold nb_bad in *. assert (E := count_upd_split (existsb bad) p c l r [] Hc).
      rewrite BS, Bl, Br in E. lia. }
    intros i Hi. destruct (HI i Hi) as [HI1 HI2]. destruct (Nat.eq_dec i c) as [->|Ne].
    + rewrite Nc. split; [eapply incl_tran; eassumption|]. intro E. rewrite HI2 in BS by assumption. congruence.
    + rewrite Nth by lia. auto.
  - split; [|split; [|split; [|split]]].
    + unfold add_new. rewrite Forall_forall in HB2. destruct (memb c new) eqn:M.
      * apply NoDup_app; [assumption|repeat constructor; auto|]. intros a Ha [<-|[]]. apply HB2 in Ha. lia.
      * apply memb_false in M. apply NoDup_app; [apply NoDup_app|..]; try assumption; try (repeat constructor; simpl; tauto).
        -- intros a Ha [<-|[]]. tauto.
        -- intros a Ha [<-|[]]. apply in_app_iff in Ha as [Ha|[Ha|[]]]; [apply HB2 in Ha|]; lia.
    + replace (length (upd c l p ++ [r]) - length old) with (S n) by lia.
      replace (length p - length old) with n in HF by lia.
      assert (Q : length old <=? length p = true) by (apply Nat.leb_le; lia).
      rewrite seq_S, <- HF, <- HL. unfold add_new. destruct (memb c new) eqn:M; rewrite !filter_app; cbn [filter]; rewrite Q.
      * reflexivity.
      * replace (length old <=? c) with false; [now rewrite app_nil_r|].
        symmetry. apply Nat.leb_gt. apply memb_false in M. destruct (le_lt_dec (length old) c); [|assumption].
        exfalso. apply M. assert (In c (filter (fun c0 => length old <=? c0) new)); [|apply filter_In in H; tauto].
        rewrite HF. apply in_seq. lia.
    + apply Forall_forall. intros i Hi. apply InA in Hi as [Hi|[-> | ->]]; [|lia|lia].
      rewrite Forall_forall in HB2. apply HB2 in Hi. lia.
    + intros i Hi Hn. rewrite InA in Hn. rewrite Nth by (intuition; lia). apply HU; [assumption|tauto].
    + intros i Hi Hn. destruct (Nat.eq_dec i c) as [->|Ne].
      * rewrite Nc. intros ->. destruct r as [|a r]; [now contradiction Nr|].
        assert (NDS : NoDup (nth c p [])) by (apply (nodup_member p); [now apply vp_NoDup_concat in V|now apply nth_In]).
        assert (NDl := Permutation_NoDup (Permutation_sym HP) NDS). apply NoDup_remove_2 in NDl. apply NDl.
        apply in_app_iff. left. apply (proj1 (HI c Hi)), Ir. now left.
      * rewrite Nth by lia. apply HD; [exact Hi|]. apply InA in Hn. intuition lia.
  - intros i Hi. rewrite InA in Hi. destruct (Nat.eq_dec i c) as [->|Ne]; [now rewrite Nc|].
    destruct (Nat.eq_dec i (length p)) as [->|Ne'].
    + rewrite app_nth2, upd_length, Nat.sub_diag by (rewrite upd_length; lia). exact Br.
    + assert (Hi' : In i new) by tauto. rewrite Forall_forall in HB2. rewrite Nth; auto.
Qed.

(** ** Reading the infeasibility pattern *)

Lemma memb_pattern k bad s : s < k -> memb s (filter bad (seq 0 k)) = bad s.
Proof.
  intro H. destruct (bad s) eqn:E.
  - apply memb_In, filter_In. split; [apply in_seq; lia|assumption].
  - apply memb_false. intro C. apply filter_In in C as [_ C]. congruence.
Qed.
Lemma flags_nth k (bad : nat -> bool) s : s < k -> geti (map bad (seq 0 k)) s = Ok (bad s).
Proof.
  intro H. rewrite (geti_ok _ _ (bad 0)) by (now rewrite map_length, seq_length).
  now rewrite map_nth, seq_nth.
Qed.

Lemma vp_nth_lt k p c s : valid_partition k p -> In s (nth c p []) -> s < k.
Proof.
  intros V H. destruct (le_lt_dec (length p) c) as [L|L]; [rewrite nth_overflow in H by assumption; destruct H|].
  apply (vp_In _ _ _ V). exists (nth c p []). split; [now apply nth_In|assumption].
Qed.
Lemma vp_In_lt k p S s : valid_partition k p -> In S p -> In s S -> s < k.
Proof. intros V H1 H2. apply (vp_In _ _ _ V). eauto. Qed.
Lemma vp_nth_NoDup k p c : valid_partition k p -> NoDup (nth c p []).
Proof.
  intro V. destruct (le_lt_dec (length p) c) as [L|L]; [rewrite nth_overflow by assumption; constructor|].
  assert (N := vp_NoDup_concat _ _ V). destruct (nth_split_eq p c [] L) as (u & w & E & _).
  rewrite E, concat_app in N. simpl in N. apply NoDup_app_inv in N as (_ & N & _).
  now apply NoDup_app_inv in N as (N & _ & _).
Qed.

Lemma count_infeasible_spec k bad p : valid_partition k p ->
  count_infeasible p (filter bad (seq 0 k)) = map (count bad) p.
Proof.
  intro V. unfold count_infeasible. apply map_ext_in. intros S HS. apply count_ext. intros s Hs.
  apply memb_pattern. eapply vp_In_lt; eassumption.
Qed.
Lemma count_infeasible_nth k bad p c : valid_partition k p ->
  nth c (count_infeasible p (filter bad (seq 0 k))) 0 = count bad (nth c p []).
Proof. intro V. rewrite count_infeasible_spec by assumption. now rewrite <- (map_nth (count bad) p []). Qed.

Lemma find_infeasible_spec k bad p : valid_partition k p ->
  find_infeasible_subsets p (filter bad (seq 0 k)) = (good_indices bad p, bad_indices bad p).
Proof.
  intro V. unfold find_infeasible_subsets. cbv zeta. f_equal; apply filter_ext_in; intros c Hc;
    rewrite (count_infeasible_nth k bad p c V), existsb_count0, ?negb_involutive; reflexivity.
Qed.
Lemma bad_indices_length bad p : length (bad_indices bad p) = nb_bad bad p.
Proof.
  unfold nb_bad. rewrite <- (map_nth_seq p []) at 2. rewrite count_map. reflexivity.
Qed.
Lemma good_indices_length bad p : length (good_indices bad p) + nb_bad bad p = length p.
Proof.
  rewrite <- bad_indices_length.
  assert (E := count_negb (fun c => existsb bad (nth c p [])) (seq 0 (length p))).
  rewrite seq_length in E. unfold count in E. unfold good_indices, bad_indices. lia.
Qed.

Lemma total_bad k bad p : valid_partition k p -> list_sum (map (count bad) p) = count bad (seq 0 k).
Proof. intros [V _]. rewrite <- count_concat. now apply count_perm. Qed.
Lemma nb_bad_le k bad p : valid_partition k p -> nb_bad bad p <= count bad (seq 0 k).
Proof.
  intro V. rewrite <- (total_bad k bad p V). unfold nb_bad. clear V. induction p as [|S p IH]; [simpl; rewrite count_nil; lia|].
  simpl map. rewrite count_cons. cbn [list_sum fold_right].
  destruct (existsb bad S) eqn:E; [apply existsb_count in E|]; unfold list_sum in IH; lia.
Qed.
(** More bad scenarios than bad subsets: some subset has two of them. *)
Lemma pigeonhole k bad p : valid_partition k p -> nb_bad bad p < count bad (seq 0 k) ->
  exists c, c < length p /\ 2 <= count bad (nth c p []).
Proof.
  intros V. rewrite <- (total_bad k bad p V). unfold nb_bad. clear V. induction p as [|S p IH]; [simpl; rewrite count_nil; lia|].
  simpl map. rewrite count_cons. cbn [list_sum fold_right]. intro H.
  destruct (le_lt_dec 2 (count bad S)) as [L|L]; [exists 0; simpl; lia|].
  destruct IH as (c & Hc & H2).
  - destruct (existsb bad S) eqn:E; unfold list_sum; [lia|]. rewrite existsb_count0 in E.
    apply negb_false_iff, Nat.eqb_eq in E. lia.
  - exists (Datatypes.S c). simpl. split; [lia|assumption].
Qed.

(** ** Splitting a subset *)
Lemma stride2_perm {A} (l : list A) : Permutation (stride 0 2 l ++ stride 1 2 l) l.
Proof. rewrite <- (strides_perm l 2) at 3 by lia. simpl. now rewrite app_nil_r. Qed.

Lemma split_scenarios_spec l : exists a b, split_scenarios l = Ok (a, b) /\ Permutation (a ++ b) l /\
  (2 <= length l -> a <> [] /\ b <> []).
Proof.
  unfold split_scenarios, split_sorted_subset. destruct (2 <=? length l) eqn:E.
  - simpl. exists (stride 0 2 l), (stride 1 2 l). split; [reflexivity|]. split; [apply stride2_perm|].
    intros _. apply Nat.leb_le in E. destruct l as [|a [|b l]]; simpl in *; try lia. split; discriminate.
  - exists l, []. split; [reflexivity|]. split; [now rewrite app_nil_r|]. apply Nat.leb_gt in E. lia.
Qed.

Lemma split_flags (bad : nat -> bool) l :
  map fst (filter snd (combine l (map bad l))) = filter bad l /\
  map fst (filter (fun sf => negb (snd sf)) (combine l (map bad l))) = filter (fun s => negb (bad s)) l.
Proof.
  induction l as [|a l [IH1 IH2]]; [auto|]. simpl. destruct (bad a); simpl; rewrite ?IH1, ?IH2; auto.
Qed.

Lemma filter_partition {A} (f : A -> bool) l : Permutation (filter f l ++ filter (fun a => negb (f a)) l) l.
Proof.
  induction l as [|a l IH]; [reflexivity|]. simpl. destruct (f a); simpl; [now constructor|].
  rewrite <- Permutation_middle. now constructor.
Qed.

Lemma split_subset_spec k (bad : nat -> bool) p c scen : valid_partition k p -> c < length p ->
  Permutation scen (nth c p []) -> 2 <= count bad (nth c p []) ->
  exists l r, split_scenarios_subset (map bad (seq 0 k)) p scen c = Ok (upd c l p ++ [r]) /\
    Permutation (l ++ r) (nth c p []) /\ existsb bad l = true /\ existsb bad r = true.
Proof.
  intros V Hc HP H2. unfold split_scenarios_subset. rewrite (geti_ok _ _ [] Hc). cbn [rbind].
  assert (E1 : length (nth c p []) =? length scen = true).
  { apply Nat.eqb_eq. symmetry. now apply Permutation_length. }
  rewrite E1, set_eqb_perm by (now symmetry). cbn [rassert rbind].
  rewrite (rmap_ok _ bad).
  2:{ intros s Hs. apply flags_nth. apply (vp_nth_lt k p c s V). eapply Permutation_in; eassumption. }
  cbn [rbind]. cbv zeta. destruct (split_flags bad scen) as [-> ->].
  assert (E2 : 2 <= length (filter bad scen)).
  { change (2 <= count bad scen). now rewrite (count_perm _ _ _ HP). }
  rewrite (proj2 (Nat.leb_le _ _) E2). cbn [rassert rbind].
  destruct (split_scenarios_spec (filter bad scen)) as (li & ri & -> & P1 & N1). cbn [rbind].
  destruct (split_scenarios_spec (filter (fun s => negb (bad s)) scen)) as (lf & rf & -> & P2 & _). cbn [rbind].
  destruct (N1 E2) as [Nl Nr]. exists (li ++ lf), (ri ++ rf). split; [reflexivity|]. split.
  - rewrite <- HP, <- (filter_partition bad scen), <- P1, <- P2, <- !app_assoc.
    apply Permutation_app_head. rewrite !app_assoc. apply Permutation_app_tail, Permutation_app_comm.
  - assert (B : forall a, In a (li ++ ri) -> bad a = true).
    { intros a Ha. apply (Permutation_in _ P1) in Ha. now apply filter_In in Ha. }
    destruct li as [|a li]; [congruence|]. destruct ri as [|b ri]; [congruence|].
    simpl. rewrite (B a) by now left. rewrite (B b); [auto|]. apply in_app_iff. right. now left.
Qed.

(** ** One pass *)
Lemma traverse_spec perm k bad old mu nbinf : (forall t n, Permutation (perm t n) (seq 0 n)) ->
  forall cs st t, rinv k bad old st -> r_cnt st <= mu -> NoDup cs ->
  (forall c, In c cs -> c < length (r_part st) /\ c < length nbinf /\ nth c nbinf 0 = count bad (nth c (r_part st) [])) ->
  exists st' t', traverse perm (map bad (seq 0 k)) mu nbinf st t cs = Ok (st', t') /\
    rinv k bad old st' /\ r_cnt st <= r_cnt st' <= mu /\
    (r_cnt st < mu -> (exists c, In c cs /\ 2 <= nth c nbinf 0) -> r_cnt st < r_cnt st').
Proof.
  intros HPm. induction cs as [|c cs IH]; intros st t HR Hmu ND H.
  - exists st, t. cbn [traverse]. split; [reflexivity|]. split; [assumption|]. split; [lia|].
    intros _ (c & [] & _).
  - cbn [traverse]. inversion ND as [|? ? N1 N2]; subst.
    destruct (H c (or_introl eq_refl)) as (H1 & H2 & H3).
    assert (Hcs : forall c0, In c0 cs -> c0 < length (r_part st) /\ c0 < length nbinf /\
              nth c0 nbinf 0 = count bad (nth c0 (r_part st) [])) by (intros; apply H; now right).
    destruct (r_cnt st <? mu) eqn:E.
    + rewrite (geti_ok _ _ 0 H2). cbn [rbind andb]. apply Nat.ltb_lt in E.
      destruct (2 <=? nth c nbinf 0) eqn:E2.
      * apply Nat.leb_le in E2. rewrite (geti_ok _ _ [] H1). cbn [rbind]. cbv zeta.
        assert (V : valid_partition k (r_part st)) by apply HR.
        destruct (split_subset_spec k bad (r_part st) c (shuffle perm t (nth c (r_part st) [])) V H1) as (l & r & -> & HP & Bl & Br).
        { now apply shuffle_perm. }
        { now rewrite <- H3. }
        cbn [rbind]. assert (HR' := rinv_split k bad old st c l r HR H1 HP Bl Br). cbv zeta in HR'.
        destruct (IH _ (S t) HR') as (st' & t' & -> & A1 & A2 & _); [simpl; lia|assumption| |].
        { intros c0 Hc0. destruct (Hcs c0 Hc0) as (B1 & B2 & B3). cbn [r_part].
          rewrite app_length, upd_length, app_nth1 by (rewrite upd_length; assumption).
          rewrite nth_upd_neq by (intros ->; contradiction). repeat split; try assumption; lia. }
        exists st', t'. split; [reflexivity|]. split; [assumption|]. cbn [r_cnt] in A2. split; [lia|]. intros; lia.
      * destruct (IH st t HR Hmu N2 Hcs) as (st' & t' & -> & A1 & A2 & A3).
        exists st', t'. split; [reflexivity|]. split; [assumption|]. split; [assumption|].
        intros Hlt (c0 & [<-|Hc0] & Hc2); [apply Nat.leb_gt in E2; lia|]. apply A3; eauto.
    + cbn [rbind andb]. destruct (IH st t HR Hmu N2 Hcs) as (st' & t' & -> & A1 & A2 & A3).
      exists st', t'. split; [reflexivity|]. split; [assumption|]. split; [assumption|].
      apply Nat.ltb_ge in E. intros; lia.
Qed.

Lemma pass_spec perm k bad old mu st t : (forall t n, Permutation (perm t n) (seq 0 n)) ->
  rinv k bad old st -> r_cnt st <= mu ->
  exists st' t', traverse perm (map bad (seq 0 k)) mu (count_infeasible (r_part st) (filter bad (seq 0 k)))
      st (S t) (shuffle perm t (seq 0 (length (r_part st)))) = Ok (st', t') /\
    rinv k bad old st' /\ r_cnt st <= r_cnt st' <= mu /\
    (r_cnt st < mu -> nb_bad bad (r_part st) < count bad (seq 0 k) -> r_cnt st < r_cnt st').
Proof.
  intros HPm HR Hmu. assert (V : valid_partition k (r_part st)) by apply HR.
  assert (PS := shuffle_perm perm t (seq 0 (length (r_part st))) HPm).
  destruct (traverse_spec perm k bad old mu (count_infeasible (r_part st) (filter bad (seq 0 k))) HPm
              (shuffle perm t (seq 0 (length (r_part st)))) st (S t) HR Hmu) as (st' & t' & E & A1 & A2 & A3).
  - apply (Permutation_NoDup (l := seq 0 (length (r_part st)))); [now symmetry|apply seq_NoDup].
  - intros c Hc. apply (Permutation_in _ PS), in_seq in Hc. split; [lia|].
    split; [unfold count_infeasible; rewrite map_length; lia|]. now apply count_infeasible_nth.
  - exists st', t'. split; [assumption|]. split; [assumption|]. split; [assumption|]. intros Hlt Hb.
    apply A3; [assumption|]. destruct (pigeonhole k bad (r_part st) V Hb) as (c & Hc & H2).
    exists c. split; [|now rewrite (count_infeasible_nth k bad)].
    apply (Permutation_in (l := seq 0 (length (r_part st)))); [now symmetry|]. apply in_seq. lia.
Qed.

(** ** The while loop *)
Lemma random_loop_spec perm k bad old mu : (forall t n, Permutation (perm t n) (seq 0 n)) ->
  nb_bad bad old + mu <= count bad (seq 0 k) ->
  forall fuel st t, rinv k bad old st -> r_cnt st <= mu -> mu - r_cnt st <= fuel ->
  exists st' t', random_loop fuel perm (map bad (seq 0 k)) (filter bad (seq 0 k)) mu st t = Ok (st', t') /\
    rinv k bad old st' /\ r_cnt st' = mu.
Proof.
  intros HPm HB. induction fuel as [|fuel IH]; intros st t HR Hmu Hf.
  - assert (r_cnt st = mu) as Em by lia. cbn [random_loop]. rewrite Em, Nat.ltb_irrefl, Nat.eqb_refl. simpl.
    exists st, t. auto.
  - cbn [random_loop]. destruct (r_cnt st <? mu) eqn:E.
    + apply Nat.ltb_lt in E. cbv zeta.
      destruct (pass_spec perm k bad old mu st t HPm HR Hmu) as (st' & t' & -> & A1 & A2 & A3). cbn [rbind].
      apply IH; [assumption|lia|]. assert (r_cnt st < r_cnt st'); [|lia]. apply A3; [assumption|].
      destruct HR as ((_ & _ & _ & HB' & _) & _). lia.
    + apply Nat.ltb_ge in E. assert (r_cnt st = mu) as Em by lia. rewrite Em, Nat.eqb_refl. simpl. exists st, t. auto.
Qed.

Lemma random_loop_diverges perm k bad old mu : (forall t n, Permutation (perm t n) (seq 0 n)) ->
  count bad (seq 0 k) < nb_bad bad old + mu ->
  forall fuel st t, rinv k bad old st -> r_cnt st <= mu ->
  random_loop fuel perm (map bad (seq 0 k)) (filter bad (seq 0 k)) mu st t = Err NonTermination.
Proof.
  intros HPm HB. assert (G : forall st, rinv k bad old st -> r_cnt st <? mu = true).
  { intros st ((V & _ & _ & HB' & _) & _). apply Nat.ltb_lt. assert (N := nb_bad_le k bad _ V). lia. }
  induction fuel as [|fuel IH]; intros st t HR Hmu; cbn [random_loop]; rewrite (G st HR); [reflexivity|].
  cbv zeta. destruct (pass_spec perm k bad old mu st t HPm HR Hmu) as (st' & t' & -> & A1 & A2 & A3). cbn [rbind].
  apply IH; [assumption|lia].
Qed.

(** ** refine *)
Lemma number_of_splits_spec I n : (0 <= i_eps I)%Q ->
  number_of_splits I n = if n <=? tolerated I then Ok (tolerated I + 1 - n) else Err AssertionError.
Proof.
  intro He. unfold number_of_splits, tolerated. cbv zeta.
  assert (0 <= Qfloor (i_eps I * Qn (i_k I)))%Z.
  { change 0%Z with (Qfloor 0). apply Qfloor_resp_le. apply Qmult_le_0_compat; [assumption|apply Qn_nonneg]. }
  set (z := Qfloor _) in *. destruct (n <=? Z.to_nat z) eqn:E.
  - apply Nat.leb_le in E. rewrite (proj2 (Z.leb_le _ _)) by lia. simpl. f_equal. lia.
  - apply Nat.leb_gt in E. rewrite (proj2 (Z.leb_gt _ _)) by lia. reflexivity.
Qed.

Lemma check_final_ok k bad mu old p : valid_partition k old -> refined_by k bad mu old p -> 1 <= mu ->
  check_final_partition k p old mu = Ok tt.
Proof.
  intros [_ Ho] ((V1 & V2) & HL & _) Hmu. unfold check_final_partition.
  assert (E1 : part_eqb p old = false).
  { unfold part_eqb. destruct (list_eq_dec _ p old) as [->|]; [lia|reflexivity]. }
  assert (NE : forall q : list (list nat), Forall (fun S => S <> []) q -> forallb (fun S => negb (length S =? 0)) q = true).
  { intros q Hq. apply forallb_forall. intros S HS. rewrite Forall_forall in Hq. apply Hq in HS.
    destruct S; [congruence|reflexivity]. }
  rewrite E1, (NE p V2), (NE old Ho), (proj2 (Nat.eqb_eq _ _) HL), (set_eqb_perm _ _ V1).
  assert (E2 : length (concat p) =? k = true).
  { apply Nat.eqb_eq. rewrite (Permutation_length V1). apply seq_length. }
  rewrite E2. simpl. rewrite (proj2 (Nat.ltb_lt _ _)) by lia. reflexivity.
Qed.

Lemma refine_with_ok {X} I bad fm old (split : nat -> rstate -> res (rstate * X)) st x :
  (0 <= i_eps I)%Q -> valid_partition (i_k I) old -> nb_bad bad old <= tolerated I ->
  split (tolerated I + 1 - nb_bad bad old) (mkR old [] 0) = Ok (st, x) ->
  rinv (i_k I) bad old st -> r_cnt st = tolerated I + 1 - nb_bad bad old ->
  exists R, refine_with I (pattern (i_k I) bad fm) old split = Ok (R, x) /\
    refinement_ok (i_k I) bad (tolerated I + 1 - nb_bad bad old) old R.
Proof.
  intros He V Hb HS HR HC. unfold refine_with. cbn [f_infeasible pattern].
  rewrite (find_infeasible_spec (i_k I) bad old V), bad_indices_length, number_of_splits_spec by assumption.
  rewrite (proj2 (Nat.leb_le _ _) Hb). cbn [rbind]. rewrite HS. cbn [rbind].
  destruct HR as (HR1 & HR2 & HR3). rewrite HC in HR1.
  rewrite (check_final_ok (i_k I) bad) by (assumption || lia). cbn [rbind].
  rewrite (find_infeasible_spec (i_k I) bad (r_part st)) by apply HR1.
  eexists. split; [reflexivity|]. split; [exact HR1|]. split; [exact HR2|]. cbn. repeat split; try reflexivity. now apply Forall_forall.
Qed.

Lemma refine_random_ok perm I bad fm old t fuel : (forall t n, Permutation (perm t n) (seq 0 n)) ->
  (0 <= i_eps I)%Q -> valid_partition (i_k I) old -> nb_bad bad old <= tolerated I ->
  tolerated I < count bad (seq 0 (i_k I)) -> tolerated I + 1 - nb_bad bad old <= fuel ->
  exists R t', refine_random fuel perm I (pattern (i_k I) bad fm) t old = Ok (R, t') /\
    refinement_ok (i_k I) bad (tolerated I + 1 - nb_bad bad old) old R.
Proof.
  intros HPm He V Hb Ht Hf.
  destruct (random_loop_spec perm (i_k I) bad old (tolerated I + 1 - nb_bad bad old) HPm) with (fuel := fuel)
    (st := mkR old [] 0) (t := t) as (st & t' & E & HR & HC); [lia|now apply rinv_init|simpl; lia|simpl; lia|].
  destruct (refine_with_ok I bad fm old (fun mu st => random_loop fuel perm (map bad (seq 0 (i_k I)))
     (filter bad (seq 0 (i_k I))) mu st t) st t' He V Hb E HR HC) as (R & ER & HRR).
  exists R, t'. split; [exact ER|assumption].
Qed.

Lemma refine_random_diverges perm I bad fm old t fuel : (forall t n, Permutation (perm t n) (seq 0 n)) ->
  (0 <= i_eps I)%Q -> valid_partition (i_k I) old -> count bad (seq 0 (i_k I)) <= tolerated I ->
  refine_random fuel perm I (pattern (i_k I) bad fm) t old = Err NonTermination.
Proof.
  intros HPm He V Ht. assert (Hb := nb_bad_le _ bad _ V).
  unfold refine_random, refine_with. cbn [f_infeasible f_flags pattern].
  rewrite (find_infeasible_spec (i_k I) bad old V), bad_indices_length, number_of_splits_spec by assumption.
  rewrite (proj2 (Nat.leb_le _ _)) by lia. cbn [rbind].
  rewrite (random_loop_diverges perm (i_k I) bad old) ; try assumption; [reflexivity|lia|now apply rinv_init|simpl; lia].
Qed.

(** Too many bad subsets: the assertion on mu fails, whatever the method. *)
Lemma refine_with_fails {X} I bad fm old (split : nat -> rstate -> res (rstate * X)) :
  (0 <= i_eps I)%Q -> valid_partition (i_k I) old -> tolerated I < nb_bad bad old ->
  refine_with I (pattern (i_k I) bad fm) old split = Err AssertionError.
Proof.
  intros He V Hb. unfold refine_with. cbn [f_infeasible pattern].
  rewrite (find_infeasible_spec (i_k I) bad old V), bad_indices_length, number_of_splits_spec by assumption.
  now rewrite (proj2 (Nat.leb_gt _ _) Hb).
Qed.

(** ** After check_feasibility *)
Lemma nb_bad_nunsat I x p : nb_bad (violated I x) p = nunsat I tol6 x p.
Proof.
  unfold nb_bad, nunsat. apply count_ext. intros S _. unfold subset_satb, violated.
  induction S as [|s S IH]; [reflexivity|]. simpl. rewrite IH. now destruct (satb I tol6 x s).
Qed.

Lemma check_pattern norm I x : (forall r, (0 <= norm r)%Q) ->
  exists fm, snd (check_feasibility norm I x) = pattern (i_k I) (violated I x) fm.
Proof.
  intro Hn. destruct (check_feasibility norm I x) as [ok f] eqn:E.
  assert (E1 := check_feasibility_flags norm I x). assert (E2 := check_feasibility_infeasible norm I x).
  rewrite E in E1, E2. cbn [snd] in *. exists (f_max f). destruct f as [fl inf fm]. cbn [f_flags f_infeasible f_max] in *.
  unfold pattern. now rewrite E1, E2.
Qed.
Lemma check_infeasible_count norm I x : (0 <= i_eps I)%Q ->
  (fst (check_feasibility norm I x) = false <-> tolerated I < count (violated I x) (seq 0 (i_k I))).
Proof.
  intros He. assert (H := check_feasibility_verdict norm I x).
  change (count (violated I x) (seq 0 (i_k I))) with (nviol I tol6 x). rewrite tolerated_le in H by assumption.
  destruct (fst (check_feasibility norm I x)); split; intro H'; try congruence.
  - assert (nviol I tol6 x <= tolerated I) by tauto. lia.
  - destruct (le_lt_dec (nviol I tol6 x) (tolerated I)); [exfalso; assert (false = true) by tauto; discriminate|assumption].
Qed.
Lemma nunsat_tolerated I p x : (0 <= i_eps I)%Q -> part_feasible I p tol6 x -> nunsat I tol6 x p <= tolerated I.
Proof. intros He [_ H]. now apply tolerated_le. Qed.

(** ** The refinement excludes the point *)
Lemma refined_cuts I bad mu old new : (0 <= i_eps I)%Q -> refined_by (i_k I) bad mu old new ->
  tolerated I + 1 - nb_bad bad old <= mu -> tolerated I < nb_bad bad new.
Proof. intros He (_ & _ & _ & E & _) H. lia. Qed.
Lemma cut_not_feasible I x p tau : (0 <= i_eps I)%Q -> (tau <= tol6)%Q -> valid_partition (i_k I) p ->
  tolerated I < nb_bad (violated I x) p -> ~ part_feasible I p tau x.
Proof.
  intros He Ht V Hb [_ H]. apply tolerated_le in H; [|assumption]. rewrite nb_bad_nunsat in Hb.
  assert (nunsat I tol6 x p <= nunsat I tau x p); [|lia].
  apply count_mono. intros S _. rewrite !negb_true_iff. intro E.
  apply subset_satb_false in E as (s & Hs & E). apply subset_satb_false. exists s. split; [assumption|].
  destruct (satb I tau x s) eqn:E2; [|reflexivity]. now rewrite (satb_mono_tau I tau tol6 x s Ht E2) in E.
Qed.
