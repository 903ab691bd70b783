(** Merging of subsets. *)
From Verif Require Import Base BaseFacts Spec Instance InstanceFacts PartitionFacts OptFacts Bounds BoundsFacts
  Refine RefineFacts Merge.

(** ** Survivors *)
Definition gather {A} (d : A) (l : list A) (is : list nat) : list A := map (fun i => nth i l d) is.

Lemma combine_seq_nth {A} (l : list A) d : forall a, combine (seq a (length l)) l =
  map (fun i => (i, nth (i - a) l d)) (seq a (length l)).
Proof.
  induction l as [|x l IH]; intro a; [reflexivity|]. simpl. rewrite Nat.sub_diag. f_equal.
  rewrite IH. apply map_ext_in. intros i Hi. apply in_seq in Hi. f_equal.
  replace (i - a) with (S (i - S a)) by lia. reflexivity.
Qed.
Lemma survivors_gather {A} (d : A) D l :
  survivors D l = gather d l (filter (kept D) (seq 0 (length l))).
Proof.
  unfold survivors, gather. rewrite (combine_seq_nth l d 0).
  induction (seq 0 (length l)) as [|i L IH]; [reflexivity|]. simpl.
  destruct (kept D i); simpl; rewrite IH, ?Nat.sub_0_r; reflexivity.
Qed.
Lemma survivors_ext {A} D D' (l : list A) : (forall i, i < length l -> (In i D <-> In i D')) ->
  survivors D l = survivors D' l.
Proof.
  intro H. destruct l as [|d l]; [reflexivity|]. rewrite !(survivors_gather d). f_equal. apply filter_ext_in.
  intros i Hi. apply in_seq in Hi. unfold kept. f_equal.
  destruct (memb i D) eqn:E1, (memb i D') eqn:E2; try reflexivity.
  - apply memb_In, H, memb_In in E1; [congruence|lia].
  - apply memb_In, H, memb_In in E2; [congruence|lia].
Qed.
Lemma survivors_length {A} D (l : list A) : NoDup D -> Forall (fun i => i < length l) D ->
  length (survivors D l) + length D = length l.
Proof.
  intros ND HF. destruct l as [|d l].
  - destruct D as [|a D]; [reflexivity|]. inversion HF; simpl in *; lia.
  - rewrite (survivors_gather d). unfold gather. rewrite map_length. set (n := length (d :: l)) in *.
    assert (E := count_negb (kept D) (seq 0 n)). rewrite seq_length in E. unfold count in E.
    assert (E2 : length (filter (fun a => negb (kept D a)) (seq 0 n)) = length D); [|lia].
    apply Permutation_length. apply NoDup_Permutation; [apply NoDup_filter, seq_NoDup|assumption|].
    intro i. rewrite filter_In, in_seq. unfold kept. rewrite negb_involutive, memb_In.
    rewrite Forall_forall in HF. split; [tauto|]. intro Hi. split; [|assumption]. apply HF in Hi. lia.
Qed.

Lemma survivors_del {A} (p : list A) d l : d < length p -> (forall i, In i l -> i < d) ->
  survivors (d :: l) p = survivors l (del d p).
Proof.
  intros Hd Hl. destruct (del_split d p Hd) as (u & w & e & E & Hu & ->). subst p.
  unfold survivors.
  assert (SA : forall D (a b : list A), map snd (filter (fun ia => kept D (fst ia)) (combine (seq 0 (length (a ++ b))) (a ++ b))) =
     map snd (filter (fun ia => kept D (fst ia)) (combine (seq 0 (length a)) a)) ++
     map snd (filter (fun ia => kept D (fst ia)) (combine (seq (length a) (length b)) b))).
  { intros D a b. rewrite app_length, seq_app. simpl.
    assert (CA : forall (s1 s2 : list nat) (a b : list A), length s1 = length a -> combine (s1 ++ s2) (a ++ b) = combine s1 a ++ combine s2 b).
    { clear. induction s1 as [|x s1 IH]; intros s2 [|y a] b H; simpl in *; try discriminate; [reflexivity|].
      f_equal. apply IH. lia. }
    rewrite CA by apply seq_length. now rewrite filter_app, map_app. }
  rewrite !SA. f_equal.
  - f_equal. apply filter_ext_in. intros [i a] Hi. simpl. apply in_combine_l, in_seq in Hi.
    unfold kept. simpl. destruct (Nat.eqb i d) eqn:B; [apply Nat.eqb_eq in B; lia|reflexivity].
  - cbn [length]. cbn [seq combine filter fst].
    replace (kept (d :: l) (length u)) with false.
    2:{ unfold kept. symmetry. apply negb_false_iff, memb_In. left. auto. }
    assert (K : forall D a, (forall i, In i D -> i < a) -> forall (v : list A),
        map snd (filter (fun ia => kept D (fst ia)) (combine (seq a (length v)) v)) = v).
    { intros D a HD v. rewrite filter_all.
      - apply map_snd_combine. apply seq_length.
      - intros [i x] Hi. apply in_combine_l, in_seq in Hi. simpl. unfold kept. apply negb_true_iff, memb_false.
        intro C. apply HD in C. lia. }
    rewrite !K; [reflexivity| |].
    + intros i Hi. apply Hl in Hi. lia.
    + intros i [<-|Hi]; [lia|]. apply Hl in Hi. lia.
Qed.

Lemma delete_all_spec {A} : forall l (p : list A), StronglySorted (fun a b => b < a) l ->
  Forall (fun i => i < length p) l -> delete_all p l = Ok (survivors l p).
Proof.
  induction l as [|d l IH]; intros p HS HF; cbn [delete_all].
  - now rewrite survivors_nil.
  - inversion HS as [|? ? HS1 HS2]; subst. inversion HF as [|? ? Hd HF2]; subst.
    destruct p as [|x p]; [simpl in Hd; lia|]. rewrite (geti_ok _ _ x Hd). cbn [rbind].
    rewrite Forall_forall in HS2. rewrite IH; [|assumption|].
    + f_equal. symmetry. apply survivors_del; [assumption|apply HS2].
    + apply Forall_forall. intros i Hi. apply HS2 in Hi. rewrite del_length by assumption. lia.
Qed.

Lemma sort_desc_perm l : Permutation (sort_desc l) l.
Proof. unfold sort_desc. rewrite <- Permutation_rev. apply isort_perm. Qed.
Lemma StronglySorted_rev {A} (R : A -> A -> Prop) l : StronglySorted R l -> StronglySorted (fun a b => R b a) (rev l).
Proof.
  induction 1 as [|a l H IH Ha]; simpl; [constructor|].
  assert (G : forall u, StronglySorted (fun a b => R b a) u -> (forall x, In x u -> R a x) ->
              StronglySorted (fun a b => R b a) (u ++ [a])).
  { clear. induction 1 as [|b u H IH Hb]; intro Hx; simpl; constructor.
    - constructor.
    - constructor.
    - apply IH. intros; apply Hx; now right.
    - apply Forall_app. split; [assumption|]. constructor; [apply Hx; now left|constructor]. }
  apply G; [assumption|]. intros x Hx. rewrite <- in_rev in Hx. rewrite Forall_forall in Ha. auto.
Qed.
Lemma sort_desc_sorted l : NoDup l -> StronglySorted (fun a b => b < a) (sort_desc l).
Proof.
  intro ND. assert (H : StronglySorted (fun x y => Nat.leb x y = true) (isort Nat.leb l)).
  { apply isort_sorted.
    - intros a b. rewrite !Nat.leb_le. lia.
    - intros a b c. rewrite !Nat.leb_le. lia. }
  apply StronglySorted_rev in H. unfold sort_desc.
  assert (N : NoDup (rev (isort Nat.leb l))).
  { apply NoDup_rev. apply (Permutation_NoDup (l := l)); [symmetry; apply isort_perm|assumption]. }
  revert N. induction H as [|a L HL IH Ha]; intro N; constructor; inversion N as [|? ? N1 N2]; subst.
  - auto.
  - rewrite Forall_forall in *. intros b Hb. assert (b <> a) by (intros ->; contradiction).
    assert (Hl := Ha b Hb). simpl in Hl. apply Nat.leb_le in Hl. lia.
Qed.
Lemma delete_subsets_spec {A} (p : list A) D : NoDup D -> Forall (fun i => i < length p) D ->
  delete_subsets p D = Ok (survivors D p).
Proof.
  intros ND HF. unfold delete_subsets. rewrite delete_all_spec.
  - f_equal. apply survivors_ext. intros i _. split; apply Permutation_in; [|symmetry]; apply sort_desc_perm.
  - now apply sort_desc_sorted.
  - eapply Forall_perm_iff; [apply sort_desc_perm|assumption].
Qed.

(** ** One merge keeps the scenarios of the surviving subsets *)
Lemma gather_upd {A} (d : A) l i v is : ~ In i is -> gather d (upd i v l) is = gather d l is.
Proof.
  intro H. apply map_ext_in. intros j Hj. apply nth_upd_neq. intros ->. contradiction.
Qed.
Lemma kept_split D n t : NoDup D -> t < n -> ~ In t D ->
  Permutation (filter (kept D) (seq 0 n)) (t :: filter (kept (t :: D)) (seq 0 n)).
Proof.
  intros ND Ht Hn. apply NoDup_Permutation.
  - apply NoDup_filter, seq_NoDup.
  - constructor; [|apply NoDup_filter, seq_NoDup]. intro C. apply filter_In in C as [_ C].
    unfold kept in C. apply negb_true_iff, memb_false in C. apply C. now left.
  - intro i. simpl. rewrite !filter_In, !in_seq. unfold kept. rewrite !negb_true_iff, !memb_false. simpl.
    split.
    + intros [H1 H2]. destruct (Nat.eq_dec t i); [now left|right]. intuition.
    + intros [<-|[H1 H2]]; [split; [lia|assumption]|]. tauto.
Qed.

Lemma merge_step_perm (p : list (list nat)) D t d : NoDup D -> t < length p -> d < length p -> t <> d ->
  ~ In t D -> ~ In d D ->
  Permutation (concat (survivors (D ++ [d]) (upd t (nth t p [] ++ nth d p []) p))) (concat (survivors D p)).
Proof.
  intros ND Ht Hd Htd HtD HdD. rewrite !(survivors_gather []), upd_length.
  set (n := length p) in *. set (q := upd t _ p).
  assert (ND' : NoDup (t :: D)) by (constructor; assumption).
  assert (E1 : filter (kept (D ++ [d])) (seq 0 n) = filter (kept (d :: D)) (seq 0 n)).
  { apply filter_ext. intro i. unfold kept. f_equal.
    destruct (memb i (D ++ [d])) eqn:A, (memb i (d :: D)) eqn:B; try reflexivity.
    - apply memb_In in A. apply memb_false in B. exfalso. apply B. apply in_app_iff in A as [A|[A|[]]]; [right|left]; auto.
    - apply memb_In in B. apply memb_false in A. exfalso. apply A. apply in_app_iff. destruct B as [B|B]; [right; now left|now left]. }
  rewrite E1.
  (* kept D = t, d, rest ; kept (d :: D) = t, rest *)
  assert (P1 := kept_split D n d ND Hd HdD).
  assert (P2 : Permutation (filter (kept (d :: D)) (seq 0 n)) (t :: filter (kept (t :: d :: D)) (seq 0 n))).
  { apply kept_split; [constructor; assumption|assumption|]. intros [C|C]; [congruence|contradiction]. }
  unfold gather at 2. rewrite (concat_perm _ _ (Permutation_map (fun i => nth i p []) P1)).
  rewrite map_cons, (concat_perm _ _ (perm_skip _ (Permutation_map (fun i => nth i p []) P2))).
  unfold gather at 1. rewrite (concat_perm _ _ (Permutation_map (fun i => nth i q []) P2)).
  simpl. set (R := filter (kept (t :: d :: D)) (seq 0 n)).
  assert (E3 : map (fun i => nth i q []) R = map (fun i => nth i p []) R).
  { apply (gather_upd [] p t _ R). intro C. apply filter_In in C as [_ C]. unfold kept in C.
    apply negb_true_iff, memb_false in C. apply C. now left. }
  rewrite E3. unfold q. rewrite nth_upd_eq by assumption. rewrite <- !app_assoc.
  rewrite app_assoc, (Permutation_app_comm (nth t p [])), <- app_assoc. reflexivity.
Qed.

(** ** merge_all *)
Lemma fold_min_spec l : forall a, In (fold_left Nat.min l a) (a :: l) /\ forall b, In b (a :: l) -> fold_left Nat.min l a <= b.
Proof.
  induction l as [|x l IH]; intro a; simpl.
  - split; [now left|]. intros b [<-|[]]. lia.
  - destruct (IH (Nat.min a x)) as [H1 H2]. split.
    + destruct H1 as [H1|H1]; [|right; now right]. rewrite <- H1.
      destruct (Nat.min_dec a x) as [->| ->]; [now left|right; now left].
    + intros b Hb. assert (fold_left Nat.min l (Nat.min a x) <= Nat.min a x) by (apply H2; now left).
      destruct Hb as [<-|[<-|Hb]]; [lia|lia|]. apply H2. now right.
Qed.
Lemma nmin_spec l : l <> [] -> exists m, nmin l = Ok m /\ In m l /\ forall b, In b l -> m <= b.
Proof.
  destruct l as [|a l]; [congruence|]. intros _. simpl. eexists. split; [reflexivity|]. apply fold_min_spec.
Qed.

Definition others (m : nat) (l : list nat) : list nat := filter (fun s => negb (s =? m)) l.

Lemma merge_loop_spec m : forall l p ms, m < length p -> NoDup l -> Forall (fun c => m <= c < length p) l ->
  merge_loop p ms m l =
  Ok (upd m (nth m p [] ++ concat (gather [] p (others m l))) p,
      mkMs (match others m l with [] => ms_target ms | _ => if memb m (ms_target ms) then ms_target ms else ms_target ms ++ [m] end)
           (ms_deleted ms ++ others m l)).
Proof.
  induction l as [|s l IH]; intros p ms Hm ND HF; cbn [merge_loop].
  - simpl. rewrite !app_nil_r. f_equal. f_equal; [|destruct ms; reflexivity].
    apply (nth_ext_len _ _ []); [now rewrite upd_length|]. intros i Hi.
    destruct (Nat.eq_dec i m) as [->|Ne]; [now rewrite nth_upd_eq|now rewrite nth_upd_neq by auto].
  - inversion ND as [|? ? N1 N2]; subst. inversion HF as [|? ? F1 F2]; subst. unfold others. cbn [filter].
    destruct (Nat.eqb s m) eqn:Es; cbn [negb].
    + rewrite IH by assumption. reflexivity.
    + apply Nat.eqb_neq in Es. unfold merge_two.
      rewrite Nat.min_l, Nat.max_r by lia. rewrite !(geti_ok _ _ []) by lia. cbn [rbind].
      rewrite IH; [|now rewrite upd_length|assumption|now rewrite upd_length].
      fold (others m l). rewrite nth_upd_eq by lia. cbn [ms_target ms_deleted].
      f_equal. f_equal.
      * rewrite gather_upd.
        2:{ unfold others. intro C. apply filter_In in C as [_ C]. now rewrite Nat.eqb_refl in C. }
        simpl gather. cbn [concat]. rewrite <- app_assoc.
        apply (nth_ext_len _ _ []); [now rewrite !upd_length|]. intros i Hi. rewrite !upd_length in Hi.
        destruct (Nat.eq_dec i m) as [->|Ne]; [rewrite !nth_upd_eq by (rewrite ?upd_length; lia); reflexivity|].
        now rewrite !nth_upd_neq by auto.
      * f_equal; [|now rewrite <- app_assoc].
        destruct (others m l); [reflexivity|].
        assert (M : memb m (if memb m (ms_target ms) then ms_target ms else ms_target ms ++ [m]) = true).
        { destruct (memb m (ms_target ms)) eqn:M; [assumption|]. apply memb_In, in_app_iff. right. now left. }
        now rewrite M.
Qed.

Lemma others_perm m l : NoDup l -> In m l -> Permutation l (m :: others m l).
Proof.
  intros ND Hm. apply NoDup_Permutation; [assumption| |].
  - constructor; [|now apply NoDup_filter]. intro C. apply filter_In in C as [_ C]. now rewrite Nat.eqb_refl in C.
  - intro i. simpl. unfold others. rewrite filter_In, negb_true_iff, Nat.eqb_neq.
    destruct (Nat.eq_dec m i) as [->|Ne]; [tauto|]. intuition.
Qed.
Lemma others_length m l : NoDup l -> In m l -> length (others m l) + 1 = length l.
Proof. intros ND Hm. apply others_perm in Hm; [|assumption]. apply Permutation_length in Hm. simpl in Hm. lia. Qed.

Lemma upd_survivors_perm (p : list (list nat)) m : forall l, m < length p -> NoDup (m :: l) ->
  Forall (fun i => i < length p) l ->
  Permutation (concat (survivors l (upd m (nth m p [] ++ concat (gather [] p l)) p))) (concat p).
Proof.
  intros l Hm ND HF. induction l as [|d l IH] using rev_ind.
  - simpl. rewrite survivors_nil, app_nil_r.
    replace (upd m (nth m p []) p) with p; [reflexivity|].
    symmetry. apply (nth_ext_len _ _ []); [now rewrite upd_length|]. intros i Hi.
    destruct (Nat.eq_dec i m) as [->|Ne]; [now rewrite nth_upd_eq by (rewrite upd_length in Hi; assumption)|now rewrite nth_upd_neq by auto].
  - apply Forall_app in HF as [HF1 HF2]. inversion HF2 as [|? ? Hd _]; subst.
    inversion ND as [|? ? N1 N2]; subst. apply NoDup_app_inv in N2 as (N2 & _ & N3).
    rewrite in_app_iff in N1. simpl in N1. assert (Ndm : d <> m) by (intros ->; tauto).
    assert (IH' : Permutation (concat (survivors l (upd m (nth m p [] ++ concat (gather [] p l)) p))) (concat p)).
    { apply IH; [constructor; tauto|assumption]. }
    rewrite <- IH'. set (q := upd m (nth m p [] ++ concat (gather [] p l)) p).
    assert (Lq : length q = length p) by apply upd_length.
    assert (Qm : nth m q [] = nth m p [] ++ concat (gather [] p l)) by (now apply nth_upd_eq).
    assert (Qd : nth d q [] = nth d p []) by (apply nth_upd_neq; congruence).
    assert (E : upd m (nth m p [] ++ concat (gather [] p (l ++ [d]))) p = upd m (nth m q [] ++ nth d q []) q).
    { rewrite Qm, Qd. unfold gather. rewrite map_app, concat_app. simpl. rewrite app_nil_r, app_assoc.
      apply (nth_ext_len _ _ []); [unfold q; now rewrite !upd_length|]. intros i Hi. rewrite upd_length in Hi.
      destruct (Nat.eq_dec i m) as [->|Ne]; [rewrite !nth_upd_eq by lia; reflexivity|].
      unfold q. now rewrite !nth_upd_neq by auto. }
    rewrite E. apply merge_step_perm; try lia; try assumption; try tauto.
    intro C. apply (N3 d C). now left.
Qed.

Lemma survivors_In {A} D (l : list A) a : In a (survivors D l) -> In a l.
Proof.
  unfold survivors. intro H. apply in_map_iff in H as ([i b] & <- & H). apply filter_In in H as [H _].
  now apply in_combine_r in H.
Qed.

(** Merging [cands] into the least of them, [m]. *)
Definition merged (p : list (list nat)) (m : nat) (rest : list nat) : list (list nat) :=
  survivors rest (upd m (nth m p [] ++ concat (gather [] p rest)) p).

Lemma merge_all_spec p cands : NoDup cands -> cands <> [] -> Forall (fun c => c < length p) cands ->
  exists m, In m cands /\ (forall c, In c cands -> m <= c) /\
  merge_all p cands = Ok (merged p m (others m cands),
    mkMs (match others m cands with [] => [] | _ => [m] end) (others m cands)).
Proof.
  intros ND Hne HF. destruct (nmin_spec cands Hne) as (m & Em & Hm & Hmin).
  exists m. split; [assumption|]. split; [assumption|].
  assert (Hmp : m < length p) by (rewrite Forall_forall in HF; auto).
  unfold merge_all. rewrite Em. cbn [rbind]. rewrite merge_loop_spec; try assumption.
  2:{ rewrite Forall_forall in *. intros c Hc. split; auto. }
  cbn [rbind ms_deleted ms_target app memb existsb].
  assert (NO : NoDup (others m cands)) by now apply NoDup_filter.
  assert (FO : Forall (fun i => i < length (upd m (nth m p [] ++ concat (gather [] p (others m cands))) p)) (others m cands)).
  { rewrite upd_length. apply Forall_forall. intros i Hi. apply filter_In in Hi as [Hi _]. rewrite Forall_forall in HF. auto. }
  rewrite delete_subsets_spec by assumption. cbn [rbind].
  rewrite survivors_length by assumption. rewrite upd_length, Nat.eqb_refl. cbn [rassert rbind]. reflexivity.
Qed.

Lemma merged_facts k p m rest : valid_partition k p -> m < length p -> NoDup (m :: rest) ->
  Forall (fun i => m < i < length p) rest ->
  valid_partition k (merged p m rest) /\
  length (merged p m rest) + length rest = length p /\
  (forall i, i < m -> nth i (merged p m rest) [] = nth i p []) /\
  nth m (merged p m rest) [] = concat (gather [] p (m :: rest)) /\
  (forall i, i < length p -> ~ In i (m :: rest) -> nth (new_index rest i) (merged p m rest) [] = nth i p []).
Proof.
  intros [V1 V2] Hm ND HF. unfold merged. set (q := upd m _ p).
  assert (Lq : length q = length p) by apply upd_length.
  assert (HF' : Forall (fun i => i < length q) rest) by (rewrite Lq; eapply Forall_impl; [|exact HF]; simpl; lia).
  inversion ND as [|? ? N1 N2]; subst.
  assert (Idx : forall i, i < length p -> ~ In i rest -> nth (new_index rest i) (survivors rest q) [] = nth i q []).
  { intros i Hi Hn. apply (survivors_nth rest q i []); [lia|now apply memb_false]. }
  assert (NI : forall i, i <= m -> new_index rest i = i).
  { intros i Hi. unfold new_index, count. rewrite filter_all; [apply seq_length|]. intros j Hj. apply in_seq in Hj.
    unfold kept. apply negb_true_iff, memb_false. intro C. rewrite Forall_forall in HF. apply HF in C. lia. }
  split; [split|split; [|split; [|split]]].
  - unfold q. rewrite upd_survivors_perm; try assumption. eapply Forall_impl; [|exact HF]; simpl; lia.
  - apply Forall_forall. intros S HS. apply survivors_In in HS. unfold q in HS.
    destruct (upd_split m (nth m p [] ++ concat (gather [] p rest)) p Hm) as (u & w & d & E & Hl & E2).
    rewrite E2 in HS. rewrite Forall_forall in V2. apply in_app_iff in HS as [HS|[<-|HS]].
    + apply V2. rewrite E. apply in_app_iff. now left.
    + assert (nth m p [] <> []) by (apply V2, nth_In, Hm). destruct (nth m p []); [congruence|discriminate].
    + apply V2. rewrite E. apply in_app_iff. right. now right.
  - rewrite survivors_length; assumption.
  - intros i Hi. rewrite <- (NI i) at 1 by lia. rewrite Idx; [|lia|].
    + unfold q. apply nth_upd_neq. lia.
    + intro C. rewrite Forall_forall in HF. apply HF in C. lia.
  - rewrite <- (NI m) at 1 by lia. rewrite Idx by assumption. unfold q. now rewrite nth_upd_eq.
  - intros i Hi Hn. rewrite Idx; [|assumption|intro; apply Hn; now right].
    unfold q. apply nth_upd_neq. intros ->. apply Hn. now left.
Qed.

(** ** merge on disjoint pairs *)
Lemma merge_two_spec p ms a b : a < length p -> b < length p ->
  merge_two p ms a b = Ok (upd (Nat.min a b) (nth (Nat.min a b) p [] ++ nth (Nat.max a b) p []) p,
    mkMs (if memb (Nat.min a b) (ms_target ms) then ms_target ms else ms_target ms ++ [Nat.min a b])
         (ms_deleted ms ++ [Nat.max a b])).
Proof.
  intros Ha Hb. unfold merge_two. rewrite !(geti_ok _ _ []) by lia. reflexivity.
Qed.

Lemma upd_nonempty (p : list (list nat)) t d : t < length p -> Forall (fun S => S <> []) p ->
  Forall (fun S => S <> []) (upd t (nth t p [] ++ nth d p []) p).
Proof.
  intros Ht V. destruct (upd_split t (nth t p [] ++ nth d p []) p Ht) as (u & w & e & E & Hl & E2).
  assert (Hn : nth t p [] <> []) by (rewrite Forall_forall in V; apply V, nth_In, Ht).
  rewrite E2. rewrite E in V. apply Forall_app in V as [V1 V2]. inversion V2; subst.
  apply Forall_app. split; [assumption|]. constructor; [|assumption].
  intro C. apply app_eq_nil in C as [C _]. contradiction.
Qed.

Lemma merge_pairs_spec : forall cands inf p ms, length cands <= length inf ->
  NoDup (cands ++ firstn (length cands) inf) ->
  Forall (fun c => c < length p) (cands ++ firstn (length cands) inf) ->
  NoDup (ms_deleted ms) ->
  (forall i, In i (cands ++ firstn (length cands) inf) -> ~ In i (ms_deleted ms)) ->
  Forall (fun S => S <> []) p ->
  exists p' ms', merge_pairs p ms inf cands = Ok (p', ms') /\ length p' = length p /\
    Forall (fun S => S <> []) p' /\
    ms_deleted ms' = ms_deleted ms ++ map (fun ic => Nat.max (fst ic) (snd ic)) (combine inf cands) /\
    NoDup (ms_deleted ms') /\
    Permutation (concat (survivors (ms_deleted ms') p')) (concat (survivors (ms_deleted ms) p)) /\
    (forall i, ~ In i (cands ++ firstn (length cands) inf) -> nth i p' [] = nth i p []) /\
    (forall j, j < length cands -> let a := nth j inf 0 in let b := nth j cands 0 in
       nth (Nat.min a b) p' [] = nth (Nat.min a b) p [] ++ nth (Nat.max a b) p []).
Proof.
  induction cands as [|c cands IH]; intros inf p ms HL ND HF NDD HD V; cbn [merge_pairs].
  - exists p, ms. rewrite combine_nil. simpl. rewrite app_nil_r.
    split; [destruct inf; reflexivity|]. split; [reflexivity|]. split; [assumption|]. split; [reflexivity|].
    split; [assumption|]. split; [reflexivity|]. split; [reflexivity|]. intros j Hj; lia.
  - destruct inf as [|i inf]; [simpl in HL; lia|].
    cbn [length firstn app] in ND, HF, HD.
    assert (PM : Permutation (c :: cands ++ i :: firstn (length cands) inf) (c :: i :: cands ++ firstn (length cands) inf)).
    { constructor. symmetry. apply Permutation_middle. }
    rewrite (Forall_perm_iff _ _ _ PM) in HF.
    apply (Permutation_NoDup PM) in ND.
    assert (HD' : forall x, In x (c :: i :: cands ++ firstn (length cands) inf) -> ~ In x (ms_deleted ms)).
    { intros x Hx. apply HD. eapply Permutation_in; [symmetry; exact PM|assumption]. }
    inversion HF as [|? ? Fc HF1]; subst. inversion HF1 as [|? ? Fi HF2]; subst.
    inversion ND as [|? ? N1 ND1]; subst. inversion ND1 as [|? ? N2 ND2]; subst.
    assert (Nci : c <> i) by (intros ->; apply N1; now left).
    set (t := Nat.min i c). set (d := Nat.max i c).
    assert (Htd : (t = i /\ d = c) \/ (t = c /\ d = i)) by lia.
    assert (Htin : In t (c :: i :: cands ++ firstn (length cands) inf)) by (destruct Htd as [[-> _]|[-> _]]; simpl; auto).
    assert (Hdin : In d (c :: i :: cands ++ firstn (length cands) inf)) by (destruct Htd as [[_ ->]|[_ ->]]; simpl; auto).
    assert (Hrest : forall x, In x (cands ++ firstn (length cands) inf) -> x <> t /\ x <> d).
    { intros x Hx. assert (x <> c) by (intros ->; apply N1; now right). assert (x <> i) by (intros ->; contradiction). lia. }
    cbn [merge_pairs]. rewrite merge_two_spec by assumption. fold t d. cbn [rbind].
    set (q := upd t (nth t p [] ++ nth d p []) p).
    destruct (IH inf q (mkMs (if memb t (ms_target ms) then ms_target ms else ms_target ms ++ [t]) (ms_deleted ms ++ [d])))
      as (p' & ms' & E & Lp & V' & Ed & NDD' & PP & U1 & U2).
    + simpl in HL. lia.
    + assumption.
    + unfold q. rewrite upd_length. assumption.
    + cbn [ms_deleted]. apply NoDup_app; [assumption|repeat constructor; auto|]. intros x Hx [<-|[]]. now apply (HD' d).
    + cbn [ms_deleted]. intros x Hx C. apply in_app_iff in C as [C|[C|[]]].
      * apply (HD' x); [right; now right|assumption].
      * apply Hrest in Hx. lia.
    + unfold q. apply upd_nonempty; [|assumption]. lia.
    + exists p', ms'. split; [exact E|]. split; [rewrite Lp; apply upd_length|]. split; [assumption|].
      cbn [ms_deleted] in Ed, PP. split; [|split; [assumption|split; [|split]]].
      * rewrite Ed, <- app_assoc. reflexivity.
      * rewrite PP. unfold q. apply merge_step_perm; try assumption; try lia; auto.
      * intros x Hx. cbn [length firstn] in Hx.
        assert (Hx' : ~ In x (c :: i :: cands ++ firstn (length cands) inf)).
        { intro C. apply Hx. cbn [app]. eapply Permutation_in; [symmetry; exact PM|assumption]. }
        rewrite U1 by (intro C; apply Hx'; right; now right). unfold q. apply nth_upd_neq.
        intros <-. contradiction.
      * intros [|j] Hj; cbn [nth]; cbv zeta.
        -- fold t d. rewrite U1 by (intro C; apply Hrest in C; tauto). unfold q. apply nth_upd_eq. lia.
        -- simpl in Hj. specialize (U2 j ltac:(lia)). cbv zeta in U2. rewrite U2.
           assert (A1 : In (nth j cands 0) (cands ++ firstn (length cands) inf)) by (apply in_app_iff; left; apply nth_In; lia).
           assert (A2 : In (nth j inf 0) (cands ++ firstn (length cands) inf)).
           { apply in_app_iff. right. rewrite <- (firstn_skipn (length cands) inf) at 1. simpl in HL.
             rewrite app_nth1 by (rewrite firstn_length; lia). apply nth_In. rewrite firstn_length. lia. }
           apply Hrest in A1, A2. unfold q.
           rewrite !nth_upd_neq; [reflexivity| |]; destruct (Nat.max_spec (nth j inf 0) (nth j cands 0)), (Nat.min_spec (nth j inf 0) (nth j cands 0)); lia.
Qed.

Lemma merge_disjoint k p cands inf : valid_partition k p -> length cands <= length inf ->
  NoDup (cands ++ firstn (length cands) inf) ->
  Forall (fun c => c < length p) (cands ++ firstn (length cands) inf) ->
  exists p' ms, merge p cands inf = Ok (p', ms) /\ valid_partition k p' /\
    length p' + length cands = length p /\
    ms_deleted ms = map (fun ic => Nat.max (fst ic) (snd ic)) (combine inf cands) /\
    (forall j, j < length cands -> In (nth (Nat.min (nth j inf 0) (nth j cands 0)) p [] ++
                                       nth (Nat.max (nth j inf 0) (nth j cands 0)) p []) p').
Proof.
  intros [V1 V2] HL ND HF. unfold merge.
  destruct (merge_pairs_spec cands inf p (mkMs [] []) HL ND HF) as (p1 & ms & -> & Lp & V' & Ed & NDD & PP & U1 & U2);
    [constructor|intros ? ? []|assumption|].
  cbn [rbind]. cbn [ms_deleted app] in Ed, PP.
  assert (Lc : length (combine inf cands) = length cands) by (rewrite combine_length; lia).
  assert (FD : Forall (fun i => i < length p1) (ms_deleted ms)).
  { rewrite Ed, Lp. apply Forall_forall. intros x Hx. apply in_map_iff in Hx as ([a b] & <- & Hin). cbn [fst snd].
    assert (In b cands) by (eapply in_combine_r; exact Hin).
    assert (Ha : In a (firstn (length cands) inf)).
    { clear - Hin HL. revert inf Hin HL. induction cands as [|c cands IH]; intros [|i inf] Hin HL; simpl in *; try contradiction; try lia.
      destruct Hin as [Hin|Hin]; [injection Hin as -> ->; now left|]. right. apply IH; [assumption|lia]. }
    rewrite Forall_forall in HF.
    assert (a < length p) by (apply HF, in_app_iff; now right). assert (b < length p) by (apply HF, in_app_iff; now left). lia. }
  rewrite delete_subsets_spec by assumption. cbn [rbind]. rewrite survivors_length, Lp, Nat.eqb_refl by assumption.
  cbn [rassert rbind]. exists (survivors (ms_deleted ms) p1), ms. split; [reflexivity|]. split; [split|split; [|split]].
  - rewrite PP, survivors_nil. assumption.
  - apply Forall_forall. intros S HS. apply survivors_In in HS. rewrite Forall_forall in V'. auto.
  - assert (S1 := survivors_length (ms_deleted ms) p1 NDD FD). rewrite Ed, map_length, Lc in S1. rewrite Ed. lia.
  - assumption.
  - intros j Hj. rewrite <- (U2 j Hj). set (t := Nat.min _ _).
    assert (A1 : In (nth j cands 0) (cands ++ firstn (length cands) inf)) by (apply in_app_iff; left; apply nth_In; lia).
    assert (A2 : In (nth j inf 0) (firstn (length cands) inf)).
    { rewrite <- (firstn_skipn (length cands) inf) at 1. rewrite app_nth1 by (rewrite firstn_length; lia).
      apply nth_In. rewrite firstn_length. lia. }
    assert (Ht : t < length p1).
    { rewrite Lp. rewrite Forall_forall in HF. assert (nth j cands 0 < length p) by (apply HF; assumption). unfold t. lia. }
    assert (Hnd : ~ In t (ms_deleted ms)).
    { rewrite Ed. intro C. apply in_map_iff in C as ([a b] & Eab & Hin). cbn [fst snd] in Eab.
      apply (In_nth _ _ (0, 0)) in Hin as (j' & Hj' & Enth). rewrite Lc in Hj'.
      rewrite combine_nth_firstn in Enth || idtac.
      assert (Eb : nth j' cands 0 = b /\ nth j' inf 0 = a).
      { clear - Enth Hj' HL. revert inf j' Enth Hj' HL. induction cands as [|c cands IH]; intros [|i inf] j' Enth Hj' HL; simpl in *; try lia.
        destruct j' as [|j']; [injection Enth as -> ->; auto|]. apply (IH inf j'); auto; lia. }
      destruct Eb as [<- <-].
      (* t is one of the indices of pair j, and the larger of pair j' *)
      assert (ND' := proj1 (NoDup_nth _ 0) ND). rewrite app_length, firstn_length in ND'.
      assert (NthC : forall i, i < length cands -> nth i (cands ++ firstn (length cands) inf) 0 = nth i cands 0)
        by (intros; now apply app_nth1).
      assert (NthI : forall i, i < length cands -> nth (length cands + i) (cands ++ firstn (length cands) inf) 0 = nth i inf 0).
      { intros i Hi. rewrite app_nth2 by lia. replace (length cands + i - length cands) with i by lia.
        rewrite <- (firstn_skipn (length cands) inf) at 2. rewrite (app_nth1 (firstn _ _)) by (rewrite firstn_length; lia). reflexivity. }
      assert (D1 := ND' j j' ltac:(lia) ltac:(lia)). rewrite !NthC in D1 by lia.
      assert (D2 := ND' (length cands + j) (length cands + j') ltac:(lia) ltac:(lia)). rewrite !NthI in D2 by lia.
      assert (D3 := ND' j (length cands + j') ltac:(lia) ltac:(lia)). rewrite (NthC j), NthI in D3 by lia.
      assert (D4 := ND' (length cands + j) j' ltac:(lia) ltac:(lia)). rewrite (NthC j'), NthI in D4 by lia.
      assert (D5 := ND' j (length cands + j) ltac:(lia) ltac:(lia)). rewrite (NthC j), NthI in D5 by lia.
      unfold t in Eab. destruct (Nat.eq_dec j j') as [<-|Ne]; lia. }
    destruct (survivors_nth (ms_deleted ms) p1 t [] Ht) as [<- Hlt]; [now apply memb_false|]. now apply nth_In.
Qed.

(** ** Sorting by costs *)
Lemma pair_geb_total a b : pair_geb a b = true \/ pair_geb b a = true.
Proof.
  unfold pair_geb. destruct (Qlt_le_dec (fst b) (fst a)) as [L|L].
  - left. apply (proj2 (Qlt_bool_iff _ _)) in L. now rewrite L.
  - destruct (Qlt_le_dec (fst a) (fst b)) as [L'|L'].
    + right. apply (proj2 (Qlt_bool_iff _ _)) in L'. now rewrite L'.
    + assert (Q : (fst a == fst b)%Q) by lra.
      assert (Q1 := proj2 (Qeq_bool_iff _ _) Q). assert (Q2 := proj2 (Qeq_bool_iff _ _) (Qeq_sym _ _ Q)).
      rewrite Q1, Q2. destruct (le_lt_dec (snd b) (snd a)) as [N|N].
      * left. rewrite (proj2 (Nat.leb_le _ _) N). apply orb_true_r.
      * right. rewrite (proj2 (Nat.leb_le _ _)) by lia. apply orb_true_r.
Qed.
Lemma pair_geb_spec a b : pair_geb a b = true <-> (fst b < fst a)%Q \/ ((fst a == fst b)%Q /\ snd b <= snd a).
Proof.
  unfold pair_geb. rewrite orb_true_iff, andb_true_iff, Qlt_bool_iff, Qeq_bool_iff, Nat.leb_le. reflexivity.
Qed.
Lemma pair_geb_trans a b c : pair_geb a b = true -> pair_geb b c = true -> pair_geb a c = true.
Proof.
  rewrite !pair_geb_spec. intros [H1|[H1 N1]] [H2|[H2 N2]].
  - left. lra.
  - left. lra.
  - left. lra.
  - right. split; [lra|lia].
Qed.

Lemma combine_snd_perm {A B} (l : list A) (l' : list B) : length l' <= length l -> map snd (combine l l') = l'.
Proof.
  revert l'; induction l as [|a l IH]; intros [|b l'] H; simpl in *; try lia; auto. f_equal. apply IH. lia.
Qed.
Lemma sort_costs_perm cands costs : length cands <= length costs ->
  Permutation (sort_subset_costs cands costs) cands.
Proof.
  intro H. unfold sort_subset_costs. rewrite (Permutation_map snd (isort_perm _ (combine costs cands))).
  now rewrite combine_snd_perm.
Qed.
Lemma StronglySorted_map {A B} (R : A -> A -> Prop) (S : B -> B -> Prop) (f : A -> B) l :
  (forall a b, In a l -> In b l -> R a b -> S (f a) (f b)) -> StronglySorted R l -> StronglySorted S (map f l).
Proof.
  intros H HS. induction HS as [|a l HL IH Ha]; simpl; constructor.
  - apply IH. intros; apply H; auto using in_cons.
  - apply Forall_forall. intros b Hb. apply in_map_iff in Hb as (c & <- & Hc). rewrite Forall_forall in Ha.
    apply H; auto using in_eq, in_cons.
Qed.
Lemma sort_costs_range costs :
  let l := sort_subset_costs (seq 0 (length costs)) costs in
  Permutation l (seq 0 (length costs)) /\
  StronglySorted (fun i j => (nth j costs 0 < nth i costs 0)%Q \/ ((nth i costs 0 == nth j costs 0)%Q /\ j < i)) l.
Proof.
  cbv zeta. assert (P : Permutation (sort_subset_costs (seq 0 (length costs)) costs) (seq 0 (length costs)))
    by (apply sort_costs_perm; now rewrite seq_length).
  split; [assumption|].
  assert (N : NoDup (sort_subset_costs (seq 0 (length costs)) costs)).
  { apply (Permutation_NoDup (l := seq 0 (length costs))); [now symmetry|apply seq_NoDup]. }
  assert (G : StronglySorted (fun i j => (nth j costs 0 < nth i costs 0)%Q \/ ((nth i costs 0 == nth j costs 0)%Q /\ j <= i))
     (sort_subset_costs (seq 0 (length costs)) costs)).
  { unfold sort_subset_costs. eapply StronglySorted_map; [|apply isort_sorted; [apply pair_geb_total|apply pair_geb_trans]].
    intros [qa a] [qb' b] Ha Hb H. apply pair_geb_spec in H. cbn [fst snd] in *.
    assert (C : forall q i, In (q, i) (isort pair_geb (combine costs (seq 0 (length costs)))) -> nth i costs 0%Q = q).
    { intros q i Hin. apply (Permutation_in _ (isort_perm _ _)) in Hin.
      assert (GG : forall l a q i, In (q, i) (combine l (seq a (length l))) -> a <= i /\ nth (i - a) l 0%Q = q).
      { clear. induction l as [|x l IH]; intros a q i H; simpl in H; [destruct H|].
        destruct H as [H|H]; [injection H as -> ->; split; [lia|]; now rewrite Nat.sub_diag|].
        destruct (IH (S a) q i H) as [H1 H2]. split; [lia|]. replace (i - a) with (S (i - S a)) by lia. exact H2. }
      destruct (GG costs 0 q i Hin) as [_ H2]. now rewrite Nat.sub_0_r in H2. }
    rewrite (C _ _ Ha), (C _ _ Hb). exact H. }
  revert N G. generalize (sort_subset_costs (seq 0 (length costs)) costs) as l. clear.
  intros l N G. induction G as [|a l HL IH Ha]; constructor; inversion N as [|? ? N1 N2]; subst; [auto|].
  rewrite Forall_forall in *. intros b Hb. destruct (Ha b Hb) as [H|[H1 H2]]; [now left|right].
  split; [assumption|]. assert (b <> a) by (intros ->; contradiction). lia.
Qed.

Lemma find_inf_perm inf costs vUB : Forall (fun c => c < length costs) inf -> NoDup inf ->
  exists l, find_inf_candidate inf costs vUB = Ok l /\
    Permutation l (filter (fun c => ext_leb (Fin (nth c costs 0%Q)) vUB) inf).
Proof.
  intros HF ND. unfold find_inf_candidate.
  rewrite (rmap_ok _ (fun c => (c, nth c costs 0%Q))).
  2:{ intros c Hc. rewrite Forall_forall in HF. rewrite (geti_ok _ _ 0%Q) by auto. reflexivity. }
  cbn [rbind]. cbv zeta. eexists. split; [reflexivity|].
  assert (E : map fst (filter (fun cv => ext_leb (Fin (snd cv)) vUB) (map (fun c => (c, nth c costs 0%Q)) inf)) =
              filter (fun c => ext_leb (Fin (nth c costs 0%Q)) vUB) inf).
  { clear. induction inf as [|c inf IH]; [reflexivity|]. cbn [map filter snd].
    destruct (ext_leb _ vUB); cbn [map fst]; rewrite IH; reflexivity. }
  rewrite E. apply sort_costs_perm.
  assert (L : length (filter (fun c => ext_leb (Fin (nth c costs 0%Q)) vUB) inf) <= length inf) by apply (count_le _ inf).
  assert (L2 : length inf <= length costs); [|lia]. rewrite <- (seq_length (length costs) 0).
  apply NoDup_incl_length; [assumption|]. intros c Hc. rewrite Forall_forall in HF. apply in_seq. apply HF in Hc. lia.
Qed.

(** ** Margins *)
Lemma ext_leb_total a b : ext_leb a b = true \/ ext_leb b a = true.
Proof.
  destruct a as [|x|], b as [|y|]; simpl; auto.
  destruct (Qlt_le_dec y x); [right|left]; apply Qle_bool_iff; lra.
Qed.
Lemma ext_leb_trans a b c : ext_leb a b = true -> ext_leb b c = true -> ext_leb a c = true.
Proof.
  destruct a as [|x|], b as [|y|], c as [|z|]; simpl; auto; try congruence.
  intros H1 H2. qb. lra.
Qed.
Lemma dedup_spec l : forall seen, NoDup (dedup l seen) /\ forall c, In c (dedup l seen) <-> In c l /\ ~ In c seen.
Proof.
  induction l as [|a l IH]; intro seen; simpl; [split; [constructor|tauto]|].
  destruct (memb a seen) eqn:M.
  - apply memb_In in M. destruct (IH seen) as [H1 H2]. split; [assumption|]. intro c. rewrite H2. split; [tauto|].
    intros [[<-|H] Hn]; tauto.
  - apply memb_false in M. destruct (IH (a :: seen)) as [H1 H2]. split.
    + constructor; [|assumption]. rewrite H2. simpl. tauto.
    + intro c. simpl. rewrite H2. simpl. destruct (Nat.eq_dec a c) as [->|Ne]; [tauto|]. tauto.
Qed.
Lemma dedup_id l : NoDup l -> forall seen, (forall c, In c l -> ~ In c seen) -> dedup l seen = l.
Proof.
  induction 1 as [|a l H1 H2 IH]; intros seen Hs; [reflexivity|]. simpl.
  rewrite (proj2 (memb_false a seen)) by (apply Hs; now left). f_equal. apply IH.
  intros c Hc [<-|C]; [contradiction|]. apply (Hs c); [now right|assumption].
Qed.

Definition sorted_by_margin (norm : list Q -> Q) (V : view) (x : list Q) (cands : list nat) : list nat :=
  map fst (isort (fun a b => ext_leb (snd b) (snd a)) (map (fun c => (c, subset_margin norm V c x)) (dedup cands []))).

Lemma sorted_by_margin_spec norm V x cands :
  Permutation (sorted_by_margin norm V x cands) (dedup cands []) /\
  StronglySorted (fun a b => ext_leb (subset_margin norm V b x) (subset_margin norm V a x) = true)
    (sorted_by_margin norm V x cands).
Proof.
  unfold sorted_by_margin. split.
  - rewrite (Permutation_map fst (isort_perm _ _)), map_map. simpl. now rewrite map_id.
  - eapply StronglySorted_map; [|apply isort_sorted].
    + intros [a ma] [b mb] Ha Hb H. cbn [fst snd] in *.
      assert (C : forall c m, In (c, m) (isort (fun a b => ext_leb (snd b) (snd a)) (map (fun c => (c, subset_margin norm V c x)) (dedup cands []))) ->
                  m = subset_margin norm V c x).
      { intros c m Hin. apply (Permutation_in _ (isort_perm _ _)) in Hin. apply in_map_iff in Hin as (c' & Ec & _). now injection Ec as <- <-. }
      now rewrite <- (C _ _ Ha), <- (C _ _ Hb).
    + intros a b. apply ext_leb_total.
    + intros a b c H1 H2. eapply ext_leb_trans; eassumption.
Qed.

Lemma merge_feasible_spec norm V p x cands mu : NoDup cands -> Forall (fun c => c < length p) cands ->
  mu + 1 <= length cands ->
  exists top p' ms, merge_feasible norm V p x cands mu = Ok (p', ms) /\ merge_all p top = Ok (p', ms) /\
    NoDup top /\ incl top cands /\ length top = mu + 1 /\
    forall a b, In a top -> In b cands -> ~ In b top ->
      ext_leb (subset_margin norm V b x) (subset_margin norm V a x) = true.
Proof.
  intros ND HF HL. destruct (sorted_by_margin_spec norm V x cands) as [P S].
  rewrite (dedup_id cands ND []) in P by (intros ? _ []).
  set (srt := sorted_by_margin norm V x cands) in *.
  assert (Ls : length srt = length cands) by now apply Permutation_length.
  assert (NDs : NoDup srt) by (apply (Permutation_NoDup (l := cands)); [now symmetry|assumption]).
  assert (Sp := firstn_skipn (mu + 1) srt).
  assert (Lt : length (firstn (mu + 1) srt) = mu + 1) by (rewrite firstn_length; lia).
  assert (Inc : incl (firstn (mu + 1) srt) cands).
  { intros c Hc. apply (Permutation_in _ P). rewrite <- Sp. apply in_app_iff. now left. }
  assert (NDt : NoDup (firstn (mu + 1) srt)) by (rewrite <- Sp in NDs; now apply NoDup_app_inv in NDs as (H & _)).
  assert (HFt : Forall (fun c => c < length p) (firstn (mu + 1) srt)).
  { rewrite Forall_forall in *. auto. }
  destruct (merge_all_spec p (firstn (mu + 1) srt) NDt) as (m & Hm & Hmin & EM); [|assumption|].
  { intro C. rewrite C in Lt. simpl in Lt. lia. }
  exists (firstn (mu + 1) srt). do 2 eexists. split; [|split; [exact EM|]].
  - unfold merge_feasible. cbv zeta. fold (sorted_by_margin norm V x cands). fold srt.
    rewrite Lt, Nat.eqb_refl. cbn [rassert rbind]. rewrite EM. cbn [rbind ms_deleted].
    assert (F2 : Forall (fun i => i < length (upd m (nth m p [] ++ concat (gather [] p (others m (firstn (mu + 1) srt)))) p)) (others m (firstn (mu + 1) srt))).
    { rewrite upd_length. apply Forall_forall. intros i Hi. apply filter_In in Hi as [Hi _]. rewrite Forall_forall in HFt. auto. }
    unfold merged at 1. rewrite survivors_length by (try assumption; now apply NoDup_filter).
    rewrite upd_length, Nat.eqb_refl. reflexivity.
  - split; [assumption|]. split; [assumption|]. split; [assumption|].
    intros a b Ha Hb Hn. rewrite <- Sp in S. apply StronglySorted_app in S as (_ & _ & S). apply S; [assumption|].
    apply (Permutation_in (l' := srt)) in Hb; [|now symmetry]. rewrite <- Sp in Hb. apply in_app_iff in Hb as [Hb|Hb]; [contradiction|assumption].
Qed.

Lemma merge_feasible_too_few norm V p x cands mu : NoDup cands -> length cands < mu + 1 ->
  merge_feasible norm V p x cands mu = Err AssertionError.
Proof.
  intros ND HL. destruct (sorted_by_margin_spec norm V x cands) as [P _].
  rewrite (dedup_id cands ND []) in P by (intros ? _ []).
  unfold merge_feasible. cbv zeta. fold (sorted_by_margin norm V x cands).
  rewrite firstn_length, (Permutation_length P).
  replace (Nat.min (mu + 1) (length cands) =? mu + 1) with false by (symmetry; apply Nat.eqb_neq; lia).
  reflexivity.
Qed.

Lemma margin_fold (f : nat -> Q) l : forall acc, ext_leb (Fin 0) (fold_left (fun acc i => ext_min (Fin (f i)) acc) l acc) = true <->
  ext_leb (Fin 0) acc = true /\ forall i, In i l -> (0 <= f i)%Q.
Proof.
  induction l as [|i l IH]; intro acc; cbn [fold_left]; [cbn [In]; intuition|].
  rewrite IH. unfold ext_min. split.
  - intros [H1 H2]. destruct (ext_leb (Fin (f i)) acc) eqn:E.
    + simpl in H1. qb. split.
      * eapply ext_leb_trans; [|exact E]. simpl. now apply Qle_bool_iff.
      * intros j [<-|Hj]; auto.
    + split; [assumption|]. intros j [<-|Hj]; [|auto].
      destruct acc as [|q|]; simpl in *; try discriminate. qb. lra.
  - intros [H1 H2]. split; [|intros j Hj; apply H2; now right]. destruct (ext_leb (Fin (f i)) acc); [|assumption].
    simpl. apply Qle_bool_iff. apply H2. now left.
Qed.
Lemma margin_sign norm V c x : (forall r, (0 <= norm r)%Q) ->
  ext_leb (Fin 0) (subset_margin norm V c x) = true <->
  forall i, i < v_m V c -> (dot (v_row V c i) x <= v_rhs V c i)%Q.
Proof.
  intro Hn. unfold subset_margin. rewrite margin_fold. split.
  - intros [_ H] i Hi. specialize (H i). rewrite in_seq in H. specialize (H ltac:(lia)).
    destruct (Qeq_bool (norm (v_row V c i)) 0) eqn:E; [lra|].
    assert (P : (0 < norm (v_row V c i))%Q).
    { assert (N := Hn (v_row V c i)). apply Qeq_bool_neq in E. destruct (Qlt_le_dec 0 (norm (v_row V c i))); [assumption|].
      exfalso. apply E. lra. }
    assert (G : (0 * norm (v_row V c i) <= v_rhs V c i - dot (v_row V c i) x)%Q); [|lra].
    apply (Qmult_le_compat_r _ _ (norm (v_row V c i))) in H; [|lra].
    rewrite Qmult_comm, (Qmult_comm (_ / _)), Qmult_div_r in H by lra. lra.
  - intro H. split; [reflexivity|]. intros i Hi. apply in_seq in Hi. specialize (H i ltac:(lia)).
    destruct (Qeq_bool (norm (v_row V c i)) 0) eqn:E; [lra|].
    assert (P : (0 < norm (v_row V c i))%Q).
    { assert (N := Hn (v_row V c i)). apply Qeq_bool_neq in E. destruct (Qlt_le_dec 0 (norm (v_row V c i))); [assumption|].
      exfalso. apply E. lra. }
    apply Qle_shift_div_l; [assumption|]. lra.
Qed.
Lemma margin_subset norm I p V x c : (forall r, (0 <= norm r)%Q) -> wf_inst I -> valid_partition (i_k I) p ->
  load_partition I (uniform (i_k I)) (length p) p = Ok V -> c < length p ->
  (ext_leb (Fin 0) (subset_margin norm V c x) = true <-> subset_sat I 0 x (nth c p [])).
Proof.
  intros Hn HW Hp HL Hc. rewrite margin_sign by assumption. rewrite (view_subset_sat I p V HW Hp HL 0 x c Hc).
  split; intros H i Hi; specialize (H i Hi); lra.
Qed.

(** ** Effect of a merge on the number of bad subsets *)
Lemma survivors_count {A} (d : A) (f : A -> bool) D l : NoDup D -> Forall (fun i => i < length l) D ->
  count f (survivors D l) + count f (gather d l D) = count f l.
Proof.
  intros ND HF. rewrite (survivors_gather d).
  assert (P : Permutation (filter (kept D) (seq 0 (length l)) ++ D) (seq 0 (length l))).
  { apply NoDup_Permutation.
    - apply NoDup_app; [apply NoDup_filter, seq_NoDup|assumption|]. intros a Ha. apply filter_In in Ha as [_ Ha].
      unfold kept in Ha. now apply negb_true_iff, memb_false in Ha.
    - apply seq_NoDup.
    - intro i. rewrite in_app_iff, filter_In, in_seq. unfold kept. rewrite negb_true_iff, memb_false.
      rewrite Forall_forall in HF. split.
      + intros [H|H]; [tauto|]. apply HF in H. lia.
      + intro H. destruct (in_dec Nat.eq_dec i D); tauto. }
  transitivity (count f (map (fun i => nth i l d) (seq 0 (length l)))); [|now rewrite map_nth_seq].
  rewrite <- count_app. apply count_perm. unfold gather. rewrite <- map_app.
  now apply Permutation_map.
Qed.

Lemma existsb_concat {A} (f : A -> bool) (p : list (list A)) : existsb f (concat p) = existsb (existsb f) p.
Proof. induction p as [|a p IH]; [reflexivity|]. simpl. now rewrite existsb_app, IH. Qed.

Lemma count_upd {A} (f : A -> bool) i v d (l : list A) : i < length l ->
  count f (upd i v l) + (if f (nth i l d) then 1 else 0) = count f l + (if f v then 1 else 0).
Proof.
  intro H. destruct (upd_split i v l H) as (u & w & e & E & Hl & ->). subst l.
  rewrite app_nth2 by lia. replace (i - length u) with 0 by lia. cbn [nth].
  rewrite !count_app, !count_cons. lia.
Qed.

Lemma merged_nb_bad bad p m rest : m < length p -> NoDup (m :: rest) -> Forall (fun i => i < length p) rest ->
  nb_bad bad (merged p m rest) + nb_bad bad (gather [] p (m :: rest)) =
  nb_bad bad p + (if existsb (existsb bad) (gather [] p (m :: rest)) then 1 else 0).
Proof.
  intros Hm ND HF. unfold merged, nb_bad. inversion ND as [|? ? N1 N2]; subst.
  set (v := nth m p [] ++ concat (gather [] p rest)).
  assert (S1 := survivors_count [] (existsb bad) rest (upd m v p) N2). rewrite upd_length in S1. specialize (S1 HF).
  rewrite gather_upd in S1 by assumption.
  assert (S2 := count_upd (existsb bad) m v [] p Hm).
  assert (E : existsb bad v = existsb (existsb bad) (gather [] p (m :: rest))).
  { unfold v. rewrite existsb_app, existsb_concat. reflexivity. }
  rewrite E in S2. unfold gather at 1. cbn [map]. rewrite count_cons. fold (gather [] p rest). lia.
Qed.
