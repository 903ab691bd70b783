(** Facts about the exported tables (C51, C52, C58). *)
From Coq Require Import String.
From Verif Require Import Base BaseFacts Spec Instance InstanceFacts OptModels Bounds Refine CostRefine Merge Knapsack Violations BigM
  Adaptive Milp Report Main Export.

(** ** Fields and means *)
(** The i-th number from the end. *)
Definition field (i : nat) (r : row_t) : gapv := nth (length (snd r) - i) (snd r) None.
Definition solvedb (req : Q) (r : row_t) : bool :=
  match field 1 r with Some a => ext_leb a (Fin (req + (1 # 10000000))) | None => false end.

Lemma row_neg_field r i : 1 <= i -> i <= length (snd r) -> row_neg r i = Ok (field i r).
Proof.
  intros H1 H2. unfold row_neg. assert (E : (1 <=? i) && (i <=? S (length (snd r))) = true).
  { apply andb_true_iff. split; apply Nat.leb_le; lia. }
  rewrite E. unfold row_at. replace (S (length (snd r)) - i) with (S (length (snd r) - i)) by lia. unfold field. apply geti_ok. lia.
Qed.

(** [g] is the mean of [l], with the conventions of IEEE arithmetic. *)
Definition is_mean (l : list gapv) (g : gapv) : Prop :=
  (forall qs, l = map finite qs -> exists v, g = finite v /\ (v * Qn (length qs) == qsum qs)%Q) /\
  (In None l -> g = None) /\
  (In ginf l -> ~ In None l -> ~ In (Some NInf) l -> g = ginf).

Fixpoint gsum (l : list gapv) (acc : gapv) : gapv := match l with [] => acc | a :: l' => gsum l' (gadd acc a) end.
Lemma gsum_fin qs : forall a, exists v, gsum (map finite qs) (finite a) = finite v /\ (v == a + qsum qs)%Q.
Proof.
  induction qs as [|q qs IH]; intro a; cbn [map gsum].
  - exists a. split; [reflexivity|]. cbn. ring.
  - destruct (IH (a + q)%Q) as (v & E & F). exists v. split; [exact E|]. cbn [qsum]. rewrite F. ring.
Qed.
Lemma gsum_none l : gsum l None = None.
Proof. induction l as [|a l IH]; [reflexivity|]. cbn [gsum]. exact IH. Qed.
Lemma gsum_nan l : forall acc, In None l -> gsum l acc = None.
Proof.
  induction l as [|a l IH]; intros acc H; [destruct H|]. cbn [gsum]. destruct H as [->|H]; [|now apply IH].
  assert (E : gadd acc None = None) by (destruct acc as [[| |]|]; reflexivity). rewrite E. apply gsum_none.
Qed.
Lemma gsum_pinf l : ~ In None l -> ~ In (Some NInf) l -> gsum l ginf = ginf.
Proof.
  induction l as [|a l IH]; intros H1 H2; [reflexivity|]. cbn [gsum]. destruct a as [[| |]|]; try (apply IH; intro; [apply H1|apply H2]; now right).
  - exfalso. apply H2. now left.
  - exfalso. apply H1. now left.
Qed.
Lemma gsum_inf l : forall q, In ginf l -> ~ In None l -> ~ In (Some NInf) l -> gsum l (finite q) = ginf.
Proof.
  induction l as [|a l IH]; intros q H H1 H2; [destruct H|]. cbn [gsum].
  assert (H1' : ~ In None l) by (intro; apply H1; now right). assert (H2' : ~ In (Some NInf) l) by (intro; apply H2; now right).
  destruct H as [->|H]; [now apply gsum_pinf|].
  destruct a as [[|x|]|].
  - exfalso. apply H2. now left.
  - now apply IH.
  - now apply gsum_pinf.
  - exfalso. apply H1. now left.
Qed.
Lemma gmean l n : n = length l -> n <> 0 -> exists g, gdiv (gsum l (finite 0)) n = Ok g /\ is_mean l g.
Proof.
  intros -> Hn. unfold gdiv. apply Nat.eqb_neq in Hn. rewrite Hn. eexists. split; [reflexivity|]. apply Nat.eqb_neq in Hn. split; [|split].
  - intros qs ->. destruct (gsum_fin qs 0) as (v & -> & F). eexists. split; [reflexivity|]. rewrite map_length in *.
    assert (K := Qn_pos (length qs) ltac:(lia)). rewrite F. field. lra.
  - intro H. now rewrite gsum_nan.
  - intros H1 H2 H3. now rewrite gsum_inf.
Qed.

(** ** C51 *)
Lemma count_solved_spec req rows : Forall (fun r : row_t => 6 <= length (snd r)) rows -> forall nb all,
  count_solved req rows nb all = Ok (nb + count (solvedb req) rows, all && forallb (solvedb req) rows).
Proof.
  induction 1 as [|r rows H HF IH]; intros nb all; cbn [count_solved forallb].
  - cbn. now rewrite Nat.add_0_r, andb_true_r.
  - unfold is_solved. rewrite row_neg_field by lia. cbn [rbind]. rewrite count_cons.
    change (gleb (field 1 r) (finite (req + (1 # 10000000)))) with (solvedb req r). destruct (solvedb req r); rewrite IH; cbn [andb].
    + f_equal. f_equal. lia.
    + now rewrite andb_false_r.
Qed.
Lemma sum_entries_spec all part rows : Forall (fun r : row_t => 6 <= length (snd r)) rows -> forall t0 t1,
  sum_entries all part rows t0 t1 =
  Ok (gsum (map (field (if all then 4 else 1)) rows) t0, if part then gsum (map (field 6) rows) t1 else t1).
Proof.
  induction 1 as [|r rows H HF IH]; intros t0 t1; cbn [sum_entries map gsum].
  - destruct part; reflexivity.
  - rewrite row_neg_field by (destruct all; lia). cbn [rbind]. destruct part.
    + rewrite row_neg_field by lia. cbn [rbind]. apply IH.
    + cbn [rbind]. apply IH.
Qed.
Lemma rmap_geti_firstn {A} (l : list A) n : n <= length l -> rmap (fun j => geti l j) (seq 0 n) = Ok (firstn n l).
Proof.
  assert (G : forall n (l pre : list A), n <= length l -> rmap (fun j => geti (pre ++ l)%list j) (seq (length pre) n) = Ok (firstn n l)).
  { induction n0 as [|n0 IH]; intros l0 pre H; [reflexivity|]. destruct l0 as [|a l0]; [cbn in H; lia|]. cbn [seq rmap firstn].
    rewrite (geti_ok _ _ a) by (rewrite app_length; cbn; lia). rewrite nth_middle. cbn [rbind].
    specialize (IH l0 (pre ++ [a])%list). rewrite <- app_assoc, app_length in IH. cbn [app length] in IH. rewrite Nat.add_1_r in IH.
    rewrite IH by (cbn in H; lia). reflexivity. }
  intro H. apply (G n l [] H).
Qed.
Lemma forallb_count {A} (f : A -> bool) l : forallb f l = true <-> count f l = length l.
Proof.
  induction l as [|a l IH]; cbn [forallb]; [cbn; tauto|]. rewrite count_cons. cbn [length].
  assert (B : count f l <= length l) by (unfold count; clear IH; induction l as [|b l IHl]; cbn; [lia|]; destruct (f b); cbn; lia).
  destruct (f a); cbn [andb]; [|split; [discriminate|lia]]. rewrite IH. lia.
Qed.

Lemma format_method_spec (results : list row_t) m ids req milp part : 0 < ids -> ids <= length results ->
  Forall (fun r : row_t => 6 <= length (snd r)) (firstn ids results) ->
  exists t nb g entries a0 a1, format_method results m ids req milp part = Ok (t, nb, g, entries) /\
    nb = count (solvedb req) (firstn ids results) /\
    (nb = ids -> is_mean (map (field 4) (firstn ids results)) a0 /\ t = a0 /\ g = ginf /\ hd EDash entries = ETime (fixed 2 a0)) /\
    (nb <> ids -> is_mean (map (field 1) (firstn ids results)) a0 /\ t = ginf /\ g = a0 /\ hd EDash entries = EGap (fixed 2 a0) nb) /\
    tl entries = (if memZ m milp then [] else [ENum a1]) /\
    (memZ m part = true -> is_mean (map (field 6) (firstn ids results)) a1) /\ (memZ m part = false -> exists v, a1 = finite v /\ (v == 0)%Q).
Proof.
  intros H0 HL HF. unfold format_method. rewrite rmap_geti_firstn by exact HL. cbn [rbind].
  assert (LR : length (firstn ids results) = ids) by (apply firstn_length_le; exact HL).
  set (rows := firstn ids results) in *. rewrite count_solved_spec by exact HF. cbn [rbind andb Nat.add].
  rewrite sum_entries_spec by exact HF. cbn [rbind].
  destruct (gmean (map (field (if forallb (solvedb req) rows then 4 else 1)) rows) ids) as (a0 & E0 & M0); [now rewrite map_length|lia|]. rewrite E0. cbn [rbind].
  assert (G1 : exists a1, gdiv (if memZ m part then gsum (map (field 6) rows) (finite 0) else finite 0) ids = Ok a1 /\
     (memZ m part = true -> is_mean (map (field 6) rows) a1) /\ (memZ m part = false -> exists v, a1 = finite v /\ (v == 0)%Q)).
  { destruct (memZ m part).
    - destruct (gmean (map (field 6) rows) ids) as (a1 & E1 & M1); [now rewrite map_length|lia|]. exists a1. split; [exact E1|]. split; [auto|discriminate].
    - unfold gdiv. destruct (ids =? 0) eqn:E; [apply Nat.eqb_eq in E; lia|]. eexists. split; [reflexivity|]. split; [discriminate|]. intros _.
      eexists. split; [reflexivity|]. assert (K := Qn_pos ids H0). field. lra. }
  destruct G1 as (a1 & E1 & M1 & M2). rewrite E1. cbn [rbind].
  do 4 eexists. exists a0, a1. split; [reflexivity|]. split; [reflexivity|].
  assert (FC := forallb_count (solvedb req) rows). rewrite LR in FC.
  split; [|split; [|split; [|split; assumption]]].
  - intro E. apply FC in E. rewrite E in *. split; [exact M0|]. split; [reflexivity|]. split; [reflexivity|]. destruct (memZ m milp); reflexivity.
  - intro E. destruct (forallb (solvedb req) rows) eqn:EF; [exfalso; apply E; now apply FC|]. split; [exact M0|]. split; [reflexivity|]. split; [reflexivity|].
    destruct (memZ m milp); reflexivity.
  - destruct (memZ m milp); reflexivity.
Qed.
Lemma format_method_errors results m ids req milp part :
  (length results < ids -> format_method results m ids req milp part = Err IndexError) /\
  (ids = 0 -> format_method results m ids req milp part = Err ZeroDivisionError).
Proof.
  split.
  - intro H. unfold format_method. assert (G : rmap (fun j => geti results j) (seq 0 ids) = Err IndexError); [|now rewrite G].
    replace ids with (length results + S (ids - length results - 1)) by lia. rewrite seq_app. cbn [Nat.add].
    assert (R : forall {B C} (f : B -> res C) l1 l2 r1 e, rmap f l1 = Ok r1 -> rmap f l2 = Err e -> rmap f (l1 ++ l2) = Err e).
    { intros B C f. induction l1 as [|a l1 IH]; intros l2 r1 e E1 E2; [exact E2|]. cbn [app rmap] in *. destruct (f a); [|discriminate]. cbn [rbind] in *.
      destruct (rmap f l1) eqn:E; [|discriminate]. now rewrite (IH l2 _ e eq_refl E2). }
    eapply R; [apply rmap_geti_firstn; lia|]. cbn [seq rmap]. unfold geti. destruct (nth_error results (length results)) eqn:E; [|reflexivity].
    exfalso. assert (X : nth_error results (length results) <> None) by congruence. apply nth_error_Some in X. lia.
  - intros ->. reflexivity.
Qed.

(** Stored with three decimals of percent: solved means a gap of at most 1.05e-4. *)
Lemma Qrnd_le_10 x : (Qrnd x <= 10)%Z <-> (x <= 21 # 2)%Q.
Proof.
  split; intro H.
  - destruct (Qrnd_bounds x) as [_ H2]. assert (inject_Z (Qrnd x) <= inject_Z 10)%Q by (now rewrite <- Zle_Qle). change (inject_Z 10) with 10%Q in *. lra.
  - apply Qrnd_mono in H. exact H.
Qed.
Lemma stored_gap_solved r q : snd r <> [] -> field 1 r = fixed 3 (times100 (finite q)) -> (is_solved (1 # 100) r = Ok true <-> (q <= 105 # 1000000)%Q).
Proof.
  intros HN E. unfold is_solved. rewrite row_neg_field by (destruct (snd r); [congruence|cbn; lia]). cbn [rbind]. rewrite E. cbn [times100 finite fixed gleb].
  unfold finite. cbn [ext_leb]. change (pow10 3) with (inject_Z 1000).
  assert (S1 : (Ok (Qle_bool (inject_Z (Qrnd (q * 100 * inject_Z 1000)) / inject_Z 1000) ((1 # 100) + (1 # 10000000))) = Ok true) <->
               (Qrnd (q * 100 * inject_Z 1000) <= 10)%Z).
  { set (z := Qrnd _). transitivity (inject_Z z / inject_Z 1000 <= (1 # 100) + (1 # 10000000))%Q.
    - rewrite <- Qle_bool_iff. split; [intro H; now injection H|intros ->; reflexivity].
    - assert (D : (inject_Z z / inject_Z 1000 == inject_Z z * (1 # 1000))%Q) by reflexivity. rewrite D. split; intro H.
      + destruct (Z_le_gt_dec z 10) as [L|L]; [exact L|exfalso]. assert (inject_Z 11 <= inject_Z z)%Q by (rewrite <- Zle_Qle; lia).
        change (inject_Z 11) with 11%Q in *. lra.
      + assert (inject_Z z <= inject_Z 10)%Q by (now rewrite <- Zle_Qle). change (inject_Z 10) with 10%Q in *. lra. }
  rewrite S1, Qrnd_le_10. assert (D : (q * 100 * inject_Z 1000 == q * 100000)%Q) by (change (inject_Z 1000) with 1000%Q; ring). rewrite D. split; intro; lra.
Qed.

(** ** C52: the best method *)
Definition gle (a b : gapv) : Prop := match a, b with Some x, Some y => ext_leb x y = true | _, _ => False end.
Lemma ext_leb_refl a : ext_leb a a = true.
Proof. destruct a as [|q|]; try reflexivity. cbn. apply Qle_bool_iff. lra. Qed.
Lemma ext_leb_trans a b c : ext_leb a b = true -> ext_leb b c = true -> ext_leb a c = true.
Proof.
  destruct a as [|x|], b as [|y|], c as [|z|]; cbn; try reflexivity; try discriminate. rewrite !Qle_bool_iff. intros; lra.
Qed.
Lemma ext_ltb_leb a b : ext_ltb a b = true -> ext_leb a b = true.
Proof.
  unfold ext_ltb. destruct a as [|x|], b as [|y|]; cbn; try reflexivity; try discriminate. intro H. apply negb_true_iff in H. apply Qle_bool_false in H. apply Qle_bool_iff. lra.
Qed.
Lemma ext_ltb_false a b : ext_ltb a b = false -> ext_leb b a = true.
Proof. unfold ext_ltb. intro H. now apply negb_false_iff in H. Qed.

(** First least position of a list without nan. *)
Definition first_least (l : list gapv) (k : nat) : Prop :=
  k < length l /\ (forall i, i < length l -> gle (nth k l None) (nth i l None)) /\ (forall i, i < k -> ~ gle (nth i l None) (nth k l None)).
Lemma argmin_from_spec l : forall pre best bi, ~ In None l -> first_least pre bi -> best = nth bi pre None ->
  first_least (pre ++ l) (argmin_from best bi (length pre) l).
Proof.
  induction l as [|a l IH]; intros pre best bi HN F ->.
  - rewrite app_nil_r. cbn [argmin_from]. destruct (nth bi pre None); exact F.
  - destruct F as (F1 & F2 & F3). assert (B : gle (nth bi pre None) (nth bi pre None)) by (now apply F2).
    cbn [argmin_from]. destruct (nth bi pre None) as [b|] eqn:Eb; [|destruct B]. destruct a as [a|]; [|exfalso; apply HN; now left].
    assert (HN' : ~ In None l) by (intro; apply HN; now right).
    replace (pre ++ Some a :: l)%list with ((pre ++ [Some a]) ++ l)%list by (now rewrite <- app_assoc).
    replace (S (length pre)) with (length (pre ++ [Some a])%list) by (rewrite app_length; cbn; lia).
    destruct (ext_ltb a b) eqn:E.
    + apply IH; [exact HN'| |now rewrite nth_middle]. assert (N : nth (length pre) (pre ++ [Some a]) None = Some a) by (now rewrite nth_middle).
      split; [rewrite app_length; cbn; lia|]. rewrite N. split.
      * intros i Hi. rewrite app_length in Hi. cbn in Hi. destruct (Nat.eq_dec i (length pre)) as [->|D]; [rewrite N; cbn; apply ext_leb_refl|].
        rewrite app_nth1 by lia. specialize (F2 i ltac:(lia)). destruct (nth i pre None) as [x|]; [|destruct F2]. unfold gle in *.
        eapply ext_leb_trans; [apply ext_ltb_leb; exact E|exact F2].
      * intros i Hi. rewrite app_nth1 by lia. specialize (F2 i ltac:(lia)). destruct (nth i pre None) as [x|]; [|intros []]. unfold gle in *.
        intro K. unfold ext_ltb in E. apply negb_true_iff in E. assert (ext_leb b a = true) by (eapply ext_leb_trans; [exact F2|exact K]). congruence.
    + apply IH; [exact HN'| |now rewrite app_nth1]. split; [rewrite app_length; lia|]. rewrite (app_nth1 pre [Some a] None F1), Eb. split.
      * intros i Hi. rewrite app_length in Hi. cbn in Hi. destruct (Nat.eq_dec i (length pre)) as [->|D].
        { rewrite nth_middle. cbn. now apply ext_ltb_false. }
        rewrite app_nth1 by lia. apply F2. lia.
      * intros i Hi. rewrite app_nth1 by lia. now apply F3.
Qed.
Lemma argmin_spec l : l <> [] -> ~ In None l -> exists k, argmin l = Ok k /\ first_least l k.
Proof.
  destruct l as [|a l]; [congruence|]. intros _ HN. cbn [argmin]. eexists. split; [reflexivity|].
  apply (argmin_from_spec l [a] a 0); [intro; apply HN; now right| |reflexivity]. split; [cbn; lia|]. split; [|intros; lia].
  intros i Hi. destruct i; [|cbn in Hi; lia]. cbn. destruct a as [a|]; [cbn; apply ext_leb_refl|exfalso; apply HN; now left].
Qed.

Lemma fold_max l : forall a, (forall i, i < length l -> nth i l 0 <= fold_left Nat.max l a) /\ a <= fold_left Nat.max l a /\
   (fold_left Nat.max l a = a \/ In (fold_left Nat.max l a) l).
Proof.
  induction l as [|x l IH]; intro a; cbn [fold_left].
  - split; [cbn; lia|]. auto.
  - destruct (IH (Nat.max a x)) as (H1 & H2 & H3). split; [|split].
    + intros [|i] Hi; cbn in *; [lia|apply H1; lia].
    + lia.
    + destruct H3 as [H3|H3]; [|now right; right]. rewrite H3. destruct (Nat.max_spec a x) as [[_ ->]|[_ ->]]; [right; now left|now left].
Qed.

(** What the highlighted method [b] must satisfy. *)
Definition best_spec (T G : list gapv) (N : list nat) (b : nat) : Prop :=
  b < length T /\
  ((exists i, i < length T /\ gfinite (nth i T None) = true) -> first_least T b) /\
  ((forall i, i < length T -> nth i T None = ginf) ->
     (forall i, i < length T -> nth i N 0 <= nth b N 0) /\
     (forall i, i < length T -> nth i N 0 = nth b N 0 -> gle (nth b G None) (nth i G None)) /\
     (forall i, i < b -> nth i N 0 = nth b N 0 -> ~ gle (nth i G None) (nth b G None))).

Lemma filter_sorted_nth (f : nat -> bool) n : forall i j, i < j -> j < length (filter f (seq 0 n)) -> nth i (filter f (seq 0 n)) 0 < nth j (filter f (seq 0 n)) 0.
Proof.
  assert (G : forall n a, (forall i, i < length (filter f (seq a n)) -> a <= nth i (filter f (seq a n)) 0) /\
     forall i j, i < j -> j < length (filter f (seq a n)) -> nth i (filter f (seq a n)) 0 < nth j (filter f (seq a n)) 0).
  { induction n0 as [|n0 IH]; intro a; cbn [seq filter]; [split; cbn; intros; lia|]. destruct (IH (S a)) as [H1 H2]. destruct (f a).
    - split.
      + intros [|i] Hi; cbn in *; [lia|]. specialize (H1 i ltac:(lia)). lia.
      + intros [|i] [|j] Hij Hj; cbn in *; try lia; [specialize (H1 j ltac:(lia)); lia|apply H2; lia].
    - split; [intros i Hi; specialize (H1 i Hi); lia|exact H2]. }
  apply (G n 0).
Qed.

Lemma best_method_spec T G N : T <> [] -> length G = length T -> length N = length T ->
  Forall (fun a => gfinite a = true \/ a = ginf) T -> ~ In None G -> exists b, best_method T G N = Ok b /\ best_spec T G N b.
Proof.
  intros HT LG LN HF HG.
  assert (NT : ~ In None T). { intro H. rewrite Forall_forall in HF. destruct (HF _ H) as [K|K]; discriminate K. }
  destruct (argmin_spec T HT NT) as (a & Ea & Fa). unfold best_method. rewrite Ea. cbn [rbind]. destruct Fa as (Fa1 & Fa2 & Fa3).
  assert (FT : forall i, i < length T -> gfinite (nth i T None) = true \/ nth i T None = ginf).
  { intros i Hi. rewrite Forall_forall in HF. apply HF. now apply nth_In. }
  destruct (gfinite (nth a T None)) eqn:Ef.
  - exists a. split; [reflexivity|]. split; [exact Fa1|]. split; [intros _; now split|]. intro H. rewrite (H a Fa1) in Ef. discriminate.
  - assert (AI : forall i, i < length T -> nth i T None = ginf).
    { intros i Hi. destruct (FT i Hi) as [K|K]; [|exact K]. specialize (Fa2 i Hi). destruct (FT a Fa1) as [K2|K2]; [congruence|]. rewrite K2 in Fa2.
      destruct (nth i T None) as [[| |]|]; try discriminate K. cbn in Fa2. discriminate. }
    set (mx := fold_left Nat.max N 0). destruct (fold_max N 0) as (M1 & _ & M3). fold mx in M1, M3.
    set (P := fun i => nth i N 0 =? mx). set (V := filter P (seq 0 (length N))).
    assert (VI : forall i, In i V <-> i < length T /\ nth i N 0 = mx).
    { intro i. unfold V, P. rewrite filter_In, in_seq, Nat.eqb_eq, LN. lia. }
    assert (VN : V <> []).
    { destruct N as [|n0 N0] eqn:EN; [cbn in LN; destruct T; [congruence|discriminate]|]. rewrite <- EN in *.
      assert (exists i, i < length N /\ nth i N 0 = mx) as (i & Hi & Ei).
      { destruct M3 as [M3|M3].
        - exists 0. split; [rewrite EN; cbn; lia|]. specialize (M1 0 ltac:(rewrite EN; cbn; lia)). lia.
        - apply In_nth with (d := 0) in M3. exact M3. }
      intro K. assert (X : In i V) by (apply VI; split; [lia|exact Ei]). rewrite K in X. destruct X. }
    destruct (argmin_spec (map (fun i => nth i G None) V)) as (k & Ek & Fk).
    { destruct V; [congruence|discriminate]. }
    { intro K. apply in_map_iff in K as (i & E & Hi). apply HG. rewrite <- E. apply nth_In. rewrite LG. now apply VI. }
    change (exists b, (do k <- argmin (map (fun i => nth i G None) V) ;; geti V k) = Ok b /\ best_spec T G N b). rewrite Ek. cbn [rbind]. destruct Fk as (Fk1 & Fk2 & Fk3). rewrite map_length in Fk1, Fk2.
    exists (nth k V 0). split; [now apply geti_ok|]. assert (HB := nth_In V 0 Fk1). apply VI in HB as [HB1 HB2].
    assert (MN : forall i, i < length V -> nth i (map (fun i => nth i G None) V) None = nth (nth i V 0) G None).
    { intros i Hi. rewrite (nth_indep _ None ((fun i => nth i G None) 0)) by (now rewrite map_length). now rewrite (map_nth (fun i => nth i G None)). }
    split; [exact HB1|]. split.
    { intros (i & Hi & K). rewrite (AI i Hi) in K. discriminate. }
    intros _. rewrite HB2. split; [|split].
    + intros i Hi. apply M1. lia.
    + intros i Hi E. assert (X : In i V) by (now apply VI). apply In_nth with (d := 0) in X as (j & Hj & <-).
      exact (eq_ind _ (fun z => gle z _) (eq_ind _ (gle _) (Fk2 j Hj) _ (MN j Hj)) _ (MN k Fk1)).
    + intros i Hi E. assert (X : In i V) by (apply VI; split; [lia|exact E]). apply In_nth with (d := 0) in X as (j & Hj & <-).
      assert (L : j < k).
      2:{ exact (eq_ind _ (fun z => ~ gle _ z) (eq_ind _ (fun z => ~ gle z _) (Fk3 j L) _ (MN j Hj)) _ (MN k Fk1)). }
      destruct (Nat.lt_trichotomy j k) as [L|[->|L]]; [exact L|lia|].
      unfold V in L, Hj, Hi. assert (Z := filter_sorted_nth P (length N) k j L Hj). unfold V in Hi. lia.
Qed.

(** ** Cells and rows *)
(** Rows as written by main.py: at least six numbers, a finite time, a gap that is a number or inf. *)
Definition good_row (r : row_t) : Prop :=
  6 <= length (snd r) /\ (gfinite (field 4 r) = true) /\ (gfinite (field 1 r) = true \/ field 1 r = ginf).

Lemma gfinite_ex a : gfinite a = true -> exists q, a = finite q.
Proof. destruct a as [[|q|]|]; try discriminate. intros _. now exists q. Qed.
Lemma all_finite l : Forall (fun a => gfinite a = true) l -> exists qs, l = map finite qs.
Proof.
  induction 1 as [|a l H HF IH]; [now exists []|]. destruct IH as (qs & ->). destruct (gfinite_ex a H) as (q & ->). now exists (q :: qs).
Qed.
Lemma mean_finite l g : is_mean l g -> Forall (fun a => gfinite a = true) l -> gfinite g = true.
Proof. intros (H & _) HF. destruct (all_finite l HF) as (qs & E). destruct (H qs E) as (v & -> & _). reflexivity. Qed.
Lemma mean_not_nan l g : is_mean l g -> Forall (fun a => gfinite a = true \/ a = ginf) l -> g <> None.
Proof.
  intros (H1 & _ & H3) HF. destruct (forallb gfinite l) eqn:E.
  - rewrite forallb_forall in E. destruct (all_finite l) as (qs & Eq); [now apply Forall_forall|]. destruct (H1 qs Eq) as (v & -> & _). discriminate.
  - assert (exists a, In a l /\ gfinite a = false) as (a & Ha & Fa).
    { clear -E. induction l as [|a l IH]; [discriminate|]. cbn in E. destruct (gfinite a) eqn:Ea; [|exists a; split; [now left|exact Ea]].
      destruct (IH E) as (b & Hb & Fb). exists b. split; [now right|exact Fb]. }
    rewrite Forall_forall in HF. assert (a = ginf) as -> by (destruct (HF a Ha); [congruence|assumption]). rewrite H3; [discriminate|exact Ha| |].
    + intro K. destruct (HF _ K) as [X|X]; discriminate X.
    + intro K. destruct (HF _ K) as [X|X]; discriminate X.
Qed.

Lemma Forall_firstn' {A} (P : A -> Prop) n l : Forall P l -> Forall P (firstn n l).
Proof. intro H. revert n. induction H; intros [|n]; cbn; constructor; auto. Qed.

Lemma rmap_length {A B} (f : A -> res B) : forall l r, rmap f l = Ok r -> length r = length l.
Proof.
  induction l as [|a l IH]; intros r H; cbn [rmap] in H; [now injection H as <-|]. destruct (f a); [|discriminate]. cbn [rbind] in H.
  destruct (rmap f l) as [l'|] eqn:E; [|discriminate]. cbn [rbind] in H. injection H as <-. cbn. f_equal. now apply IH.
Qed.
Lemma rmap_nth {A B} (f : A -> res B) da db : forall l r, rmap f l = Ok r -> forall i, i < length l -> f (nth i l da) = Ok (nth i r db).
Proof.
  induction l as [|a l IH]; intros r H i Hi; cbn [rmap] in H; [cbn in Hi; lia|]. destruct (f a) eqn:Ea; [|discriminate]. cbn [rbind] in H.
  destruct (rmap f l) as [l'|] eqn:E; [|discriminate]. cbn [rbind] in H. injection H as <-. destruct i; cbn; [exact Ea|]. apply IH; [reflexivity|cbn in Hi; lia].
Qed.
Lemma rmap_all {A B} (f : A -> res B) l : (forall a, In a l -> exists b, f a = Ok b) -> exists r, rmap f l = Ok r.
Proof.
  induction l as [|a l IH]; intro H; [now exists []|]. destruct (H a ltac:(now left)) as (b & E). destruct IH as (r & Er); [intros; apply H; now right|].
  exists (b :: r). cbn [rmap]. rewrite E. cbn [rbind]. now rewrite Er.
Qed.

Section TableFacts.
  Variable exp : Z -> string -> Z -> nat -> Q -> Z -> option row_t.
  Variable instances : list string.
  Variable scenarios : list Z.
  Variable epsilons : list Q.
  Variable nb_ids : nat.
  Variables methods milp part : list Z.
  Variable required : Q.
  Local Notation erows := (experiment_rows exp nb_ids).
  Local Notation mcells := (method_cells exp nb_ids milp part required).
  Local Notation trow := (table_row exp nb_ids methods milp part required).

  Lemma experiment_rows_spec c inst sc eps m :
    match erows c inst sc eps m with
    | Some rows => map (fun j => exp c inst sc j eps m) (seq 1 nb_ids) = map Some rows
    | None => exists j, 1 <= j <= nb_ids /\ exp c inst sc j eps m = None
    end.
  Proof.
    unfold experiment_rows.
    assert (G : forall l, match fold_right (fun j acc => match exp c inst sc j eps m, acc with Some r, Some l => Some (r :: l) | _, _ => None end) (Some []) l with
      | Some rows => map (fun j => exp c inst sc j eps m) l = map Some rows
      | None => exists j, In j l /\ exp c inst sc j eps m = None end).
    { induction l as [|a l IH]; cbn [fold_right map]; [reflexivity|]. destruct (fold_right _ _ l) as [rows|].
      - destruct (exp c inst sc a eps m) as [r|] eqn:E; [|exists a; split; [now left|exact E]]. cbn [map]. now rewrite IH.
      - destruct IH as (j & Hj & Ej). assert (X : exists j, In j (a :: l) /\ exp c inst sc j eps m = None) by (exists j; split; [now right|exact Ej]).
        destruct (exp c inst sc a eps m); exact X. }
    specialize (G (seq 1 nb_ids)). destruct (fold_right _ _ _); [exact G|]. destruct G as (j & H1 & H2). exists j. apply in_seq in H1. split; [lia|exact H2].
  Qed.

  (** A missing file: time and gap infinite, nothing solved, "-" or two nan.  Otherwise the cells of format_method. *)
  Lemma method_cells_missing c inst sc eps m j : 1 <= j <= nb_ids -> exp c inst sc j eps m = None ->
    mcells c inst sc eps m = Ok (ginf, 0, ginf, if memZ m milp then [EDash] else [ENum None; ENum None]).
  Proof.
    intros Hj E. unfold method_cells. assert (X := experiment_rows_spec c inst sc eps m). destruct (erows c inst sc eps m) as [rows|]; [|reflexivity].
    assert (Y : In None (map (fun j => exp c inst sc j eps m) (seq 1 nb_ids))) by (rewrite <- E; apply (in_map (fun j => exp c inst sc j eps m)), in_seq; lia).
    rewrite X in Y. apply in_map_iff in Y as (r & K & _). discriminate K.
  Qed.
  Lemma map_Some_inj {A} (l l' : list A) : map Some l = map Some l' -> l = l'.
  Proof. revert l'. induction l as [|a l IH]; intros [|b l'] H; try discriminate; [reflexivity|]. cbn in H. injection H as -> H. f_equal. now apply IH. Qed.
  Lemma method_cells_present c inst sc eps m rows :
    map (fun j => exp c inst sc j eps m) (seq 1 nb_ids) = map Some rows ->
    mcells c inst sc eps m = format_method rows m nb_ids required milp part.
  Proof.
    intros H. unfold method_cells. assert (X := experiment_rows_spec c inst sc eps m). destruct (erows c inst sc eps m) as [r|].
    - rewrite X in H. apply map_Some_inj in H as ->. reflexivity.
    - destruct X as (j & Hj & E). assert (Y : In None (map (fun j => exp c inst sc j eps m) (seq 1 nb_ids))) by (rewrite <- E; apply (in_map (fun j => exp c inst sc j eps m)), in_seq; lia).
      rewrite H in Y. apply in_map_iff in Y as (r & K & _). discriminate K.
  Qed.

  Hypothesis ids_pos : 0 < nb_ids.
  Hypothesis good : forall c i s j e m r, exp c i s j e m = Some r -> good_row r.

  (** Every cell: a time that is finite or inf, a gap that is not nan, one entry for the MILP methods and two otherwise. *)
  Lemma method_cells_ok c inst sc eps m : exists t nb g l, mcells c inst sc eps m = Ok (t, nb, g, l) /\
    (gfinite t = true \/ t = ginf) /\ g <> None /\ length l = (if memZ m milp then 1 else 2).
  Proof.
    assert (X := experiment_rows_spec c inst sc eps m). destruct (erows c inst sc eps m) as [rows|].
    - rewrite (method_cells_present _ _ _ _ _ rows X). assert (L : length rows = nb_ids).
      { apply (f_equal (@length _)) in X. rewrite !map_length, seq_length in X. now symmetry. }
      assert (GR : Forall good_row rows).
      { apply Forall_forall. intros r Hr. assert (Y : In (Some r) (map Some rows)) by (now apply in_map). rewrite <- X in Y. apply in_map_iff in Y as (j & E & _). eapply good. exact E. }
      assert (FN : firstn nb_ids rows = rows) by (rewrite <- L; apply firstn_all).
      destruct (format_method_spec rows m nb_ids required milp part) as (t & nb & g & l & a0 & a1 & E & _ & H1 & H2 & H3 & _); [exact ids_pos|lia| |].
      { apply Forall_firstn'. eapply Forall_impl; [|exact GR]. intros r (K & _). exact K. }
      rewrite FN in *. exists t, nb, g, l. split; [exact E|].
      assert (LL : length l = if memZ m milp then 1 else 2).
      { unfold format_method in E. clear - E H3. repeat match type of E with rbind ?x _ = _ => destruct x as [?|]; [cbn [rbind] in E|discriminate E] | (let (_, _) := ?x in _) = _ => destruct x end.
        destruct (memZ m milp); injection E as _ _ _ <-; reflexivity. }
      destruct (Nat.eq_dec nb nb_ids) as [D|D].
      + destruct (H1 D) as (M & -> & -> & _). split; [left|split; [discriminate|exact LL]]. eapply mean_finite; [exact M|]. apply Forall_map. eapply Forall_impl; [|exact GR]. intros r (_ & K & _). exact K.
      + destruct (H2 D) as (M & -> & -> & _). split; [now right|]. split; [|exact LL]. eapply mean_not_nan; [exact M|]. apply Forall_map. eapply Forall_impl; [|exact GR]. intros r (_ & _ & K). exact K.
    - destruct X as (j & Hj & E). rewrite (method_cells_missing _ _ _ _ _ j Hj E). do 4 eexists. split; [reflexivity|]. split; [now right|]. split; [discriminate|]. destruct (memZ m milp); reflexivity.
  Qed.

  Hypothesis some_method : methods <> [].
  Hypothesis five_methods : length methods <= 5.
  (** The first two methods are the MILP methods (export_results.py:16-21). *)
  Hypothesis milp_first : forall i, i < length methods -> memZ (nth i methods 0%Z) milp = (i <? 2).

  Definition dcell : gapv * nat * gapv * list entry := (None, 0, None, []).
  Lemma table_row_spec c info inst sc eps : length info = 3 ->
    exists cells b row, rmap (mcells c inst sc eps) methods = Ok cells /\ trow c info inst sc eps = Ok row /\
      best_spec (map (fun x => fst (fst (fst x))) cells) (map (fun x => snd (fst x)) cells) (map (fun x => snd (fst (fst x))) cells) b /\
      length row = 3 + length (flat_map snd cells) /\
      nth (3 + length (flat_map snd (firstn b cells))) row EDash = EBold (hd EDash (snd (nth b cells dcell))) /\
      forall k, k <> 3 + length (flat_map snd (firstn b cells)) -> nth k row EDash = nth k (info ++ flat_map snd cells) EDash.
  Proof.
    intro LI. destruct (rmap_all (mcells c inst sc eps) methods) as (cells & EC).
    { intros m _. destruct (method_cells_ok c inst sc eps m) as (t & nb & g & l & E & _). eexists. exact E. }
    assert (LC := rmap_length _ _ _ EC). assert (CN := rmap_nth _ 0%Z dcell _ _ EC).
    assert (CK : forall i, i < length methods -> (gfinite (fst (fst (fst (nth i cells dcell)))) = true \/ fst (fst (fst (nth i cells dcell))) = ginf) /\
        snd (fst (nth i cells dcell)) <> None /\ length (snd (nth i cells dcell)) = if i <? 2 then 1 else 2).
    { intros i Hi. destruct (method_cells_ok c inst sc eps (nth i methods 0%Z)) as (t & nb & g & l & E & K1 & K2 & K3). rewrite (CN i Hi) in E.
      injection E as E. rewrite E. cbn [fst snd]. rewrite (milp_first i Hi) in K3. auto. }
    destruct (best_method_spec (map (fun x => fst (fst (fst x))) cells) (map (fun x => snd (fst x)) cells) (map (fun x => snd (fst (fst x))) cells)) as (b & EB & BS).
    { destruct cells; [destruct methods; [congruence|discriminate]|discriminate]. }
    { now rewrite !map_length. }
    { now rewrite !map_length. }
    { apply Forall_map, Forall_forall. intros x Hx. apply In_nth with (d := dcell) in Hx as (i & Hi & <-). apply CK. lia. }
    { intro K. apply in_map_iff in K as (x & E & Hx). apply In_nth with (d := dcell) in Hx as (i & Hi & <-). destruct (CK i ltac:(lia)) as (_ & X & _). congruence. }
    assert (HB : b < length cells) by (destruct BS as [H _]; now rewrite map_length in H).
    assert (COL : column_of b = Ok (3 + length (flat_map snd (firstn b cells)))).
    { rewrite LC in HB. clear - CK LC HB five_methods.
      assert (LT : forall i, i < length cells -> length (snd (nth i cells dcell)) = if i <? 2 then 1 else 2) by (intros i Hi; apply CK; lia).
      rewrite <- LC in *. clear CK LC. destruct cells as [|c0 [|c1 [|c2 [|c3 [|c4 [|c5 cells]]]]]]; cbn in five_methods; try lia;
      (assert (L0 := LT 0); assert (L1 := LT 1); assert (L2 := LT 2); assert (L3 := LT 3); assert (L4 := LT 4); cbn in L0, L1, L2, L3, L4, HB;
       do 5 (destruct b as [|b]; [cbn; rewrite ?app_length; cbn; repeat f_equal; lia|]); lia). }
    assert (NB : nth (3 + length (flat_map snd (firstn b cells))) (info ++ flat_map snd cells) EDash = hd EDash (snd (nth b cells dcell)) /\
                 3 + length (flat_map snd (firstn b cells)) < length (info ++ flat_map snd cells)).
    { assert (SP : cells = (firstn b cells ++ nth b cells dcell :: skipn (S b) cells)%list).
      { rewrite <- (firstn_skipn b cells) at 1. f_equal. clear - HB. revert cells HB. induction b as [|b IH]; intros [|x cells] HB; cbn in *; try lia; [reflexivity|]. apply IH. lia. }
      destruct (CK b ltac:(lia)) as (_ & _ & KL). assert (NE : snd (nth b cells dcell) <> []) by (intro K; rewrite K in KL; destruct (b <? 2); discriminate KL).
      assert (FM : flat_map snd cells = (flat_map snd (firstn b cells) ++ snd (nth b cells dcell) ++ flat_map snd (skipn (S b) cells))%list).
      { rewrite SP at 1. rewrite flat_map_app. reflexivity. }
      rewrite FM. rewrite app_nth2 by lia. replace (3 + length (flat_map snd (firstn b cells)) - length info) with (length (flat_map snd (firstn b cells))) by lia.
      rewrite app_nth2 by lia. rewrite Nat.sub_diag. destruct (snd (nth b cells dcell)) as [|e l]; [congruence|]. split; [reflexivity|]. rewrite !app_length. cbn. lia. }
    destruct NB as [NB1 NB2]. exists cells, b. eexists. split; [exact EC|]. split.
    { unfold table_row. rewrite EC. cbn [rbind]. rewrite EB. cbn [rbind]. rewrite COL. cbn [rbind]. unfold bold_at. rewrite (geti_ok _ _ EDash) by exact NB2. reflexivity. }
    split; [exact BS|]. rewrite NB1. split; [rewrite upd_length, app_length; lia|]. split; [now rewrite nth_upd_eq|].
    intros k Hk. now rewrite nth_upd_neq by lia.
  Qed.
End TableFacts.

(** ** Layout of the tables *)
Lemma slice_nth {A} a b (l : list A) d k : k < b - a -> nth k (slice a b l) d = nth (a + k) l d.
Proof.
  intro H. unfold slice. revert k H. generalize (b - a) as n. intros n k H.
  assert (G : forall a (l : list A), nth k (skipn a l) d = nth (a + k) l d).
  { induction a0 as [|a0 IH]; intro l0; [reflexivity|]. destruct l0; [destruct k; reflexivity|]. cbn. apply IH. }
  rewrite <- G. generalize (skipn a l). clear G. revert k H. induction n as [|n IH]; intros k H l0; [lia|]. destruct l0; [reflexivity|]. destruct k; [reflexivity|]. cbn. apply IH. lia.
Qed.
Lemma slice_length {A} a b (l : list A) : a <= b -> b <= length l -> length (slice a b l) = b - a.
Proof. intros H1 H2. unfold slice. rewrite firstn_length, skipn_length. lia. Qed.

Section LayoutFacts.
  Variable exp : Z -> string -> Z -> nat -> Q -> Z -> option row_t.
  Variable instances : list string.
  Variable scenarios : list Z.
  Variable epsilons : list Q.
  Variable nb_ids : nat.
  Variables methods milp part : list Z.
  Variable required : Q.
  Local Notation trow := (table_row exp nb_ids methods milp part required).
  Local Notation nS := (length scenarios).
  Local Notation nE := (length epsilons).
  Local Notation nI := (length instances).
  Variable c : Z.
  (** Every row of the table can be built (table_row_spec). *)
  Hypothesis rows_ok : forall info inst sc eps, length info = 3 -> exists row, trow c info inst sc eps = Ok row.

  Lemma scen_loop_spec i e inst eps : forall l s0 tab fi fe, s0 + length l + e * nS + i * nS * nE <= length tab ->
    exists tab' fe', scen_loop exp scenarios epsilons nb_ids methods milp part required c i e inst eps (combine (seq s0 (length l)) l) (tab, fi, fe)
        = Ok (tab', match l with [] => fi | _ => false end, fe') /\ length tab' = length tab /\
      (forall k, k < length l -> trow c [EInst (if fi && (k =? 0) then inst else EmptyString); EEps (if fe && (k =? 0) then Some eps else None); EScen (nth k l 0%Z)]
           inst (nth k l 0%Z) eps = Ok (nth (s0 + k + e * nS + i * nS * nE) tab' [])) /\
      (forall q, (q < s0 + e * nS + i * nS * nE \/ s0 + length l + e * nS + i * nS * nE <= q) -> nth q tab' [] = nth q tab []).
  Proof.
    induction l as [|sc l IH]; intros s0 tab fi fe HL.
    - exists tab, fe. split; [reflexivity|]. split; [reflexivity|]. split; [cbn; intros; lia|auto].
    - cbn [length] in *. cbn [seq combine scen_loop].
      destruct (rows_ok [EInst (if fi then inst else EmptyString); EEps (if fe then Some eps else None); EScen sc] inst sc eps eq_refl) as (row & Er).
      rewrite Er. cbn [rbind]. set (q0 := s0 + e * nS + i * nS * nE). assert (HQ : q0 < length tab) by (unfold q0; lia). apply Nat.ltb_lt in HQ as HQ'. rewrite HQ'.
      destruct (IH (S s0) (upd q0 row tab) false false) as (tab' & fe' & E & L & R & O); [rewrite upd_length; lia|].
      exists tab', fe'. split; [rewrite E; now destruct l|]. rewrite upd_length in L. split; [exact L|]. split.
      + intros [|k] Hk.
        * cbn [Nat.eqb]. rewrite !andb_true_r. cbn [nth]. rewrite Er. f_equal. rewrite O by lia. rewrite Nat.add_0_r. fold q0. now rewrite nth_upd_eq.
        * cbn [Nat.eqb]. rewrite !andb_false_r. cbn [nth]. rewrite <- Nat.add_succ_comm. specialize (R k ltac:(lia)). cbn [andb] in R. exact R.
      + intros q Hq. rewrite O by lia. apply nth_upd_neq. unfold q0. lia.
  Qed.
  Lemma eps_loop_spec i inst : forall l e0 tab fi, (e0 + length l) * nS + i * nS * nE <= length tab ->
    exists tab' fi', eps_loop exp scenarios epsilons nb_ids methods milp part required c i inst (combine (seq e0 (length l)) l) (tab, fi) = Ok (tab', fi') /\ length tab' = length tab /\
      (forall e k, e < length l -> k < nS ->
         trow c [EInst (if fi && (e =? 0) && (k =? 0) then inst else EmptyString); EEps (if k =? 0 then Some (nth e l 0%Q) else None); EScen (nth k scenarios 0%Z)]
           inst (nth k scenarios 0%Z) (nth e l 0%Q) = Ok (nth (k + (e0 + e) * nS + i * nS * nE) tab' [])) /\
      (forall q, (q < e0 * nS + i * nS * nE \/ (e0 + length l) * nS + i * nS * nE <= q) -> nth q tab' [] = nth q tab []).
  Proof.
    induction l as [|eps l IH]; intros e0 tab fi HL.
    - exists tab, fi. split; [reflexivity|]. split; [reflexivity|]. split; [cbn; intros; lia|auto].
    - cbn [length] in *. cbn [seq combine eps_loop].
      destruct (scen_loop_spec i e0 inst eps scenarios 0 tab fi true) as (tab1 & fe' & E1 & L1 & R1 & O1); [nia|].
      unfold enumerate. rewrite E1. cbn [rbind]. set (fi1 := match scenarios with [] => fi | _ => false end).
      destruct (IH (S e0) tab1 fi1) as (tab' & fi' & E & L & R & O); [rewrite L1; nia|].
      exists tab', fi'. split; [exact E|]. split; [congruence|]. split.
      + intros [|e] k He Hk.
        * cbn [Nat.eqb nth]. rewrite andb_true_r. specialize (R1 k Hk). cbn [andb] in R1. rewrite R1. f_equal. rewrite O by nia. f_equal. lia.
        * cbn [Nat.eqb nth]. rewrite andb_false_r. cbn [andb]. specialize (R e k ltac:(lia) Hk). rewrite <- Nat.add_succ_comm.
          replace (fi1 && (e =? 0) && (k =? 0)) with false in R; [exact R|]. unfold fi1. destruct scenarios; [cbn in Hk; lia|reflexivity].
      + intros q Hq. rewrite O by nia. apply O1. nia.
  Qed.
  Lemma inst_loop_spec : forall l i0 tab, (i0 + length l) * nS * nE <= length tab ->
    exists tab', inst_loop exp scenarios epsilons nb_ids methods milp part required c (combine (seq i0 (length l)) l) tab = Ok tab' /\ length tab' = length tab /\
      (forall i e k, i < length l -> e < nE -> k < nS ->
         trow c [EInst (if (e =? 0) && (k =? 0) then nth i l EmptyString else EmptyString); EEps (if k =? 0 then Some (nth e epsilons 0%Q) else None); EScen (nth k scenarios 0%Z)]
           (nth i l EmptyString) (nth k scenarios 0%Z) (nth e epsilons 0%Q) = Ok (nth (k + e * nS + (i0 + i) * nS * nE) tab' [])) /\
      (forall q, q < i0 * nS * nE -> nth q tab' [] = nth q tab []).
  Proof.
    induction l as [|inst l IH]; intros i0 tab HL.
    - exists tab. split; [reflexivity|]. split; [reflexivity|]. split; [cbn; intros; lia|auto].
    - cbn [length] in *. cbn [seq combine inst_loop].
      destruct (eps_loop_spec i0 inst epsilons 0 tab true) as (tab1 & fi' & E1 & L1 & R1 & O1); [nia|].
      unfold enumerate. rewrite E1. cbn [rbind]. destruct (IH (S i0) tab1) as (tab' & E & L & R & O); [rewrite L1; nia|].
      exists tab'. split; [exact E|]. split; [congruence|]. split.
      + intros [|i] e k Hi He Hk.
        * cbn [nth]. specialize (R1 e k He Hk). cbn [andb Nat.add] in R1. rewrite R1. f_equal. rewrite O.
          -- f_equal. lia.
          -- assert (k + e * nS < nE * nS) by nia. nia.
        * cbn [nth]. rewrite <- Nat.add_succ_comm. apply R; [lia|exact He|exact Hk].
      + intros q Hq. rewrite O by nia. apply O1. left. nia.
  Qed.

  (** Row (i, e, s) of the summary table. *)
  Definition place (i e s : nat) : nat := s + e * nS + i * (nS * nE).
  Lemma summary_spec : exists tab, summary_table exp instances scenarios epsilons nb_ids methods milp part required c = Ok tab /\ length tab = nI * nE * nS /\
    forall i e s, i < nI -> e < nE -> s < nS ->
      trow c [EInst (if (e =? 0) && (s =? 0) then nth i instances EmptyString else EmptyString); EEps (if s =? 0 then Some (nth e epsilons 0%Q) else None); EScen (nth s scenarios 0%Z)]
        (nth i instances EmptyString) (nth s scenarios 0%Z) (nth e epsilons 0%Q) = Ok (nth (place i e s) tab []).
  Proof.
    destruct (inst_loop_spec instances 0 (repeat [] (nI * nE * nS))) as (tab & E & L & R & _); [rewrite repeat_length; nia|].
    exists tab. split; [exact E|]. rewrite repeat_length in L. split; [exact L|]. intros i e s Hi He Hs. rewrite (R i e s Hi He Hs). unfold place. f_equal. f_equal. cbn [Nat.add]. nia.
  Qed.
  Lemma instance_table_spec i : i < nI -> exists tab, instance_table exp instances scenarios epsilons nb_ids methods milp part required c i = Ok tab /\ length tab = nE * nS /\
    forall e s, e < nE -> s < nS ->
      trow c [EInst (if (e =? 0) && (s =? 0) then nth i instances EmptyString else EmptyString); EEps (if s =? 0 then Some (nth e epsilons 0%Q) else None); EScen (nth s scenarios 0%Z)]
        (nth i instances EmptyString) (nth s scenarios 0%Z) (nth e epsilons 0%Q) = Ok (nth (s + e * nS) tab []).
  Proof.
    intro Hi. destruct summary_spec as (tab & E & L & R). unfold instance_table. rewrite E. cbn [rbind]. eexists. split; [reflexivity|].
    assert (B1 : nS * nE * i <= nS * nE * (1 + i)) by nia. assert (B2 : nS * nE * (1 + i) <= nI * nE * nS).
    { replace (nI * nE * nS) with (nS * nE * nI) by nia. apply Nat.mul_le_mono_l. lia. }
    split; [rewrite slice_length by lia; nia|].
    intros e s He Hs. assert (X : s + e * nS < nS * nE) by nia. rewrite slice_nth by nia. rewrite (R i e s Hi He Hs). unfold place. f_equal. f_equal. nia.
  Qed.

  (** Big-M times. *)
  Local Notation tmrow := (time_row exp epsilons nb_ids).
  Hypothesis times_ok : forall fi inst sc, exists row, tmrow fi inst sc = Ok row.
  Lemma time_scen_loop_spec i inst : forall l s0 tab fi, s0 + length l + i * nS <= length tab ->
    exists tab', time_scen_loop exp scenarios epsilons nb_ids i inst (combine (seq s0 (length l)) l) tab fi = Ok tab' /\ length tab' = length tab /\
      (forall k, k < length l -> tmrow (fi && (k =? 0)) inst (nth k l 0%Z) = Ok (nth (s0 + k + i * nS) tab' [])) /\
      (forall q, (q < s0 + i * nS \/ s0 + length l + i * nS <= q) -> nth q tab' [] = nth q tab []).
  Proof.
    induction l as [|sc l IH]; intros s0 tab fi HL.
    - exists tab. split; [reflexivity|]. split; [reflexivity|]. split; [cbn; intros; lia|auto].
    - cbn [length] in *. cbn [seq combine time_scen_loop]. destruct (times_ok fi inst sc) as (row & Er). rewrite Er. cbn [rbind].
      set (q0 := s0 + i * nS). assert (HQ : q0 < length tab) by (unfold q0; lia). apply Nat.ltb_lt in HQ as HQ'. rewrite HQ'.
      destruct (IH (S s0) (upd q0 row tab) false) as (tab' & E & L & R & O); [rewrite upd_length; lia|].
      exists tab'. split; [exact E|]. rewrite upd_length in L. split; [exact L|]. split.
      + intros [|k] Hk.
        * cbn [Nat.eqb nth]. rewrite andb_true_r, Er. f_equal. rewrite O by lia. rewrite Nat.add_0_r. fold q0. now rewrite nth_upd_eq.
        * cbn [Nat.eqb nth]. rewrite andb_false_r, <- Nat.add_succ_comm. apply (R k). lia.
      + intros q Hq. rewrite O by lia. apply nth_upd_neq. unfold q0. lia.
  Qed.
  Lemma time_inst_loop_spec : forall l i0 tab, (i0 + length l) * nS <= length tab ->
    exists tab', time_inst_loop exp scenarios epsilons nb_ids (combine (seq i0 (length l)) l) tab = Ok tab' /\ length tab' = length tab /\
      (forall i k, i < length l -> k < nS -> tmrow (k =? 0) (nth i l EmptyString) (nth k scenarios 0%Z) = Ok (nth (k + (i0 + i) * nS) tab' [])) /\
      (forall q, q < i0 * nS -> nth q tab' [] = nth q tab []).
  Proof.
    induction l as [|inst l IH]; intros i0 tab HL.
    - exists tab. split; [reflexivity|]. split; [reflexivity|]. split; [cbn; intros; lia|auto].
    - cbn [length] in *. cbn [seq combine time_inst_loop].
      destruct (time_scen_loop_spec i0 inst scenarios 0 tab true) as (tab1 & E1 & L1 & R1 & O1); [nia|].
      unfold enumerate. rewrite E1. cbn [rbind]. destruct (IH (S i0) tab1) as (tab' & E & L & R & O); [rewrite L1; nia|].
      exists tab'. split; [exact E|]. split; [congruence|]. split.
      + intros [|i] k Hi Hk.
        * cbn [nth]. specialize (R1 k Hk). cbn [andb Nat.add] in R1. rewrite R1. f_equal. rewrite O by nia. f_equal. lia.
        * cbn [nth]. rewrite <- Nat.add_succ_comm. apply R; [lia|exact Hk].
      + intros q Hq. rewrite O by nia. apply O1. left. nia.
  Qed.
  Lemma instance_times_spec i : i < nI -> exists tab, instance_times exp instances scenarios epsilons nb_ids i = Ok tab /\ length tab = nS /\
    forall s, s < nS -> tmrow (s =? 0) (nth i instances EmptyString) (nth s scenarios 0%Z) = Ok (nth s tab []).
  Proof.
    intro Hi. destruct (time_inst_loop_spec instances 0 (repeat [] (nI * nS))) as (tab & E & L & R & _); [rewrite repeat_length; nia|].
    unfold instance_times, time_summary, enumerate. rewrite E. cbn [rbind]. eexists. split; [reflexivity|]. rewrite repeat_length in L.
    split; [rewrite slice_length by nia; nia|]. intros s Hs. rewrite slice_nth by nia. rewrite (R i s Hi Hs). cbn [Nat.add]. f_equal. f_equal. nia.
  Qed.
End LayoutFacts.

(** ** C58: one big-M-time entry *)
Lemma row_at_10 (r : row_t) : 10 <= length (snd r) -> row_at r 10 = Ok (nth 9 (snd r) None).
Proof. intro H. unfold row_at. apply geti_ok. lia. Qed.
Lemma time_sum_some rows : Forall (fun r : row_t => 10 <= length (snd r)) rows -> forall acc,
  time_sum (map Some rows) acc = Ok (gsum (map (fun r => nth 9 (snd r) None) rows) acc).
Proof.
  induction 1 as [|r rows H HF IH]; intro acc; [reflexivity|]. cbn [map time_sum gsum]. rewrite row_at_10 by lia. cbn [rbind]. apply IH.
Qed.
Lemma time_sum_inf l : Forall (fun o => match o with Some r => 10 <= length (snd r) /\ gfinite (nth 9 (snd r) None) = true | None => True end) l ->
  time_sum l ginf = Ok ginf.
Proof.
  induction 1 as [|o l H HF IH]; [reflexivity|]. destruct o as [r|]; [|exact IH]. cbn [time_sum]. destruct H as [H1 H2].
  rewrite row_at_10 by exact H1. cbn [rbind]. destruct (gfinite_ex _ H2) as (q & Eq). unfold gapv in *. rewrite Eq. exact IH.
Qed.
Lemma time_sum_missing l : Forall (fun o => match o with Some r => 10 <= length (snd r) /\ gfinite (nth 9 (snd r) None) = true | None => True end) l ->
  In None l -> forall acc, time_sum l acc = Ok ginf.
Proof.
  induction 1 as [|o l H HF IH]; intros HI acc; [destruct HI|]. destruct HI as [->|HI]; [now apply time_sum_inf|].
  destruct o as [r|]; [|now apply time_sum_inf]. cbn [time_sum]. destruct H as [H1 H2]. rewrite row_at_10 by exact H1. cbn [rbind]. now apply IH.
Qed.
Definition time_field (r : row_t) : gapv := nth 9 (snd r) None.
Lemma mean_time_spec l n : n = length l -> n <> 0 ->
  (forall r, In (Some r) l -> 10 <= length (snd r) /\ gfinite (time_field r) = true) ->
  (In None l -> mean_time l n = Ok EDash) /\
  (forall rows, l = map Some rows -> exists qs v, map time_field rows = map finite qs /\ (v * Qn (length qs) == qsum qs)%Q /\ mean_time l n = Ok (ETime (fixed 2 (finite v)))).
Proof.
  intros EN HN HR. assert (HF : Forall (fun o => match o with Some r => 10 <= length (snd r) /\ gfinite (nth 9 (snd r) None) = true | None => True end) l).
  { apply Forall_forall. intros [r|] H; [|exact Logic.I]. apply (HR r H). }
  unfold mean_time. split.
  - intro H. rewrite time_sum_missing by assumption. cbn [rbind]. unfold gdiv. apply Nat.eqb_neq in HN. rewrite HN. reflexivity.
  - intros rows ->. assert (HA : Forall (fun r => 10 <= length (snd r) /\ gfinite (time_field r) = true) rows).
    { apply Forall_forall. intros r H. apply HR. now apply in_map. }
    rewrite time_sum_some by (eapply Forall_impl; [|exact HA]; intros r [K _]; exact K). cbn [rbind].
    destruct (all_finite (map time_field rows)) as (qs & Eq). { apply Forall_map. eapply Forall_impl; [|exact HA]. intros r [_ K]. exact K. }
    destruct (gmean (map time_field rows) n) as (g & Eg & (Hg & _)). { rewrite map_length. now rewrite map_length in EN. } { exact HN. }
    destruct (Hg qs Eq) as (v & -> & Hv). exists qs, v. split; [exact Eq|]. split; [exact Hv|].
    match goal with |- rbind ?x _ = _ => change x with (gdiv (gsum (map time_field rows) (finite 0)) n) end. rewrite Eg. reflexivity.
Qed.

(** ** The tables as a whole *)
Section Whole.
  Variable exp : Z -> string -> Z -> nat -> Q -> Z -> option row_t.
  Variable instances : list string.
  Variable scenarios : list Z.
  Variable epsilons : list Q.
  Variable nb_ids : nat.
  Variables methods milp part : list Z.
  Variable required : Q.

  (** One row: the three first columns, the cells of the methods one after the other, and only the first cell of the best method highlighted. *)
  Definition row_spec (c : Z) (info : list entry) (inst : string) (sc : Z) (eps : Q) (row : list entry) : Prop :=
    exists cells b, rmap (method_cells exp nb_ids milp part required c inst sc eps) methods = Ok cells /\
      best_spec (map (fun x => fst (fst (fst x))) cells) (map (fun x => snd (fst x)) cells) (map (fun x => snd (fst (fst x))) cells) b /\
      length row = 3 + length (flat_map snd cells) /\
      nth (3 + length (flat_map snd (firstn b cells))) row EDash = EBold (hd EDash (snd (nth b cells dcell))) /\
      forall k, k <> 3 + length (flat_map snd (firstn b cells)) -> nth k row EDash = nth k (info ++ flat_map snd cells) EDash.

  Lemma exported_table : 0 < nb_ids -> (forall c i s j e m r, exp c i s j e m = Some r -> good_row r) -> methods <> [] -> length methods <= 5 ->
    (forall i, i < length methods -> memZ (nth i methods 0%Z) milp = (i <? 2)) ->
    forall c i, i < length instances -> exists tab,
      instance_table exp instances scenarios epsilons nb_ids methods milp part required c i = Ok tab /\ length tab = length epsilons * length scenarios /\
      forall e s, e < length epsilons -> s < length scenarios ->
        row_spec c [EInst (if (e =? 0) && (s =? 0) then nth i instances EmptyString else EmptyString);
                    EEps (if s =? 0 then Some (nth e epsilons 0%Q) else None); EScen (nth s scenarios 0%Z)]
          (nth i instances EmptyString) (nth s scenarios 0%Z) (nth e epsilons 0%Q) (nth (s + e * length scenarios) tab []).
  Proof.
    intros H1 H2 H3 H4 H5 c i Hi.
    assert (RS : forall info inst sc eps, length info = 3 -> exists row, table_row exp nb_ids methods milp part required c info inst sc eps = Ok row).
    { intros info inst sc eps LI. destruct (table_row_spec exp nb_ids methods milp part required H1 H2 H3 H4 H5 c info inst sc eps LI) as (cells & b & row & _ & E & _). now exists row. }
    destruct (instance_table_spec exp instances scenarios epsilons nb_ids methods milp part required c RS i Hi) as (tab & E & L & R).
    exists tab. split; [exact E|]. split; [exact L|]. intros e s He Hs. specialize (R e s He Hs).
    match type of R with table_row _ _ _ _ _ _ _ ?info ?inst ?sc ?eps = _ =>
      destruct (table_row_spec exp nb_ids methods milp part required H1 H2 H3 H4 H5 c info inst sc eps eq_refl) as (cells & b & row & EC & ER & K) end.
    rewrite ER in R. injection R as <-. exists cells, b. split; [exact EC|exact K].
  Qed.

  (** All files of a method for one instance and one number of scenarios. *)
  Definition all_files (c : Z) (inst : string) (sc m : Z) : list (option row_t) :=
    flat_map (fun j => map (fun eps => exp c inst sc j eps m) epsilons) (seq 1 nb_ids).
  (** "-" when a file is missing, otherwise the mean of the numbers in column 10. *)
  Definition time_entry (l : list (option row_t)) (e : entry) : Prop :=
    (In None l -> e = EDash) /\
    (forall rows, l = map Some rows -> exists qs v, map time_field rows = map finite qs /\ (v * Qn (length qs) == qsum qs)%Q /\ e = ETime (fixed 2 (finite v))).

  Lemma exported_times : 0 < nb_ids -> epsilons <> [] ->
    (forall c i s j e m r, exp c i s j e m = Some r -> 10 <= length (snd r) /\ gfinite (time_field r) = true) ->
    forall i, i < length instances -> exists tab, instance_times exp instances scenarios epsilons nb_ids i = Ok tab /\ length tab = length scenarios /\
      forall s, s < length scenarios -> let inst := nth i instances EmptyString in let sc := nth s scenarios 0%Z in
        exists song bel1 bel0, nth s tab [] = [EInst (if s =? 0 then inst else EmptyString); EScen sc; song; bel1; bel0] /\
          time_entry (all_files 1 inst sc 1 ++ all_files 0 inst sc 1) song /\ time_entry (all_files 1 inst sc 2) bel1 /\ time_entry (all_files 0 inst sc 2) bel0.
  Proof.
    intros H1 H2 H3 i Hi.
    assert (LA : forall c inst sc m, length (all_files c inst sc m) = nb_ids * length epsilons).
    { intros c inst sc m. unfold all_files. rewrite <- (seq_length nb_ids 1) at 2. generalize (seq 1 nb_ids). induction l as [|j l IH]; [reflexivity|].
      cbn [flat_map length]. rewrite app_length, map_length, IH. lia. }
    assert (HA : forall c inst sc m r, In (Some r) (all_files c inst sc m) -> 10 <= length (snd r) /\ gfinite (time_field r) = true).
    { intros c inst sc m r H. unfold all_files in H. apply in_flat_map in H as (j & _ & H). apply in_map_iff in H as (eps & E & _). eapply H3. exact E. }
    assert (NE : length epsilons <> 0) by (destruct epsilons; [congruence|discriminate]).
    assert (ME : forall l n, n = length l -> n <> 0 -> (forall r, In (Some r) l -> 10 <= length (snd r) /\ gfinite (time_field r) = true) ->
       exists e, mean_time l n = Ok e /\ time_entry l e).
    { intros l n En Hn Hl. destruct (mean_time_spec l n En Hn Hl) as [M1 M2].
      assert (D : In None l \/ exists rows, l = map Some rows).
      { clear. induction l as [|[r|] l IH]; [right; now exists []| |left; now left]. destruct IH as [IH|(rows & ->)]; [left; now right|right; now exists (r :: rows)]. }
      destruct D as [D|(rows & D)].
      - exists EDash. split; [now apply M1|]. split; [reflexivity|]. intros rows ->. apply in_map_iff in D as (x & K & _). discriminate K.
      - destruct (M2 rows D) as (qs & v & E1 & E2 & E3). eexists. split; [exact E3|]. split.
        + intro K. rewrite D in K. apply in_map_iff in K as (x & K & _). discriminate K.
        + intros rows' E. rewrite D in E. apply map_Some_inj in E as <-. exists qs, v. auto. }
    assert (TR : forall fi inst sc, exists song bel1 bel0, time_row exp epsilons nb_ids fi inst sc = Ok [EInst (if fi then inst else EmptyString); EScen sc; song; bel1; bel0] /\
       time_entry (all_files 1 inst sc 1 ++ all_files 0 inst sc 1) song /\ time_entry (all_files 1 inst sc 2) bel1 /\ time_entry (all_files 0 inst sc 2) bel0).
    { intros fi inst sc.
      destruct (ME (all_files 1 inst sc 1 ++ all_files 0 inst sc 1)%list (nb_ids * length epsilons * 2)) as (e1 & M1 & T1).
      { rewrite app_length, !LA. lia. } { nia. } { intros r Hr. apply in_app_or in Hr as [Hr|Hr]; eapply HA; exact Hr. }
      destruct (ME (all_files 1 inst sc 2) (nb_ids * length epsilons)) as (e2 & M2 & T2); [now rewrite LA|nia|intros r Hr; eapply HA; exact Hr|].
      destruct (ME (all_files 0 inst sc 2) (nb_ids * length epsilons)) as (e3 & M3 & T3); [now rewrite LA|nia|intros r Hr; eapply HA; exact Hr|].
      exists e1, e2, e3. split; [|auto]. unfold time_row. change (time_rows exp epsilons nb_ids) with all_files. rewrite M1. cbn [rbind]. rewrite M2. cbn [rbind]. rewrite M3. reflexivity. }
    destruct (instance_times_spec exp instances scenarios epsilons nb_ids) with (i := i) as (tab & E & L & R).
    { intros fi inst sc. destruct (TR fi inst sc) as (a & b & d & X & _). eexists. exact X. } { exact Hi. }
    exists tab. split; [exact E|]. split; [exact L|]. intros s Hs inst sc. specialize (R s Hs). destruct (TR (s =? 0) inst sc) as (a & b & d & X & T).
    exists a, b, d. unfold inst, sc in X. rewrite R in X. injection X as X. split; [exact X|exact T].
  Qed.
End Whole.
Lemma place_inj nS nE i e s i' e' s' : e < nE -> s < nS -> e' < nE -> s' < nS ->
  s + e * nS + i * nS * nE = s' + e' * nS + i' * nS * nE -> i = i' /\ e = e' /\ s = s'.
Proof.
  intros He Hs He' Hs' H.
  assert (B : s + e * nS < nS * nE) by nia. assert (B' : s' + e' * nS < nS * nE) by nia.
  assert (i = i') as -> by nia. split; [reflexivity|]. assert (s + e * nS = s' + e' * nS) by lia.
  assert (e = e') as -> by nia. split; [reflexivity|]. lia.
Qed.
Lemma place_range nI nS nE i e s : i < nI -> e < nE -> s < nS -> s + e * nS + i * nS * nE < nI * nE * nS.
Proof. intros Hi He Hs. assert (B : s + e * nS < nS * nE) by nia. nia. Qed.
