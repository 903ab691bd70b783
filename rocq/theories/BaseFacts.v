(** Lemmas on the shared vocabulary. *)
From Verif Require Import Base.

(** ** Booleans and rationals *)
Lemma Qle_bool_false x y : Qle_bool x y = false <-> (y < x)%Q.
Proof.
  split; intro H.
  - apply Qnot_le_lt; intro C; apply Qle_bool_iff in C; congruence.
  - destruct (Qle_bool x y) eqn:E; [|reflexivity].
    apply Qle_bool_iff in E; exfalso; exact (Qlt_not_le _ _ H E).
Qed.
Lemma Qlt_bool_iff x y : Qlt_bool x y = true <-> (x < y)%Q.
Proof. unfold Qlt_bool; rewrite negb_true_iff; apply Qle_bool_false. Qed.
Lemma Qlt_bool_false x y : Qlt_bool x y = false <-> (y <= x)%Q.
Proof. unfold Qlt_bool; rewrite negb_false_iff; apply Qle_bool_iff. Qed.

Global Instance Qle_bool_proper : Proper (Qeq ==> Qeq ==> eq) Qle_bool.
Proof.
  intros a b H c d H'. destruct (Qle_bool b d) eqn:E.
  - apply Qle_bool_iff. rewrite H, H'. now apply Qle_bool_iff.
  - apply Qle_bool_false. rewrite H, H'. now apply Qle_bool_false.
Qed.

Ltac qb :=
  repeat match goal with
  | H : Qle_bool _ _ = true |- _ => apply Qle_bool_iff in H
  | H : Qle_bool _ _ = false |- _ => apply Qle_bool_false in H
  | H : Qlt_bool _ _ = true |- _ => apply Qlt_bool_iff in H
  | H : Qlt_bool _ _ = false |- _ => apply Qlt_bool_false in H
  | |- Qle_bool _ _ = true => apply Qle_bool_iff
  | |- Qle_bool _ _ = false => apply Qle_bool_false
  | |- Qlt_bool _ _ = true => apply Qlt_bool_iff
  | |- Qlt_bool _ _ = false => apply Qlt_bool_false
  end.

Lemma Qn_le a b : (Qn a <= Qn b)%Q <-> a <= b.
Proof. unfold Qn. rewrite <- Zle_Qle. lia. Qed.
Lemma Qn_lt a b : (Qn a < Qn b)%Q <-> a < b.
Proof. unfold Qn. rewrite <- Zlt_Qlt. lia. Qed.
Lemma Qn_add a b : (Qn (a + b) == Qn a + Qn b)%Q.
Proof. unfold Qn. rewrite Nat2Z.inj_add, inject_Z_plus. reflexivity. Qed.
Lemma Qn_mul a b : (Qn (a * b) == Qn a * Qn b)%Q.
Proof. unfold Qn. rewrite Nat2Z.inj_mul, inject_Z_mult. reflexivity. Qed.
Lemma Qn_S a : (Qn (S a) == Qn a + 1)%Q.
Proof. rewrite <- Nat.add_1_r, Qn_add. reflexivity. Qed.
Lemma Qn_0 : (Qn 0 == 0)%Q. Proof. reflexivity. Qed.
Lemma Qn_nonneg a : (0 <= Qn a)%Q.
Proof. change 0%Q with (Qn 0). apply Qn_le. lia. Qed.
Lemma Qn_pos a : 0 < a -> (0 < Qn a)%Q.
Proof. intro H. change 0%Q with (Qn 0). apply Qn_lt. lia. Qed.
Lemma Qn_sub a b : b <= a -> (Qn (a - b) == Qn a - Qn b)%Q.
Proof.
  intro H. assert (E : (Qn (a - b + b) == Qn (a - b) + Qn b)%Q) by apply Qn_add.
  replace (a - b + b) with a in E by lia. lra.
Qed.

Lemma Qfloor_le_iff (z : Z) (q : Q) : (inject_Z z <= q)%Q <-> (z <= Qfloor q)%Z.
Proof.
  split; intro H.
  - rewrite <- (Qfloor_Z z). now apply Qfloor_resp_le.
  - eapply Qle_trans; [|apply Qfloor_le]. now rewrite <- Zle_Qle.
Qed.

(** The integer form of "a <= q". *)
Lemma le_floor (a : nat) (q : Q) :
  (Qn a <= q)%Q <-> (0 <= q)%Q /\ a <= Z.to_nat (Qfloor q).
Proof.
  unfold Qn; split; intro H.
  - assert (Hq : (0 <= q)%Q).
    { eapply Qle_trans; [|exact H]. change 0%Q with (inject_Z 0). rewrite <- Zle_Qle. lia. }
    split; [assumption|]. apply Qfloor_le_iff in H. lia.
  - destruct H as [Hq H]. apply Qfloor_le_iff.
    assert (0 <= Qfloor q)%Z.
    { change 0%Z with (Qfloor (inject_Z 0)). apply Qfloor_resp_le. exact Hq. }
    lia.
Qed.

(** ** Inner products *)
Lemma dot_nil_r u : dot u [] = 0%Q. Proof. destruct u; reflexivity. Qed.

Lemma dot_nonneg u x :
  Forall (fun a => 0 <= a)%Q u -> Forall (fun a => 0 <= a)%Q x -> (0 <= dot u x)%Q.
Proof.
  intros Hu; revert x; induction Hu as [|a u Ha Hu IH]; intros x Hx; simpl.
  - apply Qle_refl.
  - destruct Hx as [|b x Hb Hx]; [apply Qle_refl|].
    specialize (IH x Hx). nra.
Qed.

Lemma dot_mono u x y :
  Forall (fun a => 0 <= a)%Q u -> Forall2 Qle x y -> (dot u x <= dot u y)%Q.
Proof.
  intros Hu H; revert u Hu; induction H as [|a b x y Hab H IH]; intros u Hu.
  - rewrite !dot_nil_r; apply Qle_refl.
  - destruct Hu as [|c u Hc Hu]; simpl; [apply Qle_refl|].
    specialize (IH u Hu). nra.
Qed.

Lemma dot_mono_l u v x :
  Forall (fun a => 0 <= a)%Q x -> Forall2 Qle u v -> (dot u x <= dot v x)%Q.
Proof.
  intros Hx H; revert x Hx; induction H as [|a b u v Hab H IH]; intros x Hx; simpl.
  - apply Qle_refl.
  - destruct Hx as [|c x Hc Hx]; [apply Qle_refl|].
    specialize (IH x Hx). nra.
Qed.

Lemma dot_comm u v : (dot u v == dot v u)%Q.
Proof.
  revert v; induction u as [|a u IH]; intros [|b v]; simpl; try reflexivity.
  rewrite IH. ring.
Qed.

Lemma dot_app u u' v v' : length u = length v ->
  (dot (u ++ u') (v ++ v') == dot u v + dot u' v')%Q.
Proof.
  revert v; induction u as [|a u IH]; intros [|b v] H; simpl in *; try discriminate.
  - ring.
  - rewrite IH by lia. ring.
Qed.

Global Instance dot_eq : Proper (eq ==> Forall2 Qeq ==> Qeq) dot.
Proof.
  intros u ? <- x y H; revert u; induction H as [|a b x y Hab H IH]; intros [|c u]; simpl;
    try reflexivity.
  rewrite Hab, IH. reflexivity.
Qed.

Lemma dot_repeat0 u n : (dot u (repeat 0%Q n) == 0)%Q.
Proof.
  revert n; induction u as [|a u IH]; intros [|n]; simpl; try reflexivity.
  rewrite IH. ring.
Qed.

Lemma dot_repeat1 u : (dot u (repeat 1%Q (length u)) == qsum u)%Q.
Proof. induction u as [|a u IH]; simpl; [reflexivity|]. rewrite IH. ring. Qed.

Lemma qsum_app l l' : (qsum (l ++ l') == qsum l + qsum l')%Q.
Proof. induction l as [|a l IH]; simpl; [ring|]. rewrite IH. ring. Qed.
Lemma qsum_nonneg l : Forall (fun a => 0 <= a)%Q l -> (0 <= qsum l)%Q.
Proof. induction 1 as [|a l Ha H IH]; simpl; [lra|]. lra. Qed.
Lemma qsum_perm l l' : Permutation l l' -> (qsum l == qsum l')%Q.
Proof. induction 1; simpl; try lra. Qed.
Lemma qsum_repeat q n : (qsum (repeat q n) == Qn n * q)%Q.
Proof. induction n as [|n IH]; [rewrite Qn_0; simpl; ring|]. cbn [repeat qsum]. rewrite IH, Qn_S. ring. Qed.
Lemma qsum_map_ext {A} (f g : A -> Q) l :
  (forall a, In a l -> f a == g a)%Q -> (qsum (map f l) == qsum (map g l))%Q.
Proof.
  induction l as [|a l IH]; simpl; intro H; [reflexivity|].
  rewrite (H a) by auto. rewrite IH; [reflexivity|]. auto.
Qed.
Lemma qsum_map_le {A} (f g : A -> Q) l :
  (forall a, In a l -> f a <= g a)%Q -> (qsum (map f l) <= qsum (map g l))%Q.
Proof.
  induction l as [|a l IH]; simpl; intro H; [lra|].
  assert (f a <= g a)%Q by auto. assert (qsum (map f l) <= qsum (map g l))%Q by auto. lra.
Qed.
Lemma qsum_map_scal {A} (f : A -> Q) c l : (qsum (map (fun a => c * f a) l) == c * qsum (map f l))%Q.
Proof. induction l as [|a l IH]; simpl; [ring|]. rewrite IH. ring. Qed.
Lemma qsum_map_add {A} (f g : A -> Q) l :
  (qsum (map (fun a => f a + g a) l) == qsum (map f l) + qsum (map g l))%Q.
Proof. induction l as [|a l IH]; simpl; [ring|]. rewrite IH. ring. Qed.

(** [dot] as a sum over indices. *)
Lemma dot_qsum u v n : length u = n -> length v = n ->
  (dot u v == qsum (map (fun i => nth i u 0 * nth i v 0) (seq 0 n)))%Q.
Proof.
  revert u v; induction n as [|n IH]; intros [|a u] [|b v] Hu Hv; simpl in *; try discriminate.
  - reflexivity.
  - rewrite IH by lia. rewrite <- seq_shift, map_map. reflexivity.
Qed.

(** ** Counting *)
Lemma count_app {A} (f : A -> bool) l l' : count f (l ++ l') = count f l + count f l'.
Proof. unfold count. rewrite filter_app, app_length. reflexivity. Qed.
Lemma count_cons {A} (f : A -> bool) a l : count f (a :: l) = (if f a then 1 else 0) + count f l.
Proof. unfold count; simpl; destruct (f a); reflexivity. Qed.
Lemma count_nil {A} (f : A -> bool) : count f [] = 0. Proof. reflexivity. Qed.
Lemma count_perm {A} (f : A -> bool) l l' : Permutation l l' -> count f l = count f l'.
Proof.
  induction 1; rewrite ?count_nil, ?count_cons in *; try lia.
Qed.
Lemma count_le {A} (f : A -> bool) l : count f l <= length l.
Proof. induction l as [|a l IH]; rewrite ?count_cons; simpl; [unfold count; simpl; lia|destruct (f a); lia]. Qed.
Lemma count_ext {A} (f g : A -> bool) l : (forall a, In a l -> f a = g a) -> count f l = count g l.
Proof.
  induction l as [|a l IH]; intro H; [reflexivity|].
  rewrite !count_cons, (H a), IH; auto using in_eq, in_cons.
Qed.
Lemma count_mono {A} (f g : A -> bool) l :
  (forall a, In a l -> f a = true -> g a = true) -> count f l <= count g l.
Proof.
  induction l as [|a l IH]; intro H; [reflexivity|].
  rewrite !count_cons. assert (count f l <= count g l) by (apply IH; intros; apply H; auto using in_cons).
  destruct (f a) eqn:E; [rewrite (H a) by auto using in_eq; lia|lia].
Qed.
Lemma count_negb {A} (f : A -> bool) l : count f l + count (fun a => negb (f a)) l = length l.
Proof. induction l as [|a l IH]; [reflexivity|]. rewrite !count_cons; simpl. destruct (f a); simpl; lia. Qed.
Lemma count_zero {A} (f : A -> bool) l : count f l = 0 <-> forall a, In a l -> f a = false.
Proof.
  induction l as [|a l IH]; [split; [intros _ b []|reflexivity]|].
  rewrite count_cons. destruct (f a) eqn:E.
  - split; [lia|]. intro H. specialize (H a (or_introl eq_refl)). congruence.
  - simpl. rewrite IH. split; intros H b; [intros [<-|Hb]; auto|intro; apply H; now right].
Qed.
Lemma count_pos {A} (f : A -> bool) l : 0 < count f l <-> exists a, In a l /\ f a = true.
Proof.
  induction l as [|a l IH]; [split; [unfold count; simpl; lia|intros (b & [] & _)]|].
  rewrite count_cons. destruct (f a) eqn:E.
  - split; [|lia]. intros _. exists a; split; [left; reflexivity|assumption].
  - simpl. rewrite IH. split; intros (b & Hb & Hf).
    + exists b; split; [now right|assumption].
    + destruct Hb as [->|Hb]; [congruence|]. now exists b.
Qed.
Lemma count_map {A B} (f : B -> bool) (g : A -> B) l : count f (map g l) = count (fun a => f (g a)) l.
Proof. induction l as [|a l IH]; [reflexivity|]. simpl. rewrite !count_cons, IH. reflexivity. Qed.
Lemma count_concat {A} (f : A -> bool) ll : count f (concat ll) = list_sum (map (count f) ll).
Proof. induction ll as [|l ll IH]; [reflexivity|]. simpl. rewrite count_app, IH. reflexivity. Qed.
Lemma count_true {A} (l : list A) : count (fun _ => true) l = length l.
Proof. induction l as [|a l IH]; [reflexivity|]. rewrite count_cons; simpl; lia. Qed.

(** Counting through an injective relation. *)
Lemma injection_count {A B} (R : A -> B -> Prop) (l1 : list A) : forall (l2 : list B),
  NoDup l1 ->
  (forall a, In a l1 -> exists b, In b l2 /\ R a b) ->
  (forall a a' b, In a l1 -> In a' l1 -> R a b -> R a' b -> a = a') ->
  length l1 <= length l2.
Proof.
  induction l1 as [|a l1 IH]; intros l2 ND HR Hinj; simpl; [lia|].
  inversion ND as [|? ? Hna ND']; subst.
  destruct (HR a (or_introl eq_refl)) as (b & Hb & Rab).
  apply in_split in Hb as (u & v & ->).
  assert (length l1 <= length (u ++ v)).
  { apply IH; [assumption| |].
    - intros a' Ha'. destruct (HR a' (or_intror Ha')) as (b' & Hb' & Rab').
      exists b'; split; [|assumption].
      apply in_app_iff in Hb' as [Hb'|[<-|Hb']]; rewrite in_app_iff; auto.
      exfalso. apply Hna. rewrite (Hinj a a' b); auto using in_eq, in_cons.
    - intros; eapply Hinj; eauto using in_cons. }
  rewrite app_length in *; simpl; lia.
Qed.

Lemma memb_In x l : memb x l = true <-> In x l.
Proof.
  unfold memb; rewrite existsb_exists; split.
  - intros (y & Hy & E). apply Nat.eqb_eq in E. now subst.
  - intro H. exists x; split; [assumption|apply Nat.eqb_refl].
Qed.
Lemma memb_false x l : memb x l = false <-> ~ In x l.
Proof. rewrite <- memb_In. destruct (memb x l); split; congruence. Qed.

(** ** Indices *)
Lemma upd_length {A} i (v : A) l : length (upd i v l) = length l.
Proof. revert i; induction l as [|a l IH]; intros [|i]; simpl; auto. Qed.
Lemma nth_upd_eq {A} i (v d : A) l : i < length l -> nth i (upd i v l) d = v.
Proof. revert i; induction l as [|a l IH]; intros [|i] H; simpl in *; try lia; auto. apply IH; lia. Qed.
Lemma nth_upd_neq {A} i j (v d : A) l : i <> j -> nth j (upd i v l) d = nth j l d.
Proof.
  revert i j; induction l as [|a l IH]; intros [|i] [|j] H; simpl; auto; try congruence.
Qed.
Lemma upd_split {A} i (v : A) l : i < length l ->
  exists u w d, l = u ++ d :: w /\ length u = i /\ upd i v l = u ++ v :: w.
Proof.
  revert i; induction l as [|a l IH]; intros [|i] H; simpl in *; try lia.
  - exists [], l, a. auto.
  - destruct (IH i) as (u & w & d & -> & Hl & E); [lia|].
    exists (a :: u), w, d. simpl. rewrite E, Hl. auto.
Qed.
Lemma nth_split_eq {A} (l : list A) i d : i < length l ->
  exists u w, l = u ++ nth i l d :: w /\ length u = i.
Proof.
  intro H. destruct (nth_split l d H) as (u & w & E & Hl). exists u, w. auto.
Qed.
Lemma del_split {A} i (l : list A) : i < length l ->
  exists u w d, l = u ++ d :: w /\ length u = i /\ del i l = u ++ w.
Proof.
  revert i; induction l as [|a l IH]; intros [|i] H; simpl in *; try lia.
  - exists [], l, a. auto.
  - destruct (IH i) as (u & w & d & -> & Hl & E); [lia|].
    exists (a :: u), w, d. simpl. rewrite E, Hl. auto.
Qed.
Lemma del_length {A} i (l : list A) : i < length l -> length (del i l) = length l - 1.
Proof.
  intro H. destruct (del_split i l H) as (u & w & d & -> & _ & ->).
  rewrite !app_length; simpl; lia.
Qed.
Lemma nth_del_lt {A} i j (l : list A) d : j < i -> nth j (del i l) d = nth j l d.
Proof.
  revert i j; induction l as [|a l IH]; intros [|i] [|j] H; simpl; auto; try lia.
  apply IH; lia.
Qed.
Lemma nth_del_ge {A} i j (l : list A) d : i <= j -> nth j (del i l) d = nth (S j) l d.
Proof.
  revert i j; induction l as [|a l IH]; intros [|i] [|j] H; simpl; auto; try lia.
  rewrite IH by lia. reflexivity.
Qed.
Lemma upd_app_l {A} i (v : A) l l' : i < length l -> upd i v (l ++ l') = upd i v l ++ l'.
Proof.
  revert i; induction l as [|a l IH]; intros [|i] H; simpl in *; try lia; auto.
  rewrite IH by lia. reflexivity.
Qed.
Lemma nth_ext_len {A} (l l' : list A) d : length l = length l' ->
  (forall i, i < length l -> nth i l d = nth i l' d) -> l = l'.
Proof. intros H1 H2. apply (nth_ext _ _ d d); assumption. Qed.

Lemma upd_map {A B} (f : A -> B) i v l : upd i (f v) (map f l) = map f (upd i v l).
Proof. revert i; induction l as [|a l IH]; intros [|i]; simpl; auto. now rewrite IH. Qed.
Lemma del_map {A B} (f : A -> B) i l : del i (map f l) = map f (del i l).
Proof. revert i; induction l as [|a l IH]; intros [|i]; simpl; auto. now rewrite IH. Qed.

(** ** Stable sort *)
Section Sort.
  Context {A : Type} (leb : A -> A -> bool).
  Hypothesis leb_total : forall a b, leb a b = true \/ leb b a = true.
  Hypothesis leb_trans : forall a b c, leb a b = true -> leb b c = true -> leb a c = true.

  Lemma insert_perm a l : Permutation (insert leb a l) (a :: l).
  Proof.
    induction l as [|b l IH]; simpl; [reflexivity|].
    destruct (leb a b); [reflexivity|]. rewrite IH. apply perm_swap.
  Qed.
  Lemma isort_perm l : Permutation (isort leb l) l.
  Proof. induction l as [|a l IH]; simpl; [reflexivity|]. rewrite insert_perm, IH. reflexivity. Qed.
  Lemma insert_sorted a l :
    StronglySorted (fun x y => leb x y = true) l ->
    StronglySorted (fun x y => leb x y = true) (insert leb a l).
  Proof.
    induction 1 as [|b l Hl IH Hb]; simpl; [repeat constructor|].
    destruct (leb a b) eqn:E.
    - constructor; [constructor; assumption|]. constructor; [assumption|].
      eapply Forall_impl; [|exact Hb]. intros c Hc. eapply leb_trans; eassumption.
    - constructor; [assumption|]. rewrite insert_perm. constructor; [|assumption].
      destruct (leb_total a b); congruence.
  Qed.
  Lemma isort_sorted l : StronglySorted (fun x y => leb x y = true) (isort leb l).
  Proof. induction l as [|a l IH]; simpl; [constructor|]. now apply insert_sorted. Qed.
End Sort.

Lemma isort_length {A} (leb : A -> A -> bool) l : length (isort leb l) = length l.
Proof. apply Permutation_length, isort_perm. Qed.

Lemma StronglySorted_impl {A} (R S : A -> A -> Prop) l :
  (forall a b, R a b -> S a b) -> StronglySorted R l -> StronglySorted S l.
Proof.
  intros H; induction 1 as [|a l Hl IH Ha]; constructor; auto.
  eapply Forall_impl; [|exact Ha]. auto.
Qed.

Lemma StronglySorted_app {A} (R : A -> A -> Prop) u v :
  StronglySorted R (u ++ v) ->
  StronglySorted R u /\ StronglySorted R v /\ (forall a b, In a u -> In b v -> R a b).
Proof.
  induction u as [|a u IH]; simpl; intro H.
  - repeat split; [constructor|assumption|intros a b []].
  - inversion H as [|? ? H1 H2]; subst. destruct (IH H1) as (A1 & A2 & A3).
    apply Forall_app in H2 as [B1 B2]. rewrite Forall_forall in B2.
    repeat split; [constructor; assumption|assumption|].
    intros x b [<-|Hx] Hb; auto.
Qed.

Lemma argsort_ref_ok : argsort_ok argsort_ref.
Proof.
  intro l; split; unfold argsort_ref.
  - apply isort_perm.
  - eapply StronglySorted_impl; [|apply isort_sorted].
    + intros a b H. simpl in H. now apply Qle_bool_iff.
    + intros a b. destruct (Qle_bool _ _) eqn:E; [now left|right; qb; now apply Qlt_le_weak].
    + intros a b c H1 H2. qb. eapply Qle_trans; eassumption.
Qed.

(** ** Strides [l[i::n]] *)
Lemma stride_aux_nth {A} (l : list A) : forall skip n j d, 0 < n ->
  nth j (stride_aux skip n l) d = nth (skip + j * n) l d.
Proof.
  induction l as [|a l IH]; intros skip n j d Hn; simpl.
  - destruct j; destruct (skip + _); reflexivity.
  - destruct skip as [|k].
    + destruct j as [|j]; [reflexivity|]. simpl nth at 1. rewrite IH by assumption.
      replace (0 + S j * n) with (S (n - 1 + j * n)) by lia. reflexivity.
    + rewrite IH by assumption. reflexivity.
Qed.
Lemma stride_aux_length {A} (l : list A) : forall skip n, skip < n ->
  length (stride_aux skip n l) = (length l + n - 1 - skip) / n.
Proof.
  induction l as [|a l IH]; intros skip n Hn.
  - simpl. symmetry. apply Nat.div_small. lia.
  - simpl. destruct skip as [|k].
    + cbn [length]. rewrite IH by lia.
      transitivity ((length l + n - 1 - (n - 1) + 1 * n) / n).
      * rewrite Nat.div_add by lia. lia.
      * f_equal. lia.
    + rewrite IH by lia. f_equal. lia.
Qed.
Lemma stride_aux_skip {A} (l : list A) skip n : length l <= skip -> stride_aux skip n l = [].
Proof.
  revert skip; induction l as [|a l IH]; intros skip H; [reflexivity|].
  simpl in *; destruct skip; [lia|]. apply IH; lia.
Qed.

(** All strides together are a permutation of the list. *)
Lemma strides_perm {A} (l : list A) n : 0 < n ->
  Permutation (concat (map (fun i => stride i n l) (seq 0 n))) l.
Proof.
  intro Hn. induction l as [|a l IH].
  - replace (concat _) with (@nil A); [reflexivity|].
    induction (seq 0 n) as [|i s IHs]; [reflexivity|]. simpl. exact IHs.
  - (* stride 0 of (a::l) = a :: stride (n-1) l ; stride (S k) of (a::l) = stride k l *)
    destruct n as [|n']; [lia|]. simpl seq. simpl map.
    rewrite <- seq_shift, map_map. simpl.
    replace (n' - 0) with n' by lia. constructor.
    etransitivity; [|exact IH].
    assert (E : map (fun i => stride i (S n') l) (seq 0 (S n')) =
                map (fun x => stride x (S n') l) (seq 0 n') ++ [stride n' (S n') l]).
    { rewrite seq_S, map_app. reflexivity. }
    rewrite E, concat_app. simpl. rewrite app_nil_r. unfold stride.
    apply Permutation_app_comm.
Qed.

Lemma StronglySorted_nth {A} (R : A -> A -> Prop) l d : StronglySorted R l ->
  forall i j, i < j -> j < length l -> R (nth i l d) (nth j l d).
Proof.
  induction 1 as [|a l Hl IH Ha]; intros i j Hij Hj; simpl in *; [lia|].
  destruct j as [|j]; [lia|]. destruct i as [|i].
  - rewrite Forall_forall in Ha. apply Ha, nth_In. lia.
  - apply IH; lia.
Qed.

Lemma NoDup_app_inv {A} (u v : list A) : NoDup (u ++ v) ->
  NoDup u /\ NoDup v /\ (forall a, In a u -> ~ In a v).
Proof.
  induction u as [|a u IH]; simpl; intro H.
  - repeat split; [constructor|assumption|auto].
  - inversion H as [|? ? H1 H2]; subst. destruct (IH H2) as (A1 & A2 & A3).
    rewrite in_app_iff in H1.
    repeat split; [constructor; tauto|assumption|].
    intros x [<-|Hx]; [tauto|auto].
Qed.

Lemma map_repeat {A B} (f : A -> B) a n : map f (repeat a n) = repeat (f a) n.
Proof. induction n as [|n IH]; simpl; [reflexivity|]. now rewrite IH. Qed.
Lemma nth_repeat_lt {A} (a d : A) n i : i < n -> nth i (repeat a n) d = a.
Proof. revert i; induction n as [|n IH]; intros [|i] H; simpl; try lia; auto. apply IH; lia. Qed.

Lemma stride_aux_map {A B} (f : A -> B) (l : list A) : forall skip n,
  stride_aux skip n (map f l) = map f (stride_aux skip n l).
Proof.
  induction l as [|a l IH]; intros skip n; simpl; [reflexivity|].
  destruct skip; simpl; now rewrite IH.
Qed.
Lemma stride_aux_In {A} (l : list A) : forall skip n a, In a (stride_aux skip n l) -> In a l.
Proof.
  induction l as [|b l IH]; intros skip n a H; simpl in *; [assumption|].
  destruct skip; [destruct H as [->|H]; [now left|]|]; right; eapply IH; eassumption.
Qed.
Lemma count_prefix {A} (f : A -> bool) l d m : m <= length l ->
  (forall i, i < m -> f (nth i l d) = true) -> m <= count f l.
Proof.
  revert m; induction l as [|a l IH]; intros m Hm H; simpl in *; [lia|].
  destruct m as [|m]; [lia|]. rewrite count_cons. rewrite (H 0) by lia.
  assert (m <= count f l); [|lia]. apply IH; [lia|]. intros i Hi. apply (H (S i)). lia.
Qed.
