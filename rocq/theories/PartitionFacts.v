(** Partitions, the partitioned instance, and the relaxation argument. *)
From Verif Require Import Base BaseFacts Spec Instance InstanceFacts.

(** ** Valid partitions *)
Lemma vp_In k p s : valid_partition k p -> (s < k <-> exists S, In S p /\ In s S).
Proof.
  intros [H _]. assert (E : In s (seq 0 k) <-> In s (concat p)).
  { split; apply Permutation_in; [now apply Permutation_sym|assumption]. }
  rewrite in_seq, in_concat in E. split.
  - intro Hs. apply E. lia.
  - intro Hs. apply E in Hs. lia.
Qed.
Lemma vp_lt k p : valid_partition k p -> Forall (fun S => S <> [] /\ Forall (fun s => s < k) S) p.
Proof.
  intros H. apply Forall_forall. intros S HS. split.
  - destruct H as [_ H]. rewrite Forall_forall in H. auto.
  - apply Forall_forall. intros s Hs. apply (vp_In k p s H). eauto.
Qed.
Lemma vp_NoDup_concat k p : valid_partition k p -> NoDup (concat p).
Proof.
  intros [H _]. eapply Permutation_NoDup; [apply Permutation_sym, H|]. apply seq_NoDup.
Qed.

Lemma NoDup_concat_disjoint {A} (p : list (list A)) :
  NoDup (concat p) -> forall u S v, p = u ++ S :: v ->
  forall s, In s S -> ~ In s (concat (u ++ v)).
Proof.
  intros H u S v -> s Hs. rewrite concat_app in *. cbn [concat] in H.
  intro C. apply in_app_iff in C.
  apply NoDup_app_inv in H as (_ & H2 & H3).
  apply NoDup_app_inv in H2 as (_ & _ & H4).
  destruct C as [C|C].
  - apply (H3 s C). apply in_app_iff. now left.
  - exact (H4 s Hs C).
Qed.

Lemma vp_disjoint k p S T s : valid_partition k p -> In S p -> In T p -> In s S -> In s T -> S = T.
Proof.
  intros H HS HT Hs Hs'. apply in_split in HS as (u & v & E).
  assert (D := NoDup_concat_disjoint p (vp_NoDup_concat k p H) u S v E s Hs).
  subst p. apply in_app_iff in HT as [HT|[->|HT]]; [exfalso|reflexivity|exfalso];
    apply D; rewrite concat_app, in_app_iff, !in_concat; eauto.
Qed.

Lemma vp_NoDup k p : valid_partition k p -> NoDup p.
Proof.
  intros H. assert (HN := vp_NoDup_concat k p H). destruct H as [_ H].
  induction H as [|S p HS Hp IH]; [constructor|]. simpl in HN.
  apply NoDup_app_inv in HN as (_ & H2 & H3). constructor; [|auto].
  intro C. destruct S as [|s S]; [congruence|].
  apply (H3 s); [now left|]. apply in_concat. exists (s :: S). split; [assumption|now left].
Qed.

Lemma vp_length k p : valid_partition k p -> length p <= k.
Proof.
  intros [H1 H2]. apply Permutation_length in H1. rewrite seq_length in H1. rewrite <- H1.
  clear H1. induction H2 as [|S p HS Hp IH]; simpl; [lia|].
  rewrite app_length. destruct S; [congruence|simpl; lia].
Qed.
Lemma vp_pos k p : 0 < k -> valid_partition k p -> 0 < length p.
Proof.
  intros Hk [H _]. destruct p; [|simpl; lia]. simpl in H.
  apply Permutation_length in H. rewrite seq_length in H. simpl in H. lia.
Qed.

Lemma concat_perm {A} (p q : list (list A)) : Permutation p q -> Permutation (concat p) (concat q).
Proof.
  induction 1; simpl; auto.
  - now apply Permutation_app_head.
  - rewrite !app_assoc. apply Permutation_app_tail, Permutation_app_comm.
  - etransitivity; eassumption.
Qed.

Lemma vp_perm k p q : Permutation p q -> valid_partition k p -> valid_partition k q.
Proof.
  intros HP [H1 H2]. split.
  - rewrite <- H1. symmetry. now apply concat_perm.
  - apply Forall_forall. intros S HS. rewrite Forall_forall in H2. apply H2.
    eapply Permutation_in; [apply Permutation_sym, HP|assumption].
Qed.

(** ** load_partition *)

Lemma load_partition_ok I proba p :
  wf_inst I -> length proba = i_k I ->
  Forall (fun S => S <> [] /\ Forall (fun s => s < i_k I) S) p ->
  ~ (qsum (map (min_proba proba) p) == 0)%Q ->
  let total := qsum (map (min_proba proba) p) in
  load_partition I proba (length p) p =
    Ok (mkView (i_n I) (i_cont I) (i_c I) (length p)
          (map (fun S => concat (map (fun s => nth s (i_A I) []) S)) p)
          (map (fun S => concat (map (fun s => nth s (i_b I) []) S)) p)
          (map (fun S => (min_proba proba S / total)%Q) p)
          (i_eps I / total)%Q).
Proof.
  intros (Hk & Hc & HA & _ & Hb & _) Hp HF Hz total. unfold load_partition.
  rewrite (rmap_ok _ (fun c => nth c p [])).
  2:{ intros c Hc'. apply in_seq in Hc'. apply geti_ok. lia. }
  cbn [rbind]. rewrite map_nth_seq. rewrite Forall_forall in HF.
  rewrite (rmap_ok _ (fun S => map (fun s => nth s (i_A I) []) S)).
  2:{ intros S HS. apply rmap_ok. intros s Hs. apply geti_ok.
      destruct (HF S HS) as [_ H]. rewrite Forall_forall in H. rewrite HA. auto. }
  cbn [rbind].
  rewrite (rmap_ok _ (fun S => map (fun s => nth s (i_b I) []) S)).
  2:{ intros S HS. apply rmap_ok. intros s Hs. apply geti_ok.
      destruct (HF S HS) as [_ H]. rewrite Forall_forall in H. rewrite Hb. auto. }
  cbn [rbind].
  rewrite (rmap_ok _ (min_proba proba)).
  2:{ intros S HS. rewrite (rmap_ok _ (fun s => nth s proba 0%Q)).
      - cbn [rbind]. destruct (HF S HS) as [H _]. destruct S as [|s S]; [congruence|]. reflexivity.
      - intros s Hs. apply geti_ok. destruct (HF S HS) as [_ H]. rewrite Forall_forall in H. rewrite Hp. auto. }
  cbn [rbind]. destruct (Qeq_bool _ 0) eqn:E.
  - apply Qeq_bool_iff in E. contradiction.
  - rewrite !map_map. reflexivity.
Qed.

Lemma fold_Qmin_le l : forall a, (fold_left Qmin l a <= a)%Q /\ forall b, In b l -> (fold_left Qmin l a <= b)%Q.
Proof.
  induction l as [|c l IH]; intro a; simpl.
  - split; [apply Qle_refl|intros b []].
  - destruct (IH (Qmin a c)) as [H1 H2]. split.
    + eapply Qle_trans; [exact H1|apply Q.le_min_l].
    + intros b [<-|Hb]; [|auto]. eapply Qle_trans; [exact H1|apply Q.le_min_r].
Qed.
Lemma fold_Qmin_glb l c : forall a, (c <= a)%Q -> (forall b, In b l -> c <= b)%Q -> (c <= fold_left Qmin l a)%Q.
Proof.
  induction l as [|d l IH]; intros a Ha Hl; simpl; [assumption|].
  apply IH; [apply Q.min_glb; auto using in_eq|]. auto using in_cons.
Qed.

Lemma min_proba_le proba S s : In s S -> (min_proba proba S <= nth s proba 0)%Q.
Proof.
  destruct S as [|t S]; [intros []|]. cbn [min_proba].
  destruct (fold_Qmin_le (map (fun u => nth u proba 0%Q) S) (nth t proba 0%Q)) as [H1 H2].
  intros [<-|Hs]; [assumption|]. apply H2. apply in_map_iff. eauto.
Qed.
Lemma min_proba_glb proba S c : S <> [] -> (forall s, In s S -> c <= nth s proba 0)%Q ->
  (c <= min_proba proba S)%Q.
Proof.
  destruct S as [|t S]; [congruence|]. intros _ H. cbn [min_proba].
  apply fold_Qmin_glb; [apply H; now left|].
  intros b Hb. apply in_map_iff in Hb as (u & <- & Hu). apply H. now right.
Qed.
Lemma min_proba_nonneg proba S : Forall (fun q => 0 <= q)%Q proba -> (0 <= min_proba proba S)%Q.
Proof.
  intro H. destruct S as [|t S]; [apply Qle_refl|]. apply min_proba_glb; [congruence|].
  intros s _. apply (nth_Forall (fun q => 0 <= q)%Q); [apply Qle_refl|assumption].
Qed.

Lemma min_proba_uniform k S : S <> [] -> Forall (fun s => s < k) S ->
  (min_proba (uniform k) S == 1 / Qn k)%Q.
Proof.
  intros HS H. rewrite Forall_forall in H.
  assert (E : forall s, In s S -> nth s (uniform k) 0%Q = (1 / Qn k)%Q).
  { intros s Hs. unfold uniform. now rewrite nth_repeat_lt by auto. }
  apply Qle_antisym.
  - destruct S as [|s S]; [congruence|]. rewrite <- (E s) by now left. apply min_proba_le. now left.
  - apply min_proba_glb; [assumption|]. intros s Hs. rewrite E by assumption. apply Qle_refl.
Qed.

Lemma total_uniform k p : Forall (fun S => S <> [] /\ Forall (fun s => s < k) S) p ->
  (qsum (map (min_proba (uniform k)) p) == Qn (length p) * (1 / Qn k))%Q.
Proof.
  induction 1 as [|S p [H1 H2] H IH]; [reflexivity|].
  cbn [map qsum length]. rewrite IH, min_proba_uniform, Qn_S by assumption. ring.
Qed.

(** ** C07: the constraints of a subset are those of its members *)
Lemma view_rows {A} (L : list (list A)) (p : list (list nat)) m c j d :
  Forall (fun r => length r = m) L ->
  c < length p -> Forall (fun s => s < length L) (nth c p []) ->
  j < m * length (nth c p []) ->
  nth j (nth c (map (fun S => concat (map (fun s => nth s L []) S)) p) []) d =
  nth (j mod m) (nth (nth (j / m) (nth c p []) 0) L []) d.
Proof.
  intros HL Hc HF Hj.
  rewrite (nth_indep _ _ ((fun S => concat (map (fun s => nth s L []) S)) [])) by now rewrite map_length.
  rewrite (map_nth (fun S => concat (map (fun s => nth s L []) S))).
  set (S := nth c p []) in *. assert (Hm : 0 < m) by lia.
  assert (Hdiv : j / m < length S) by (apply Nat.div_lt_upper_bound; lia).
  assert (Hmod : j mod m < m) by (apply Nat.mod_upper_bound; lia).
  assert (HR : Forall (fun r => length r = m) (map (fun s => nth s L []) S)).
  { apply Forall_forall. intros r Hr. apply in_map_iff in Hr as (s & <- & Hs).
    rewrite Forall_forall in HF, HL. apply HL, nth_In. auto. }
  rewrite (Nat.div_mod_eq j m) at 1. rewrite (Nat.mul_comm m).
  rewrite (nth_concat_rect _ m) by (rewrite ?map_length; assumption).
  f_equal. rewrite (nth_indep _ _ (nth 0 L [])) by now rewrite map_length.
  rewrite (map_nth (fun s => nth s L [])). reflexivity.
Qed.

Lemma view_nrows {A} (L : list (list A)) (p : list (list nat)) m c :
  Forall (fun r => length r = m) L ->
  c < length p -> Forall (fun s => s < length L) (nth c p []) ->
  length (nth c (map (fun S => concat (map (fun s => nth s L []) S)) p) []) = m * length (nth c p []).
Proof.
  intros HL Hc HF.
  rewrite (nth_indep _ _ ((fun S => concat (map (fun s => nth s L []) S)) [])) by now rewrite map_length.
  rewrite (map_nth (fun S => concat (map (fun s => nth s L []) S))).
  rewrite (length_concat_rect _ m), map_length; [lia|].
  apply Forall_forall. intros r Hr. apply in_map_iff in Hr as (s & <- & Hs).
  rewrite Forall_forall in HF, HL. apply HL, nth_In. auto.
Qed.

Lemma load_partition_rows I proba p V :
  wf_inst I -> length proba = i_k I ->
  Forall (fun S => S <> [] /\ Forall (fun s => s < i_k I) S) p ->
  ~ (qsum (map (min_proba proba) p) == 0)%Q ->
  load_partition I proba (length p) p = Ok V ->
  v_k V = length p /\
  forall c, c < length p ->
    v_m V c = i_m I * length (nth c p []) /\
    length (nth c (v_b V) []) = i_m I * length (nth c p []) /\
    (forall j, j < v_m V c ->
       v_row V c j = row I (nth (j / i_m I) (nth c p []) 0) (j mod i_m I) /\
       v_rhs V c j = rhs I (nth (j / i_m I) (nth c p []) 0) (j mod i_m I)) /\
    (forall tau x, (forall j, j < v_m V c -> (dot (v_row V c j) x <= v_rhs V c j + tau)%Q) <->
                   subset_sat I tau x (nth c p [])).
Proof.
  intros HW Hp HF Hz HL. rewrite load_partition_ok in HL by assumption. injection HL as <-.
  split; [reflexivity|]. intros c Hc.
  destruct HW as (Hk & Hcl & HA & HAr & Hb & Hbr).
  assert (HS : Forall (fun s => s < i_k I) (nth c p [])).
  { rewrite Forall_forall in HF. apply HF, nth_In. assumption. }
  assert (HS1 := HS). assert (HS2 := HS). rewrite <- HA in HS1. rewrite <- Hb in HS2.
  assert (HAr' : Forall (fun r => length r = i_m I) (i_A I)).
  { eapply Forall_impl; [|exact HAr]. simpl. tauto. }
  assert (E1 := view_nrows (i_A I) p (i_m I) c HAr' Hc HS1).
  unfold v_m, v_row, v_rhs in *. cbn [v_A v_b] in *.
  assert (E2 := view_nrows (i_b I) p (i_m I) c Hbr Hc HS2).
  assert (ER : forall j, j < i_m I * length (nth c p []) ->
     nth j (nth c (map (fun S => concat (map (fun s => nth s (i_A I) []) S)) p) []) [] =
       row I (nth (j / i_m I) (nth c p []) 0) (j mod i_m I) /\
     nth j (nth c (map (fun S => concat (map (fun s => nth s (i_b I) []) S)) p) []) 0%Q =
       rhs I (nth (j / i_m I) (nth c p []) 0) (j mod i_m I)).
  { intros j Hj. unfold row, rhs. split; apply view_rows; assumption. }
  rewrite E1. repeat split; auto; try (apply ER; assumption).
  - intros H s Hs i Hi.
    apply In_nth with (d := 0) in Hs as (a & Ha & <-).
    assert (Hj : a * i_m I + i < i_m I * length (nth c p [])) by nia.
    specialize (H (a * i_m I + i) Hj). destruct (ER _ Hj) as [R1 R2]. rewrite R1, R2 in H.
    replace ((a * i_m I + i) / i_m I) with a in H.
    2:{ apply Nat.div_unique with (r := i); lia. }
    replace ((a * i_m I + i) mod i_m I) with i in H.
    2:{ apply Nat.mod_unique with (q := a); lia. }
    exact H.
  - intros H j Hj. destruct (ER _ Hj) as [-> ->].
    assert (Hm : 0 < i_m I) by lia.
    apply H; [apply nth_In, Nat.div_lt_upper_bound; lia|apply Nat.mod_upper_bound; lia].
Qed.

(** ** C08: normalised probabilities *)
Lemma load_partition_uniform I p :
  wf_inst I -> valid_partition (i_k I) p ->
  exists V, load_partition I (uniform (i_k I)) (length p) p = Ok V /\
    v_k V = length p /\ length (v_p V) = length p /\
    Forall (fun q => q == 1 / Qn (length p))%Q (v_p V) /\
    (v_eps V * Qn (length p) == i_eps I * Qn (i_k I))%Q.
Proof.
  intros HW Hp. assert (HF := vp_lt _ _ Hp).
  assert (Hk : 0 < i_k I) by apply HW. assert (HP := vp_pos _ _ Hk Hp).
  assert (Qk := Qn_pos _ Hk). assert (QP := Qn_pos _ HP).
  assert (ET := total_uniform (i_k I) p HF).
  assert (Hz : ~ (qsum (map (min_proba (uniform (i_k I))) p) == 0)%Q).
  { rewrite ET. intro C. assert (0 < Qn (length p) * (1 / Qn (i_k I)))%Q; [|lra].
    apply Qmult_lt_0_compat; [assumption|]. apply Qlt_shift_div_l; lra. }
  rewrite load_partition_ok; try assumption; [|unfold uniform; now rewrite repeat_length].
  eexists. split; [reflexivity|]. cbn [v_k v_p v_eps].
  split; [reflexivity|]. rewrite map_length. split; [reflexivity|]. split.
  - apply Forall_forall. intros q Hq. apply in_map_iff in Hq as (S & <- & HS).
    rewrite Forall_forall in HF. destruct (HF S HS) as [H1 H2].
    rewrite min_proba_uniform, ET by assumption. field. split; lra.
  - rewrite ET. field. split; lra.
Qed.

Lemma dot_uniform_z q (pr z : list Q) :
  length pr = length z -> Forall (fun a => a == q)%Q pr -> is_bin z ->
  (dot pr z == q * (Qn (length z) - Qn (count (fun v => Qeq_bool v 0) z)))%Q.
Proof.
  intros HL Hp Hz; revert pr HL Hp; induction Hz as [|v z Hv Hz IH]; intros [|a pr] HL Hp; simpl in HL; try discriminate.
  - cbn [dot length count filter]. ring.
  - inversion Hp as [|? ? Ha Hp']; subst. cbn [dot length]. rewrite count_cons, (IH pr), Qn_S, Ha by (auto; lia).
    destruct (Qeq_bool v 0) eqn:E; rewrite Qn_add.
    + apply Qeq_bool_iff in E. rewrite E. change (Qn 1) with 1%Q. ring.
    + apply Qeq_bool_neq in E. destruct Hv as [Hv|Hv]; [contradiction|]. rewrite Hv.
      change (Qn 0) with 0%Q. ring.
Qed.

Lemma chance_uniform0 I p V z :
  wf_inst I -> valid_partition (i_k I) p ->
  load_partition I (uniform (i_k I)) (length p) p = Ok V ->
  length z = length p -> is_bin z ->
  (1 - v_eps V <= dot (v_p V) z <->
   Qn (count (fun v => Qeq_bool v 0) z) <= i_eps I * Qn (i_k I))%Q.
Proof.
  intros HW Hp HL Hz Hb.
  destruct (load_partition_uniform I p HW Hp) as (V' & HL' & Hk & Hlen & Hpr & He).
  rewrite HL in HL'. injection HL' as <-.
  assert (HP := vp_pos _ _ (proj1 HW) Hp). assert (QP := Qn_pos _ HP).
  rewrite (dot_uniform_z (1 / Qn (length p))) by (auto; lia). rewrite Hz, <- He.
  set (P := Qn (length p)) in *. set (u := Qn (count _ z)).
  assert (E : (1 / P * (P - u) == 1 - u / P)%Q) by (field; lra). rewrite E.
  assert (D : (u / P * P == u)%Q) by (field; lra).
  split; intro H.
  - rewrite <- D. apply Qmult_le_compat_r; lra.
  - assert (u / P <= v_eps V)%Q; [|lra]. apply Qle_shift_div_r; lra.
Qed.

Lemma chance_uniform I p V z :
  wf_inst I -> valid_partition (i_k I) p ->
  load_partition I (uniform (i_k I)) (length p) p = Ok V ->
  length z = length p -> is_bin z ->
  (1 - v_eps V <= dot (v_p V) z + 0 <->
   Qn (count (fun v => Qeq_bool v 0) z) <= i_eps I * Qn (i_k I))%Q.
Proof. intros. rewrite Qplus_0_r. now apply (chance_uniform0 I p V z). Qed.

(** ** C09: the partitioned problem is a relaxation *)


Lemma viol_mass_app I proba tau x l l' :
  (viol_mass I proba tau x (l ++ l') == viol_mass I proba tau x l + viol_mass I proba tau x l')%Q.
Proof. unfold viol_mass. rewrite map_app, qsum_app. reflexivity. Qed.
Lemma viol_mass_nonneg I proba tau x l : Forall (fun q => 0 <= q)%Q proba -> (0 <= viol_mass I proba tau x l)%Q.
Proof.
  intro H. apply qsum_nonneg, Forall_forall. intros q Hq. apply in_map_iff in Hq as (s & <- & _).
  destruct (satb I tau x s); [apply Qle_refl|].
  apply (nth_Forall (fun q => 0 <= q)%Q); [apply Qle_refl|assumption].
Qed.
Lemma viol_mass_perm I proba tau x l l' : Permutation l l' ->
  (viol_mass I proba tau x l == viol_mass I proba tau x l')%Q.
Proof. intro H. apply qsum_perm. now apply Permutation_map. Qed.

Lemma viol_mass_In I proba tau x l s : Forall (fun q => 0 <= q)%Q proba ->
  In s l -> satb I tau x s = false -> (nth s proba 0 <= viol_mass I proba tau x l)%Q.
Proof.
  intros H Hs E. apply in_split in Hs as (u & v & ->).
  rewrite viol_mass_app. unfold viol_mass at 2. cbn [map qsum]. rewrite E.
  assert (A := viol_mass_nonneg I proba tau x u H). assert (B := viol_mass_nonneg I proba tau x v H).
  unfold viol_mass in *. lra.
Qed.

Lemma relax_mass I proba tau x p : Forall (fun q => 0 <= q)%Q proba ->
  (qsum (map (fun S => if subset_satb I tau x S then 0%Q else min_proba proba S) p) <=
   viol_mass I proba tau x (concat p))%Q.
Proof.
  intro H. induction p as [|S p IH]; [apply Qle_refl|].
  cbn [map qsum concat]. rewrite viol_mass_app.
  assert (HS : ((if subset_satb I tau x S then 0 else min_proba proba S) <= viol_mass I proba tau x S)%Q).
  { destruct (subset_satb I tau x S) eqn:E; [now apply viol_mass_nonneg|].
    apply subset_satb_false in E as (s & Hs & E).
    eapply Qle_trans; [apply (min_proba_le proba S s Hs)|]. now apply viol_mass_In. }
  lra.
Qed.


Lemma relaxation_general I proba tau x p V :
  wf_inst I -> length proba = i_k I -> Forall (fun q => 0 <= q)%Q proba ->
  valid_partition (i_k I) p -> ~ (qsum (map (min_proba proba) p) == 0)%Q ->
  load_partition I proba (length p) p = Ok V ->
  (viol_mass I proba tau x (seq 0 (i_k I)) <= i_eps I)%Q ->
  (1 - v_eps V <= dot (v_p V) (z_of I tau x p))%Q.
Proof.
  intros HW Hpl Hpn Hp Hz HL Hm.
  rewrite load_partition_ok in HL; try assumption; [|now apply vp_lt]. injection HL as <-.
  cbn [v_eps v_p]. set (T := qsum (map (min_proba proba) p)) in *.
  assert (HT : (0 < T)%Q).
  { assert (0 <= T)%Q; [|lra]. apply qsum_nonneg, Forall_forall. intros q Hq.
    apply in_map_iff in Hq as (S & <- & _). now apply min_proba_nonneg. }
  assert (R := relax_mass I proba tau x p Hpn).
  rewrite (viol_mass_perm I proba tau x _ _ (proj1 Hp)) in R.
  set (U := qsum (map (fun S => if subset_satb I tau x S then 0%Q else min_proba proba S) p)) in *.
  assert (E : (dot (map (fun S => min_proba proba S / T)%Q p) (z_of I tau x p) == 1 - U / T)%Q).
  { transitivity ((T - U) / T)%Q; [|field; lra]. unfold T at 2, U, z_of. clearbody T. clear -HT.
    induction p as [|S p IH]; cbn [map dot qsum]; [field; lra|].
    rewrite IH. destruct (subset_satb I tau x S); field; lra. }
  rewrite E. assert (U / T <= i_eps I / T)%Q; [|lra].
  apply Qle_shift_div_r; [assumption|]. assert (i_eps I / T * T == i_eps I)%Q by (field; lra). lra.
Qed.

Lemma nunsat_le_nviol I tau x p : valid_partition (i_k I) p -> nunsat I tau x p <= nviol I tau x.
Proof.
  intros [HP _]. unfold nviol. rewrite <- (count_perm _ _ _ HP). unfold nunsat. clear HP.
  induction p as [|S p IH]; [reflexivity|]. cbn [concat]. rewrite count_cons, count_app.
  destruct (subset_satb I tau x S) eqn:E; cbn [negb]; [lia|].
  apply subset_satb_false in E as (s & Hs & E).
  assert (0 < count (fun s => negb (satb I tau x s)) S); [|lia].
  apply count_pos. exists s. rewrite E. auto.
Qed.

Lemma relaxation I tau x p : valid_partition (i_k I) p ->
  cc_feasible I tau x -> part_feasible I p tau x.
Proof.
  intros Hp [Hd Hc]. split; [assumption|]. eapply Qle_trans; [|exact Hc].
  apply Qn_le. now apply nunsat_le_nviol.
Qed.

(** ** C10: refinement *)
Lemma nunsat_refines I tau x p q :
  valid_partition (i_k I) p -> valid_partition (i_k I) q -> refines q p ->
  nunsat I tau x p <= nunsat I tau x q.
Proof.
  intros Hp Hq HR. unfold nunsat, count.
  apply (injection_count (fun T S => incl S T /\ S <> [])).
  - apply NoDup_filter. eapply vp_NoDup; eassumption.
  - intros T HT. apply filter_In in HT as [HT E]. apply negb_true_iff, subset_satb_false in E as (s & Hs & E).
    assert (Hsk : s < i_k I) by (apply (vp_In _ p); eauto).
    apply (vp_In _ q s Hq) in Hsk as (S & HS & HsS).
    assert (HR' := HR). unfold refines in HR'. rewrite Forall_forall in HR'. destruct (HR' S HS) as (T' & HT' & HI).
    assert (T = T') as <- by (apply (vp_disjoint (i_k I) p T T' s); auto; apply HI; assumption).
    exists S. split; [|split; [assumption|intro C; subst; destruct HsS]].
    apply filter_In. split; [assumption|]. apply negb_true_iff, subset_satb_false. eauto.
  - intros T T' S HT HT' [H1 HN] [H2 _]. apply filter_In in HT as [HT _]. apply filter_In in HT' as [HT' _].
    destruct S as [|s S]; [congruence|]. apply (vp_disjoint (i_k I) p T T' s); try assumption; [apply H1|apply H2]; now left.
Qed.

Lemma refinement_tightens I tau x p q :
  valid_partition (i_k I) p -> valid_partition (i_k I) q -> refines q p ->
  part_feasible I q tau x -> part_feasible I p tau x.
Proof.
  intros Hp Hq HR [Hd Hc]. split; [assumption|]. eapply Qle_trans; [|exact Hc].
  apply Qn_le. now apply nunsat_refines.
Qed.

Lemma finest_exact I tau x p :
  valid_partition (i_k I) p -> Forall (fun S => length S = 1) p ->
  (part_feasible I p tau x <-> cc_feasible I tau x).
Proof.
  intros [HP _] H1. unfold part_feasible, cc_feasible.
  assert (nunsat I tau x p = nviol I tau x) as ->; [|reflexivity].
  unfold nviol. rewrite <- (count_perm _ _ _ HP). unfold nunsat. clear HP.
  induction H1 as [|S p HS H1 IH]; [reflexivity|].
  cbn [concat]. rewrite count_cons, count_app, IH. f_equal.
  destruct S as [|s [|t S]]; try discriminate.
  unfold subset_satb. cbn [forallb]. rewrite andb_true_r, count_cons. cbn. lia.
Qed.

Lemma singletons_valid k : valid_partition k (map (fun s => [s]) (seq 0 k)).
Proof.
  split.
  - generalize 0. induction k as [|k IH]; intro a; simpl; [constructor|]. constructor. apply IH.
  - apply Forall_forall. intros S HS. apply in_map_iff in HS as (s & <- & _). congruence.
Qed.

Lemma qsum_all_eq q l : Forall (fun a => a == q)%Q l -> (qsum l == Qn (length l) * q)%Q.
Proof.
  induction 1 as [|a l Ha H IH]; [reflexivity|]. cbn [qsum length]. rewrite Ha, IH, Qn_S. ring.
Qed.

Lemma probabilities I p :
  wf_inst I -> valid_partition (i_k I) p ->
  exists V, load_partition I (uniform (i_k I)) (length p) p = Ok V /\
    v_k V = length p /\ length (v_p V) = length p /\
    Forall (fun q => 0 < q)%Q (v_p V) /\ (qsum (v_p V) == 1)%Q /\
    forall z, length z = length p -> is_bin z ->
      ((1 - v_eps V <= dot (v_p V) z)%Q <->
       (0 <= i_eps I)%Q /\ count (fun v => Qeq_bool v 0) z <= tolerated I).
Proof.
  intros HW Hp. destruct (load_partition_uniform I p HW Hp) as (V & HL & Hk & Hlen & Hpr & He).
  exists V. assert (HP := vp_pos _ _ (proj1 HW) Hp). assert (QP := Qn_pos _ HP).
  repeat (split; [assumption|]). split; [|split].
  - eapply Forall_impl; [|exact Hpr]. intros q E. cbv beta in E. rewrite E. apply Qlt_shift_div_l; lra.
  - rewrite (qsum_all_eq _ _ Hpr), Hlen. field. lra.
  - intros z Hz Hb. rewrite (chance_uniform0 I p V z) by assumption.
    rewrite le_floor. unfold tolerated. assert (Qk := Qn_pos _ (proj1 HW)).
    split; intros [H1 H2]; split; try assumption; nra.
Qed.

Lemma relaxation_upper_bound I p v : valid_partition (i_k I) p ->
  (forall x, part_feasible I p 0 x -> (obj I x <= v)%Q) -> upper_bound I v.
Proof. intros Hp H x Hx. apply H. now apply relaxation. Qed.
