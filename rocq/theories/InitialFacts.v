(** Facts on the initial partition. *)
From Verif Require Import Base BaseFacts Spec Instance InstanceFacts PartitionFacts OptModels Initial Bounds.

Lemma cost_partition_ok k n sorted : Permutation sorted (seq 0 k) ->
  cost_partition k sorted n = Ok (map (fun i => stride i n sorted) (seq 0 n)).
Proof.
  intros HP. assert (HL : length sorted = k) by (rewrite (Permutation_length HP); apply seq_length).
  unfold cost_partition. apply rmap_ok. intros i Hi.
  replace (stride i n sorted) with (map (fun j => nth j sorted 0) (stride i n (seq 0 k))).
  - apply rmap_ok. intros j Hj. apply stride_aux_In, in_seq in Hj.
    rewrite (geti_ok sorted j 0) by lia. simpl.
    assert (Hs : In (nth j sorted 0) (seq 0 k)).
    { eapply Permutation_in; [exact HP|]. apply nth_In. lia. }
    apply in_seq in Hs. rewrite (geti_ok (seq 0 k) _ 0) by (rewrite seq_length; lia).
    rewrite seq_nth by lia. reflexivity.
  - unfold stride. rewrite <- stride_aux_map. f_equal. rewrite <- HL. apply map_nth_seq.
Qed.

Lemma stride_partition_valid k n sorted : Permutation sorted (seq 0 k) -> 0 < n -> n <= k ->
  valid_partition k (map (fun i => stride i n sorted) (seq 0 n)) /\
  (forall S, In S (map (fun i => stride i n sorted) (seq 0 n)) ->
     k / n <= length S <= k / n + 1).
Proof.
  intros HP Hn Hk. assert (HL : length sorted = k) by (rewrite (Permutation_length HP); apply seq_length).
  assert (HS : forall S, In S (map (fun i => stride i n sorted) (seq 0 n)) ->
     k / n <= length S <= k / n + 1).
  { intros S HS. apply in_map_iff in HS as (i & <- & Hi). apply in_seq in Hi.
    unfold stride. rewrite stride_aux_length by lia. rewrite HL. split.
    - apply Nat.div_le_mono; lia.
    - replace (k / n + 1) with ((k + 1 * n) / n) by (rewrite Nat.div_add; lia).
      apply Nat.div_le_mono; lia. }
  split; [|exact HS]. split.
  - rewrite strides_perm by assumption. exact HP.
  - apply Forall_forall. intros S HIn. apply HS in HIn.
    assert (1 <= k / n) by (apply Nat.div_le_lower_bound; lia).
    destruct S; simpl in *; [lia|discriminate].
Qed.

Lemma nodup_id (l : list nat) : NoDup l -> nodup Nat.eq_dec l = l.
Proof. apply nodup_fixed_point. Qed.

Lemma check_partitions_ok k n p : valid_partition k p -> length p = n ->
  check_partitions k p n = Ok tt.
Proof.
  intros HV <-. unfold check_partitions.
  rewrite (nodup_id (concat p)) by (eapply vp_NoDup_concat; eassumption).
  destruct HV as [HP _]. rewrite (Permutation_length HP), seq_length, !Nat.eqb_refl. reflexivity.
Qed.

Lemma create_sorted argsort perm costs k n ty :
  argsort_ok argsort -> Permutation perm (seq 0 k) -> length costs = k ->
  0 < n -> n <= k -> ty <> InitOther ->
  create_first_partition argsort perm costs k n ty =
  Ok (map (fun i => stride i n (match ty with InitRandom => perm
                                | _ => argsort (map Qopp costs) end)) (seq 0 n)).
Proof.
  intros HA HP HC Hn Hk Hty. unfold create_first_partition.
  replace (n <=? k) with true by (symmetry; apply Nat.leb_le; lia). cbn [rassert rbind].
  assert (HP' : Permutation (argsort (map Qopp costs)) (seq 0 k)).
  { destruct (HA (map Qopp costs)) as [H _]. rewrite map_length, HC in H. exact H. }
  destruct ty; [| |congruence]; cbn [rbind].
  - rewrite check_partitions_ok; [reflexivity| |unfold random_partition; now rewrite map_length, seq_length].
    apply stride_partition_valid; assumption.
  - rewrite cost_partition_ok by assumption. cbn [rbind].
    rewrite check_partitions_ok; [reflexivity| |now rewrite map_length, seq_length].
    apply stride_partition_valid; assumption.
Qed.

Lemma initial_partition argsort perm costs k n ty :
  argsort_ok argsort -> Permutation perm (seq 0 k) -> length costs = k ->
  0 < n -> n <= k -> ty <> InitOther ->
  exists p, create_first_partition argsort perm costs k n ty = Ok p /\
    length p = n /\ valid_partition k p /\
    (forall S T, In S p -> In T p -> length S <= length T + 1).
Proof.
  intros HA HP HC Hn Hk Hty.
  set (sorted := match ty with InitRandom => perm | _ => argsort (map Qopp costs) end).
  assert (HP' : Permutation sorted (seq 0 k)).
  { destruct (HA (map Qopp costs)) as [H _]. rewrite map_length, HC in H.
    unfold sorted; destruct ty; assumption. }
  eexists. split; [apply create_sorted; eassumption|]. fold sorted.
  destruct (stride_partition_valid k n sorted HP' Hn Hk) as [V S].
  repeat split; try apply V; [now rewrite map_length, seq_length|].
  intros A B HA' HB. apply S in HA'. apply S in HB. lia.
Qed.

Lemma initial_too_many argsort perm costs k n ty : k < n ->
  create_first_partition argsort perm costs k n ty = Err AssertionError.
Proof.
  intro H. unfold create_first_partition.
  replace (n <=? k) with false by (symmetry; apply Nat.leb_gt; lia). reflexivity.
Qed.

(** ** Quantile bound *)
Lemma ahmed_loop_spec costs proba eps : length costs = length proba ->
  forall l total r, Forall (fun s => s < length proba) l ->
  ahmed_loop costs proba eps total l = r ->
  match r with
  | Ok (Some (s, v)) =>
      exists pre post, l = pre ++ s :: post /\ nth s costs 0%Q = v /\
        (eps + (1 # 10000000) <= total + qsum (map (fun t => nth t proba 0) (pre ++ [s])))%Q /\
        (pre = [] \/ total + qsum (map (fun t => nth t proba 0) pre) < eps + (1 # 10000000))%Q
  | Ok None => l = [] \/ (total + qsum (map (fun t => nth t proba 0) l) < eps + (1 # 10000000))%Q
  | Err _ => False
  end.
Proof.
  intro HL. induction l as [|s l IH]; intros total r HF <-; simpl; [now left|].
  inversion HF as [|? ? H1 H2]; subst.
  rewrite (geti_ok proba s 0%Q) by assumption. cbn [rbind].
  destruct (Qle_bool _ _) eqn:E.
  - rewrite (geti_ok costs s 0%Q) by lia. cbn [rbind]. exists [], l. qb.
    repeat split; [|now left]. simpl. lra.
  - qb. specialize (IH (total + nth s proba 0)%Q _ H2 eq_refl).
    destruct (ahmed_loop _ _ _ _ l) as [[[t v]|]|]; [| |assumption].
    + destruct IH as (pre & post & -> & Hv & Hge & Hlt). exists (s :: pre), post.
      repeat split; [assumption| |right]; simpl; [lra|].
      destruct Hlt as [->|Hlt]; simpl; lra.
    + right. destruct IH as [->|IH]; simpl; lra.
Qed.

Section Quantile.
  Variables (argsort : list Q -> list nat) (costs proba : list Q) (eps : Q).
  Hypothesis HA : argsort_ok argsort.
  Hypothesis HL : length costs = length proba.
  Hypothesis HP : Forall (fun q => 0 <= q)%Q proba.

  Lemma argsort_lt : Forall (fun s => s < length proba) (argsort costs).
  Proof.
    destruct (HA costs) as [H _]. rewrite H, HL. apply Forall_forall. intros s Hs.
    apply in_seq in Hs. lia.
  Qed.

  Lemma ahmed_none : 0 < length proba ->
    (ahmed_bound argsort costs proba eps = Ok None <->
     (qsum proba < eps + (1 # 10000000))%Q).
  Proof.
    intro Hk. unfold ahmed_bound.
    assert (Hsum : (qsum (map (fun t => nth t proba 0%Q) (argsort costs)) == qsum proba)%Q).
    { destruct (HA costs) as [H _]. rewrite HL in H.
      rewrite (qsum_perm _ (map (fun t => nth t proba 0%Q) (seq 0 (length proba))))
        by (apply Permutation_map, H).
      rewrite map_nth_seq. reflexivity. }
    pose proof (ahmed_loop_spec costs proba eps HL (argsort costs) 0 _ argsort_lt eq_refl) as S.
    split; intro H.
    - rewrite H in S. destruct S as [E|S]; [|lra].
      destruct (HA costs) as [H' _]. rewrite E in H'. apply Permutation_length in H'.
      rewrite seq_length in H'. simpl in H'. lia.
    - destruct (ahmed_loop _ _ _ _ _) as [[[s v]|]|]; [|reflexivity|destruct S].
      exfalso. destruct S as (pre & post & E & _ & Hge & _).
      rewrite E in Hsum. replace (pre ++ s :: post) with ((pre ++ [s]) ++ post) in Hsum
        by (rewrite <- app_assoc; reflexivity).
      rewrite map_app, qsum_app in Hsum.
      assert (0 <= qsum (map (fun t => nth t proba 0) post))%Q; [|lra].
      apply qsum_nonneg. apply Forall_forall. intros q Hq. apply in_map_iff in Hq as (t & <- & _).
      apply nth_Forall; [lra|assumption].
  Qed.

  (** The returned scenario ends the prefix whose mass reaches the threshold. *)
  Lemma ahmed_some s v : ahmed_bound argsort costs proba eps = Ok (Some (s, v)) ->
    nth s costs 0%Q = v /\ s < length proba /\
    exists pre post, argsort costs = pre ++ s :: post /\
      (eps + (1 # 10000000) <= qsum (map (fun t => nth t proba 0) (pre ++ [s])))%Q /\
      (pre = [] \/ qsum (map (fun t => nth t proba 0) pre) < eps + (1 # 10000000))%Q /\
      (forall t, In t (pre ++ [s]) -> nth t costs 0 <= v)%Q /\
      (forall t, In t post -> v <= nth t costs 0)%Q.
  Proof.
    intro H. unfold ahmed_bound in H.
    pose proof (ahmed_loop_spec costs proba eps HL (argsort costs) 0 _ argsort_lt H) as S.
    simpl in S. destruct S as (pre & post & E & Hv & Hge & Hlt).
    split; [assumption|]. split.
    { pose proof argsort_lt as HF. rewrite E, Forall_forall in HF. apply HF.
      apply in_or_app; right; now left. }
    exists pre, post. split; [assumption|]. split; [lra|].
    split; [destruct Hlt as [Hlt|Hlt]; [now left|right; lra]|].
    destruct (HA costs) as [_ HS]. rewrite E in HS. apply StronglySorted_app in HS as (_ & H2 & H3).
    inversion H2 as [|? ? _ H4]; subst. rewrite Forall_forall in H4. split.
    - intros t Ht. apply in_app_or in Ht as [Ht|[<-|[]]]; [|lra].
      apply H3; [assumption|now left].
    - intros t Ht. now apply H4.
  Qed.

  Lemma ahmed_no_error e : ahmed_bound argsort costs proba eps <> Err e.
  Proof.
    intro H. exact (ahmed_loop_spec costs proba eps HL (argsort costs) 0 _ argsort_lt H).
  Qed.

  (** Mass of the cheaper scenarios is below the threshold. *)
  Lemma ahmed_quantile s v : ahmed_bound argsort costs proba eps = Ok (Some (s, v)) ->
    (0 <= eps)%Q ->
    (qsum (map (fun t => if Qlt_bool (nth t costs 0) v then nth t proba 0 else 0)
            (seq 0 (length proba))) < eps + (1 # 10000000))%Q.
  Proof.
    intros H He. destruct (ahmed_some s v H) as (Hv & Hs & pre & post & E & Hge & Hlt & Hle & Hpost).
    destruct (HA costs) as [HPm _]. rewrite HL in HPm.
    rewrite <- (qsum_perm _ _ (Permutation_map _ HPm)), E.
    rewrite map_app, qsum_app. cbn [map qsum].
    assert (Z1 : (qsum (map (fun t => if Qlt_bool (nth t costs 0) v then nth t proba 0 else 0) post) == 0)%Q).
    { rewrite (qsum_map_ext _ (fun _ => 0)%Q).
      - clear. induction post as [|t l IH]; simpl; [reflexivity|]. rewrite IH. reflexivity.
      - intros t Ht. apply Hpost in Ht. apply Qlt_bool_false in Ht. rewrite Ht. reflexivity. }
    assert (Z2 : (if Qlt_bool (nth s costs 0%Q) v then nth s proba 0%Q else 0%Q) = 0%Q).
    { rewrite Hv. replace (Qlt_bool v v) with false; [reflexivity|]. symmetry. qb. lra. }
    rewrite Z1, Z2.
    assert (Z3 : (qsum (map (fun t => if Qlt_bool (nth t costs 0) v then nth t proba 0 else 0) pre)
                 <= qsum (map (fun t => nth t proba 0) pre))%Q).
    { apply qsum_map_le. intros t _. cbn beta. assert (0 <= nth t proba 0)%Q by (apply nth_Forall; [lra|assumption]).
      destruct (Qlt_bool (nth t costs 0%Q) v); [apply Qle_refl|assumption]. }
    destruct Hlt as [->|Hlt]; simpl in *; lra.
  Qed.
End Quantile.

Lemma ahmed_valid argsort I costs proba eps s v :
  argsort_ok argsort -> Forall (fun q => 0 <= q)%Q proba ->
  length costs = i_k I -> length proba = i_k I ->
  (forall t y, t < i_k I -> det_feasible I [t] 0 y -> (obj I y <= nth t costs 0)%Q) ->
  ahmed_bound argsort costs proba eps = Ok (Some (s, v)) ->
  forall x, in_dom I x -> (viol_mass I proba 0 x (seq 0 (i_k I)) <= eps)%Q -> (obj I x <= v)%Q.
Proof.
  intros HA HP HC HL Hcost HB x Hx Hmass.
  destruct (ahmed_some argsort costs proba eps HA ltac:(congruence) s v HB)
    as (_ & _ & pre & post & E & Hge & _ & Hle & _).
  assert (HPm : Permutation (argsort costs) (seq 0 (i_k I))) by (rewrite <- HC; apply HA).
  (* some scenario of the prefix is satisfied *)
  destruct (existsb (satb I 0 x) (pre ++ [s])) eqn:EX.
  - apply existsb_exists in EX as (t & Ht & Hsat).
    eapply Qle_trans; [|apply Hle; exact Ht].
    apply Hcost.
    + assert (In t (seq 0 (i_k I))).
      { eapply Permutation_in; [exact HPm|]. rewrite E.
        apply in_app_or in Ht as [Ht|[<-|[]]]; apply in_or_app; [now left|right; now left]. }
      apply in_seq in H; lia.
    + split; [assumption|]. intros u [<-|[]]. now apply satb_iff.
  - exfalso. rewrite <- (viol_mass_perm I proba 0 x _ _ HPm), E in Hmass.
    replace (pre ++ s :: post) with ((pre ++ [s]) ++ post) in Hmass by (rewrite <- app_assoc; reflexivity).
    rewrite viol_mass_app in Hmass.
    pose proof (viol_mass_nonneg I proba 0 x post HP).
    assert (viol_mass I proba 0 x (pre ++ [s]) == qsum (map (fun t => nth t proba 0) (pre ++ [s])))%Q.
    { unfold viol_mass. apply qsum_map_ext. intros t Ht.
      destruct (satb I 0 x t) eqn:ES; [|reflexivity].
      assert (existsb (satb I 0 x) (pre ++ [s]) = true) by (apply existsb_exists; eauto). congruence. }
    lra.
Qed.

Lemma viol_mass_uniform I tau x : 0 < i_k I ->
  (viol_mass I (uniform (i_k I)) tau x (seq 0 (i_k I)) == Qn (nviol I tau x) / Qn (i_k I))%Q.
Proof.
  intro Hk. unfold viol_mass, nviol.
  assert (G : forall l, Forall (fun s => s < i_k I) l ->
    (qsum (map (fun s => if satb I tau x s then 0 else nth s (uniform (i_k I)) 0) l) ==
     Qn (count (fun s => negb (satb I tau x s)) l) / Qn (i_k I))%Q).
  { induction 1 as [|s l Hs Hl IH].
    - simpl. rewrite count_nil, Qn_0. unfold Qdiv. ring.
    - cbn [map qsum]. rewrite count_cons, Qn_add, IH. unfold uniform.
      rewrite nth_repeat_lt by assumption.
      destruct (satb I tau x s); simpl negb; cbn match; unfold Qdiv;
        [change (Qn 0) with 0%Q|change (Qn 1) with 1%Q]; ring. }
  apply G. apply Forall_forall. intros s Hs. apply in_seq in Hs. lia.
Qed.

Lemma cc_viol_mass I tau x : 0 < i_k I -> cc_feasible I tau x ->
  (viol_mass I (uniform (i_k I)) tau x (seq 0 (i_k I)) <= i_eps I)%Q.
Proof.
  intros Hk [_ H]. rewrite viol_mass_uniform by assumption.
  apply Qle_shift_div_r; [now apply Qn_pos|assumption].
Qed.

Lemma uniform_nonneg k : Forall (fun q => 0 <= q)%Q (uniform k).
Proof.
  unfold uniform. apply Forall_forall. intros q Hq. apply repeat_spec in Hq. subst q.
  destruct k as [|k]; [vm_compute; discriminate|].
  apply Qle_shift_div_l; [apply Qn_pos; lia|]. lra.
Qed.
Lemma uniform_length k : length (uniform k) = k.
Proof. apply repeat_length. Qed.

Lemma ahmed_upper_bound argsort I costs s v :
  argsort_ok argsort -> 0 < i_k I -> length costs = i_k I ->
  (forall t y, t < i_k I -> det_feasible I [t] 0 y -> (obj I y <= nth t costs 0)%Q) ->
  ahmed_bound argsort costs (uniform (i_k I)) (i_eps I) = Ok (Some (s, v)) ->
  upper_bound I v.
Proof.
  intros HA Hk HC Hcost HB x Hx.
  apply (ahmed_valid argsort I costs (uniform (i_k I)) (i_eps I) s v); try assumption;
    [apply uniform_nonneg|apply uniform_length|apply Hx|].
  now apply cc_viol_mass.
Qed.

(** ** The cost partition starts below the quantile bound *)
Lemma qsum_uniform_sub k l : Forall (fun t => t < k) l ->
  (qsum (map (fun t => nth t (uniform k) 0) l) == Qn (length l) / Qn k)%Q.
Proof.
  induction 1 as [|t l Ht Hl IH]; cbn [map qsum length].
  - rewrite Qn_0. unfold Qdiv. ring.
  - rewrite IH, Qn_S. unfold uniform. rewrite nth_repeat_lt by assumption. unfold Qdiv. ring.
Qed.

Lemma last_of_stride k n i : i < n -> n <= k -> exists q, k - n <= i + q * n < k.
Proof.
  intros Hi Hk. exists ((k - 1 - i) / n).
  pose proof (Nat.div_mod (k - 1 - i) n ltac:(lia)) as D.
  pose proof (Nat.mod_upper_bound (k - 1 - i) n ltac:(lia)) as U.
  rewrite (Nat.mul_comm n) in D. lia.
Qed.

Lemma cost_partition_below argsort I costs p s v :
  argsort_ok argsort -> 0 < i_k I -> (0 <= i_eps I)%Q -> length costs = i_k I ->
  tolerated I + 1 <= i_k I ->
  create_first_partition argsort [] costs (i_k I) (tolerated I + 1) InitCost = Ok p ->
  ahmed_bound argsort costs (uniform (i_k I)) (i_eps I) = Ok (Some (s, v)) ->
  forall S, In S p -> exists t, In t S /\ t < i_k I /\ (nth t costs 0 <= v)%Q.
Proof.
  intros HA Hk He HC Hn HCr HB S HS. set (n := tolerated I + 1) in *. set (k := i_k I) in *.
  set (D := argsort (map Qopp costs)).
  destruct (HA (map Qopp costs)) as [PD SD]. fold D in PD, SD. rewrite map_length, HC in PD.
  assert (LD : length D = k) by (rewrite (Permutation_length PD); apply seq_length).
  assert (E : p = map (fun i => stride i n D) (seq 0 n)).
  { revert HCr. unfold create_first_partition.
    replace (n <=? k) with true by (symmetry; apply Nat.leb_le; lia). cbn [rassert rbind].
    fold D. rewrite cost_partition_ok by assumption. cbn [rbind].
    destruct (check_partitions _ _ _); cbn [rbind]; [|discriminate]. congruence. }
  subst p. apply in_map_iff in HS as (i & <- & Hi). apply in_seq in Hi.
  destruct (last_of_stride k n i ltac:(lia) Hn) as (q & Hq1 & Hq2).
  set (t := nth (i + q * n) D 0).
  assert (Htk : t < k).
  { assert (In t (seq 0 k)) by (eapply Permutation_in; [exact PD|]; apply nth_In; lia).
    apply in_seq in H. lia. }
  exists t. repeat split; [|assumption|].
  { unfold t, stride. rewrite <- stride_aux_nth by lia. apply nth_In.
    rewrite stride_aux_length by lia. rewrite LD.
    apply Nat.div_le_lower_bound; [lia|]. nia. }
  apply Qnot_lt_le. intro C.
  destruct (ahmed_some argsort costs (uniform k) (i_eps I) HA ltac:(rewrite uniform_length; exact HC) s v HB)
    as (_ & _ & pre & post & EA & Hge & _ & Hle & _).
  destruct (HA costs) as [PA _]. rewrite HC in PA. rewrite EA in PA.
  assert (HF : Forall (fun t => t < k) (pre ++ [s])).
  { apply Forall_forall. intros u Hu. assert (In u (seq 0 k)).
    { eapply Permutation_in; [exact PA|]. apply in_app_or in Hu as [Hu|[<-|[]]];
      apply in_or_app; [now left|right; now left]. }
    apply in_seq in H. lia. }
  rewrite (qsum_uniform_sub _ _ HF) in Hge.
  (* at least n scenarios cost at most v *)
  assert (N1 : n <= length (pre ++ [s])).
  { assert (HQ : (i_eps I * Qn k < Qn (length (pre ++ [s])))%Q).
    { assert (HQ : (i_eps I < Qn (length (pre ++ [s])) / Qn k)%Q) by lra.
      assert (Hkp : (0 < Qn k)%Q) by now apply Qn_pos.
      apply (Qmult_lt_compat_r _ _ _ Hkp) in HQ.
      unfold Qdiv in HQ. rewrite <- Qmult_assoc, (Qmult_comm (/ _)), Qmult_inv_r, Qmult_1_r in HQ; lra. }
    unfold n. destruct (le_lt_dec (tolerated I + 1) (length (pre ++ [s]))) as [|Hlt]; [assumption|].
    exfalso. assert (length (pre ++ [s]) <= tolerated I) by lia.
    assert (Qn (length (pre ++ [s])) <= i_eps I * Qn k)%Q; [|lra].
    apply le_floor. split; [|assumption]. apply Qmult_le_0_compat; [assumption|apply Qn_nonneg]. }
  assert (C1 : n <= count (fun u => Qle_bool (nth u costs 0%Q) v) (seq 0 k)).
  { rewrite <- (count_perm _ _ _ PA).
    replace (pre ++ s :: post) with ((pre ++ [s]) ++ post) by (rewrite <- app_assoc; reflexivity).
    rewrite count_app. rewrite (count_ext _ (fun _ => true) (pre ++ [s])).
    - rewrite count_true. lia.
    - intros u Hu. apply Qle_bool_iff. now apply Hle. }
  (* at least k-n+1 scenarios cost more *)
  assert (C2 : S (i + q * n) <= count (fun u => negb (Qle_bool (nth u costs 0%Q) v)) (seq 0 k)).
  { rewrite <- (count_perm _ _ _ PD). apply (count_prefix _ _ 0); [lia|].
    intros j Hj. apply negb_true_iff, Qle_bool_false.
    destruct (Nat.eq_dec j (i + q * n)) as [->|Hne]; [exact C|].
    pose proof (StronglySorted_nth _ D 0 SD j (i + q * n) ltac:(lia) ltac:(lia)) as HS.
    simpl in HS. fold t in HS.
    assert (Hnth : forall u, u < k -> nth u (map Qopp costs) 0%Q = (- nth u costs 0%Q)%Q).
    { intros u Hu. rewrite (nth_indep _ 0%Q (Qopp 0)) by (rewrite map_length; lia).
      apply map_nth. }
    assert (Hjk : nth j D 0 < k).
    { assert (In (nth j D 0) (seq 0 k)) by (eapply Permutation_in; [exact PD|]; apply nth_In; lia).
      apply in_seq in H. lia. }
    rewrite !Hnth in HS by assumption. lra. }
  pose proof (count_negb (fun u => Qle_bool (nth u costs 0%Q) v) (seq 0 k)) as CN.
  rewrite seq_length in CN. lia.
Qed.
