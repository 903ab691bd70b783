(** Generated instances satisfy the hypotheses of the theorems (C84). *)
From Coq Require Import Ascii String QArith Qabs Lqa.
From Verif Require Import Base BaseFacts Spec TextSpec Instance InstanceFacts OptModels Initial Bounds Refine CostRefine Merge Violations BigM Adaptive AdaptiveSpec AdaptiveBounds MilpFacts
  NearSpec AdaptiveEnd NearFacts.
From Verif Require Import Tenths EndEx.
From Verif Require Import Text TextFacts TextGen Milp Report Main Export Campaign Orlib OrlibSpec OrlibRead OrlibData.
Local Open Scope nat_scope.
Local Open Scope list_scope.

(** ** The files of data/orlib *)
Definition nonneg_dec (x : dec) : bool := (0 <=? fst x)%Z.
Definition fitb (o : orlib) : bool :=
  (0 <? or_n o) && (List.length (or_c o) =? or_n o) && forallb nonneg_dec (or_c o) && (List.length (or_b o) =? or_m o) && forallb nonneg_dec (or_b o) &&
  forallb (forallb nonneg_dec) (or_A o) &&
  (let C := qsum (map (fun x => round1 (dval x)) (or_c o)) in forallb (fun b => Qle_bool C (1000 * round1 (dval b))%Q) (or_b o)) &&
  existsb (fun j => Qlt_bool 0 (round1 (dval (nth j (or_c o) (0%Z, 0)))) &&
    forallb (fun i => Qle_bool (4 * mean o i j + (1 # 10))%Q (round1 (dval (nth i (or_b o) (0%Z, 0))))) (seq 0 (or_m o))) (seq 0 (or_n o)).
Lemma dval_nonneg x : (0 <= fst x)%Z -> (0 <= dval x)%Q.
Proof. intro H. destruct x as [z d]. unfold dval, Qle. cbn in *. nia. Qed.
Lemma fitb_ok o : fitb o = true -> orlib_fit o.
Proof.
  unfold fitb. rewrite !andb_true_iff. intros (((((((H1 & H2) & H3) & H4) & H5) & H6) & H7) & H8).
  assert (K : forall l, forallb nonneg_dec l = true -> Forall (fun x : dec => 0 <= fst x)%Z l).
  { intros l H. rewrite forallb_forall in H. apply Forall_forall. intros x Hx. apply Z.leb_le, H, Hx. }
  constructor.
  - now apply Nat.ltb_lt.
  - split; [now apply Nat.eqb_eq|now apply K].
  - split; [now apply Nat.eqb_eq|now apply K].
  - intros i j. unfold mean. apply dval_nonneg. destruct (nth_in_or_default i (or_A o) []) as [HI|E]; [|rewrite E; now destruct j].
    rewrite forallb_forall in H6. apply H6, K in HI. rewrite Forall_forall in HI.
    destruct (nth_in_or_default j (nth i (or_A o) []) (0%Z, 0)) as [HJ|E]; [now apply HI|]. rewrite E. apply Z.le_refl.
  - intros b Hb. rewrite forallb_forall in H7. apply Qle_bool_iff, H7, Hb.
  - apply existsb_exists in H8 as (j & Hj & H). apply andb_prop in H as [H H']. exists j. split; [apply in_seq in Hj; lia|]. split; [now apply Qlt_bool_iff|].
    intros i Hi. rewrite forallb_forall in H'. apply Qle_bool_iff, H', in_seq. lia.
Qed.
Definition fileb (t : list ascii) (nm : Z * Z) : bool :=
  match read_orlib t with
  | Ok o => fitb o && (Z.of_nat (or_n o) =? fst nm)%Z && (Z.of_nat (or_m o) =? snd nm)%Z && (List.length (or_A o) =? or_m o) &&
            forallb (fun r => List.length r =? or_n o) (or_A o) && match rev t with c :: _ => Ascii.eqb c "010"%char | [] => false end
  | Err _ => false
  end.
Lemma fileb_ok t nm : fileb t nm = true -> exists o, read_orlib t = Ok o /\ orlib_file o t /\ orlib_fit o /\ Z.of_nat (or_n o) = fst nm /\ Z.of_nat (or_m o) = snd nm.
Proof.
  unfold fileb. destruct (read_orlib t) as [o|] eqn:R; [|discriminate]. rewrite !andb_true_iff. intros (((((H1 & H2) & H3) & H4) & H5) & H6).
  exists o. split; [reflexivity|]. split; [|split; [now apply fitb_ok|split; now apply Z.eqb_eq]].
  apply orlib_file_of; [|now apply Nat.eqb_eq| |exact R].
  - destruct (rev t) as [|c r] eqn:E; [discriminate|]. exists (rev r). apply Ascii.eqb_eq in H6. subst c. now rewrite <- (rev_involutive t), E.
  - apply Forall_forall. rewrite forallb_forall in H5. intros r Hr. now apply Nat.eqb_eq, H5.
Qed.
Lemma files_check : forallb (fun x => fileb (fst x) (snd x)) (combine orlib_texts orlib_sizes) = true.
Proof. vm_compute. reflexivity. Qed.
Theorem shipped_files_fit f : f < 8 -> exists o, orlib_file o (nth f orlib_texts []) /\ orlib_fit o /\
  (Z.of_nat (or_n o), Z.of_nat (or_m o)) = nth f orlib_sizes (0, 0)%Z.
Proof.
  intro H. assert (K := files_check). rewrite forallb_forall in K. specialize (K (nth f orlib_texts [], nth f orlib_sizes (0, 0)%Z)).
  destruct (fileb_ok (nth f orlib_texts []) (nth f orlib_sizes (0, 0)%Z)) as (o & R & F & FI & E1 & E2).
  - apply K. rewrite <- combine_nth by reflexivity. apply nth_In. rewrite combine_length. change (f < 8). exact H.
  - exists o. split; [exact F|]. split; [exact FI|]. rewrite E1, E2. now destruct (nth f orlib_sizes (0, 0)%Z).
Qed.

(** ** Generated instances *)
Section Generated.
  Variables (o : orlib) (d : draws) (k : nat) (cont : bool) (eps : Q).
  Hypothesis FIT : orlib_fit o.
  Hypothesis K0 : 0 < k.

  Definition orlib_inst : inst :=
    mkInst (or_n o) (or_m o) k cont eps (map (fun x => round1 (dval x)) (or_c o))
      (map (map (map (fun v => round1 (gen_entry v)))) (samples o d k)) (repeat (map (fun x => round1 (dval x)) (or_b o)) k).
  Lemma samples_length : List.length (samples o d k) = k.
  Proof. unfold samples. now rewrite map_length, seq_length. Qed.
  Lemma samples_shape : Forall (fun M => List.length M = or_m o /\ Forall (fun r => List.length r = or_n o) M) (samples o d k).
  Proof.
    apply Forall_map, Forall_forall. intros s _. split; [now rewrite map_length, seq_length|]. apply Forall_map, Forall_forall. intros i _. now rewrite map_length, seq_length.
  Qed.
  Lemma orlib_loads : load_text (orlib_text o d k) cont eps = Ok orlib_inst.
  Proof.
    unfold orlib_text. rewrite gen_load; [|now rewrite samples_length|exact samples_shape|apply FIT]. now rewrite samples_length.
  Qed.
  Lemma orlib_wf : wf_inst orlib_inst.
  Proof.
    split; [exact K0|]. cbn. rewrite !map_length, samples_length, repeat_length. split; [apply FIT|]. split; [reflexivity|]. split; [|split; [reflexivity|]].
    - apply Forall_map. eapply Forall_impl; [|exact samples_shape]. cbv beta. intros M [L F]. split; [now rewrite map_length|]. apply Forall_map.
      eapply Forall_impl; [|exact F]. cbv beta. intros r L'. now rewrite map_length.
    - apply Forall_forall. intros v Hv. apply repeat_spec in Hv. subst v. rewrite map_length. apply FIT.
  Qed.
  Lemma round1_decs l : Forall (fun x : dec => 0 <= fst x)%Z l -> Forall (fun a => 0 <= a)%Q (map (fun x => round1 (dval x)) l).
  Proof. intro F. apply Forall_map. eapply Forall_impl; [|exact F]. cbv beta. intros x Hx. now apply round1_nonneg, dval_nonneg. Qed.
  Lemma orlib_packing : packing orlib_inst.
  Proof.
    split; [apply round1_decs, FIT|]. cbn. split.
    - apply Forall_map, Forall_forall. intros M _. apply Forall_map, Forall_forall. intros r _. apply Forall_map, Forall_forall. intros q _. apply round1_nonneg, gen_entry_nonneg.
    - apply Forall_forall. intros v Hv. apply repeat_spec in Hv. subst v. apply round1_decs, FIT.
  Qed.
  Lemma orlib_tenths : tenths orlib_inst.
  Proof.
    split; cbn.
    - apply Forall_map, Forall_forall. intros M _. apply Forall_map, Forall_forall. intros r _. apply Forall_map, Forall_forall. intros q _. apply round1_tenth.
    - apply Forall_forall. intros v Hv. apply repeat_spec in Hv. subst v. apply Forall_map, Forall_forall. intros x _. apply round1_tenth.
  Qed.

  Lemma orlib_rhs s i : s < k -> i < or_m o -> rhs orlib_inst s i = round1 (dval (nth i (or_b o) (0%Z, 0))).
  Proof.
    intros Hs Hi. unfold rhs. cbn. rewrite (nth_indep _ [] (map (fun x => round1 (dval x)) (or_b o))) by now rewrite repeat_length.
    rewrite nth_repeat. rewrite (nth_indep _ 0%Q (round1 (dval (0%Z, 0)))) by (rewrite map_length; destruct FIT as [_ _ [-> _]]; exact Hi).
    now rewrite (map_nth (fun x => round1 (dval x))).
  Qed.
  Lemma nth_map_seq {A} (f : nat -> A) n i d0 : i < n -> nth i (map f (seq 0 n)) d0 = f i.
  Proof. intro H. rewrite (nth_indep _ d0 (f 0)) by now rewrite map_length, seq_length. rewrite map_nth, seq_nth by exact H. reflexivity. Qed.
  Lemma orlib_row s i : s < k -> i < or_m o -> row orlib_inst s i = map (fun j => round1 (gen_entry (sample o d s i j))) (seq 0 (or_n o)).
  Proof.
    intros Hs Hi. unfold row. cbn. unfold samples. rewrite map_map, nth_map_seq by exact Hs. rewrite map_map, nth_map_seq by exact Hi. now rewrite map_map.
  Qed.
  Lemma orlib_entry s i j : s < k -> i < or_m o -> j < or_n o -> entry_of orlib_inst s i j = round1 (gen_entry (sample o d s i j)).
  Proof. intros Hs Hi Hj. unfold entry_of. rewrite orlib_row by assumption. now apply (nth_map_seq (fun j => round1 (gen_entry (sample o d s i j)))). Qed.

  Lemma orlib_near : near orlib_inst.
  Proof.
    destruct cont eqn:CO.
    - apply near_cont; [exact orlib_wf|exact orlib_packing|exact CO|]. intros s i Hs Hi. rewrite orlib_rhs by assumption. apply FIT. apply nth_In. destruct FIT as [_ _ [-> _]]. exact Hi.
    - apply tight_near, tight_tenths; [exact CO|apply orlib_tenths|apply orlib_tenths].
  Qed.

  (** Entries. *)
  Lemma round4_close q : (round4 q - (1 # 20000) <= q /\ q <= round4 q + (1 # 20000))%Q.
  Proof.
    unfold round4. destruct (Qrnd_bounds (10000 * q)) as [A B]. set (z := inject_Z (Qrnd (10000 * q))) in *.
    assert (E : (z == 10000 * (z / 10000))%Q) by field. split; lra.
  Qed.
  Definition clipped (q : Q) : Q := Qmax q 0.
  Lemma entry_close q : (Qabs (round1 (gen_entry q) - clipped q) <= 1001 # 20000)%Q.
  Proof.
    unfold gen_entry. assert (E : ((if Qlt_bool q 0 then 0 else q) == clipped q)%Q).
    { unfold clipped. destruct (Qlt_bool q 0) eqn:L; [apply Qlt_bool_iff in L; rewrite Q.max_r; lra|].
      rewrite Q.max_l; [reflexivity|]. apply Qnot_lt_le. intro N. apply Qlt_bool_iff in N. congruence. }
    set (c := if Qlt_bool q 0 then 0%Q else q) in *. rewrite <- E. destruct (round4_close c), (round1_close (round4 c)). apply Qabs_Qle_condition. split; lra.
  Qed.
  Lemma entry_zero : (round1 (gen_entry 0) == 0)%Q.
  Proof. vm_compute. reflexivity. Qed.
  Lemma entry_eq p q : (p == q)%Q -> round1 (gen_entry p) = round1 (gen_entry q).
  Proof.
    intro E. unfold gen_entry, round4. rewrite (Qlt_bool_eq p 0 q 0 E (Qeq_refl 0)). apply round1_eq.
    destruct (Qlt_bool q 0); [reflexivity|]. now rewrite (Qrnd_eq (10000 * p) (10000 * q)) by now rewrite E.
  Qed.
  Lemma orlib_entries s i j : s < k -> i < or_m o -> j < or_n o ->
    (dr_fails d s j = true \/ mean o i j == 0 -> entry_of orlib_inst s i j == 0)%Q /\
    (dr_fails d s j = false -> Qabs (entry_of orlib_inst s i j - Qmax (mean o i j * (1 + dr_normal d s i j / 10)) 0) <= 1001 # 20000)%Q.
  Proof.
    intros Hs Hi Hj. rewrite orlib_entry by assumption. split.
    - intro H. rewrite (entry_eq _ 0); [exact entry_zero|]. unfold sample. destruct H as [-> | ->]; [ring|]. change (Qabs 0) with 0%Q. ring.
    - intro F. rewrite (entry_eq _ (mean o i j * (1 + dr_normal d s i j / 10))%Q); [apply entry_close|]. unfold sample. rewrite F.
      rewrite Qabs_pos by apply FIT. field.
  Qed.

  (** A point of positive value. *)
  Lemma unit_dot n j (a : list Q) : j < n -> List.length a = n -> (dot a (map (fun i => if i =? j then 1 else 0)%Q (seq 0 n)) == nth j a 0)%Q.
  Proof.
    intros Hj L. assert (G : forall (a : list Q) b, (dot a (map (fun i => if i =? j then 1 else 0)%Q (seq b (List.length a))) == if (b <=? j) && (j <? b + List.length a) then nth (j - b) a 0 else 0)%Q).
    { clear. induction a as [|x a IH]; intro b; cbn [List.length seq map dot].
      - destruct (_ && _); [now destruct (j - b)|reflexivity].
      - rewrite IH. destruct (Nat.eqb_spec b j) as [->|N].
        + replace (S j <=? j) with false by (symmetry; apply Nat.leb_gt; lia). rewrite Nat.leb_refl. replace (j <? j + S (List.length a)) with true by (symmetry; apply Nat.ltb_lt; lia).
          cbn [andb]. rewrite Nat.sub_diag. cbn [nth]. ring.
        + destruct (Nat.leb_spec b j), (Nat.leb_spec (S b) j); try lia; cbn [andb].
          * replace (j <? b + S (List.length a)) with (j <? S b + List.length a) by (f_equal; lia). destruct (j <? S b + List.length a); [|ring].
            replace (j - b) with (S (j - S b)) by lia. cbn [nth]. ring.
          * ring. }
    rewrite <- L, G, L. cbn [Nat.leb andb Nat.add]. replace (j <? n) with true by (symmetry; now apply Nat.ltb_lt). now rewrite Nat.sub_0_r.
  Qed.
  Lemma orlib_positive_bin : within30 d -> positive orlib_inst.
  Proof.
    intro W. destruct FIT as [_ [LC _] [LB _] MA _ (j & Hj & CP & HB)]. exists (map (fun i => if i =? j then 1 else 0)%Q (seq 0 (or_n o))). split; [split; [split|]|].
    - split; [now rewrite map_length, seq_length|]. apply Forall_map, Forall_forall. intros i _. destruct (i =? j); split; discriminate.
    - intros _. apply Forall_map, Forall_forall. intros i _. destruct (i =? j); [right|left]; reflexivity.
    - intros s Hs i Hi. apply in_seq in Hs. cbn in Hs, Hi. assert (Hs' : s < k) by lia. rewrite orlib_rhs, orlib_row by assumption.
      rewrite unit_dot by (auto; now rewrite map_length, seq_length). rewrite (nth_map_seq (fun j => round1 (gen_entry (sample o d s i j)))) by exact Hj.
      assert (E := entry_close (sample o d s i j)). apply Qabs_Qle_condition in E as [_ E]. specialize (HB i Hi). specialize (MA i j).
      assert (X : (clipped (sample o d s i j) <= 4 * mean o i j)%Q).
      { unfold clipped. apply Q.max_lub; [|lra]. unfold sample. rewrite Qabs_pos by exact MA. specialize (W s i j). destruct (dr_fails d s j).
        - assert (Z : ((mean o i j + mean o i j * (1 # 10) * dr_normal d s i j) * 0 == 0)%Q) by ring. rewrite Z. lra.
        - assert (Z : (mean o i j * dr_normal d s i j <= mean o i j * 30)%Q) by (rewrite !(Qmult_comm (mean o i j)); now apply Qmult_le_compat_r).
          assert (Y : (mean o i j * (1 # 10) * dr_normal d s i j == (1 # 10) * (mean o i j * dr_normal d s i j))%Q) by ring. rewrite Y. lra. }
      lra.
    - unfold obj. rewrite unit_dot by (auto; cbn; now rewrite map_length). cbn. rewrite (nth_indep _ 0%Q (round1 (dval (0%Z, 0)))) by (rewrite map_length, LC; exact Hj).
      now rewrite (map_nth (fun x => round1 (dval x))).
  Qed.
  Lemma orlib_sum : (0 < qsum (i_c orlib_inst))%Q.
  Proof.
    destruct FIT as [_ [LC NC] _ _ _ (j & Hj & CP & _)]. cbn. eapply Qlt_le_trans; [exact CP|]. apply in_qsum; [now apply round1_decs|].
    apply in_map_iff. exists (nth j (or_c o) (0%Z, 0)). split; [reflexivity|]. apply nth_In. now rewrite LC.
  Qed.
  Lemma orlib_bound s i : s < k -> i < or_m o -> (qsum (i_c orlib_inst) <= 1000 * rhs orlib_inst s i)%Q.
  Proof. intros Hs Hi. rewrite orlib_rhs by assumption. apply FIT. apply nth_In. destruct FIT as [_ _ [-> _]]. exact Hi. Qed.
  Lemma orlib_positive : cont = true \/ within30 d -> positive orlib_inst.
  Proof.
    intros [CO|W]; [|now apply orlib_positive_bin]. apply positive_point; [exact orlib_wf|exact orlib_packing|exact CO|exact orlib_sum|exact orlib_bound].
  Qed.

  (** Levels for which eps * k is an integer. *)
  Lemma orlib_ready z : (eps * Qn k == inject_Z z)%Q -> (0 < z)%Z -> (z + 1 < Z.of_nat k)%Z -> k <= 5000 -> ready orlib_inst.
  Proof.
    intros E Z0 ZK K5. assert (KQ : (0 < Qn k)%Q) by (unfold Qn; change 0%Q with (inject_Z 0); rewrite <- Zlt_Qlt; lia).
    assert (K5' : (Qn k <= 5000)%Q) by (unfold Qn; change 5000%Q with (inject_Z 5000); rewrite <- Zle_Qle; lia).
    assert (ZQ : (0 < inject_Z z)%Q) by (change 0%Q with (inject_Z 0); rewrite <- Zlt_Qlt; exact Z0).
    assert (E0 : (0 < eps)%Q) by (apply (Qmult_lt_r _ _ _ KQ); rewrite Qmult_0_l, E; exact ZQ).
    assert (FL : Qfloor (eps * Qn k) = z) by (rewrite (Qfloor_eq _ _ E); apply Qfloor_Z).
    assert (FT : forall tau, (0 <= tau < 1 # 5000)%Q -> Qfloor (eps * Qn k + tau * Qn k) = z).
    { intros tau [T0 T1]. assert (TK : (0 <= tau * Qn k)%Q) by (apply Qmult_le_0_compat; lra).
      assert (TK1 : (tau * Qn k < 1)%Q) by (apply Qlt_le_trans with ((1 # 5000) * Qn k)%Q; [now apply Qmult_lt_r|lra]).
      assert (A := Qfloor_le (eps * Qn k + tau * Qn k)). assert (B := Qlt_floor (eps * Qn k + tau * Qn k)).
      set (f := Qfloor (eps * Qn k + tau * Qn k)) in *. rewrite E in A, B. apply Z.le_antisymm.
      - apply Z.lt_succ_r. unfold Z.succ. rewrite Zlt_Qlt, inject_Z_plus. change (inject_Z 1) with 1%Q. lra.
      - apply Z.lt_succ_r. unfold Z.succ. rewrite Zlt_Qlt. lra. }
    constructor.
    - exact orlib_wf.
    - exact orlib_packing.
    - split; [cbn; lra|]. change (Qfloor (eps * Qn k + (1 # 10000000) * Qn k) = Qfloor (eps * Qn k)). rewrite FL. apply FT. lra.
    - intros tau HT. unfold eps_within. change (Qfloor (eps * Qn k + tau * Qn k) = Qfloor (eps * Qn k)). rewrite FL. now apply FT.
    - cbn. apply (Qmult_lt_r _ _ _ KQ). rewrite E, Qmult_1_l. unfold Qn. rewrite <- Zlt_Qlt. lia.
    - unfold tolerated. change (Z.to_nat (Qfloor (eps * Qn k)) + 1 < k). rewrite FL. lia.
    - apply FIT.
    - exact orlib_near.
    - exact orlib_sum.
    - exact orlib_bound.
    - intro CO. apply tight_tenths; [exact CO|apply orlib_tenths|apply orlib_tenths].
  Qed.
End Generated.

(** The shipped levels and numbers of scenarios. *)
Lemma generated_instance o d k cont eps : orlib_fit o -> 0 < k -> exists J, load_text (orlib_text o d k) cont eps = Ok J /\
  i_n J = or_n o /\ i_m J = or_m o /\ i_k J = k /\ i_cont J = cont /\ i_eps J = eps /\
  i_c J = map (fun x => round1 (dval x)) (or_c o) /\ (forall s i, s < k -> i < or_m o -> rhs J s i = round1 (dval (nth i (or_b o) (0%Z, 0)))) /\
  forall s i j, s < k -> i < or_m o -> j < or_n o ->
    (dr_fails d s j = true \/ mean o i j == 0 -> entry_of J s i j == 0)%Q /\
    (dr_fails d s j = false -> Qabs (entry_of J s i j - Qmax (mean o i j * (1 + dr_normal d s i j / 10)) 0) <= 1001 # 20000)%Q.
Proof.
  intros FIT K0. exists (orlib_inst o d k cont eps). split; [now apply orlib_loads|]. do 6 (split; [reflexivity|]). split; [intros; now apply orlib_rhs|]. now apply orlib_entries.
Qed.
Lemma shipped_levels eps k : In eps shipped_epsilons -> In k orlib_scenarios -> exists z, (eps * Qn (Z.to_nat k) == inject_Z z)%Q /\ (0 < z)%Z /\
  (z + 1 < Z.of_nat (Z.to_nat k))%Z /\ Z.to_nat k <= 5000 /\ 0 < Z.to_nat k.
Proof.
  intros HE HK. assert (KB : (0 < k <= 5000)%Z) by (repeat (destruct HK as [<-|HK]; [lia|]); destruct HK).
  assert (X : exists z, (eps * inject_Z k == inject_Z z)%Q /\ (0 < z)%Z /\ (z + 1 < k)%Z).
  { assert (CH : forallb (fun e => forallb (fun n => let z := Qfloor (e * inject_Z n) in Qeq_bool (e * inject_Z n) (inject_Z z) && (0 <? z)%Z && (z + 1 <? n)%Z) orlib_scenarios) shipped_epsilons = true)
      by (vm_compute; reflexivity).
    rewrite forallb_forall in CH. specialize (CH eps HE). rewrite forallb_forall in CH. specialize (CH k HK). cbv zeta in CH. rewrite !andb_true_iff in CH.
    destruct CH as [[C1 C2] C3]. eexists. split; [apply Qeq_bool_iff; exact C1|]. split; [now apply Z.ltb_lt|now apply Z.ltb_lt]. }
  destruct X as (z & E & Z0 & ZK). exists z. unfold Qn. rewrite Z2Nat.id by lia. repeat split; auto; lia.
Qed.
Theorem shipped_ready o d k cont eps : orlib_fit o -> In k orlib_scenarios -> In eps shipped_epsilons ->
  exists J, load_text (orlib_text o d (Z.to_nat k)) cont eps = Ok J /\ i_n J = or_n o /\ i_m J = or_m o /\ i_k J = Z.to_nat k /\ i_cont J = cont /\ i_eps J = eps /\
    ready J /\ (cont = true \/ within30 d -> positive J).
Proof.
  intros FIT HK HE. destruct (shipped_levels eps k HE HK) as (z & E & Z0 & ZK & K5 & K0). exists (orlib_inst o d (Z.to_nat k) cont eps).
  split; [now apply orlib_loads|]. do 5 (split; [reflexivity|]). split; [now apply (orlib_ready o d (Z.to_nat k) cont eps FIT K0 z)|]. now apply orlib_positive.
Qed.
