(** Facts about changes of an instance (C78). *)
From Verif Require Import Base BaseFacts Spec Instance InstanceFacts OptModels OptFacts PartitionFacts Initial Bounds BoundsFacts Refine CostRefine Merge
  Violations ViolTable BigM BigMFacts2 Adaptive AdaptiveSpec AdaptiveBounds KnapsackFacts SplitDual Milp MilpFacts AgreeSpec AgreeFacts MetaSpec.

(** ** Optimal values *)
Lemma optimum_le I J a : (forall x, cc_feasible I 0 x -> exists y, cc_feasible J 0 y /\ (a * obj I x <= obj J y)%Q) ->
  forall v w, optimum I v -> optimum J w -> (a * v <= w)%Q.
Proof.
  intros H v w [(x & F & E) _] [_ U]. destruct (H x F) as (y & G & L). specialize (U y G). rewrite <- E. lra.
Qed.
Lemma optimum_iff I J a : (0 < a)%Q -> (forall x, cc_feasible I 0 x -> exists y, cc_feasible J 0 y /\ (a * obj I x == obj J y)%Q) ->
  (forall y, cc_feasible J 0 y -> exists x, cc_feasible I 0 x /\ (a * obj I x == obj J y)%Q) ->
  forall v, optimum I v <-> optimum J (a * v).
Proof.
  intros A H1 H2 v. split; intros [(x & F & E) U].
  - destruct (H1 x F) as (y & G & L). split; [exists y; split; [exact G|rewrite <- L, E; reflexivity]|].
    intros y' G'. destruct (H2 y' G') as (x' & F' & L'). rewrite <- L'. rewrite !(Qmult_comm a). apply Qmult_le_compat_r; [now apply U|lra].
  - destruct (H2 x F) as (y & G & L). split.
    + exists y. split; [exact G|]. rewrite E in L. apply Qmult_inj_l in L; [exact L|lra].
    + intros y' G'. destruct (H1 y' G') as (x' & F' & L'). assert (X := U x' F'). rewrite <- L' in X. now apply Qmult_le_l in X.
Qed.

Lemma level_feasible I e x : (i_eps I <= e)%Q -> cc_feasible I 0 x -> cc_feasible (at_level I e) 0 x.
Proof.
  intros HE [D F]. split; [exact D|]. change (nviol (at_level I e) 0 x) with (nviol I 0 x). cbn [at_level i_eps i_k]. eapply Qle_trans; [exact F|].
  apply Qmult_le_compat_r; [exact HE|apply Qn_nonneg].
Qed.
Lemma level_optimum I e v w : (i_eps I <= e)%Q -> optimum I v -> optimum (at_level I e) w -> (v <= w)%Q.
Proof.
  intros HE HV HO. assert (X := optimum_le I (at_level I e) 1 ltac:(intros x F; exists x; split; [now apply level_feasible|unfold obj; cbn [at_level i_c]; lra]) v w HV HO). lra.
Qed.

Lemma larger_feasible I J x : larger I J -> cc_feasible I 0 x -> cc_feasible J 0 x.
Proof.
  intros (N & M & K & C & E & _ & A & R) [[D B] F]. split; [split; [now rewrite <- N|now rewrite <- C]|]. rewrite <- E, <- K. eapply Qle_trans; [|exact F].
  apply Qn_le. unfold nviol. rewrite <- K. apply count_mono. intros s Hs HV. apply negb_true_iff in HV. apply negb_true_iff.
  destruct (satb I 0 x s) eqn:ES; [|reflexivity]. rewrite <- HV. symmetry. apply satb_iff in ES. apply satb_iff. intros i Hi. rewrite <- M in Hi.
  specialize (ES i Hi). apply in_seq in Hs. assert (RR := R s i ltac:(lia) Hi). unfold row in *. rewrite <- A. lra.
Qed.
Lemma larger_optimum I J v w : larger I J -> optimum I v -> optimum J w -> (v <= w)%Q.
Proof.
  intros HL HV HO. assert (X := optimum_le I J 1 ltac:(intros x F; exists x; split; [now apply (larger_feasible I)|]; unfold obj; destruct HL as (_ & _ & _ & _ & _ & -> & _); lra) v w HV HO). lra.
Qed.

(** ** Scenarios *)
Lemma reselect_satb I l tau x s : s < length l -> satb (reselect I l) tau x s = satb I tau x (nth s l 0).
Proof.
  intro H. unfold satb, row, rhs. cbn [reselect i_m i_A i_b].
  rewrite (map_nth_lt (fun s => nth s (i_A I) []) l 0 [] s H), (map_nth_lt (fun s => nth s (i_b I) []) l 0 [] s H). reflexivity.
Qed.
Lemma reselect_nviol I l tau x : nviol (reselect I l) tau x = count (fun s => negb (satb I tau x s)) l.
Proof.
  unfold nviol. cbn [reselect i_k]. transitivity (count (fun s => negb (satb I tau x (nth s l 0))) (seq 0 (length l))).
  - apply count_ext. intros s Hs. apply in_seq in Hs. now rewrite reselect_satb by lia.
  - rewrite <- (count_map (fun s => negb (satb I tau x s)) (fun s => nth s l 0)). f_equal. now rewrite map_nth_seq.
Qed.
Lemma count_repeat {A} (f : A -> bool) l r : count f (concat (repeat l r)) = r * count f l.
Proof. induction r as [|r IH]; cbn [repeat concat]; [reflexivity|]. rewrite count_app, IH. lia. Qed.
Lemma length_repeat {A} (l : list A) r : length (concat (repeat l r)) = r * length l.
Proof. induction r as [|r IH]; cbn [repeat concat]; [reflexivity|]. rewrite app_length, IH. lia. Qed.
Lemma reselect_feasible I l r tau x : 0 < r -> Permutation l (concat (repeat (seq 0 (i_k I)) r)) -> cc_feasible (reselect I l) tau x <-> cc_feasible I tau x.
Proof.
  intros Hr HP. unfold cc_feasible. rewrite reselect_nviol, (count_perm _ _ _ HP), count_repeat. fold (nviol I tau x).
  cbn [reselect i_k i_eps]. rewrite (Permutation_length HP), length_repeat, seq_length, !Qn_mul.
  assert (R := Qn_pos _ Hr). change (in_dom (reselect I l) x) with (in_dom I x).
  assert (E : (i_eps I * (Qn r * Qn (i_k I)) == Qn r * (i_eps I * Qn (i_k I)))%Q) by ring. rewrite E, (Qmult_le_l _ _ _ R). tauto.
Qed.
Lemma reselect_optimum I l r v : 0 < r -> Permutation l (concat (repeat (seq 0 (i_k I)) r)) -> optimum (reselect I l) v <-> optimum I v.
Proof.
  intros Hr HP. assert (F := fun x => reselect_feasible I l r 0 x Hr HP). unfold optimum. split; intros [(x & G & E) U].
  - split; [exists x; split; [now apply F|exact E]|]. intros y Gy. apply U, F, Gy.
  - split; [exists x; split; [now apply F|exact E]|]. intros y Gy. apply U, F, Gy.
Qed.

(** ** Scaling *)
Lemma dot_times a r x : (dot (times a r) x == a * dot r x)%Q.
Proof. revert x. induction r as [|q r IH]; intros [|v x]; cbn [times map dot]; try ring. fold (times a r). rewrite IH. ring. Qed.
Lemma scaled_feasible I a f x : (forall s i, s < i_k I -> i < i_m I -> (0 < f s i)%Q) -> cc_feasible (scaled I a f) 0 x <-> cc_feasible I 0 x.
Proof.
  intro HF. unfold cc_feasible. replace (nviol (scaled I a f) 0 x) with (nviol I 0 x); [tauto|]. unfold nviol. cbn [scaled i_k]. apply count_ext. intros s Hs. apply in_seq in Hs. f_equal.
  apply eq_true_iff_eq. rewrite !satb_iff. unfold sat. cbn [scaled i_m].
  assert (E : forall i, i < i_m I -> (dot (row (scaled I a f) s i) x <= rhs (scaled I a f) s i + 0 <-> dot (row I s i) x <= rhs I s i + 0)%Q).
  { intros i Hi. assert (P := HF s i ltac:(lia) Hi). unfold row at 1, rhs at 1. cbn [scaled i_A i_b].
    rewrite (nth_map_seq (fun s => map (fun i => times (f s i) (row I s i)) (seq 0 (i_m I)))) by lia. rewrite (nth_map_seq (fun i => times (f s i) (row I s i))) by exact Hi.
    rewrite (nth_map_seq (fun s => map (fun i => (f s i * rhs I s i)%Q) (seq 0 (i_m I)))) by lia. rewrite (nth_map_seq (fun i => (f s i * rhs I s i)%Q)) by exact Hi.
    rewrite dot_times, !Qplus_0_r. apply Qmult_le_l, P. }
  split; intros H i Hi; specialize (H i Hi); now apply E.
Qed.
Lemma scaled_optimum I a f v : (0 < a)%Q -> (forall s i, s < i_k I -> i < i_m I -> (0 < f s i)%Q) -> optimum I v <-> optimum (scaled I a f) (a * v).
Proof.
  intros HA HF. apply optimum_iff; [exact HA| |]; intros x F; exists x; (split; [now apply (scaled_feasible I a f x HF)|]); unfold obj; cbn [scaled i_c]; now rewrite dot_times.
Qed.

(** ** Order of the items *)
Lemma pick_length q r : length (pick q r) = length q. Proof. apply map_length. Qed.
Lemma dot_pick q u v n : length u = n -> length v = n -> Permutation q (seq 0 n) -> (dot (pick q u) (pick q v) == dot u v)%Q.
Proof.
  intros HU HV HP. rewrite (dot_isum u v q n HU HV HP). clear. unfold isum. induction q as [|j q IH]; cbn; [reflexivity|]. fold (pick q u) (pick q v). rewrite IH. reflexivity.
Qed.
Lemma pick_dom I q x : Permutation q (seq 0 (i_n I)) -> in_dom I x -> in_dom I (pick q x).
Proof.
  intros HP [[L B] Z]. assert (LQ := Permutation_length HP). rewrite seq_length in LQ.
  assert (IN : forall v, In v (pick q x) -> In v x).
  { intros v Hv. apply in_map_iff in Hv as (j & <- & Hj). apply nth_In. apply (Permutation_in _ HP) in Hj. apply in_seq in Hj. lia. }
  rewrite Forall_forall in B. split; [split; [now rewrite pick_length|apply Forall_forall; auto]|].
  intro C. specialize (Z C). unfold is_bin in *. rewrite Forall_forall in Z. apply Forall_forall. auto.
Qed.
Lemma reorder_satb I q tau x s : wf_inst I -> length x = i_n I -> Permutation q (seq 0 (i_n I)) -> s < i_k I -> satb (reorder I q) tau (pick q x) s = satb I tau x s.
Proof.
  intros HW LX HP Hs. apply eq_true_iff_eq. rewrite !satb_iff. unfold sat. cbn [reorder i_m].
  destruct HW as (_ & _ & LA & FA & _). rewrite Forall_forall in FA.
  assert (FM := FA (nth s (i_A I) []) ltac:(apply nth_In; lia)). destruct FM as [LM FM]. rewrite Forall_forall in FM.
  assert (E : forall i, i < i_m I -> (dot (row (reorder I q) s i) (pick q x) == dot (row I s i) x)%Q).
  { intros i Hi. unfold row at 1. cbn [reorder i_A]. rewrite (map_nth_lt (map (pick q)) (i_A I) [] []) by lia. rewrite (map_nth_lt (pick q) _ [] []) by lia.
    apply (dot_pick q _ _ (i_n I)); [|exact LX|exact HP]. apply FM, nth_In. lia. }
  split; intros H i Hi; specialize (H i Hi); [rewrite <- (E i Hi)|rewrite (E i Hi)]; exact H.
Qed.
Lemma reorder_feasible I q tau x : wf_inst I -> Permutation q (seq 0 (i_n I)) -> cc_feasible I tau x -> cc_feasible (reorder I q) tau (pick q x).
Proof.
  intros HW HP [D F]. split; [now apply (pick_dom I)|]. cbn [reorder i_eps i_k]. replace (nviol (reorder I q) tau (pick q x)) with (nviol I tau x); [exact F|].
  unfold nviol. cbn [reorder i_k]. apply count_ext. intros s Hs. apply in_seq in Hs. rewrite reorder_satb; auto; [apply D|lia].
Qed.
Lemma reorder_obj I q x : wf_inst I -> length x = i_n I -> Permutation q (seq 0 (i_n I)) -> (obj (reorder I q) (pick q x) == obj I x)%Q.
Proof. intros HW LX HP. unfold obj. cbn [reorder i_c]. apply (dot_pick q _ _ (i_n I)); [apply HW|exact LX|exact HP]. Qed.
(** The inverse order. *)
Fixpoint place (j : nat) (q : list nat) : nat := match q with [] => 0 | i :: q => if Nat.eqb i j then 0 else S (place j q) end.
Lemma place_nth j q : In j q -> place j q < length q /\ nth (place j q) q 0 = j.
Proof.
  induction q as [|i q IH]; [intros []|]. intros H. cbn [place length]. destruct (Nat.eqb i j) eqn:E; [apply Nat.eqb_eq in E; cbn; split; [lia|exact E]|].
  apply Nat.eqb_neq in E. destruct H as [H|H]; [congruence|]. destruct (IH H). cbn. split; [lia|assumption].
Qed.
Lemma place_inj q i : NoDup q -> i < length q -> place (nth i q 0) q = i.
Proof.
  intros ND Hi. destruct (place_nth (nth i q 0) q (nth_In _ _ Hi)) as [H1 H2]. exact (proj1 (NoDup_nth q 0) ND _ _ H1 Hi H2).
Qed.
Definition inverse (q : list nat) : list nat := map (fun j => place j q) (seq 0 (length q)).
Lemma inverse_perm q n : Permutation q (seq 0 n) -> Permutation (inverse q) (seq 0 n).
Proof.
  intro HP. assert (LQ := Permutation_length HP). rewrite seq_length in LQ. apply NoDup_Permutation_bis.
  - unfold inverse. apply (NoDup_map_inv (fun i => nth i q 0)). rewrite map_map. 
    rewrite (map_ext_in _ (fun j => j)); [rewrite map_id; apply seq_NoDup|]. intros j Hj. apply place_nth. rewrite HP, <- LQ. exact Hj.
  - unfold inverse. rewrite map_length, !seq_length. lia.
  - intros i Hi. apply in_map_iff in Hi as (j & <- & Hj). apply in_seq. assert (X := place_nth j q ltac:(rewrite HP, <- LQ; exact Hj)). lia.
Qed.
Lemma pick_inverse q n r : Permutation q (seq 0 n) -> length r = n -> pick q (pick (inverse q) r) = r.
Proof.
  intros HP LR. assert (LQ := Permutation_length HP). rewrite seq_length in LQ. assert (ND : NoDup q) by (eapply Permutation_NoDup; [symmetry; exact HP|apply seq_NoDup]).
  apply (nth_ext _ _ 0%Q 0%Q); [rewrite pick_length; lia|]. intros i Hi. rewrite pick_length in Hi. unfold pick at 1. rewrite (map_nth_lt (fun j => nth j (pick (inverse q) r) 0%Q) q 0 0%Q i Hi).
  assert (Hj : nth i q 0 < length q) by (assert (X := Permutation_in _ HP (nth_In q 0 Hi)); apply in_seq in X; lia).
  unfold pick. rewrite (map_nth_lt (fun j => nth j r 0%Q) (inverse q) 0 0%Q) by (unfold inverse; now rewrite map_length, seq_length).
  unfold inverse. rewrite nth_map_seq by exact Hj. now rewrite place_inj.
Qed.
Lemma reorder_optimum I q v : wf_inst I -> Permutation q (seq 0 (i_n I)) -> optimum I v <-> optimum (reorder I q) v.
Proof.
  intros HW HP. assert (X := optimum_iff I (reorder I q) 1 ltac:(lra)).
  assert (H1 : forall x, cc_feasible I 0 x -> exists y, cc_feasible (reorder I q) 0 y /\ (1 * obj I x == obj (reorder I q) y)%Q).
  { intros x F. exists (pick q x). split; [now apply reorder_feasible|]. rewrite reorder_obj; auto; [ring|apply F]. }
  assert (H2 : forall y, cc_feasible (reorder I q) 0 y -> exists x, cc_feasible I 0 x /\ (1 * obj I x == obj (reorder I q) y)%Q).
  { intros y [D F]. set (x := pick (inverse q) y). assert (DX : in_dom I x) by (apply pick_dom; [now apply inverse_perm|exact D]).
    assert (EY : y = pick q x) by (symmetry; apply (pick_inverse q (i_n I)); [exact HP|apply D]).
    exists x. rewrite EY in F. assert (EO : (1 * obj I x == obj (reorder I q) y)%Q) by (rewrite EY, reorder_obj; auto; [ring|apply DX]).
    split; [|exact EO]. split; [exact DX|]. cbn [reorder i_eps i_k] in F. eapply Qle_trans; [|exact F]. apply Qn_le. unfold nviol. cbn [reorder i_k]. 
    apply Nat.eq_le_incl, count_ext. intros s Hs. apply in_seq in Hs. rewrite reorder_satb; auto; [apply DX|lia]. }
  specialize (X H1 H2 v). assert (E : forall J u u', (u == u')%Q -> optimum J u -> optimum J u').
  { intros J u u' EU [(x & F & EE) U]. split; [exists x; split; [exact F|now rewrite EE]|]. intros y Fy. rewrite <- EU. now apply U. }
  split; intro H; [apply (E _ (1 * v)%Q); [ring|]|apply X, (E _ v); [ring|exact H]]. now apply X.
Qed.

(** ** Runs *)
Lemma run_encloses w I cf tau delta : oracles_ok w I -> sort_spec (w_sort w) -> wf_inst I -> packing I -> eps_ok I -> solver_ok w I tau delta -> tight I -> (0 <= c_gap cf)%Q ->
  forall fuel vd s, run w I cf fuel = (Ok vd, s) -> vd = Feasible \/ vd = GapReached ->
  forall v, optimum I v -> exists l, a_vLB s = Fin l /\ (l <= v + delta)%Q /\ (v <= l * (1 + c_gap cf))%Q.
Proof.
  intros O2 S2 HW HP HEps X2 T G0 fuel vd s E2 HV v [(o & Fo & Eo) Uo]. assert (D2 := so_delta _ _ _ _ X2).
  assert (ON : (0 <= obj I o)%Q) by (apply obj_nonneg; [exact HP|apply Fo]).
  destruct HV as [-> | ->].
  - destruct (feasible_value w I cf tau delta O2 S2 HW HP HEps X2 fuel s T E2) as (y & l & Z1 & Z2 & Z3 & Z4 & Z5).
    exists l. assert (OL : (obj I o <= l)%Q) by apply Z4, Fo. assert (YO := Uo y Z3).
    assert (LG : (0 <= l * c_gap cf)%Q) by (apply Qmult_le_0_compat; lra). split; [assumption|]. split; lra.
  - destruct (gap_optimal w I cf tau delta O2 S2 HW HP HEps X2 fuel s G0 E2) as (y & l & u2 & Z1 & Z2 & Z3 & Z4 & Z5 & Z6 & Z7 & Z8).
    exists l. assert (OL := Z8 o Fo). assert (YO := Uo y (T y Z4)). split; [assumption|]. split; lra.
Qed.
Lemma runs_related w1 w2 I J cf1 cf2 tau1 tau2 delta1 delta2 a : (0 < a)%Q -> (forall v v', optimum I v -> optimum J v' -> (a * v <= v')%Q) ->
  oracles_ok w1 I -> sort_spec (w_sort w1) -> wf_inst I -> packing I -> eps_ok I -> solver_ok w1 I tau1 delta1 -> tight I -> (0 <= c_gap cf1)%Q ->
  oracles_ok w2 J -> sort_spec (w_sort w2) -> wf_inst J -> packing J -> eps_ok J -> solver_ok w2 J tau2 delta2 -> tight J -> (0 <= c_gap cf2)%Q ->
  forall fuel1 fuel2 vd1 vd2 s1 s2, run w1 I cf1 fuel1 = (Ok vd1, s1) -> run w2 J cf2 fuel2 = (Ok vd2, s2) ->
  vd1 = Feasible \/ vd1 = GapReached -> vd2 = Feasible \/ vd2 = GapReached ->
  exists l1 l2, a_vLB s1 = Fin l1 /\ a_vLB s2 = Fin l2 /\ (a * (l1 - delta1) <= l2 * (1 + c_gap cf2))%Q.
Proof.
  intros HA HR A1 A2 A3 A4 A5 A6 A7 A8 B1 B2 B3 B4 B5 B6 B7 B8 f1 f2 vd1 vd2 s1 s2 E1 E2 V1 V2.
  destruct (optimum_exists I A3 A4 (proj1 A5)) as (x & Fx & Ux). destruct (optimum_exists J B3 B4 (proj1 B5)) as (y & Fy & Uy).
  assert (OX : optimum I (obj I x)) by (split; [exists x; split; [exact Fx|reflexivity]|exact Ux]).
  assert (OY : optimum J (obj J y)) by (split; [exists y; split; [exact Fy|reflexivity]|exact Uy]).
  destruct (run_encloses w1 I cf1 tau1 delta1 A1 A2 A3 A4 A5 A6 A7 A8 f1 vd1 s1 E1 V1 _ OX) as (l1 & L1 & L2 & L3).
  destruct (run_encloses w2 J cf2 tau2 delta2 B1 B2 B3 B4 B5 B6 B7 B8 f2 vd2 s2 E2 V2 _ OY) as (l2 & K1 & K2 & K3).
  exists l1, l2. split; [exact L1|]. split; [exact K1|]. assert (R := HR _ _ OX OY).
  assert (M : (a * (l1 - delta1) <= a * obj I x)%Q) by (rewrite !(Qmult_comm a); apply Qmult_le_compat_r; lra). lra.
Qed.
Lemma milp_encloses w I cf tau delta um meth : argsort_ok (w_argsort w) -> sort_spec (w_sort w) -> wf_inst I -> packing I -> eps_ok I -> solver_ok w I tau delta ->
  eps_within I tau -> i_cont I = false -> tight I ->
  forall bt s, milp_run w I cf um meth = (Ok bt, s) -> forall o, optimum I o -> exists v u, a_vLB s = Fin v /\ a_vUB s = Fin u /\ (v <= o /\ o <= u)%Q.
Proof.
  intros A1 S1 HW HP HEps X1 W1 CO T bt s1 E1 o [(p & Fp & Ep) Uo].
  destruct (milp_run_spec w I cf tau A1 S1 HW HP (proj1 HEps) (proj1 (so_tau _ _ _ _ X1)) (so_ok _ _ _ _ X1) um meth bt s1 (fun _ _ => so_eval _ _ _ _ X1) E1)
    as (x & v & u & Y1 & Y2 & Y3 & Y4 & Y5 & Y6 & Y7 & Y8).
  assert (FX : cc_feasible I 0 x).
  { apply T. destruct (Y8 W1 ltac:(auto)) as [D F]. split; [exact D|]. eapply Qle_trans; [|exact F]. apply Qn_le.
    apply nviol_mono_tau. apply (so_tau _ _ _ _ X1). }
  exists v, u. split; [exact Y2|]. split; [exact Y3|]. split; [rewrite Y5; apply Uo, FX|rewrite <- Ep; apply Y7, Fp].
Qed.
Lemma milps_related w1 w2 I J cf1 cf2 tau1 tau2 delta1 delta2 um1 um2 meth1 meth2 a : (0 < a)%Q -> (forall v v', optimum I v -> optimum J v' -> (a * v <= v')%Q) ->
  argsort_ok (w_argsort w1) -> sort_spec (w_sort w1) -> wf_inst I -> packing I -> eps_ok I -> solver_ok w1 I tau1 delta1 -> eps_within I tau1 -> i_cont I = false -> tight I ->
  argsort_ok (w_argsort w2) -> sort_spec (w_sort w2) -> wf_inst J -> packing J -> eps_ok J -> solver_ok w2 J tau2 delta2 -> eps_within J tau2 -> i_cont J = false -> tight J ->
  forall bt1 bt2 s1 s2, milp_run w1 I cf1 um1 meth1 = (Ok bt1, s1) -> milp_run w2 J cf2 um2 meth2 = (Ok bt2, s2) ->
  exists v u, a_vLB s1 = Fin v /\ a_vUB s2 = Fin u /\ (a * v <= u)%Q.
Proof.
  intros HA HR A1 A2 A3 A4 A5 A6 A7 A8 A9 B1 B2 B3 B4 B5 B6 B7 B8 B9 bt1 bt2 s1 s2 E1 E2.
  destruct (optimum_exists I A3 A4 (proj1 A5)) as (x & Fx & Ux). destruct (optimum_exists J B3 B4 (proj1 B5)) as (y & Fy & Uy).
  assert (OX : optimum I (obj I x)) by (split; [exists x; split; [exact Fx|reflexivity]|exact Ux]).
  assert (OY : optimum J (obj J y)) by (split; [exists y; split; [exact Fy|reflexivity]|exact Uy]).
  destruct (milp_encloses w1 I cf1 tau1 delta1 um1 meth1 A1 A2 A3 A4 A5 A6 A7 A8 A9 bt1 s1 E1 _ OX) as (v1 & u1 & V1 & U1 & L1 & L2).
  destruct (milp_encloses w2 J cf2 tau2 delta2 um2 meth2 B1 B2 B3 B4 B5 B6 B7 B8 B9 bt2 s2 E2 _ OY) as (v2 & u2 & V2 & U2 & K1 & K2).
  exists v1, u2. split; [exact V1|]. split; [exact U2|]. assert (R := HR _ _ OX OY).
  assert (M : (a * v1 <= a * obj I x)%Q) by (rewrite !(Qmult_comm a); apply Qmult_le_compat_r; lra). lra.
Qed.
