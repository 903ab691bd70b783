(** Proofs for C87. *)
From Verif Require Import Base BaseFacts Spec Instance InstanceFacts PartitionFacts OptModels Initial Bounds Refine CostRefine Merge
  MergeFacts RefineFacts Knapsack Violations BigM Adaptive AdaptiveSpec AdaptiveWp AdaptiveStruct SolveSpec SolveFacts SolveRuns CallSpec.

Definition keys (cs : cstate) : list question := map fst (c_mem cs).
Definition answers_as (acc f : nat -> list nat -> list nat -> acc_outcome) (b : nat) (L : list question) : Prop :=
  forall t q, nth_error L t = Some q -> f (b + t) (fst q) (snd q) = acc (b + t) (fst q) (snd q).

Lemma distinct_snoc K q : distinct K -> (forall q', In q' K -> ~ same_question q' q) -> distinct (K ++ [q]).
Proof.
  intros H1 H2 t t' q1 q2 LT E1 E2. assert (L2 : t' < length (K ++ [q])) by (apply nth_error_Some; congruence). rewrite app_length in L2. cbn in L2.
  rewrite nth_error_app1 in E1 by lia. destruct (Nat.eq_dec t' (length K)) as [->|N].
  - rewrite nth_error_app2 in E2 by lia. rewrite Nat.sub_diag in E2. injection E2 as <-. apply H2. exact (nth_error_In _ _ E1).
  - rewrite nth_error_app1 in E2 by lia. exact (H1 t t' q1 q2 LT E1 E2).
Qed.

(** ** Computations on the state of the refiner *)
Record rq {B} (acc : nat -> list nat -> list nat -> acc_outcome) (cs : cstate) (g : B -> cstate)
    (F : (nat -> list nat -> list nat -> acc_outcome) -> res B) (L : list question) : Prop := mkRq {
  rq_new : distinct (keys cs) -> distinct (keys cs ++ L);
  rq_same : forall f, answers_as acc f (c_calls cs) L -> F f = F acc;
  rq_stop : forall f t q, nth_error L t = Some q -> answers_as acc f (c_calls cs) (firstn t L) ->
    f (c_calls cs + t) (fst q) (snd q) = AccInterrupted -> F f = Err KeyboardInterrupt;
  rq_ok : forall b, F acc = Ok b -> keys (g b) = keys cs ++ L /\ c_calls (g b) = c_calls cs + length L
}.
Definition rqs {B} acc k cs (g : B -> cstate) F : Prop := exists L, length L <= k /\ rq acc cs g F L.

Lemma answers_app acc f b L1 L2 : answers_as acc f b (L1 ++ L2) <-> answers_as acc f b L1 /\ answers_as acc f (b + length L1) L2.
Proof.
  split.
  - intro H. split; intros t q E.
    + apply H. rewrite nth_error_app1; [exact E|]. apply nth_error_Some. congruence.
    + replace (b + length L1 + t) with (b + (length L1 + t)) by lia. apply H. rewrite nth_error_app2 by lia. now replace (length L1 + t - length L1) with t by lia.
  - intros [H1 H2] t q E. destruct (lt_dec t (length L1)) as [LT|GE].
    + apply H1. now rewrite nth_error_app1 in E by exact LT.
    + rewrite nth_error_app2 in E by lia. replace (b + t) with (b + length L1 + (t - length L1)) by lia. now apply H2.
Qed.
Lemma rq_bind {B C} acc cs (g : B -> cstate) (g' : C -> cstate) F (G : (nat -> list nat -> list nat -> acc_outcome) -> B -> res C) L1 L2 b :
  rq acc cs g F L1 -> F acc = Ok b -> rq acc (g b) g' (fun f => G f b) L2 -> rq acc cs g' (fun f => rbind (F f) (G f)) (L1 ++ L2).
Proof.
  intros [A1 A2 A3 A4] E [B1 B2 B3 B4]. destruct (A4 b E) as [K1 C1]. rewrite K1, C1 in *. constructor.
  - intro H. rewrite app_assoc. auto.
  - intros f Hf. apply answers_app in Hf as [H1 H2]. rewrite (A2 f H1), E. cbn. now apply B2.
  - intros f t q Hq Hb HI. destruct (lt_dec t (length L1)) as [LT|GE].
    + rewrite nth_error_app1 in Hq by exact LT. rewrite firstn_app in Hb. replace (t - length L1) with 0 in Hb by lia. rewrite firstn_O, app_nil_r in Hb.
      now rewrite (A3 f t q Hq Hb HI).
    + rewrite nth_error_app2 in Hq by lia. rewrite firstn_app, firstn_all2 in Hb by lia. apply answers_app in Hb as [H1 H2].
      rewrite (A2 f H1), E. cbn. apply (B3 f (t - length L1) q Hq H2). now replace (c_calls cs + length L1 + (t - length L1)) with (c_calls cs + t) by lia.
  - intros c Ec. rewrite E in Ec. cbn in Ec. destruct (B4 c Ec) as [K2 C2]. rewrite K2, C2, app_length, app_assoc. split; [reflexivity|lia].
Qed.
Lemma rq_fails {B C} acc cs (g : B -> cstate) (g' : C -> cstate) F (G : (nat -> list nat -> list nat -> acc_outcome) -> B -> res C) L e :
  rq acc cs g F L -> F acc = Err e -> rq acc cs g' (fun f => rbind (F f) (G f)) L.
Proof.
  intros [A1 A2 A3 A4] E. constructor.
  - exact A1.
  - intros f Hf. now rewrite (A2 f Hf), E.
  - intros f t q Hq Hb HI. now rewrite (A3 f t q Hq Hb HI).
  - intros c Ec. rewrite E in Ec. discriminate.
Qed.
Lemma rqs_bind {B C} acc k1 k2 k cs (g : B -> cstate) (g' : C -> cstate) F (G : (nat -> list nat -> list nat -> acc_outcome) -> B -> res C) :
  rqs acc k1 cs g F -> (forall b, F acc = Ok b -> rqs acc k2 (g b) g' (fun f => G f b)) -> k1 + k2 <= k -> rqs acc k cs g' (fun f => rbind (F f) (G f)).
Proof.
  intros (L1 & K1 & H1) H2 Hk. destruct (F acc) as [b|e] eqn:E.
  - destruct (H2 b eq_refl) as (L2 & K2 & H3). exists (L1 ++ L2). split; [rewrite app_length; lia|]. eapply rq_bind; eauto.
  - exists L1. split; [lia|]. eapply rq_fails; eauto.
Qed.
(** Nothing is asked. *)
Lemma rqs_none {B} acc k cs (g : B -> cstate) F : (forall f, F f = F acc) -> (forall b, F acc = Ok b -> keys (g b) = keys cs /\ c_calls (g b) = c_calls cs) ->
  rqs acc k cs g F.
Proof.
  intros H1 H2. exists []. split; [cbn; lia|]. constructor.
  - now rewrite app_nil_r.
  - auto.
  - intros f t q Hq. now rewrite nth_error_nil in Hq || (destruct t; discriminate Hq).
  - intros b E. rewrite app_nil_r, Nat.add_0_r. now apply H2.
Qed.
Lemma rqs_pure {B C} acc k cs (r : res B) (g' : C -> cstate) (G : (nat -> list nat -> list nat -> acc_outcome) -> B -> res C) :
  (forall b, r = Ok b -> rqs acc k cs g' (fun f => G f b)) -> rqs acc k cs g' (fun f => rbind r (G f)).
Proof.
  intro H. destruct r as [b|e]; [now apply H|]. apply rqs_none; [reflexivity|discriminate].
Qed.
(** Only the memory and the counter of [cs] matter. *)
Lemma rqs_reset {B} acc k cs cs' (g : B -> cstate) F : c_mem cs' = c_mem cs -> c_calls cs' = c_calls cs -> rqs acc k cs' g F -> rqs acc k cs g F.
Proof.
  intros E1 E2 (L & K & [H1 H2 H3 H4]). exists L. split; [exact K|]. unfold keys in *. rewrite E1, E2 in *. constructor; assumption.
Qed.
Lemma rqs_le {B} acc k k' cs (g : B -> cstate) F : rqs acc k cs g F -> k <= k' -> rqs acc k' cs g F.
Proof. intros (L & H & HR) Hk. exists L. split; [lia|exact HR]. Qed.

Lemma mem_get_none : forall m s i, mem_get m s i = None -> forall q, In q (map fst m) -> ~ same_question q (s, i).
Proof.
  induction m as [|[[s' i'] v] m IH]; intros s i E q Hq; [destruct Hq|]. cbn [mem_get] in E.
  destruct (set_eqb s' s && set_eqb i' i) eqn:EQ; [discriminate|]. destruct Hq as [<-|Hq]; [|now apply IH].
  intros [H1 H2]. cbn in H1, H2. apply set_eqb_iff in H1. apply set_eqb_iff in H2. rewrite H1, H2 in EQ. discriminate.
Qed.
Lemma ask_split acc inf p cs c : rqs acc 1 cs (fun cs => cs) (fun f => eval_split f inf p cs c).
Proof.
  unfold eval_split. apply rqs_pure. intros scen _. cbv zeta. set (i := filter (fun s => memb s inf) scen).
  destruct (mem_get (c_mem cs) scen i) as [[[v l] r]|] eqn:EM.
  - apply rqs_none; [reflexivity|]. intros b E. injection E as <-. split; reflexivity.
  - exists [(scen, i)]. split; [cbn; lia|]. constructor.
    + intro H. apply distinct_snoc; [exact H|]. now apply mem_get_none.
    + intros f Hf. specialize (Hf 0 (scen, i) eq_refl). rewrite Nat.add_0_r in Hf. cbn in Hf. now rewrite Hf.
    + intros f t q Hq _ HI. destruct t as [|t]; [|destruct t; discriminate]. injection Hq as <-. rewrite Nat.add_0_r in HI. cbn in HI. now rewrite HI.
    + intros b E. destruct (acc_read scen (acc (c_calls cs) scen i)) as [[[v l] r]|]; [|discriminate]. cbn in E. injection E as <-.
      unfold keys. cbn [c_mem c_calls]. rewrite map_app. split; [reflexivity|cbn; lia].
Qed.
Lemma ask_splits acc inf p : forall l cs, rqs acc (length l) cs (fun cs => cs) (fun f => eval_splits f inf p cs l).
Proof.
  induction l as [|c l IH]; intro cs; cbn [eval_splits].
  - apply rqs_none; [reflexivity|]. intros b E. injection E as <-. split; reflexivity.
  - apply rqs_bind with (k1 := 1) (k2 := length l) (g := fun cs => cs); [apply ask_split| |cbn; lia]. intros cs1 _. apply IH.
Qed.
Lemma ask_perform acc inf vUB st cs : rqs acc 2 cs snd (fun f => perform_accurate_split f inf vUB st cs).
Proof.
  unfold perform_accurate_split. apply rqs_pure. intros c _. apply rqs_pure. intros l _. apply rqs_pure. intros u _. apply rqs_pure. intros r _.
  cbv zeta. apply rqs_pure. intros nc _.
  apply rqs_bind with (k1 := 1) (k2 := 1) (g := fun cs => cs); [| |lia].
  - destruct (2 <=? nc); [apply ask_split|]. apply rqs_none; [reflexivity|]. intros b E. injection E as <-. split; reflexivity.
  - intros cs1 _. apply rqs_pure. intros nn _. apply rqs_bind with (k1 := 1) (k2 := 0) (g := fun cs => cs); [| |lia].
    + destruct (2 <=? nn); [apply ask_split|]. apply rqs_none; [reflexivity|]. intros b E. injection E as <-. split; reflexivity.
    + intros cs2 _. apply rqs_none; [reflexivity|]. intros b E. injection E as <-. split; reflexivity.
Qed.
Lemma ask_cost_loop acc inf vUB : forall n st cs, rqs acc (2 * n) cs snd (fun f => cost_loop f n inf vUB st cs).
Proof.
  induction n as [|n IH]; intros st cs; cbn [cost_loop].
  - apply rqs_none; [reflexivity|]. intros b E. injection E as <-. split; reflexivity.
  - apply rqs_bind with (k1 := 2) (k2 := 2 * n) (g := snd); [apply ask_perform| |lia]. intros [st1 cs1] _. apply IH.
Qed.
(** Candidates: subsets with two infeasible scenarios. *)
Lemma candidates_le p inf sorted cand : NoDup sorted ->
  rmap (fun c => do n <- geti (count_infeasible p inf) c ;; Ok (c, n)) sorted = Ok cand ->
  length (map fst (filter (fun cn => 2 <=? snd cn) cand)) <= length (snd (find_infeasible_subsets p inf)).
Proof.
  intros ND E. assert (G : Forall2 (fun c cn => fst cn = c /\ geti (count_infeasible p inf) c = Ok (snd cn)) sorted cand).
  { clear ND. revert cand E. induction sorted as [|c l IH]; intros cand E; cbn in E; [injection E as <-; constructor|].
    destruct (geti _ c) as [n|] eqn:EG; [|discriminate]. cbn in E. destruct (rmap _ l) as [l'|]; [|discriminate]. cbn in E. injection E as <-.
    constructor; [split; [reflexivity|exact EG]|now apply IH]. }
  assert (EF : map fst cand = sorted) by (clear - G; induction G as [|c cn l l' [H _] _ IH]; cbn; congruence).
  assert (GA : forall cn, In cn cand -> geti (count_infeasible p inf) (fst cn) = Ok (snd cn)).
  { intros cn Hc. clear - G Hc. induction G as [|c d l l' [H1 H2] _ IH]; [destruct Hc|]. destruct Hc as [<-|Hc]; [now rewrite H1|auto]. }
  apply NoDup_incl_length.
  - rewrite <- EF in ND. clear - ND. induction cand as [|cn l IH]; [constructor|]. inversion ND as [|? ? H1 H2]; subst. cbn [filter]. destruct (2 <=? snd cn); [|auto].
    cbn [map]. constructor; [|auto]. intro C. apply in_map_iff in C as (x & Ex & Hx). apply filter_In in Hx as [Hx _]. apply H1. rewrite <- Ex. now apply in_map.
  - intros c Hc. apply in_map_iff in Hc as (cn & <- & Hc). apply filter_In in Hc as [Hc H2]. apply GA in Hc. apply Nat.leb_le in H2.
    destruct (geti_inv _ _ _ 0 Hc) as [LT EN]. unfold find_infeasible_subsets. cbn [snd]. apply filter_In. unfold count_infeasible in LT at 1. rewrite map_length in LT.
    split; [apply in_seq; lia|]. rewrite EN. destruct (snd cn); [lia|reflexivity].
Qed.
Lemma ask_refine acc argsort I f costs vUB cs old : argsort_ok argsort -> (0 <= i_eps I)%Q ->
  rqs acc (2 * tolerated I + 2) cs snd (fun a => refine_cost a argsort I f costs vUB cs old).
Proof.
  intros HA HE. unfold refine_cost, refine_with. destruct (find_infeasible_subsets old (f_infeasible f)) as [x infsub] eqn:EF.
  rewrite number_of_splits_spec by assumption. apply rqs_pure. intros mu EM. destruct (length infsub <=? tolerated I) eqn:EL; [|discriminate].
  injection EM as <-. apply Nat.leb_le in EL.
  apply rqs_bind with (k1 := 2 * tolerated I + 2) (k2 := 0) (g := snd); [| |lia].
  - unfold split_top_mu_cost. apply rqs_pure. intros u _. cbn [r_part r_cnt].
    apply rqs_bind with (k1 := length infsub) (k2 := 2 * (tolerated I + 1 - length infsub)) (g := fun cs => cs); [| |lia].
    + unfold evaluate_accurate_splits. cbv zeta. apply rqs_pure. intros cand EC.
      set (cs1 := mkC [] [] [] (c_mem cs) (c_calls cs)).
      assert (AS : rqs acc (length infsub) cs1 (fun cs => cs) (fun a => eval_splits a (f_infeasible f) old cs1 (map fst (filter (fun cn => 2 <=? snd cn) cand)))).
      { eapply rqs_le; [apply ask_splits|]. replace infsub with (snd (find_infeasible_subsets old (f_infeasible f))) by now rewrite EF.
        eapply candidates_le; [|exact EC]. apply (Permutation_NoDup (Permutation_sym (proj1 (HA costs)))). apply seq_NoDup. }
      now apply (rqs_reset acc _ cs cs1).
    + intros cs1 _. rewrite Nat.sub_0_r. apply rqs_bind with (k1 := 2 * (tolerated I + 1 - length infsub)) (k2 := 0) (g := snd); [apply ask_cost_loop| |lia].
      intros [st1 cs2] _. apply rqs_pure. intros u' _. apply rqs_none; [reflexivity|]. intros b E. injection E as <-. split; reflexivity.
  - intros [st1 cs1] _. apply rqs_pure. intros u _. destruct (find_infeasible_subsets (r_part st1) _). apply rqs_none; [reflexivity|].
    intros b E. injection E as <-. split; reflexivity.
Qed.

(** ** Computations of the solver *)
Definition keeps {A} (m : M A) : Prop := forall s, a_ref (snd (m s)) = a_ref s.
Lemma keeps_ret {A} (a : A) : keeps (mret a). Proof. intro s. reflexivity. Qed.
Lemma keeps_raise {A} e : keeps (@mraise A e). Proof. intro s. reflexivity. Qed.
Lemma keeps_lift {A} (r : res A) : keeps (lift r). Proof. intro s. reflexivity. Qed.
Lemma keeps_get : keeps mget. Proof. intro s. reflexivity. Qed.
Lemma keeps_bind {A B} (m : M A) (f : A -> M B) : keeps m -> (forall a, keeps (f a)) -> keeps (mbind m f).
Proof. intros H1 H2 s. unfold mbind. specialize (H1 s). destruct (m s) as [[a|e] s']; cbn in *; [|exact H1]. specialize (H2 a s'). congruence. Qed.
Lemma keeps_put w f : (forall s, a_ref (f s) = a_ref s) -> keeps (put w f).
Proof. intros H s. unfold put, mbind, tick. destruct (w_intr w (a_t (f s))); cbn; apply H. Qed.
Lemma keeps_clock w : keeps (clock w). Proof. intro s. reflexivity. Qed.
Lemma keeps_call w m : keeps (call w m).
Proof. intro s. unfold call, mbind, tick. destruct (w_intr w (a_t s)); reflexivity. Qed.
Lemma keeps_mmap {A B} (f : A -> M B) l : (forall a, keeps (f a)) -> keeps (mmap f l).
Proof.
  intro H. induction l as [|a l IH]; cbn [mmap]; [apply keeps_ret|]. apply keeps_bind; [apply H|intro]. apply keeps_bind; [apply IH|intro; apply keeps_ret].
Qed.
Lemma keeps_big_M w I cf : keeps (big_M w I cf).
Proof.
  intro s. assert (PB : pres (fun s' => a_ref s' = a_ref s) (big_M w I cf)) by (apply pres_big_M; intros; assumption).
  specialize (PB s eq_refl). unfold wp in PB. destruct (big_M w I cf s) as [[u|e] s']; exact PB.
Qed.
Ltac keep := repeat first
  [ apply keeps_ret | apply keeps_raise | apply keeps_lift | apply keeps_get | apply keeps_clock | apply keeps_call | apply keeps_big_M
  | apply keeps_put; intro; reflexivity
  | apply keeps_bind; [|intro]
  | apply keeps_mmap; intro
  | match goal with |- keeps (match ?x with _ => _ end) => destruct x end ].

(** Questions of a computation. *)
Record mq {A} (w : world) (m : world -> M A) (s : ast) (L : list question) : Prop := mkMq {
  mq_new : distinct (keys (a_ref s)) -> distinct (keys (a_ref s) ++ L);
  mq_same : forall f, answers_as (w_acc w) f (c_calls (a_ref s)) L -> m (with_acc w f) s = m w s;
  mq_stop : forall f t q, nth_error L t = Some q -> answers_as (w_acc w) f (c_calls (a_ref s)) (firstn t L) ->
    f (c_calls (a_ref s) + t) (fst q) (snd q) = AccInterrupted -> fst (m (with_acc w f) s) = Err KeyboardInterrupt;
  mq_ok : forall a s', m w s = (Ok a, s') -> keys (a_ref s') = keys (a_ref s) ++ L /\ c_calls (a_ref s') = c_calls (a_ref s) + length L
}.
Definition mqs {A} w k (m : world -> M A) s : Prop := exists L, length L <= k /\ mq w m s L.
Lemma mq_bind {A B} w (m : world -> M A) (f : world -> A -> M B) s L1 L2 a s' :
  mq w m s L1 -> m w s = (Ok a, s') -> mq w (fun w => f w a) s' L2 -> mq w (fun w => mbind (m w) (f w)) s (L1 ++ L2).
Proof.
  intros [A1 A2 A3 A4] E [B1 B2 B3 B4]. destruct (A4 a s' E) as [K1 C1]. rewrite K1, C1 in *. constructor.
  - intro H. rewrite app_assoc. auto.
  - intros g Hg. apply answers_app in Hg as [H1 H2]. unfold mbind. rewrite (A2 g H1), E. now apply B2.
  - intros g t q Hq Hb HI. destruct (lt_dec t (length L1)) as [LT|GE].
    + rewrite nth_error_app1 in Hq by exact LT. rewrite firstn_app in Hb. replace (t - length L1) with 0 in Hb by lia. rewrite firstn_O, app_nil_r in Hb.
      assert (S1 := A3 g t q Hq Hb HI). unfold mbind. destruct (m (with_acc w g) s) as [[b|e] s2]; cbn in S1; [discriminate|]. cbn. congruence.
    + rewrite nth_error_app2 in Hq by lia. rewrite firstn_app, firstn_all2 in Hb by lia. apply answers_app in Hb as [H1 H2].
      unfold mbind. rewrite (A2 g H1), E. apply (B3 g (t - length L1) q Hq H2). now replace (c_calls (a_ref s) + length L1 + (t - length L1)) with (c_calls (a_ref s) + t) by lia.
  - intros c s2 Ec. unfold mbind in Ec. rewrite E in Ec. destruct (B4 c s2 Ec) as [K2 C2]. rewrite K2, C2, app_length, app_assoc. split; [reflexivity|lia].
Qed.
Lemma mq_fails {A B} w (m : world -> M A) (f : world -> A -> M B) s L e s' :
  mq w m s L -> m w s = (Err e, s') -> mq w (fun w => mbind (m w) (f w)) s L.
Proof.
  intros [A1 A2 A3 A4] E. constructor.
  - exact A1.
  - intros g Hg. unfold mbind. now rewrite (A2 g Hg), E.
  - intros g t q Hq Hb HI. assert (S1 := A3 g t q Hq Hb HI). unfold mbind. destruct (m (with_acc w g) s) as [[b|e'] s2]; cbn in S1; [discriminate|]. cbn. congruence.
  - intros c s2 Ec. unfold mbind in Ec. rewrite E in Ec. discriminate.
Qed.
Lemma mqs_bind {A B} w k1 k2 k (m : world -> M A) (f : world -> A -> M B) s : mqs w k1 m s ->
  (forall a s', m w s = (Ok a, s') -> mqs w k2 (fun w => f w a) s') -> k1 + k2 <= k -> mqs w k (fun w => mbind (m w) (f w)) s.
Proof.
  intros (L1 & K1 & H1) H2 Hk. destruct (m w s) as [[a|e] s'] eqn:E.
  - destruct (H2 a s' eq_refl) as (L2 & K2 & H3). exists (L1 ++ L2). split; [rewrite app_length; lia|]. eapply mq_bind; eauto.
  - exists L1. split; [lia|]. eapply mq_fails; eauto.
Qed.
Lemma mqs_silent {A} w k (m : world -> M A) s : keeps (m w) -> (forall f, m (with_acc w f) s = m w s) -> mqs w k m s.
Proof.
  intros H1 H2. exists []. split; [cbn; lia|]. constructor.
  - now rewrite app_nil_r.
  - auto.
  - intros f t q Hq. destruct t; discriminate Hq.
  - intros a s' E. specialize (H1 s). rewrite E in H1. cbn in H1. rewrite H1, app_nil_r. cbn. split; [reflexivity|lia].
Qed.
Lemma mqs_skip {A B} w k (m : world -> M A) (f : world -> A -> M B) s : keeps (m w) -> (forall g, m (with_acc w g) s = m w s) ->
  (forall a s', m w s = (Ok a, s') -> mqs w k (fun w => f w a) s') -> mqs w k (fun w => mbind (m w) (f w)) s.
Proof. intros H1 H2 H3. apply mqs_bind with (k1 := 0) (k2 := k); [now apply mqs_silent|exact H3|lia]. Qed.
Lemma mqs_last {A B} w k (m : world -> M A) (f : world -> A -> M B) s : mqs w k m s -> (forall a, keeps (f w a)) ->
  (forall g a s', f (with_acc w g) a s' = f w a s') -> mqs w k (fun w => mbind (m w) (f w)) s.
Proof. intros H1 H2 H3. apply mqs_bind with (k1 := k) (k2 := 0); [exact H1| |lia]. intros a s' _. apply mqs_silent; auto. Qed.
