(** The tables exported from the texts are those exported from the rows (Export.v). *)
From Coq Require Import Ascii String Lia ZArith QArith Qabs Lqa.
From Verif Require Import Base Spec BaseFacts Instance InstanceFacts OptModels Bounds Refine CostRefine Merge Violations BigM Adaptive AdaptiveWp
  AdaptiveSpec Milp Report Main ReportFacts NameFacts Export ExportFacts PipelineFacts.
From Verif Require Import TextSpec ResultText ResultSpec ResultFacts ResultRows.
Local Open Scope nat_scope.
Local Open Scope list_scope.

Definition rres {A B} (R : A -> B -> Prop) (a : res A) (b : res B) : Prop :=
  match a, b with Ok x, Ok y => R x y | Err e, Err e' => e = e' | _, _ => False end.
Lemma rres_bind : forall A B C D (R : A -> B -> Prop) (S : C -> D -> Prop) m m' f g,
  rres R m m' -> (forall x y, R x y -> rres S (f x) (g y)) -> rres S (rbind m f) (rbind m' g).
Proof. intros A B C D R S [x|e] [y|e'] f g H HF; cbn in *; try contradiction; auto. Qed.
Lemma rres_eq : forall A (a b : res A), a = b -> rres eq a b.
Proof. intros A [x|e] b <-; reflexivity. Qed.

Definition row_same (r r' : row_t) : Prop := same_numbers (snd r) (snd r').
Definition opt_same (r r' : option row_t) : Prop :=
  match r, r' with Some a, Some b => row_same a b | None, None => True | _, _ => False end.
Fixpoint entry_same (e e' : entry) : Prop :=
  match e, e' with
  | ENum g, ENum g' | ETime g, ETime g' => same_real g g'
  | EGap g n, EGap g' n' => same_real g g' /\ n = n'
  | EBold a, EBold b => entry_same a b
  | EDash, EDash => True
  | EInst s, EInst s' => s = s'
  | EEps q, EEps q' => q = q'
  | EScen n, EScen n' => n = n'
  | _, _ => False
  end.
Lemma entry_same_refl : forall e, entry_same e e.
Proof. induction e; cbn; auto using same_real_refl. Qed.

(** ** Text of the entries *)

Lemma fixed_same : forall d g g', same_real g g' -> same_real (fixed d g) (fixed d g').
Proof. intros d [[| p |]|] [[| q |]|] H; cbn in *; try tauto. now rewrite H. Qed.
Lemma show_fixed_same : forall d g g', same_real g g' -> show_fixed d g = show_fixed d g'.
Proof.
  intros d [[| p |]|] [[| q |]|] H; cbn in *; try tauto. rewrite (TextFacts.Qlt_bool_eq p 0 q 0 H (Qeq_refl 0)).
  now rewrite (Qrnd_proper (p * pow10 d)%Q (q * pow10 d)%Q ltac:(now rewrite H)).
Qed.
Lemma entry_text_same : forall repr, (forall g g', same_real g g' -> repr g = repr g') ->
  forall e e', entry_same e e' -> entry_text repr e = entry_text repr e'.
Proof.
  intros repr HR. induction e; intros [] H; cbn in H; try contradiction; cbn [entry_text].
  - reflexivity.
  - now apply HR.
  - now rewrite (show_fixed_same 2 _ _ H).
  - destruct H as [H ->]. now rewrite (show_fixed_same 2 _ _ H).
  - now subst.
  - now subst.
  - now subst.
  - now rewrite (IHe _ H).
Qed.
Lemma table_text_same : forall repr, (forall g g', same_real g g' -> repr g = repr g') ->
  forall tab tab', Forall2 (Forall2 entry_same) tab tab' -> table_file repr tab = table_file repr tab'.
Proof.
  intros repr HR tab tab' H. unfold table_file. f_equal. induction H as [|r r' tab tab' Hr HF IH]; [reflexivity|].
  cbn [map]. rewrite IH. f_equal. clear - Hr HR. induction Hr; [reflexivity|]. cbn [map]. f_equal; [now apply entry_text_same|assumption].
Qed.

(** ** Numbers *)

Lemma gadd_same : forall a a' b b', same_real a a' -> same_real b b' -> same_real (gadd a b) (gadd a' b').
Proof. intros [[| p |]|] [[| p' |]|] [[| q |]|] [[| q' |]|] H1 H2; cbn in *; try tauto. now rewrite H1, H2. Qed.
Lemma gdiv_same : forall a a' n, same_real a a' -> rres same_real (gdiv a n) (gdiv a' n).
Proof.
  intros [[| p |]|] [[| p' |]|] n H; cbn in *; try tauto; unfold gdiv; destruct (n =? 0); cbn; try reflexivity; try exact Logic.I.
  now rewrite H.
Qed.
Lemma ext_leb_same : forall a a' b b', same_real (Some a) (Some a') -> same_real (Some b) (Some b') -> ext_leb a b = ext_leb a' b'.
Proof.
  intros [| p |] [| p' |] [| q |] [| q' |] H1 H2; cbn in *; try tauto. apply Bool.eq_true_iff_eq. rewrite !Qle_bool_iff. now rewrite H1, H2.
Qed.
Lemma gleb_same : forall a a' b b', same_real a a' -> same_real b b' -> gleb a b = gleb a' b'.
Proof.
  intros [a|] [a'|] [b|] [b'|] H1 H2; cbn [gleb]; try reflexivity; try (destruct a; exfalso; exact H1); try (destruct a'; exfalso; exact H1);
    try (destruct b; exfalso; exact H2); try (destruct b'; exfalso; exact H2). now apply ext_leb_same.
Qed.
Lemma gfinite_same : forall a a', same_real a a' -> gfinite a = gfinite a'.
Proof. intros [[| p |]|] [[| p' |]|] H; cbn in *; tauto. Qed.

Lemma Forall2_geti : forall A B (R : A -> B -> Prop) l l' i, Forall2 R l l' -> rres R (geti l i) (geti l' i).
Proof.
  intros A B R l l' i H. revert i. unfold geti. induction H as [|x y l l' HR HF IH]; intros [|i]; cbn; try reflexivity; [exact HR|apply IH].
Qed.
Lemma Forall2_same_len : forall A B (R : A -> B -> Prop) l l', Forall2 R l l' -> List.length l = List.length l'.
Proof. intros A B R l l' H. induction H; cbn; congruence. Qed.
Lemma Forall2_nth : forall A B (R : A -> B -> Prop) l l' d d' i, R d d' -> Forall2 R l l' -> R (nth i l d) (nth i l' d').
Proof. intros A B R l l' d d' i Hd H. revert i. induction H; intros [|i]; cbn; auto. Qed.
Lemma Forall2_eq_refl : forall A (R : A -> A -> Prop), (forall x, R x x) -> forall l, Forall2 R l l.
Proof. induction l; constructor; auto. Qed.

Lemma row_at_same : forall r r' i, row_same r r' -> rres same_real (row_at r i) (row_at r' i).
Proof. intros r r' [|i] H; [reflexivity|]. now apply Forall2_geti. Qed.
Lemma row_neg_same : forall r r' i, row_same r r' -> rres same_real (row_neg r i) (row_neg r' i).
Proof.
  intros r r' i H. unfold row_neg. rewrite (Forall2_same_len _ _ _ _ _ H). destruct ((1 <=? i) && _); [|reflexivity]. now apply row_at_same.
Qed.

Lemma is_solved_same : forall req r r', row_same r r' -> rres eq (is_solved req r) (is_solved req r').
Proof.
  intros req r r' H. unfold is_solved. eapply rres_bind; [apply row_neg_same; exact H|]. intros x y Hxy. cbn.
  apply gleb_same; [exact Hxy|apply same_real_refl].
Qed.
Lemma count_solved_same : forall req rows rows', Forall2 row_same rows rows' -> forall nb all,
  rres eq (count_solved req rows nb all) (count_solved req rows' nb all).
Proof.
  intros req rows rows' H. induction H as [|r r' rows rows' Hr HF IH]; intros nb all; [reflexivity|]. cbn [count_solved].
  eapply rres_bind; [apply is_solved_same; exact Hr|]. intros x y <-. destruct x; apply IH.
Qed.
Definition pair_same {A B C D} (R : A -> C -> Prop) (S : B -> D -> Prop) (p : A * B) (q : C * D) : Prop := R (fst p) (fst q) /\ S (snd p) (snd q).
Lemma sum_entries_same : forall all part rows rows', Forall2 row_same rows rows' -> forall t0 t0' t1 t1', same_real t0 t0' -> same_real t1 t1' ->
  rres (pair_same same_real same_real) (sum_entries all part rows t0 t1) (sum_entries all part rows' t0' t1').
Proof.
  intros all part rows rows' H. induction H as [|r r' rows rows' Hr HF IH]; intros t0 t0' t1 t1' H0 H1; [now split|]. cbn [sum_entries].
  eapply rres_bind; [apply row_neg_same; exact Hr|]. intros a a' Ha.
  eapply (rres_bind _ _ _ _ same_real).
  - destruct part; [|exact H1]. eapply rres_bind; [apply row_neg_same; exact Hr|]. intros v v' Hv. cbn. now apply gadd_same.
  - intros b b' Hb. apply IH; [now apply gadd_same|exact Hb].
Qed.

Definition method_same (x y : gapv * nat * gapv * list entry) : Prop :=
  same_real (fst (fst (fst x))) (fst (fst (fst y))) /\ snd (fst (fst x)) = snd (fst (fst y)) /\
  same_real (snd (fst x)) (snd (fst y)) /\ Forall2 entry_same (snd x) (snd y).

Lemma rmap_geti_same : forall rows rows', Forall2 row_same rows rows' -> forall l,
  rres (Forall2 row_same) (rmap (fun j => geti rows j) l) (rmap (fun j => geti rows' j) l).
Proof.
  intros rows rows' H. induction l as [|j l IH]; [constructor|]. cbn [rmap]. eapply rres_bind; [apply Forall2_geti; exact H|].
  intros x y Hxy. eapply rres_bind; [exact IH|]. intros l1 l2 HL. cbn. now constructor.
Qed.

Lemma format_method_same : forall rows rows' m ids req milp part, Forall2 row_same rows rows' ->
  rres method_same (format_method rows m ids req milp part) (format_method rows' m ids req milp part).
Proof.
  intros rows rows' m ids req milp part H. unfold format_method.
  eapply rres_bind; [apply rmap_geti_same; exact H|]. intros r1 r2 H1.
  eapply rres_bind; [apply count_solved_same; exact H1|]. intros [nb all] ? <-.
  eapply rres_bind; [apply sum_entries_same; [exact H1|apply same_real_refl|apply same_real_refl]|]. intros [t0 t1] [t0' t1'] [HA HB]. cbn [fst snd] in HA, HB.
  eapply rres_bind; [apply gdiv_same; exact HA|]. intros a0 a0' Ha0. eapply rres_bind; [apply gdiv_same; exact HB|]. intros a1 a1' Ha1.
  cbv zeta. cbn [rres]. unfold method_same. cbn [fst snd].
  split; [destruct all; [exact Ha0|apply same_real_refl]|]. split; [reflexivity|]. split; [destruct all; [apply same_real_refl|exact Ha0]|].
  assert (E0 : entry_same (if all then ETime (fixed 2 a0) else EGap (fixed 2 a0) nb) (if all then ETime (fixed 2 a0') else EGap (fixed 2 a0') nb)).
  { destruct all; cbn; [now apply fixed_same|]. split; [now apply fixed_same|reflexivity]. }
  destruct (memZ m milp); repeat constructor; assumption.
Qed.

(** ** Choice of the best method *)

Lemma argmin_from_same : forall l l', Forall2 same_real l l' -> forall b b' bi i, same_real b b' -> argmin_from b bi i l = argmin_from b' bi i l'.
Proof.
  intros l l' H. induction H as [|x y l l' Hx HF IH]; intros [b|] [b'|] bi i Hb; try (destruct b; contradiction); try (destruct b'; contradiction); try reflexivity.
  destruct x as [x|], y as [y|]; try (destruct x; contradiction); try (destruct y; contradiction); try reflexivity. cbn [argmin_from].
  assert (E : ext_ltb x b = ext_ltb y b') by (unfold ext_ltb; f_equal; now apply ext_leb_same).
  rewrite E. destruct (ext_ltb y b'); now apply IH.
Qed.
Lemma argmin_same : forall l l', Forall2 same_real l l' -> argmin l = argmin l'.
Proof. intros l l' [|x y k k' Hx HF]; [reflexivity|]. unfold argmin. f_equal. now apply argmin_from_same. Qed.

Lemma best_method_same : forall T T' G G' N, Forall2 same_real T T' -> Forall2 same_real G G' -> best_method T G N = best_method T' G' N.
Proof.
  intros T T' G G' N HT HG. unfold best_method. rewrite (argmin_same _ _ HT). destruct (argmin T') as [a|e]; [|reflexivity]. cbn [rbind].
  rewrite (gfinite_same (nth a T None) (nth a T' None)) by (now apply Forall2_nth). destruct (gfinite _); [reflexivity|]. cbv zeta.
  match goal with |- rbind (argmin (map _ ?l)) _ = _ => rewrite (argmin_same (map (fun i => nth i G None) l) (map (fun i => nth i G' None) l)); [reflexivity|] end.
  match goal with |- Forall2 _ (map _ ?k) _ => generalize k end. intro k.
  induction k as [|i k IH]; constructor; [now apply Forall2_nth|exact IH].
Qed.

Lemma upd_same : forall A B (R : A -> B -> Prop) l l', Forall2 R l l' -> forall i x y, R x y -> Forall2 R (upd i x l) (upd i y l').
Proof. intros A B R l l' H. induction H; intros [|i] a b Hab; cbn; constructor; auto. Qed.
Lemma bold_same : forall ind l l', Forall2 entry_same l l' -> rres (Forall2 entry_same) (bold_at ind l) (bold_at ind l').
Proof.
  intros ind l l' H. unfold bold_at. eapply rres_bind; [apply Forall2_geti; exact H|]. intros e e' He. cbn. now apply upd_same.
Qed.

Section Tables.
  Variables exp exp' : Z -> string -> Z -> nat -> Q -> Z -> option row_t.
  Hypothesis HE : forall c i s j e m, opt_same (exp c i s j e m) (exp' c i s j e m).
  Variable instances : list string.
  Variable scenarios : list Z.
  Variable epsilons : list Q.
  Variable nb_ids : nat.
  Variables methods milp part : list Z.
  Variable required : Q.

  Lemma experiment_rows_same : forall c inst sc eps m,
    match experiment_rows exp nb_ids c inst sc eps m, experiment_rows exp' nb_ids c inst sc eps m with
    | Some l, Some l' => Forall2 row_same l l'
    | None, None => True
    | _, _ => False
    end.
  Proof.
    intros c inst sc eps m. unfold experiment_rows. induction (seq 1 nb_ids) as [|j l IH]; [constructor|]. cbn [fold_right].
    pose proof (HE c inst sc j eps m) as H. destruct (exp c inst sc j eps m) as [r|], (exp' c inst sc j eps m) as [r'|]; cbn in H; try contradiction; [|exact Logic.I].
    destruct (fold_right _ _ l) as [k|], (fold_right _ _ l) as [k'|]; try contradiction; [|exact Logic.I]. now constructor.
  Qed.

  Lemma method_cells_same : forall c inst sc eps m,
    rres method_same (method_cells exp nb_ids milp part required c inst sc eps m) (method_cells exp' nb_ids milp part required c inst sc eps m).
  Proof.
    intros c inst sc eps m. unfold method_cells. pose proof (experiment_rows_same c inst sc eps m) as H.
    destruct (experiment_rows exp _ _ _ _ _ _) as [l|], (experiment_rows exp' _ _ _ _ _ _) as [l'|]; try contradiction; [now apply format_method_same|].
    cbn. unfold method_same. cbn [fst snd]. repeat split; try apply same_real_refl. apply Forall2_eq_refl. apply entry_same_refl.
  Qed.

  Lemma cells_same : forall c inst sc eps ms,
    rres (Forall2 method_same) (rmap (method_cells exp nb_ids milp part required c inst sc eps) ms)
      (rmap (method_cells exp' nb_ids milp part required c inst sc eps) ms).
  Proof.
    intros c inst sc eps. induction ms as [|m ms IH]; [constructor|]. cbn [rmap]. eapply rres_bind; [apply method_cells_same|].
    intros x y Hxy. eapply rres_bind; [exact IH|]. intros l1 l2 HL. cbn. now constructor.
  Qed.

  Lemma table_row_same : forall c info inst sc eps,
    rres (Forall2 entry_same) (table_row exp nb_ids methods milp part required c info inst sc eps)
      (table_row exp' nb_ids methods milp part required c info inst sc eps).
  Proof.
    intros c info inst sc eps. unfold table_row. eapply rres_bind; [apply cells_same|]. intros l l' HL.
    assert (E : best_method (map (fun x => fst (fst (fst x))) l) (map (fun x => snd (fst x)) l) (map (fun x => snd (fst (fst x))) l) =
                best_method (map (fun x => fst (fst (fst x))) l') (map (fun x => snd (fst x)) l') (map (fun x => snd (fst (fst x))) l')).
    { assert (N : map (fun x => snd (fst (fst x))) l = map (fun x => snd (fst (fst x))) l').
      { clear - HL. induction HL as [|x y l l' (_ & H & _) HF IH]; [reflexivity|]. cbn. now rewrite H, IH. }
      rewrite N. apply best_method_same; clear - HL; (induction HL as [|x y l l' (H1 & _ & H2 & _) HF IH]; constructor; assumption). }
    eapply rres_bind; [apply rres_eq; exact E|]. intros b ? <-. eapply rres_bind; [apply rres_eq; reflexivity|]. intros ind ? <-.
    apply bold_same. apply Forall2_app; [apply Forall2_eq_refl, entry_same_refl|].
    clear - HL. induction HL as [|x y l l' (_ & _ & _ & H) HF IH]; [constructor|]. cbn [flat_map]. now apply Forall2_app.
  Qed.

  Definition tab_same := Forall2 (Forall2 entry_same).
  Lemma scen_loop_same : forall c i e inst eps l tab tab' fi fe, tab_same tab tab' ->
    rres (pair_same (pair_same tab_same eq) eq) (scen_loop exp scenarios epsilons nb_ids methods milp part required c i e inst eps l (tab, fi, fe))
      (scen_loop exp' scenarios epsilons nb_ids methods milp part required c i e inst eps l (tab', fi, fe)).
  Proof.
    intros c i e inst eps. induction l as [|[s sc] l IH]; intros tab tab' fi fe HT; [repeat split; assumption|]. cbn [scen_loop].
    eapply rres_bind; [apply table_row_same|]. intros r r' Hr. cbv zeta. rewrite (Forall2_same_len _ _ _ _ _ HT).
    destruct (_ <? _); [|reflexivity]. apply IH. now apply upd_same.
  Qed.
  Lemma eps_loop_same : forall c i inst l tab tab' fi, tab_same tab tab' ->
    rres (pair_same tab_same eq) (eps_loop exp scenarios epsilons nb_ids methods milp part required c i inst l (tab, fi))
      (eps_loop exp' scenarios epsilons nb_ids methods milp part required c i inst l (tab', fi)).
  Proof.
    intros c i inst. induction l as [|[e eps] l IH]; intros tab tab' fi HT; [split; [exact HT|reflexivity]|]. cbn [eps_loop].
    eapply rres_bind; [apply scen_loop_same; exact HT|]. intros [[t f] g] [[t' f'] g'] [[H1 H2] H3]. cbn [fst snd] in *. subst. now apply IH.
  Qed.
  Lemma inst_loop_same : forall c l tab tab', tab_same tab tab' ->
    rres tab_same (inst_loop exp scenarios epsilons nb_ids methods milp part required c l tab)
      (inst_loop exp' scenarios epsilons nb_ids methods milp part required c l tab').
  Proof.
    intros c. induction l as [|[i inst] l IH]; intros tab tab' HT; [exact HT|]. cbn [inst_loop].
    eapply rres_bind; [apply eps_loop_same; exact HT|]. intros [t f] [t' f'] [H1 H2]. cbn [fst snd] in *. now apply IH.
  Qed.
  Lemma Forall2_firstn : forall A B (R : A -> B -> Prop) l l', Forall2 R l l' -> forall n, Forall2 R (firstn n l) (firstn n l').
  Proof. intros A B R l l' H. induction H; intros [|n]; cbn; constructor; auto. Qed.
  Lemma Forall2_skipn : forall A B (R : A -> B -> Prop) l l', Forall2 R l l' -> forall n, Forall2 R (skipn n l) (skipn n l').
  Proof. intros A B R l l' H. induction H; intros [|n]; cbn; try constructor; auto. Qed.
  Lemma instance_table_same : forall c i,
    rres tab_same (instance_table exp instances scenarios epsilons nb_ids methods milp part required c i)
      (instance_table exp' instances scenarios epsilons nb_ids methods milp part required c i).
  Proof.
    intros c i. unfold instance_table, summary_table. eapply rres_bind.
    - apply inst_loop_same. apply Forall2_eq_refl. intro r. apply Forall2_eq_refl, entry_same_refl.
    - intros t t' H. cbn. unfold slice. now apply Forall2_firstn, Forall2_skipn.
  Qed.

  (** Big-M times. *)
  Lemma time_sum_same : forall l l', Forall2 opt_same l l' -> forall a a', same_real a a' -> rres same_real (time_sum l a) (time_sum l' a').
  Proof.
    intros l l' H. induction H as [|[r|] [r'|] l l' Hr HF IH]; intros a a' Ha; try (exfalso; exact Hr); cbn [time_sum]; [exact Ha| |].
    - eapply rres_bind; [apply row_at_same; exact Hr|]. intros v v' Hv. apply IH. now apply gadd_same.
    - apply IH. apply same_real_refl.
  Qed.
  Lemma mean_time_same : forall l l' n, Forall2 opt_same l l' -> rres entry_same (mean_time l n) (mean_time l' n).
  Proof.
    intros l l' n H. unfold mean_time. eapply rres_bind; [apply time_sum_same; [exact H|apply same_real_refl]|]. intros t t' Ht.
    eapply rres_bind; [apply gdiv_same; exact Ht|]. intros a a' Ha. cbn [rres].
    destruct a as [[| p |]|], a' as [[| p' |]|]; try contradiction; cbn [entry_same]; try exact Logic.I; now apply fixed_same.
  Qed.
  Lemma time_rows_same : forall c inst sc m, Forall2 opt_same (time_rows exp epsilons nb_ids c inst sc m) (time_rows exp' epsilons nb_ids c inst sc m).
  Proof.
    intros c inst sc m. unfold time_rows. induction (seq 1 nb_ids) as [|j l IH]; [constructor|]. cbn [flat_map]. apply Forall2_app; [|exact IH].
    clear IH. induction epsilons as [|e es IHe]; [constructor|]. cbn [map]. constructor; [apply HE|exact IHe].
  Qed.
  Lemma time_row_same : forall fi inst sc, rres (Forall2 entry_same) (time_row exp epsilons nb_ids fi inst sc) (time_row exp' epsilons nb_ids fi inst sc).
  Proof.
    intros fi inst sc. unfold time_row.
    eapply rres_bind; [apply mean_time_same; apply Forall2_app; apply time_rows_same|]. intros a a' Ha.
    eapply rres_bind; [apply mean_time_same; apply time_rows_same|]. intros b b' Hb.
    eapply rres_bind; [apply mean_time_same; apply time_rows_same|]. intros d d' Hd.
    cbn [rres]. repeat (constructor; [first [assumption | apply entry_same_refl]|]). constructor.
  Qed.
  Lemma time_scen_loop_same : forall i inst l tab tab' fi, tab_same tab tab' ->
    rres tab_same (time_scen_loop exp scenarios epsilons nb_ids i inst l tab fi) (time_scen_loop exp' scenarios epsilons nb_ids i inst l tab' fi).
  Proof.
    intros i inst. induction l as [|[s sc] l IH]; intros tab tab' fi HT; [exact HT|]. cbn [time_scen_loop]. cbv zeta.
    eapply rres_bind; [apply time_row_same|]. intros r r' Hr. rewrite (Forall2_same_len _ _ _ _ _ HT).
    destruct (_ <? _); [|reflexivity]. apply IH. now apply upd_same.
  Qed.
  Lemma time_inst_loop_same : forall l tab tab', tab_same tab tab' ->
    rres tab_same (time_inst_loop exp scenarios epsilons nb_ids l tab) (time_inst_loop exp' scenarios epsilons nb_ids l tab').
  Proof.
    induction l as [|[i inst] l IH]; intros tab tab' HT; [exact HT|]. cbn [time_inst_loop].
    eapply rres_bind; [apply time_scen_loop_same; exact HT|]. intros t t' Ht. now apply IH.
  Qed.
  Lemma instance_times_same : forall i,
    rres tab_same (instance_times exp instances scenarios epsilons nb_ids i) (instance_times exp' instances scenarios epsilons nb_ids i).
  Proof.
    intro i. unfold instance_times, time_summary. eapply rres_bind.
    - apply time_inst_loop_same. apply Forall2_eq_refl. intro r. apply Forall2_eq_refl, entry_same_refl.
    - intros t t' H. cbn. unfold slice. now apply Forall2_firstn, Forall2_skipn.
  Qed.
End Tables.

(** ** The script *)

Section Script.
  Variable repr : gapv -> text.
  Hypothesis HR : forall g g', same_real g g' -> repr g = repr g'.
  Variable pct : Q -> Q.
  Variable indir outdir : string.
  Variable instances : list string.
  Variable scenarios : list Z.
  Variable epsilons : list Q.
  Variable nb_ids : nat.
  Variables methods milp part conts : list Z.
  Variable required : Q.
  Notation write_tables := (write_tables repr outdir instances).
  Notation export_tables := (export_tables repr outdir instances scenarios epsilons nb_ids methods milp part conts required).

  Lemma write_tables_same : forall suffix t t', (forall i, rres tab_same (t i) (t' i)) -> write_tables suffix t = write_tables suffix t'.
  Proof.
    intros suffix t t' H. unfold ResultText.write_tables. induction (seq 0 (List.length instances)) as [|i l IH]; [reflexivity|]. cbn [rmap].
    rewrite IH. specialize (H i). destruct (t i) as [a|e], (t' i) as [b|e']; cbn in H; try contradiction; [|now subst].
    cbn [rbind]. now rewrite (table_text_same repr HR a b H).
  Qed.

  Lemma export_tables_same : forall exp exp', (forall c i s j e m, opt_same (exp c i s j e m) (exp' c i s j e m)) ->
    export_tables exp = export_tables exp'.
  Proof.
    intros exp exp' H. unfold ResultText.export_tables.
    rewrite (write_tables_same _ _ _ (instance_times_same exp exp' H instances scenarios epsilons nb_ids)).
    destruct (write_tables _ _); [|reflexivity].
    assert (E : forall cs, write_results repr outdir instances scenarios epsilons nb_ids methods milp part required exp cs =
                           write_results repr outdir instances scenarios epsilons nb_ids methods milp part required exp' cs).
    { induction cs as [|c cs IH]; [reflexivity|]. cbn [write_results].
      rewrite (write_tables_same _ _ _ (instance_table_same exp exp' H instances scenarios epsilons nb_ids methods milp part required c)).
      now rewrite IH. }
    now rewrite E.
  Qed.

  Notation keys := (dict_keys instances scenarios epsilons nb_ids methods conts).
  (** The row of an experiment of the lists. *)
  Definition listed_row (fsr : string -> option (list cell)) (c : Z) (i : string) (s : Z) (j : nat) (e : Q) (m : Z) : option row_t :=
    if existsb (key_eqb (c, i, s, j, e, m)) keys then
      match read_single_experiment fsr indir i s (Z.of_nat j) (pct e) c m with Ok r => r | Err _ => None end
    else None.

  Variable fs : string -> option text.
  Variable fsr : string -> option (list cell).
  Hypothesis HF : forall p, match fs p, fsr p with Some t, Some row => holds row t | None, None => True | _, _ => False end.
  Hypothesis HP : forall e e', (e == e')%Q -> Qtrunc (pct e) = Qtrunc (pct e').

  Lemma read_same : forall i s j p c m, exists r r',
    read_experiment_text fs indir i s j p c m = Ok r /\ read_single_experiment fsr indir i s j p c m = Ok r' /\
    opt_same (match r with None => None | Some (n, v) => Some (CText (string_of_list_ascii n), v) end) r'.
  Proof.
    intros i s j p c m. unfold read_experiment_text, read_single_experiment. specialize (HF (read_name indir i s j p c m)).
    destruct (fs _) as [t|], (fsr _) as [row|]; try contradiction.
    - destruct HF as (n & nums & E & H). destruct (H []) as (nums' & E' & S). rewrite app_nil_r in E'. rewrite E, E'. cbn [rbind].
      eexists _, _. split; [reflexivity|]. split; [reflexivity|]. exact S.
    - exists None, None. repeat split.
  Qed.

  Lemma key_name : forall c i s j e m c' i' s' j' e' m', key_eqb (c, i, s, j, e, m) (c', i', s', j', e', m') = true ->
    read_name indir i s (Z.of_nat j) (pct e) c m = read_name indir i' s' (Z.of_nat j') (pct e') c' m'.
  Proof.
    intros c i s j e m c' i' s' j' e' m' H. unfold key_eqb in H. repeat (apply andb_true_iff in H as [H ?]).
    apply Z.eqb_eq in H. repeat match goal with X : (_ =? _)%Z = true |- _ => apply Z.eqb_eq in X end.
    apply Nat.eqb_eq in H2. apply String.eqb_eq in H4. apply Qeq_bool_iff in H1. subst. unfold read_name. now rewrite (HP _ _ H1).
  Qed.

  Lemma read_dict_same : exists d, read_dict pct indir instances scenarios epsilons nb_ids methods conts fs = Ok d /\
    forall c i s j e m, opt_same (dict_get d (c, i, s, j, e, m)) (listed_row fsr c i s j e m).
  Proof.
    unfold read_dict, listed_row. induction keys as [|[[[[[c0 i0] s0] j0] e0] m0] l (d & ED & HD)]; [exists []; split; [reflexivity|intros; exact Logic.I]|].
    destruct (read_same i0 s0 (Z.of_nat j0) (pct e0) c0 m0) as (r & r' & E1 & E2 & S). cbn [rmap]. rewrite E1, ED. cbn [rbind].
    eexists. split; [reflexivity|]. intros c i s j e m. cbn [dict_get existsb].
    destruct (key_eqb (c, i, s, j, e, m) (c0, i0, s0, j0, e0, m0)) eqn:EK; [|apply HD]. cbn [orb].
    apply key_name in EK. unfold read_single_experiment in E2 |- *. rewrite EK, E2. exact S.
  Qed.

  Lemma export_text_rows :
    export_text repr pct indir outdir instances scenarios epsilons nb_ids methods milp part conts required fs = export_tables (listed_row fsr).
  Proof. unfold export_text. destruct read_dict_same as (d & -> & H). now apply export_tables_same. Qed.
End Script.

(** The keys of the lists are in the dictionary. *)
Lemma listed_key : forall instances scenarios epsilons nb_ids methods conts c i s j e m, In c conts -> In i instances -> In s scenarios ->
  1 <= j <= nb_ids -> In e epsilons -> In m methods ->
  existsb (key_eqb (c, i, s, j, e, m)) (dict_keys instances scenarios epsilons nb_ids methods conts) = true.
Proof.
  intros instances scenarios epsilons nb_ids methods conts c i s j e m H1 H2 H3 H4 H5 H6. apply existsb_exists. exists (c, i, s, j, e, m). split.
  - unfold dict_keys. apply in_flat_map. exists c. split; [exact H1|]. apply in_flat_map. exists i. split; [exact H2|]. apply in_flat_map. exists s. split; [exact H3|].
    apply in_flat_map. exists j. split; [apply in_seq; lia|]. apply in_flat_map. exists e. split; [exact H5|]. apply in_map_iff. exists m. split; [reflexivity|exact H6].
  - cbn. rewrite !Z.eqb_refl, String.eqb_refl, Nat.eqb_refl. rewrite (Qeq_bool_refl e). reflexivity.
Qed.

Lemma rmap_error : forall A B (f : A -> res B) l k x, In k l -> f k = Err x -> exists x', rmap f l = Err x'.
Proof.
  induction l as [|a l IH]; intros k x HI E; [destruct HI|]. cbn [rmap]. destruct HI as [-> | HI]; [rewrite E; cbn; eauto|].
  destruct (IH _ _ HI E) as (x' & ->). destruct (f a); cbn; eauto.
Qed.

(** A file that is not a row stops the script before anything is written. *)
Lemma export_text_error : forall repr pct indir outdir instances scenarios epsilons nb_ids methods milp part conts required fs c i s j e m x,
  In c conts -> In i instances -> In s scenarios -> 1 <= j <= nb_ids -> In e epsilons -> In m methods ->
  read_experiment_text fs indir i s (Z.of_nat j) (pct e) c m = Err x ->
  exists x', export_text repr pct indir outdir instances scenarios epsilons nb_ids methods milp part conts required fs = (Err x', []).
Proof.
  intros repr pct indir outdir instances scenarios epsilons nb_ids methods milp part conts required fs c i s j e m x H1 H2 H3 H4 H5 H6 E. unfold export_text, read_dict.
  match goal with |- context [rmap ?f ?l] => destruct (rmap_error _ _ f l (c, i, s, j, e, m) x) as (x' & ->) end; [|now rewrite E|eauto].
  unfold dict_keys. apply in_flat_map. exists c. split; [exact H1|]. apply in_flat_map. exists i. split; [exact H2|]. apply in_flat_map. exists s. split; [exact H3|].
  apply in_flat_map. exists j. split; [apply in_seq; lia|]. apply in_flat_map. exists e. split; [exact H5|]. apply in_map_iff. exists m. split; [reflexivity|exact H6].
Qed.
