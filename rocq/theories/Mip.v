(** A concrete exact solver for all models, binary or continuous: Fourier-Motzkin elimination for each value of the indicators.
    It has no counterpart in the repository; it shows that the specification of the solver can be met for continuous variables
    too, and makes the modelled algorithms executable on small continuous instances. *)
From Verif Require Import Base BaseFacts Spec OptModels BruteForce BruteForceFacts Farkas SplitDual.

(** ** Largest last coordinate of a system of non-strict inequalities *)
Definition holdsb (x : list Q) (c : lin) : bool := Qle_bool (dot (l_a c) x) (l_b c).
Definition lows (x : list Q) (S : list lin) : list Q := map (fun q => (dot (tl (l_a q)) x - l_b q) / (- hd0 q))%Q (filter negb0 S).
Definition ups (x : list Q) (S : list lin) : list Q := map (fun p => (l_b p - dot (tl (l_a p)) x) / hd0 p)%Q (filter posb S).
Definition pick (lo up : list Q) : Q :=
  match lo, up with
  | l :: lo', _ => fold_left Qmax lo' l
  | [], u :: up' => fold_left Qmin up' u
  | [], [] => 0%Q
  end.
Fixpoint lp (n : nat) (S : list lin) : option (list Q) :=
  match n with
  | 0 =>
      let b := match ups [] S with u :: up' => fold_left Qmin up' u | [] => 0%Q end in
      if forallb (holdsb [b]) S then Some [Qred b] else None
  | S n' =>
      match lp n' (map (fun c => mkLin (map Qred (l_a c)) (Qred (l_b c)) (l_st c)) (eliminate S)) with
      | Some x => Some (Qred (pick (lows x S) (ups x S)) :: x)
      | None => None
      end
  end.

(** ** Solving a model *)
Fixpoint fit (n : nat) (a : list Q) : list Q :=
  match n, a with
  | 0, _ => []
  | S n', [] => 0%Q :: fit n' []
  | S n', p :: a' => p :: fit n' a'
  end.
Definition flat (n : nat) (b : bool) : list lin := [mkLin (repeat 0%Q n) (if b then 0 else - (1))%Q false].
(** The constraint on x for given indicators. *)
Definition lin_of (n : nat) (z : list Q) (c : cstr) : list lin :=
  match c with
  | CLe a b => [mkLin (fit n a) b false]
  | CGe a (Fin b) => [mkLin (vscale (- (1)) (fit n a)) (- b) false]
  | CGe _ NInf => flat n true
  | CGe _ PInf => flat n false
  | CBigM a b M s => [mkLin (fit n a) (b + M * (1 - nth s z 0))%Q false]
  | CInd s a b => if Qeq_bool (nth s z 0%Q) 1 then [mkLin (fit n a) b false] else flat n true
  | CChance p r => flat n (Qle_bool r (dot p z))
  | CFix0 s => flat n (Qeq_bool (nth s z 0%Q) 0)
  end.
Definition snoc (q : Q) (c : lin) : lin := mkLin (l_a c ++ [q]) (l_b c) (l_st c).
Definition lp_system (m : model) (z : list Q) : list lin :=
  let n := m_n m in
  map (snoc 0) (flat_map (lin_of n z) (m_cstrs m) ++
                map (fun j => mkLin (unit_vec n j (- (1))) 0 false) (seq 0 n) ++ map (fun j => mkLin (unit_vec n j 1) 1 false) (seq 0 n)) ++
  [mkLin (vscale (- (1)) (fit n (m_obj m)) ++ [1%Q]) 0 false].
Definition mip_candidates (m : model) : list (list Q * list Q) :=
  flat_map (fun z => match lp (m_n m) (lp_system m z) with Some y => [(removelast y, z)] | None => [] end) (all_bin (m_nz m)).
Definition mip (m : model) : outcome :=
  if m_cont m then
    match mip_candidates m with
    | [] => Infeasible
    | c :: cs => let '(x, z) := best (fun xz => m_val m (fst xz)) c cs in Solved x z (m_val m x) (m_val m x)
    end
  else brute m.

(** ** Correctness *)
Lemma fold_max l : forall a u, (a <= fold_left Qmax l a)%Q /\ (forall b, In b l -> b <= fold_left Qmax l a)%Q /\
  (a <= u -> (forall b, In b l -> b <= u) -> fold_left Qmax l a <= u)%Q.
Proof.
  induction l as [|b l IH]; intros a u; cbn [fold_left].
  - split; [apply Qle_refl|]. split; [intros ? []|auto].
  - destruct (IH (Qmax a b) u) as (H1 & H2 & H3). assert (A := Q.le_max_l a b). assert (B := Q.le_max_r a b). split; [lra|]. split.
    + intros c [<-|Hc]; [lra|auto].
    + intros Ha Hl. apply H3; [|auto using in_cons]. apply Q.max_lub; [exact Ha|apply Hl; now left].
Qed.
Lemma fold_min l : forall a u, (fold_left Qmin l a <= a)%Q /\ (forall b, In b l -> fold_left Qmin l a <= b)%Q /\
  (u <= a -> (forall b, In b l -> u <= b) -> u <= fold_left Qmin l a)%Q.
Proof.
  induction l as [|b l IH]; intros a u; cbn [fold_left].
  - split; [apply Qle_refl|]. split; [intros ? []|auto].
  - destruct (IH (Qmin a b) u) as (H1 & H2 & H3). assert (A := Q.le_min_l a b). assert (B := Q.le_min_r a b). split; [lra|]. split.
    + intros c [<-|Hc]; [lra|auto].
    + intros Ha Hl. apply H3; [|auto using in_cons]. apply Q.min_glb; [exact Ha|apply Hl; now left].
Qed.
Lemma pick_between lo up : (forall l u, In l lo -> In u up -> l <= u)%Q ->
  (forall l, In l lo -> l <= pick lo up)%Q /\ (forall u, In u up -> pick lo up <= u)%Q.
Proof.
  intro H. unfold pick. destruct lo as [|l lo].
  - split; [intros ? []|]. destruct up as [|u up]; [intros ? []|]. destruct (fold_min up u 0%Q) as (H1 & H2 & _). intros v [<-|Hv]; auto.
  - split.
    + destruct (fold_max lo l 0%Q) as (H1 & H2 & _). intros v [<-|Hv]; auto.
    + intros u Hu. destruct (fold_max lo l u) as (_ & _ & H3). apply H3; [apply H; [now left|exact Hu]|]. intros b Hb. apply H; [now right|exact Hu].
Qed.

Definition plain (n : nat) (S : list lin) : Prop := Forall (fun c => length (l_a c) = n) S /\ Forall (fun c => l_st c = false) S.
Definition redl (c : lin) : lin := mkLin (map Qred (l_a c)) (Qred (l_b c)) (l_st c).
Lemma dot_red a x : (dot (map Qred a) x == dot a x)%Q.
Proof. revert x. induction a as [|p a IH]; intros [|v x]; cbn; try reflexivity. now rewrite IH, Qred_correct. Qed.
Lemma redl_holds x c : holds x (redl c) <-> holds x c.
Proof. unfold holds, redl. cbn [l_a l_b l_st]. destruct (l_st c); rewrite dot_red, Qred_correct; reflexivity. Qed.
Lemma redl_all x S : Forall (holds x) (map redl S) <-> Forall (holds x) S.
Proof. rewrite Forall_map. split; apply Forall_impl; intro c; apply redl_holds. Qed.
Lemma redl_plain n S : plain n S -> plain n (map redl S).
Proof.
  intros [H1 H2]. split; rewrite Forall_map; [eapply Forall_impl; [|exact H1]|eapply Forall_impl; [|exact H2]]; intro c; cbn; [now rewrite map_length|auto].
Qed.
Lemma eliminate_plain n S : plain (Datatypes.S n) S -> plain n (eliminate S).
Proof. intros [H1 H2]. split; [now apply eliminate_length|now apply eliminate_large]. Qed.
Lemma holds_split n S c v x : plain (Datatypes.S n) S -> In c S -> (holds (v :: x) c <-> (hd0 c * v + dot (tl (l_a c)) x <= l_b c)%Q).
Proof.
  intros [H1 H2] Hc. rewrite Forall_forall in H1, H2. unfold holds, hd0. rewrite (H2 c Hc). assert (L := H1 c Hc). destruct (l_a c) as [|h a]; [discriminate|]. reflexivity.
Qed.
(** Lifting a point of the projection. *)
Lemma in_lows x S l : In l (lows x S) <-> exists q, In q S /\ (hd0 q < 0)%Q /\ l = ((dot (tl (l_a q)) x - l_b q) / (- hd0 q))%Q.
Proof.
  unfold lows. rewrite in_map_iff. split.
  - intros (q & <- & Hq). apply filter_In in Hq as [Hq E]. exists q. split; [exact Hq|]. split; [now apply Qlt_bool_iff|reflexivity].
  - intros (q & Hq & E & ->). exists q. split; [reflexivity|]. apply filter_In. split; [exact Hq|now apply Qlt_bool_iff].
Qed.
Lemma in_ups x S l : In l (ups x S) <-> exists q, In q S /\ (0 < hd0 q)%Q /\ l = ((l_b q - dot (tl (l_a q)) x) / hd0 q)%Q.
Proof.
  unfold ups. rewrite in_map_iff. split.
  - intros (q & <- & Hq). apply filter_In in Hq as [Hq E]. exists q. split; [exact Hq|]. split; [now apply Qlt_bool_iff|reflexivity].
  - intros (q & Hq & E & ->). exists q. split; [reflexivity|]. apply filter_In. split; [exact Hq|now apply Qlt_bool_iff].
Qed.
Lemma low_iff h t b v : (h < 0 -> (t - b) / - h <= v <-> h * v + t <= b)%Q.
Proof.
  intro H. assert (E : ((t - b) / - h * - h == t - b)%Q) by (field; lra). set (w := ((t - b) / - h)%Q) in *. clearbody w. split; nra.
Qed.
Lemma up_iff h t b v : (0 < h -> v <= (b - t) / h <-> h * v + t <= b)%Q.
Proof.
  intro H. assert (E : ((b - t) / h * h == b - t)%Q) by (field; lra). set (w := ((b - t) / h)%Q) in *. clearbody w. split; nra.
Qed.
Lemma point_iff n S v x : plain (Datatypes.S n) S -> (Forall (holds (v :: x)) S <->
  (forall l, In l (lows x S) -> l <= v)%Q /\ (forall u, In u (ups x S) -> v <= u)%Q /\ (forall c, In c S -> hd0 c == 0 -> dot (tl (l_a c)) x <= l_b c)%Q).
Proof.
  intro P. rewrite Forall_forall. split.
  - intro H. split; [|split].
    + intros l Hl. apply in_lows in Hl as (q & Hq & E & ->). apply low_iff; [exact E|]. now apply (holds_split n S q v x P Hq), H.
    + intros u Hu. apply in_ups in Hu as (q & Hq & E & ->). apply up_iff; [exact E|]. now apply (holds_split n S q v x P Hq), H.
    + intros c Hc E. assert (A := proj1 (holds_split n S c v x P Hc) (H c Hc)). rewrite E in A. lra.
  - intros (H1 & H2 & H3) c Hc. apply (holds_split n S c v x P Hc). destruct (Q_dec (hd0 c) 0) as [[N|N]|Z].
    + apply low_iff; [exact N|]. apply H1, in_lows. eauto.
    + apply up_iff; [exact N|]. apply H2, in_ups. eauto.
    + assert (A := H3 c Hc Z). rewrite Z. lra.
Qed.
Lemma lift_pick n S x : plain (Datatypes.S n) S -> Forall (holds x) (eliminate S) -> Forall (holds (pick (lows x S) (ups x S) :: x)) S.
Proof.
  intros P H. destruct (lift_point S n x (proj1 P) H) as (v & Hv). apply (point_iff n S v x P) in Hv as (H1 & H2 & H3). apply (point_iff n S _ x P).
  destruct (pick_between (lows x S) (ups x S)) as [A B].
  - intros l u Hl Hu. eapply Qle_trans; [apply H1, Hl|apply H2, Hu].
  - auto.
Qed.
Lemma holds_compat x y c : Forall2 Qeq x y -> holds x c -> holds y c.
Proof. intros E. assert (D := dot_compat (l_a c) x y E). unfold holds. destruct (l_st c); lra. Qed.
Lemma eq_refl_list (x : list Q) : Forall2 Qeq x x.
Proof. induction x; constructor; [reflexivity|assumption]. Qed.

Lemma lp_spec n : forall S, plain (Datatypes.S n) S -> (exists M, forall y, length y = Datatypes.S n -> Forall (holds y) S -> last y 0 <= M)%Q ->
  match lp n S with
  | Some y => length y = Datatypes.S n /\ Forall (holds y) S /\ forall y', length y' = Datatypes.S n -> Forall (holds y') S -> (last y' 0 <= last y 0)%Q
  | None => forall y, length y = Datatypes.S n -> ~ Forall (holds y) S
  end.
Proof.
  induction n as [|n IH]; intros S P (M & HM); cbn [lp].
  - set (b := match ups [] S with u :: up' => fold_left Qmin up' u | [] => 0%Q end).
    assert (UB : forall v, Forall (holds [v]) S -> (v <= b)%Q /\ Forall (holds [b]) S).
    { intros v Hv. assert (HV := Hv). apply (point_iff 0 S v [] P) in Hv as (H1 & H2 & H3). assert (LE : (v <= b)%Q).
      { unfold b. destruct (ups [] S) as [|u up] eqn:EU.
        - exfalso. assert (F : Forall (holds [Qmax v (M + 1)]) S).
          { apply (point_iff 0 S _ [] P). split; [|split].
            - intros l Hl. eapply Qle_trans; [apply H1, Hl|apply Q.le_max_l].
            - rewrite EU. intros ? [].
            - exact H3. }
          assert (G := HM [Qmax v (M + 1)] eq_refl F). cbn in G. assert (G2 := Q.le_max_r v (M + 1)). lra.
        - apply fold_min; [apply H2; now left|]. intros c Hc. apply H2. now right. }
      split; [exact LE|]. apply (point_iff 0 S b [] P). split; [|split; [|exact H3]].
      - intros l Hl. specialize (H1 l Hl). lra.
      - intros u Hu. unfold b. destruct (ups [] S) as [|u0 up]; [destruct Hu|]. destruct (fold_min up u0 0%Q) as (A & B & _). destruct Hu as [<-|Hu]; auto. }
    assert (HB : forallb (holdsb [b]) S = true <-> Forall (holds [b]) S).
    { rewrite forallb_forall, Forall_forall. destruct P as [_ P2]. rewrite Forall_forall in P2. split; intros H c Hc; specialize (H c Hc); unfold holdsb, holds in *; rewrite (P2 c Hc) in *; now apply Qle_bool_iff. }
    destruct (forallb (holdsb [b]) S) eqn:EF.
    + split; [reflexivity|]. split.
      * eapply Forall_impl; [|apply HB; reflexivity]. intros c. apply holds_compat. constructor; [symmetry; apply Qred_correct|constructor].
      * intros y' L' H'. destruct y' as [|v [|]]; try discriminate. cbn. rewrite Qred_correct. now apply UB.
    + intros y L H. destruct y as [|v [|]]; try discriminate. apply UB in H as [_ H]. apply HB in H. discriminate.
  - assert (P'' := redl_plain (Datatypes.S n) _ (eliminate_plain (Datatypes.S n) S P)).
    assert (HL : forall x, length x = Datatypes.S n -> Forall (holds x) (map redl (eliminate S)) -> Forall (holds (pick (lows x S) (ups x S) :: x)) S).
    { intros x Lx Hx. apply (lift_pick (Datatypes.S n)); [exact P|]. now apply redl_all. }
    assert (HN : forall x : list Q, length x = Datatypes.S n -> x <> []) by (intros x Lx ->; discriminate).
    specialize (IH (map redl (eliminate S)) P''). change (map (fun c => mkLin (map Qred (l_a c)) (Qred (l_b c)) (l_st c)) (eliminate S)) with (map redl (eliminate S)).
    destruct (lp n (map redl (eliminate S))) as [x|].
    + destruct IH as (Lx & Hx & Mx).
      { exists M. intros y Ly Hy. assert (A := HM (pick (lows y S) (ups y S) :: y) (f_equal Datatypes.S Ly) (HL y Ly Hy)). now rewrite last_cons_len in A by auto. }
      split; [cbn; now f_equal|]. split.
      * eapply Forall_impl; [|exact (HL x Lx Hx)]. intro c. apply holds_compat. constructor; [symmetry; apply Qred_correct|apply eq_refl_list].
      * intros y' L' H'. destruct y' as [|v' x']; [discriminate|]. assert (Lx' : length x' = Datatypes.S n) by now injection L'.
        rewrite !last_cons_len by auto. apply Mx; [exact Lx'|]. apply redl_all. now apply (eliminate_sound S (Datatypes.S n) v'); [apply P|apply P|].
    + intros y Ly Hy. destruct y as [|v x]; [discriminate|]. assert (Lx : length x = Datatypes.S n) by now injection Ly. apply (fun h => IH h x Lx).
      * exists M. intros w Lw Hw. assert (A := HM (pick (lows w S) (ups w S) :: w) (f_equal Datatypes.S Lw) (HL w Lw Hw)). now rewrite last_cons_len in A by auto.
      * apply redl_all. now apply (eliminate_sound S (Datatypes.S n) v); [apply P|apply P|].
Qed.

(** ** The systems of a model *)
Lemma fit_len n : forall a, length (fit n a) = n.
Proof. induction n as [|n IH]; intros [|p a]; cbn; auto. Qed.
Lemma dot_fit n : forall a x, length x = n -> (dot (fit n a) x == dot a x)%Q.
Proof.
  induction n as [|n IH]; intros a [|v x] L; try discriminate; [destruct a; reflexivity|]. injection L as L. destruct a as [|p a]; cbn [fit dot].
  - rewrite (IH [] x L). destruct x; cbn; ring.
  - now rewrite (IH a x L).
Qed.
Lemma dot_zeros n : forall x, (dot (repeat 0%Q n) x == 0)%Q.
Proof. induction n as [|n IH]; intros [|v x]; cbn; try reflexivity. rewrite IH. ring. Qed.
Lemma flat_holds n b x : Forall (holds x) (flat n b) <-> b = true.
Proof.
  unfold flat. split.
  - intro H. inversion H as [|? ? A _]; subst. unfold holds in A. cbn [l_a l_b l_st] in A. rewrite dot_zeros in A. destruct b; [reflexivity|lra].
  - intros ->. constructor; [|constructor]. unfold holds. cbn [l_a l_b l_st]. rewrite dot_zeros. lra.
Qed.
Lemma one_holds x a b (P : Prop) : ((dot a x <= b)%Q <-> P) -> (Forall (holds x) [mkLin a b false] <-> P).
Proof. intro H. split; [intro F; inversion F; subst; now apply H|intro F; constructor; [now apply H|constructor]]. Qed.
Lemma lin_of_holds n z c x : length x = n -> (Forall (holds x) (lin_of n z c) <-> cstr_ok 0 x z c).
Proof.
  intro L. destruct c as [a b|a [|b|]|a b M s|s a b|p r|s]; cbn [lin_of cstr_ok].
  - apply one_holds. rewrite dot_fit by exact L. split; lra.
  - rewrite flat_holds. tauto.
  - apply one_holds. rewrite dot_vscale, dot_fit by exact L. split; lra.
  - rewrite flat_holds. split; [discriminate|intros []].
  - apply one_holds. rewrite dot_fit by exact L. split; lra.
  - destruct (Qeq_bool (nth s z 0%Q) 1) eqn:E.
    + apply Qeq_bool_iff in E. apply one_holds. rewrite dot_fit by exact L. split; [intros; lra|intro H; specialize (H E); lra].
    + rewrite flat_holds. split; [|reflexivity]. intros _ H. apply Qeq_bool_iff in H. congruence.
  - rewrite flat_holds. rewrite Qplus_0_r; apply Qle_bool_iff.
  - rewrite flat_holds. apply Qeq_bool_iff.
Qed.
Lemma lin_of_plain n z c : plain n (lin_of n z c).
Proof.
  assert (F : forall b, plain n (flat n b)) by (intro b; split; constructor; try constructor; cbn; apply repeat_length).
  assert (O : forall a b, length a = n -> plain n [mkLin a b false]) by (intros a b L; split; constructor; try constructor; exact L).
  destruct c as [a b|a [|b|]|a b M s|s a b|p r|s]; cbn [lin_of]; auto using fit_len.
  - apply O. unfold vscale. now rewrite map_length, fit_len.
  - destruct (Qeq_bool _ _); auto using fit_len.
Qed.
Lemma plain_app n S T : plain n S -> plain n T -> plain n (S ++ T).
Proof. intros [A B] [C D]. split; apply Forall_app; auto. Qed.
Lemma unit_length n j v : length (unit_vec n j v) = n.
Proof. unfold unit_vec. now rewrite map_length, seq_length. Qed.
Lemma snoc_holds x t c : length (l_a c) = length x -> (holds (x ++ [t]) (snoc 0 c) <-> holds x c).
Proof. intro L. unfold holds, snoc. cbn [l_a l_b l_st]. destruct (l_st c); rewrite dot_snoc by exact L; split; lra. Qed.

Section System.
  Variable m : model.
  Variable z : list Q.
  Local Notation n := (m_n m).
  Definition inner : list lin := flat_map (lin_of n z) (m_cstrs m) ++
    map (fun j => mkLin (unit_vec n j (- (1))) 0 false) (seq 0 n) ++ map (fun j => mkLin (unit_vec n j 1) 1 false) (seq 0 n).
  Lemma inner_plain : plain n inner.
  Proof.
    apply plain_app; [|apply plain_app].
    - split; apply Forall_forall; intros c Hc; apply in_flat_map in Hc as (d & _ & Hc); destruct (lin_of_plain n z d) as [A B]; rewrite Forall_forall in A, B; auto.
    - split; rewrite Forall_map; apply Forall_forall; intros j _; [apply unit_length|reflexivity].
    - split; rewrite Forall_map; apply Forall_forall; intros j _; [apply unit_length|reflexivity].
  Qed.
  Lemma inner_holds x : length x = n -> (Forall (holds x) inner <-> in_box n x /\ Forall (cstr_ok 0 x z) (m_cstrs m)).
  Proof.
    intro L. unfold inner. rewrite !Forall_app, !Forall_map. assert (E : Forall (holds x) (flat_map (lin_of n z) (m_cstrs m)) <-> Forall (cstr_ok 0 x z) (m_cstrs m)).
    { induction (m_cstrs m) as [|c l IH]; cbn [flat_map]; [split; constructor|]. rewrite Forall_app, IH, lin_of_holds by exact L. split.
      - intros [A B]. now constructor.
      - intro A. inversion A; subst. auto. }
    rewrite E. assert (B : (Forall (fun j => holds x (mkLin (unit_vec n j (- (1))) 0 false)) (seq 0 n) /\ Forall (fun j => holds x (mkLin (unit_vec n j 1) 1 false)) (seq 0 n)) <-> in_box n x).
    { rewrite !Forall_forall. split.
      - intros [A B]. split; [exact L|]. apply Forall_forall. intros v Hv. destruct (In_nth _ _ 0%Q Hv) as (j & Hj & <-). rewrite L in Hj.
        assert (A1 := A j ltac:(apply in_seq; lia)). assert (B1 := B j ltac:(apply in_seq; lia)). unfold holds in A1, B1. cbn [l_a l_b l_st] in A1, B1.
        rewrite dot_unit in A1, B1 by assumption. lra.
      - intros [_ BX]. rewrite Forall_forall in BX. split; intros j Hj; apply in_seq in Hj; unfold holds; cbn [l_a l_b l_st]; rewrite dot_unit by (try assumption; lia);
          assert (X := BX (nth j x 0%Q) ltac:(apply nth_In; lia)); lra. }
    tauto.
  Qed.
  Lemma system_plain : plain (S n) (lp_system m z).
  Proof.
    destruct inner_plain as [A B]. apply plain_app.
    - fold inner. split; rewrite Forall_map; [eapply Forall_impl; [|exact A]|eapply Forall_impl; [|exact B]]; intros c Hc; cbn [snoc l_a l_st]; [rewrite app_length, Hc; apply Nat.add_1_r|exact Hc].
    - split; constructor; try constructor; cbn [l_a]. rewrite app_length. unfold vscale. rewrite map_length, fit_len. apply Nat.add_1_r.
  Qed.
  Lemma system_holds x t : length x = n -> (Forall (holds (x ++ [t])) (lp_system m z) <-> (in_box n x /\ Forall (cstr_ok 0 x z) (m_cstrs m)) /\ (t <= dot (m_obj m) x)%Q).
  Proof.
    intro L. unfold lp_system. fold inner. rewrite Forall_app, Forall_map. rewrite (one_holds _ _ _ (t <= dot (m_obj m) x)%Q).
    2: { rewrite dot_snoc by (unfold vscale; rewrite map_length, fit_len; auto). rewrite dot_vscale, dot_fit by exact L. split; lra. }
    rewrite <- inner_holds by exact L. destruct inner_plain as [A _]. rewrite Forall_forall in A.
    assert (E : Forall (fun c => holds (x ++ [t]) (snoc 0 c)) inner <-> Forall (holds x) inner).
    { rewrite !Forall_forall. split; intros H c Hc; apply (snoc_holds x t c); auto; rewrite L; auto. }
    tauto.
  Qed.
End System.

Lemma dot_cap n : forall a x, length x = n -> in_box n x -> (dot a x <= qsum (map (fun c => Qmax 0 c) a))%Q.
Proof.
  induction n as [|n IH]; intros a x L [_ B].
  - destruct x; [|discriminate]. rewrite dot_nil_r. clear. induction a as [|p a IH]; [apply Qle_refl|]. assert (G := Q.le_max_l 0 p). cbn [map qsum] in *. lra.
  - destruct x as [|v x]; [discriminate|]. injection L as L. inversion B as [|? ? V1 V2]; subst. destruct a as [|p a]; cbn [dot map]; [apply Qle_refl|].
    assert (H := IH a x eq_refl (conj eq_refl V2)). assert (G := Q.le_max_l 0 p). assert (G2 := Q.le_max_r 0 p). cbn [qsum]. nra.
Qed.
Lemma snoc_of_len (y : list Q) n : length y = S n -> exists x t, y = x ++ [t] /\ length x = n.
Proof.
  intro L. destruct (exists_last (l := y)) as (x & t & ->); [intros ->; discriminate|]. exists x, t. split; [reflexivity|]. rewrite app_length in L. cbn in L. lia.
Qed.
Lemma lp_model m z : match lp (m_n m) (lp_system m z) with
  | Some y => let x := removelast y in (in_box (m_n m) x /\ Forall (cstr_ok 0 x z) (m_cstrs m)) /\
      forall x', in_box (m_n m) x' -> Forall (cstr_ok 0 x' z) (m_cstrs m) -> (m_val m x' <= m_val m x)%Q
  | None => forall x, in_box (m_n m) x -> ~ Forall (cstr_ok 0 x z) (m_cstrs m)
  end.
Proof.
  assert (BD : exists M, forall y, length y = S (m_n m) -> Forall (holds y) (lp_system m z) -> (last y 0 <= M)%Q).
  { exists (qsum (map (fun c => Qmax 0 c) (m_obj m))). intros y L Hy. apply snoc_of_len in L as (x & t & -> & L). rewrite last_last. apply system_holds in Hy as [[B _] T]; [|exact L].
    eapply Qle_trans; [exact T|]. now apply (dot_cap (m_n m)). }
  assert (H := lp_spec (m_n m) (lp_system m z) (system_plain m z)). destruct (lp (m_n m) (lp_system m z)) as [y|].
  - destruct H as (L & H & MX).
    { exact BD. }
    apply snoc_of_len in L as (x & t & -> & L). rewrite removelast_last. apply system_holds in H as [H T]; [|exact L]. split; [exact H|]. intros x' B' C'.
    assert (A := MX (x' ++ [dot (m_obj m) x'])). rewrite !last_last in A. unfold m_val. assert (L' : length x' = m_n m) by apply B'.
    assert (E : (dot (m_obj m) x' <= t)%Q); [|lra]. apply A; [rewrite app_length, L'; apply Nat.add_1_r|]. apply system_holds; [exact L'|]. split; [auto|apply Qle_refl].
  - intros x B C. apply (H BD (x ++ [dot (m_obj m) x])).
    + destruct B as [L _]. rewrite app_length, L. apply Nat.add_1_r.
    + apply system_holds; [apply B|]. split; [auto|apply Qle_refl].
Qed.

Lemma mip_candidates_ok m x z : m_cont m = true -> In (x, z) (mip_candidates m) -> model_ok 0 m x z.
Proof.
  intros E H. unfold mip_candidates in H. apply in_flat_map in H as (w & Hw & H). assert (S := lp_model m w). destruct (lp (m_n m) (lp_system m w)) as [y|]; [|destruct H].
  destruct H as [H|[]]. injection H as <- <-. cbv zeta in S. destruct S as [[B C] _]. apply all_bin_bin in Hw as [Bw Dw]. split; [split; [exact B|congruence]|]. split; [apply Dw|]. split; assumption.
Qed.
Lemma mip_candidates_complete m x z : m_cont m = true -> model_ok 0 m x z -> exists x' z', In (x', z') (mip_candidates m) /\ (m_val m x <= m_val m x')%Q.
Proof.
  intros E ([B _] & LZ & BZ & C). assert (CZ := canon_eq z BZ).
  assert (C' : Forall (cstr_ok 0 x (map canon z)) (m_cstrs m)).
  { eapply Forall_impl; [|exact C]. intro c. apply cstr_compat; [apply eq_refl_list|exact CZ]. }
  assert (S := lp_model m (map canon z)). destruct (lp (m_n m) (lp_system m (map canon z))) as [y|] eqn:EL; [|now destruct (S x B)].
  cbv zeta in S. destruct S as [_ S]. exists (removelast y), (map canon z). split; [|now apply S]. unfold mip_candidates. apply in_flat_map. exists (map canon z). split; [now apply canon_In|].
  rewrite EL. now left.
Qed.
Theorem mip_exact m : outcome_exact m (mip m).
Proof.
  unfold mip. destruct (m_cont m) eqn:E; [|now apply brute_exact]. destruct (mip_candidates m) as [|c cs] eqn:EC.
  - cbn. intros x z H. destruct (mip_candidates_complete m x z E H) as (x' & z' & H' & _). rewrite EC in H'. destruct H'.
  - destruct (best_spec (fun xz => m_val m (fst xz)) cs c) as [B1 B2]. destruct (best (fun xz => m_val m (fst xz)) c cs) as [x z]. cbn [outcome_exact].
    rewrite <- EC in B1, B2. split; [now apply mip_candidates_ok|]. split; [reflexivity|]. split; [reflexivity|]. intros x' z' H.
    destruct (mip_candidates_complete m x' z' E H) as (x2 & z2 & H2 & L2). eapply Qle_trans; [exact L2|]. exact (B2 _ H2).
Qed.
