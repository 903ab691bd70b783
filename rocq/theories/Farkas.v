(** Systems of linear inequalities over Q: a system without solution has a contradictory non-negative combination
    (Fourier-Motzkin elimination). *)
From Verif Require Import Base BaseFacts Spec.

(** a.x <= b, or a.x < b if [l_st]. *)
Record lin := mkLin { l_a : list Q; l_b : Q; l_st : bool }.
Definition holds (x : list Q) (c : lin) : Prop := if l_st c then (dot (l_a c) x < l_b c)%Q else (dot (l_a c) x <= l_b c)%Q.

Definition vscale (k : Q) (a : list Q) : list Q := map (fun v => k * v)%Q a.
Fixpoint vadd (a b : list Q) : list Q :=
  match a, b with p :: a', q :: b' => (p + q)%Q :: vadd a' b' | _, _ => [] end.
Lemma vadd_length a b : length a = length b -> length (vadd a b) = length a.
Proof. revert b. induction a as [|p a IH]; intros [|q b] H; try discriminate; cbn; [reflexivity|]. f_equal. apply IH. now injection H. Qed.
Lemma dot_vscale k a x : (dot (vscale k a) x == k * dot a x)%Q.
Proof. revert x. induction a as [|p a IH]; intros [|v x]; cbn; try ring. rewrite IH. ring. Qed.
Lemma dot_vadd a b x : length a = length b -> (dot (vadd a b) x == dot a x + dot b x)%Q.
Proof.
  revert b x. induction a as [|p a IH]; intros [|q b] [|v x] H; try discriminate; cbn; try ring. rewrite IH by now injection H. ring.
Qed.

(** Combinations with positive coefficients. *)
Definition lscale (k : Q) (c : lin) : lin := mkLin (vscale k (l_a c)) (k * l_b c)%Q (l_st c).
Definition ladd (c d : lin) : lin := mkLin (vadd (l_a c) (l_a d)) (l_b c + l_b d)%Q (l_st c || l_st d).
Inductive der (S : list lin) : lin -> Prop :=
| der_in c : In c S -> der S c
| der_scale k c : (0 < k)%Q -> der S c -> der S (lscale k c)
| der_add c d : der S c -> der S d -> der S (ladd c d).

Definition absurd_lin (c : lin) : Prop := Forall (fun v => v == 0)%Q (l_a c) /\ if l_st c then (l_b c <= 0)%Q else (l_b c < 0)%Q.

(** ** A point between lower and upper bounds *)
Definition above (x : Q) (p : Q * bool) : Prop := if snd p then (fst p < x)%Q else (fst p <= x)%Q.
Definition below (x : Q) (p : Q * bool) : Prop := if snd p then (x < fst p)%Q else (x <= fst p)%Q.
Definition compatible (p q : Q * bool) : Prop := if snd p || snd q then (fst p < fst q)%Q else (fst p <= fst q)%Q.

Lemma list_max (L : list (Q * bool)) : L <> [] -> exists p, In p L /\ forall q, In q L -> (fst q <= fst p)%Q.
Proof.
  induction L as [|a L IH]; [easy|]. intros _. destruct L as [|b L].
  - exists a. split; [now left|]. intros q [<-|[]]. apply Qle_refl.
  - destruct IH as (p & Hp & H); [discriminate|]. destruct (Qlt_le_dec (fst p) (fst a)) as [C|C].
    + exists a. split; [now left|]. intros q [<-|Hq]; [apply Qle_refl|]. specialize (H q Hq). lra.
    + exists p. split; [now right|]. intros q [<-|Hq]; [exact C|auto].
Qed.
Lemma list_min (L : list (Q * bool)) : L <> [] -> exists p, In p L /\ forall q, In q L -> (fst p <= fst q)%Q.
Proof.
  induction L as [|a L IH]; [easy|]. intros _. destruct L as [|b L].
  - exists a. split; [now left|]. intros q [<-|[]]. apply Qle_refl.
  - destruct IH as (p & Hp & H); [discriminate|]. destruct (Qlt_le_dec (fst a) (fst p)) as [C|C].
    + exists a. split; [now left|]. intros q [<-|Hq]; [apply Qle_refl|]. specialize (H q Hq). lra.
    + exists p. split; [now right|]. intros q [<-|Hq]; [exact C|auto].
Qed.

Lemma between (L U : list (Q * bool)) : (forall p q, In p L -> In q U -> compatible p q) ->
  exists x, (forall p, In p L -> above x p) /\ (forall q, In q U -> below x q).
Proof.
  intro H. destruct L as [|l0 L0].
  { destruct U as [|u0 U0]; [exists 0%Q; split; intros ? []|]. destruct (list_min (u0 :: U0) ltac:(discriminate)) as (u & Hu & Hmin).
    exists (fst u - 1)%Q. split; [intros ? []|]. intros q Hq. specialize (Hmin q Hq). unfold below. destruct (snd q); lra. }
  destruct (list_max (l0 :: L0) ltac:(discriminate)) as (l & Hl & Hmax). destruct U as [|u0 U0].
  { exists (fst l + 1)%Q. split; [|intros ? []]. intros p Hp. specialize (Hmax p Hp). unfold above. destruct (snd p); lra. }
  destruct (list_min (u0 :: U0) ltac:(discriminate)) as (u & Hu & Hmin).
  set (L := l0 :: L0) in *. set (U := u0 :: U0) in *. clearbody L U. assert (HC := H l u Hl Hu). destruct (Qlt_le_dec (fst l) (fst u)) as [C|C].
  - exists ((fst l + fst u) * (1 # 2))%Q. split.
    + intros p Hp. specialize (Hmax p Hp). unfold above. destruct (snd p); lra.
    + intros q Hq. specialize (Hmin q Hq). unfold below. destruct (snd q); lra.
  - assert (E : (fst l == fst u)%Q) by (unfold compatible in HC; destruct (snd l || snd u); lra). exists (fst l). split.
    + intros p Hp. assert (A := Hmax p Hp). assert (B := H p u Hp Hu). unfold above, compatible in *. destruct (snd p); cbn in B; lra.
    + intros q Hq. assert (A := Hmin q Hq). assert (B := H l q Hl Hq). unfold below, compatible in *. destruct (snd q); [rewrite orb_true_r in B|]; lra.
Qed.

(** ** Elimination of the first variable *)
Definition hd0 (c : lin) : Q := hd 0%Q (l_a c).
Definition drop (c : lin) : lin := mkLin (tl (l_a c)) (l_b c) (l_st c).
(** Constraint with coefficient 1, resp. -1, on the first variable. *)
Definition unit_pos (c : lin) : lin := lscale (/ hd0 c) c.
Definition unit_neg (c : lin) : lin := lscale (/ (- hd0 c)) c.
Definition posb (c : lin) : bool := Qlt_bool 0 (hd0 c).
Definition negb0 (c : lin) : bool := Qlt_bool (hd0 c) 0.
Definition zerob (c : lin) : bool := Qeq_bool (hd0 c) 0.
Definition eliminate (S : list lin) : list lin :=
  map drop (filter zerob S) ++
  flat_map (fun p => map (fun q => drop (ladd (unit_pos p) (unit_neg q))) (filter negb0 S)) (filter posb S).

Lemma in_eliminate S c : In c (eliminate S) <->
  (exists d, In d S /\ (hd0 d == 0)%Q /\ c = drop d) \/
  (exists p q, In p S /\ In q S /\ (0 < hd0 p)%Q /\ (hd0 q < 0)%Q /\ c = drop (ladd (unit_pos p) (unit_neg q))).
Proof.
  unfold eliminate. rewrite in_app_iff, in_map_iff, in_flat_map. split.
  - intros [(d & <- & Hd)|(p & Hp & Hc)].
    + apply filter_In in Hd as [Hd E]. left. exists d. repeat split; auto. now apply Qeq_bool_iff.
    + apply in_map_iff in Hc as (q & <- & Hq). apply filter_In in Hp as [Hp Ep]. apply filter_In in Hq as [Hq Eq]. right. exists p, q.
      repeat split; auto; now apply Qlt_bool_iff.
  - intros [(d & Hd & E & ->)|(p & q & Hp & Hq & Ep & Eq & ->)].
    + left. exists d. split; [reflexivity|]. apply filter_In. split; [exact Hd|]. now apply Qeq_bool_iff.
    + right. exists p. split; [apply filter_In; split; [exact Hp|now apply Qlt_bool_iff]|]. apply in_map_iff. exists q. split; [reflexivity|].
      apply filter_In. split; [exact Hq|]. now apply Qlt_bool_iff.
Qed.

Lemma der_lift S n : Forall (fun c => length (l_a c) = Datatypes.S n) S -> forall c, der (eliminate S) c ->
  exists h, (h == 0)%Q /\ der S (mkLin (h :: l_a c) (l_b c) (l_st c)).
Proof.
  intro HL. rewrite Forall_forall in HL. induction 1 as [c Hc|k c Hk _ (h & Eh & IH)|c d _ (h & Eh & IHc) _ (g & Eg & IHd)].
  - apply in_eliminate in Hc as [(d & Hd & E & ->)|(p & q & Hp & Hq & Ep & Eq & ->)].
    + assert (L := HL d Hd). destruct d as [[|h a] b st]; [discriminate|]. exists h. split; [exact E|]. apply der_in. exact Hd.
    + assert (Lp := HL p Hp). assert (Lq := HL q Hq). assert (D : der S (ladd (unit_pos p) (unit_neg q))).
      { apply der_add; (apply der_scale; [apply Qinv_lt_0_compat; lra|now apply der_in]). }
      unfold hd0 in *. destruct p as [[|hp ap] bp sp]; [discriminate|]. destruct q as [[|hq aq] bq sq]; [discriminate|]. cbn in Ep, Eq.
      exists (/ hp * hp + / (- hq) * hq)%Q. split; [field; split; lra|]. exact D.
  - exists (k * h)%Q. split; [rewrite Eh; ring|]. exact (der_scale S k _ Hk IH).
  - exists (h + g)%Q. split; [rewrite Eh, Eg; ring|]. exact (der_add S _ _ IHc IHd).
Qed.

Lemma lift_point S n x : Forall (fun c => length (l_a c) = Datatypes.S n) S -> Forall (holds x) (eliminate S) ->
  exists x0, Forall (holds (x0 :: x)) S.
Proof.
  intros HL HX. rewrite Forall_forall in HL, HX.
  pose (lo := map (fun q => ((dot (tl (l_a q)) x - l_b q) / (- hd0 q), l_st q)%Q) (filter negb0 S)).
  pose (up := map (fun p => ((l_b p - dot (tl (l_a p)) x) / hd0 p, l_st p)%Q) (filter posb S)).
  assert (DH : forall c, In c S -> (dot (l_a c) = fun y => match y with [] => 0 | v :: y' => hd0 c * v + dot (tl (l_a c)) y' end)%Q).
  { intros c Hc. assert (L := HL c Hc). unfold hd0. destruct (l_a c) as [|h a]; [discriminate|]. reflexivity. }
  destruct (between lo up) as (x0 & H1 & H2).
  { intros l u Hl Hu. apply in_map_iff in Hl as (q & <- & Hq). apply in_map_iff in Hu as (p & <- & Hp).
    apply filter_In in Hp as [Hp Ep]. apply filter_In in Hq as [Hq Eq]. apply Qlt_bool_iff in Ep, Eq.
    assert (HC : holds x (drop (ladd (unit_pos p) (unit_neg q)))) by (apply HX, in_eliminate; right; exists p, q; auto).
    assert (Lp := HL p Hp). assert (Lq := HL q Hq). unfold hd0 in *. destruct p as [[|hp ap] bp sp]; [discriminate|]. destruct q as [[|hq aq] bq sq]; [discriminate|].
    cbn [hd tl l_a l_b l_st] in *. unfold holds, drop, ladd, unit_pos, unit_neg, lscale, hd0 in HC. cbn [l_a l_b l_st vscale map vadd tl hd] in HC. fold (vscale (/ hp) ap) (vscale (/ - hq) aq) in HC.
    assert (D : (dot (vadd (vscale (/ hp) ap) (vscale (/ - hq) aq)) x == / hp * dot ap x + / (- hq) * dot aq x)%Q).
    { rewrite dot_vadd, !dot_vscale by (unfold vscale; rewrite !map_length; cbn in Lp, Lq; lia). reflexivity. }
    unfold compatible. cbn [fst snd]. rewrite orb_comm.
    assert (E1 : ((dot aq x - bq) / - hq == / - hq * dot aq x - / - hq * bq)%Q) by (field; lra).
    assert (E2 : ((bp - dot ap x) / hp == / hp * bp - / hp * dot ap x)%Q) by (field; lra).
    destruct (sp || sq); rewrite D in HC; rewrite E1, E2; lra. }
  exists x0. apply Forall_forall. intros c Hc. unfold holds. rewrite (DH c Hc). destruct (Q_dec (hd0 c) 0) as [[N|P]|Z].
  - assert (A : above x0 ((dot (tl (l_a c)) x - l_b c) / (- hd0 c), l_st c)%Q).
    { apply H1, in_map_iff. exists c. split; [reflexivity|]. apply filter_In. split; [exact Hc|]. now apply Qlt_bool_iff. }
    unfold above in A. cbn [fst snd] in A. set (t := dot (tl (l_a c)) x) in *. set (h := hd0 c) in *. set (b := l_b c) in *. clearbody t h b.
    assert (E : (((t - b) / - h) * - h == t - b)%Q) by (field; lra). set (w := ((t - b) / - h)%Q) in *. clearbody w. destruct (l_st c); nra.
  - assert (A : below x0 ((l_b c - dot (tl (l_a c)) x) / hd0 c, l_st c)%Q).
    { apply H2, in_map_iff. exists c. split; [reflexivity|]. apply filter_In. split; [exact Hc|]. now apply Qlt_bool_iff. }
    unfold below in A. cbn [fst snd] in A. set (t := dot (tl (l_a c)) x) in *. set (h := hd0 c) in *. set (b := l_b c) in *. clearbody t h b.
    assert (E : (((b - t) / h) * h == b - t)%Q) by (field; lra). set (w := ((b - t) / h)%Q) in *. clearbody w. destruct (l_st c); nra.
  - assert (A : holds x (drop c)) by (apply HX, in_eliminate; left; exists c; auto). unfold holds, drop in A. cbn [l_a l_b l_st] in A.
    destruct (l_st c); rewrite Z; lra.
Qed.

Theorem elimination n : forall S, Forall (fun c => length (l_a c) = n) S ->
  (exists x, length x = n /\ Forall (holds x) S) \/ (exists c, der S c /\ absurd_lin c).
Proof.
  induction n as [|n IH]; intros S HL.
  - assert (D : (exists c, In c S /\ absurd_lin c) \/ Forall (holds []) S).
    { clear -HL. induction S as [|c S IH]; [now right|]. inversion HL as [|? ? L HL']; subst. destruct (IH HL') as [(d & Hd & A)|H].
      - left. exists d. split; [now right|exact A].
      - destruct c as [[|] b st]; [|discriminate]. unfold absurd_lin, holds. destruct st.
        + destruct (Qlt_le_dec 0 b) as [C|C]; [right; constructor; [exact C|exact H]|left]. exists (mkLin [] b true). split; [now left|]. split; [constructor|exact C].
        + destruct (Qlt_le_dec b 0) as [C|C]; [left|right; constructor; [exact C|exact H]]. exists (mkLin [] b false). split; [now left|]. split; [constructor|exact C]. }
    destruct D as [(c & Hc & A)|H]; [right; exists c; split; [now apply der_in|exact A]|left; exists []; auto].
  - assert (HL2 : Forall (fun c => length (l_a c) = n) (eliminate S)).
    { rewrite Forall_forall in HL |- *. intros c Hc. apply in_eliminate in Hc as [(d & Hd & _ & ->)|(p & q & Hp & Hq & _ & _ & ->)].
      - specialize (HL d Hd). cbn. destruct (l_a d); [discriminate|]. now injection HL.
      - assert (Lp := HL p Hp). assert (Lq := HL q Hq). unfold drop, ladd, unit_pos, unit_neg, lscale. cbn [l_a].
        destruct (l_a p) as [|hp ap]; [discriminate|]. destruct (l_a q) as [|hq aq]; [discriminate|]. cbn [vscale map vadd tl]. rewrite vadd_length; rewrite !map_length; cbn in *; lia. }
    destruct (IH (eliminate S) HL2) as [(x & Lx & Hx)|(c & Dc & A1 & A2)].
    + left. destruct (lift_point S n x HL Hx) as (x0 & H). exists (x0 :: x). split; [cbn; now f_equal|exact H].
    + right. destruct (der_lift S n HL c Dc) as (h & Eh & D). eexists. split; [exact D|]. split; [constructor; assumption|exact A2].
Qed.

(** ** Projection and largest last coordinate *)
Lemma eliminate_length S n : Forall (fun c => length (l_a c) = Datatypes.S n) S -> Forall (fun c => length (l_a c) = n) (eliminate S).
Proof.
  intro HL. rewrite Forall_forall in HL |- *. intros c Hc. apply in_eliminate in Hc as [(d & Hd & _ & ->)|(p & q & Hp & Hq & _ & _ & ->)].
  - specialize (HL d Hd). cbn. destruct (l_a d); [discriminate|]. now injection HL.
  - assert (Lp := HL p Hp). assert (Lq := HL q Hq). unfold drop, ladd, unit_pos, unit_neg, lscale. cbn [l_a].
    destruct (l_a p) as [|hp ap]; [discriminate|]. destruct (l_a q) as [|hq aq]; [discriminate|]. cbn [vscale map vadd tl]. rewrite vadd_length; rewrite !map_length; cbn in *; lia.
Qed.
Lemma eliminate_large S : Forall (fun c => l_st c = false) S -> Forall (fun c => l_st c = false) (eliminate S).
Proof.
  intro HL. rewrite Forall_forall in HL |- *. intros c Hc. apply in_eliminate in Hc as [(d & Hd & _ & ->)|(p & q & Hp & Hq & _ & _ & ->)]; cbn.
  - now apply HL.
  - now rewrite (HL p Hp), (HL q Hq).
Qed.
Lemma eliminate_sound S n v x : Forall (fun c => length (l_a c) = Datatypes.S n) S -> Forall (fun c => l_st c = false) S ->
  Forall (holds (v :: x)) S -> Forall (holds x) (eliminate S).
Proof.
  intros HL HN HX. rewrite Forall_forall in HL, HN, HX |- *. intros c Hc. apply in_eliminate in Hc as [(d & Hd & Z & ->)|(p & q & Hp & Hq & Pp & Pq & ->)].
  - assert (H := HX d Hd). assert (L := HL d Hd). unfold holds in *. cbn [drop l_st l_a l_b]. rewrite (HN d Hd) in *. unfold hd0 in Z. destruct (l_a d) as [|h a]; [discriminate|].
    cbn [tl hd dot] in *. rewrite Z in H. lra.
  - assert (H1 := HX p Hp). assert (H2 := HX q Hq). assert (L1 := HL p Hp). assert (L2 := HL q Hq). unfold holds in *. cbn [drop ladd unit_pos unit_neg lscale l_st l_a l_b].
    rewrite (HN p Hp), (HN q Hq) in *. cbn [orb]. unfold hd0 in *. destruct (l_a p) as [|hp ap]; [discriminate|]. destruct (l_a q) as [|hq aq]; [discriminate|].
    cbn [tl hd dot vscale map vadd] in *. fold (vscale (/ hp) ap) (vscale (/ - hq) aq).
    rewrite dot_vadd, !dot_vscale by (unfold vscale; rewrite !map_length; cbn in L1, L2; lia).
    assert (P1 : (0 < / hp)%Q) by now apply Qinv_lt_0_compat. assert (P2 : (0 < / - hq)%Q) by (apply Qinv_lt_0_compat; lra).
    assert (E1 : (/ hp * (hp * v + dot ap x) == v + / hp * dot ap x)%Q) by (field; lra).
    assert (E2 : (/ - hq * (hq * v + dot aq x) == - v + / - hq * dot aq x)%Q) by (field; lra).
    assert (G1 : (/ hp * (hp * v + dot ap x) <= / hp * l_b p)%Q) by (apply Qmult_le_l; auto).
    assert (G2 : (/ - hq * (hq * v + dot aq x) <= / - hq * l_b q)%Q) by (apply Qmult_le_l; auto). lra.
Qed.

Lemma last_cons_len {A} (v d : A) x : x <> [] -> last (v :: x) d = last x d.
Proof. destruct x; [congruence|reflexivity]. Qed.
Theorem last_max n : forall S, Forall (fun c => length (l_a c) = Datatypes.S n) S -> Forall (fun c => l_st c = false) S ->
  (exists y, length y = Datatypes.S n /\ Forall (holds y) S) -> (exists M, forall y, length y = Datatypes.S n -> Forall (holds y) S -> last y 0 <= M)%Q ->
  exists y, length y = Datatypes.S n /\ Forall (holds y) S /\ forall y', length y' = Datatypes.S n -> Forall (holds y') S -> (last y' 0 <= last y 0)%Q.
Proof.
  induction n as [|n IH]; intros S HL HN (y & Ly & Hy) (M & HM).
  - destruct y as [|z [|]]; try discriminate. clear Ly. rewrite Forall_forall in HL, HN, Hy.
    assert (HC : forall c w, In c S -> (holds [w] c <-> (hd0 c * w <= l_b c)%Q)).
    { intros c w Hc. unfold holds. rewrite (HN c Hc). assert (L := HL c Hc). unfold hd0. destruct (l_a c) as [|h [|]]; try discriminate. cbn. split; lra. }
    pose (up := map (fun c => (l_b c / hd0 c, false)%Q) (filter posb S)). destruct up as [|u up'] eqn:EU.
    + exfalso. assert (F : Forall (holds [Qmax z (M + 1)]) S).
      { apply Forall_forall. intros c Hc. apply HC; [exact Hc|]. assert (H := Hy c Hc). apply HC in H; [|exact Hc].
        assert (N : (hd0 c <= 0)%Q).
        { destruct (Qlt_le_dec 0 (hd0 c)) as [P|P]; [|exact P]. assert (X : In (l_b c / hd0 c, false)%Q up) by (apply in_map_iff; exists c; split; [reflexivity|]; apply filter_In; split; [exact Hc|now apply Qlt_bool_iff]).
          rewrite EU in X. destruct X. }
        assert (G := Q.le_max_l z (M + 1)). nra. }
      assert (G := HM [Qmax z (M + 1)] eq_refl F). cbn in G. assert (G2 := Q.le_max_r z (M + 1)). lra.
    + destruct (list_min up) as ([b s] & Hb & HB); [rewrite EU; discriminate|]. cbn [fst] in HB.
      assert (UB : forall w, Forall (holds [w]) S -> (w <= b)%Q).
      { intros w Hw. rewrite Forall_forall in Hw. apply in_map_iff in Hb as (c & E & Hc). injection E as E1 E2. apply filter_In in Hc as [Hc P]. apply Qlt_bool_iff in P.
        assert (H := Hw c Hc). apply HC in H; [|exact Hc]. rewrite <- E1. apply Qle_shift_div_l; [exact P|]. lra. }
      exists [b]. split; [reflexivity|]. split.
      * apply Forall_forall. intros c Hc. apply HC; [exact Hc|]. destruct (Qlt_le_dec 0 (hd0 c)) as [P|P].
        { assert (X : In (l_b c / hd0 c, false)%Q up) by (apply in_map_iff; exists c; split; [reflexivity|]; apply filter_In; split; [exact Hc|now apply Qlt_bool_iff]).
          apply HB in X. cbn [fst] in X. assert (E : (hd0 c * (l_b c / hd0 c) == l_b c)%Q) by (field; lra). nra. }
        { assert (H := Hy c Hc). apply HC in H; [|exact Hc]. assert (G : (z <= b)%Q) by (apply UB; now apply Forall_forall). nra. }
      * intros y' L' H'. destruct y' as [|w [|]]; try discriminate. cbn. now apply UB.
  - destruct y as [|v x]; [discriminate|]. assert (Lx : length x = Datatypes.S n) by now injection Ly.
    assert (NE : forall x : list Q, length x = Datatypes.S n -> x <> []) by (intros w Lw ->; discriminate).
    destruct (IH (eliminate S)) as (w & Lw & Hw & Mw).
    + now apply eliminate_length.
    + now apply eliminate_large.
    + exists x. split; [exact Lx|]. now apply (eliminate_sound S (Datatypes.S n) v).
    + exists M. intros w Lw Hw. destruct (lift_point S (Datatypes.S n) w HL Hw) as (w0 & H). rewrite <- (last_cons_len w0 0%Q w (NE w Lw)). apply HM; [cbn; now f_equal|exact H].
    + destruct (lift_point S (Datatypes.S n) w HL Hw) as (w0 & H). exists (w0 :: w). split; [cbn; now f_equal|]. split; [exact H|].
      intros y' L' H'. destruct y' as [|v' x']; [discriminate|]. assert (Lx' : length x' = Datatypes.S n) by now injection L'.
      rewrite !last_cons_len by auto. apply Mw; [exact Lx'|]. now apply (eliminate_sound S (Datatypes.S n) v').
Qed.

(** ** Derived constraints hold *)
Lemma der_absurd S c x n : Forall (fun d => length (l_a d) = n) S -> der S c -> absurd_lin c -> Forall (holds x) S -> False.
Proof.
  intros HL D [A1 A2] HX. rewrite Forall_forall in HL, HX.
  assert (G : length (l_a c) = n /\ holds x c).
  { clear A1 A2. induction D as [d Hd|k d Hk _ [L H]|d e _ [L1 H1] _ [L2 H2]].
    - split; [now apply HL|now apply HX].
    - split; [cbn; unfold vscale; now rewrite map_length|]. unfold holds in *. cbn [lscale l_st l_a l_b]. destruct (l_st d); rewrite dot_vscale; nra.
    - split; [cbn [ladd l_a]; rewrite vadd_length; congruence|]. unfold holds in *. cbn [ladd l_st l_a l_b]. assert (E := dot_vadd (l_a d) (l_a e) x ltac:(congruence)). destruct (l_st d), (l_st e); cbn [orb]; lra. }
  destruct G as [_ G]. unfold holds in G.
  assert (D0 : (dot (l_a c) x == 0)%Q). { clear -A1. revert x. induction A1 as [|a l E _ IH]; intros [|v x]; cbn; try reflexivity. rewrite E, IH. ring. }
  destruct (l_st c); lra.
Qed.
