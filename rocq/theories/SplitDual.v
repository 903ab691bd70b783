(** The split model reaches every split of the scenarios with its exact relaxed cost (strong duality). *)
From Verif Require Import Base BaseFacts Spec Instance InstanceFacts OptModels RefineFacts CostRefineFacts AccRef SplitSpec Farkas.

(** ** Sums over indices *)
Lemma qsum_delta (f : nat -> Q) m i0 : i0 < m -> (qsum (map (fun i => if Nat.eqb i i0 then f i else 0) (seq 0 m)) == f i0)%Q.
Proof.
  intro H. assert (G : forall s n, (s <= i0 < s + n -> (qsum (map (fun i => if Nat.eqb i i0 then f i else 0) (seq s n)) == f i0)%Q) /\
                                   (i0 < s -> (qsum (map (fun i => if Nat.eqb i i0 then f i else 0) (seq s n)) == 0)%Q)).
  { intros s n. revert s. induction n as [|n IH]; intro s; cbn [seq map qsum]; [split; [lia|reflexivity]|].
    destruct (IH (S s)) as [I1 I2]. destruct (Nat.eqb_spec s i0) as [->|N]; split; intro L.
    - rewrite I2 by lia. ring.
    - lia.
    - rewrite I1 by lia. ring.
    - rewrite I2 by lia. ring. }
  apply G. lia.
Qed.
Lemma nth_map_seq {A} (f : nat -> A) n j d : j < n -> nth j (map f (seq 0 n)) d = f j.
Proof. intro H. rewrite (nth_indep _ d (f 0)) by now rewrite map_length, seq_length. rewrite map_nth, seq_nth by exact H. reflexivity. Qed.
Definition unit_vec (n j : nat) (v : Q) : list Q := map (fun i => if Nat.eqb i j then v else 0%Q) (seq 0 n).
Lemma dot_unit n j v x : j < n -> length x = n -> (dot (unit_vec n j v) x == v * nth j x 0)%Q.
Proof.
  intros H L. rewrite (dot_qsum _ _ n) by (unfold unit_vec; rewrite ?map_length, ?seq_length; auto).
  rewrite (qsum_map_ext _ (fun i => if Nat.eqb i j then v * nth i x 0 else 0)%Q).
  - now rewrite (qsum_delta (fun i => v * nth i x 0)%Q).
  - intros i Hi. apply in_seq in Hi. unfold unit_vec. rewrite nth_map_seq by lia. destruct (Nat.eqb i j); ring.
Qed.
Lemma nth_vscale k a j : (nth j (vscale k a) 0 == k * nth j a 0)%Q.
Proof.
  unfold vscale. destruct (Nat.lt_ge_cases j (length a)) as [L|L].
  - rewrite (nth_map0 _ _ _ 0%Q) by exact L. reflexivity.
  - rewrite !nth_overflow by (rewrite ?map_length; lia). ring.
Qed.
Lemma nth_vadd a b j : length a = length b -> (nth j (vadd a b) 0 == nth j a 0 + nth j b 0)%Q.
Proof.
  revert b j. induction a as [|p a IH]; intros [|q b] j L; try discriminate; [destruct j; reflexivity|]. destruct j as [|j]; cbn; [reflexivity|].
  apply IH. now injection L.
Qed.

Section Side.
  Variables (I : inst) (scen : list nat) (on : nat -> bool) (V : Q).
  Hypothesis W : wf_inst I.
  Hypothesis HS : Forall (fun s => s < i_k I) scen.
  Let n := i_n I.
  Let m := i_m I.
  Let k := length scen.
  Let rw t i := row I (nth t scen O) i.
  Let rh t i := rhs I (nth t scen O) i.
  (** A point of the box that satisfies the scenarios of the side. *)
  Definition side_sat (x : list Q) : Prop := in_box n x /\ forall t, t < k -> on t = true -> sat I 0 x (nth t scen O).

  Definition SA (j : nat) (eta : nat -> nat -> Q) : Q := qsum (map (fun t => qsum (map (fun i => nth j (rw t i) 0 * eta t i) (seq 0 m))) (seq 0 k))%Q.
  Definition SB (eta : nat -> nat -> Q) : Q := qsum (map (fun t => qsum (map (fun i => rh t i * eta t i) (seq 0 m))) (seq 0 k))%Q.
  Definition SL (lam : nat -> Q) : Q := qsum (map (fun j => lam (n + j)%nat) (seq 0 n)).

  Lemma double_scale f c : (qsum (map (fun t => qsum (map (fun i => c * f t i) (seq 0 m))) (seq 0 k)) == c * qsum (map (fun t => qsum (map (f t) (seq 0 m))) (seq 0 k)))%Q.
  Proof. rewrite <- qsum_map_scal. apply qsum_map_ext. intros t _. now rewrite <- qsum_map_scal. Qed.
  Lemma double_add f g : (qsum (map (fun t => qsum (map (fun i => f t i + g t i) (seq 0 m))) (seq 0 k)) ==
    qsum (map (fun t => qsum (map (f t) (seq 0 m))) (seq 0 k)) + qsum (map (fun t => qsum (map (g t) (seq 0 m))) (seq 0 k)))%Q.
  Proof. rewrite <- qsum_map_add. apply qsum_map_ext. intros t _. now rewrite <- qsum_map_add. Qed.
  Lemma double_ext f g : (forall t i, t < k -> i < m -> (f t i == g t i)%Q) ->
    (qsum (map (fun t => qsum (map (f t) (seq 0 m))) (seq 0 k)) == qsum (map (fun t => qsum (map (g t) (seq 0 m))) (seq 0 k)))%Q.
  Proof. intro H. apply qsum_map_ext. intros t Ht. apply qsum_map_ext. intros i Hi. apply in_seq in Ht, Hi. apply H; lia. Qed.
  Lemma double_delta f t0 i0 : t0 < k -> i0 < m ->
    (qsum (map (fun t => qsum (map (fun i => if Nat.eqb t t0 && Nat.eqb i i0 then f t i else 0) (seq 0 m))) (seq 0 k)) == f t0 i0)%Q.
  Proof.
    intros Ht Hi. rewrite (qsum_map_ext _ (fun t => if Nat.eqb t t0 then f t i0 else 0)%Q); [now rewrite (qsum_delta (fun t => f t i0))|].
    intros t _. destruct (Nat.eqb t t0); cbn [andb]; [now rewrite (qsum_delta (f t))|]. apply qsum_zero. apply Forall_forall. intros v Hv.
    apply in_map_iff in Hv as (? & <- & _). reflexivity.
  Qed.

  Lemma SA_lin j c e d f : (SA j (fun t i => c * e t i + d * f t i) == c * SA j e + d * SA j f)%Q.
  Proof.
    unfold SA. rewrite <- !double_scale, <- double_add. apply double_ext. intros. ring.
  Qed.
  Lemma SB_lin c e d f : (SB (fun t i => c * e t i + d * f t i) == c * SB e + d * SB f)%Q.
  Proof. unfold SB. rewrite <- !double_scale, <- double_add. apply double_ext. intros. ring. Qed.
  Lemma SL_lin c e d f : (SL (fun t => c * e t + d * f t) == c * SL e + d * SL f)%Q.
  Proof. unfold SL. rewrite <- !qsum_map_scal, <- qsum_map_add. reflexivity. Qed.

  (** Non-negative combinations of the constraints, [tt] times the negated objective. *)
  Definition comb_of (c : lin) (lam : nat -> Q) (eta : nat -> nat -> Q) (tt : Q) : Prop :=
    (forall j, 0 <= lam j)%Q /\ (forall t i, 0 <= eta t i)%Q /\ (forall t i, on t = false -> eta t i == 0)%Q /\ (0 <= tt)%Q /\
    (l_st c = true -> 0 < tt)%Q /\ length (l_a c) = n /\
    (forall j, j < n -> (nth j (l_a c) 0 == - lam j + lam (n + j)%nat + SA j eta - tt * nth j (i_c I) 0)%Q) /\
    (l_b c == SL lam + SB eta - tt * V)%Q.
  Definition comb (c : lin) : Prop := exists lam eta tt, comb_of c lam eta tt.

  Lemma comb_lin c d k1 k2 (lam1 lam2 : nat -> Q) (eta1 eta2 : nat -> nat -> Q) t1 t2 e : (0 < k1 -> 0 <= k2 -> comb_of c lam1 eta1 t1 -> comb_of d lam2 eta2 t2 ->
    length (l_a e) = n -> (forall j, (nth j (l_a e) 0 == k1 * nth j (l_a c) 0 + k2 * nth j (l_a d) 0)%Q) -> (l_b e == k1 * l_b c + k2 * l_b d)%Q ->
    (l_st e = true -> l_st c = true \/ (l_st d = true /\ 0 < k2)) -> comb e)%Q.
  Proof.
    intros K1 K2 (A1 & A2 & A3 & A4 & A5 & A6 & A7 & A8) (D1 & D2 & D3 & D4 & D5 & D6 & D7 & D8) LE EA EB ES.
    exists (fun j => k1 * lam1 j + k2 * lam2 j)%Q, (fun t i => k1 * eta1 t i + k2 * eta2 t i)%Q, (k1 * t1 + k2 * t2)%Q.
    repeat split.
    - intro j. specialize (A1 j). specialize (D1 j). nra.
    - intros t i. specialize (A2 t i). specialize (D2 t i). nra.
    - intros t i Ho. rewrite (A3 t i Ho), (D3 t i Ho). ring.
    - nra.
    - intro E. destruct (ES E) as [E1|[E1 K]]; [specialize (A5 E1)|specialize (D5 E1)]; nra.
    - exact LE.
    - intros j Hj. rewrite EA, (A7 j Hj), (D7 j Hj), SA_lin. ring.
    - rewrite EB, A8, D8, SL_lin, SB_lin. ring.
  Qed.
  Lemma comb_scale c q : (0 < q)%Q -> comb c -> comb (lscale q c).
  Proof.
    intros K (lam & eta & tt & H). apply (comb_lin c c q 0 lam lam eta eta tt tt); [exact K|lra|exact H|exact H| | | |auto].
    - unfold lscale, vscale. cbn [l_a]. rewrite map_length. apply H.
    - intro j. cbn [lscale l_a]. rewrite nth_vscale. ring.
    - cbn [lscale l_b]. ring.
  Qed.
  Lemma comb_add c d : comb c -> comb d -> comb (ladd c d).
  Proof.
    intros (lam & eta & tt & H) (lam' & eta' & tt' & H'). assert (L1 : length (l_a c) = n) by apply H. assert (L2 : length (l_a d) = n) by apply H'.
    apply (comb_lin c d 1 1 lam lam' eta eta' tt tt'); [lra|lra|exact H|exact H'| | | |].
    - cbn [ladd l_a]. rewrite vadd_length; congruence.
    - intro j. cbn [ladd l_a]. rewrite nth_vadd by congruence. ring.
    - cbn [ladd l_b]. ring.
    - cbn [ladd l_st]. intro E. apply orb_true_iff in E as [E|E]; [now left|right]. split; [exact E|reflexivity].
  Qed.

  Definition system : list lin :=
    flat_map (fun t => if on t then map (fun i => mkLin (rw t i) (rh t i) false) (seq 0 m) else []) (seq 0 k) ++
    map (fun j => mkLin (unit_vec n j (-1)) 0 false) (seq 0 n) ++ map (fun j => mkLin (unit_vec n j 1) 1 false) (seq 0 n) ++
    [mkLin (vscale (-1) (i_c I)) (- V) true].
  Lemma in_system c : In c system <->
    (exists t i, t < k /\ i < m /\ on t = true /\ c = mkLin (rw t i) (rh t i) false) \/
    (exists j, j < n /\ c = mkLin (unit_vec n j (-1)) 0 false) \/ (exists j, j < n /\ c = mkLin (unit_vec n j 1) 1 false) \/
    c = mkLin (vscale (-1) (i_c I)) (- V) true.
  Proof.
    unfold system. rewrite !in_app_iff, in_flat_map, !in_map_iff. split.
    - intros [(t & Ht & Hc)|[(j & <- & Hj)|[(j & <- & Hj)|[<-|[]]]]].
      + destruct (on t) eqn:E; [|destruct Hc]. apply in_map_iff in Hc as (i & <- & Hi). apply in_seq in Ht, Hi. left. exists t, i. repeat split; auto; lia.
      + apply in_seq in Hj. right. left. exists j. split; [lia|reflexivity].
      + apply in_seq in Hj. right. right. left. exists j. split; [lia|reflexivity].
      + auto.
    - intros [(t & i & Ht & Hi & E & ->)|[(j & Hj & ->)|[(j & Hj & ->)| ->]]].
      + left. exists t. split; [apply in_seq; lia|]. rewrite E. apply in_map_iff. exists i. split; [reflexivity|apply in_seq; lia].
      + right. left. exists j. split; [reflexivity|apply in_seq; lia].
      + right. right. left. exists j. split; [reflexivity|apply in_seq; lia].
      + right. right. right. now left.
  Qed.

  Lemma row_len t i : t < k -> i < m -> length (rw t i) = n.
  Proof.
    intros Ht Hi. destruct W as (_ & _ & WA & WM & _). rewrite Forall_forall in HS, WM. unfold rw, row.
    assert (S : nth t scen O < i_k I) by (apply HS, nth_In, Ht).
    destruct (WM (nth (nth t scen O) (i_A I) [])) as [L1 L2]; [apply nth_In; lia|]. rewrite Forall_forall in L2. apply L2, nth_In. unfold m in Hi. lia.
  Qed.
  Lemma c_len : length (i_c I) = n. Proof. apply W. Qed.
  Lemma SA0 j : (SA j (fun _ _ => 0) == 0)%Q.
  Proof. unfold SA. rewrite (double_ext _ (fun t i => 0 * nth j (rw t i) 0)%Q) by (intros; ring). rewrite double_scale. ring. Qed.
  Lemma SB0 : (SB (fun _ _ => 0) == 0)%Q.
  Proof. unfold SB. rewrite (double_ext _ (fun t i => 0 * rh t i)%Q) by (intros; ring). rewrite double_scale. ring. Qed.
  Lemma SL0 : (SL (fun _ => 0) == 0)%Q.
  Proof. unfold SL. apply qsum_zero. apply Forall_forall. intros v Hv. apply in_map_iff in Hv as (? & <- & _). reflexivity. Qed.

  Lemma comb_system c : In c system -> comb c.
  Proof.
    intro Hc. apply in_system in Hc as [(t & i & Ht & Hi & E & ->)|[(j & Hj & ->)|[(j & Hj & ->)| ->]]].
    - exists (fun _ => 0%Q), (fun t' i' => if Nat.eqb t' t && Nat.eqb i' i then 1%Q else 0%Q), 0%Q. unfold comb_of. cbn [l_a l_b l_st]. repeat split; try discriminate; try lra.
      + intros t' i'. destruct (_ && _); lra.
      + intros t' i' Ho. destruct (Nat.eqb_spec t' t) as [->|]; [congruence|]. reflexivity.
      + now apply row_len.
      + intros j Hj. assert (ES : (SA j (fun t' i' => if Nat.eqb t' t && Nat.eqb i' i then 1 else 0) == nth j (rw t i) 0)%Q).
        { unfold SA. rewrite (double_ext _ (fun t' i' => if Nat.eqb t' t && Nat.eqb i' i then nth j (rw t' i') 0 else 0)%Q); [now rewrite (double_delta (fun t' i' => nth j (rw t' i') 0%Q))|].
          intros t' i' _ _. destruct (_ && _); ring. }
        rewrite ES. ring.
      + assert (ES : (SB (fun t' i' => if Nat.eqb t' t && Nat.eqb i' i then 1 else 0) == rh t i)%Q).
        { unfold SB. rewrite (double_ext _ (fun t' i' => if Nat.eqb t' t && Nat.eqb i' i then rh t' i' else 0)%Q); [now rewrite (double_delta rh)|].
          intros t' i' _ _. destruct (_ && _); ring. }
        rewrite ES, SL0. ring.
    - exists (fun j' => if Nat.eqb j' j then 1%Q else 0%Q), (fun _ _ => 0%Q), 0%Q. unfold comb_of. cbn [l_a l_b l_st]. repeat split; try discriminate; try lra.
      + intros j'. destruct (Nat.eqb j' j); lra.
      + unfold unit_vec. now rewrite map_length, seq_length.
      + intros j' Hj'. rewrite SA0. unfold unit_vec. rewrite nth_map_seq by exact Hj'. replace (Nat.eqb (n + j') j) with false by (symmetry; apply Nat.eqb_neq; lia). destruct (Nat.eqb j' j); ring.
      + rewrite SB0. assert (ES : (SL (fun j' => if Nat.eqb j' j then 1 else 0) == 0)%Q).
        { unfold SL. apply qsum_zero. apply Forall_forall. intros v Hv. apply in_map_iff in Hv as (j' & <- & _). replace (Nat.eqb (n + j') j) with false by (symmetry; apply Nat.eqb_neq; lia). reflexivity. }
        rewrite ES. ring.
    - exists (fun j' => if Nat.eqb j' (n + j) then 1%Q else 0%Q), (fun _ _ => 0%Q), 0%Q. unfold comb_of. cbn [l_a l_b l_st]. repeat split; try discriminate; try lra.
      + intros j'. destruct (Nat.eqb j' _); lra.
      + unfold unit_vec. now rewrite map_length, seq_length.
      + intros j' Hj'. rewrite SA0. unfold unit_vec. rewrite nth_map_seq by exact Hj'. replace (Nat.eqb j' (n + j)) with false by (symmetry; apply Nat.eqb_neq; lia).
        replace (Nat.eqb (n + j') (n + j)) with (Nat.eqb j' j); [destruct (Nat.eqb j' j); ring|]. destruct (Nat.eqb_spec j' j) as [->|N]; symmetry; [apply Nat.eqb_refl|apply Nat.eqb_neq; lia].
      + rewrite SB0. assert (ES : (SL (fun j' => if Nat.eqb j' (n + j) then 1 else 0) == 1)%Q).
        { unfold SL. rewrite (qsum_map_ext _ (fun j' => if Nat.eqb j' j then 1 else 0)%Q); [now rewrite (qsum_delta (fun _ => 1%Q))|].
          intros j' _. replace (Nat.eqb (n + j') (n + j)) with (Nat.eqb j' j); [reflexivity|]. destruct (Nat.eqb_spec j' j) as [->|N]; symmetry; [apply Nat.eqb_refl|apply Nat.eqb_neq; lia]. }
        rewrite ES. ring.
    - exists (fun _ => 0%Q), (fun _ _ => 0%Q), 1%Q. unfold comb_of. cbn [l_a l_b l_st]. repeat split; try lra; try (intros; lra).
      + unfold vscale. rewrite map_length. apply c_len.
      + intros j Hj. rewrite nth_vscale, SA0. ring.
      + rewrite SL0, SB0. ring.
  Qed.
  Lemma comb_der c : der system c -> comb c.
  Proof. induction 1; [now apply comb_system|now apply comb_scale|now apply comb_add]. Qed.

  Lemma big b d : (b < 0)%Q -> exists K, (0 <= K)%Q /\ (K * b <= d)%Q.
  Proof.
    intro N. exists (Qmax 0 (d / b)). split; [apply Qmax0_nonneg|]. assert (H := Q.le_max_r 0 (d / b)). assert (E : (d / b * b == d)%Q) by (field; lra). nra.
  Qed.
  Lemma dual_exists : (exists x, side_sat x /\ (V < obj I x)%Q) \/ exists lam eta, (forall j, 0 <= lam j)%Q /\ (forall t i, 0 <= eta t i)%Q /\ (forall t i, on t = false -> eta t i == 0)%Q /\
    (forall j, j < n -> (- lam j + lam (n + j)%nat + SA j eta == nth j (i_c I) 0)%Q) /\ (SL lam + SB eta <= V)%Q.
  Proof.
    assert (HL : Forall (fun c => length (l_a c) = n) system).
    { apply Forall_forall. intros c Hc. apply comb_system in Hc as (? & ? & ? & H). apply H. }
    destruct (elimination n system HL) as [(x & Lx & Hx)|(c & Dc & A1 & A2)].
    - left. rewrite Forall_forall in Hx. assert (SX : side_sat x).
      { split; [split; [exact Lx|]|].
        - apply Forall_forall. intros v Hv. destruct (In_nth _ _ 0%Q Hv) as (j & Hj & <-). rewrite Lx in Hj.
          assert (H1 : holds x (mkLin (unit_vec n j (-1)) 0 false)) by (apply Hx, in_system; right; left; exists j; auto).
          assert (H2 : holds x (mkLin (unit_vec n j 1) 1 false)) by (apply Hx, in_system; right; right; left; exists j; auto).
          unfold holds in H1, H2. cbn [l_a l_b l_st] in H1, H2. rewrite dot_unit in H1, H2 by auto. lra.
        - intros t Ht Ho i Hi. assert (H1 : holds x (mkLin (rw t i) (rh t i) false)) by (apply Hx, in_system; left; exists t, i; auto).
          unfold holds in H1. cbn [l_a l_b l_st] in H1. unfold rw, rh in H1. lra. }
      assert (H1 : holds x (mkLin (vscale (-1) (i_c I)) (- V) true)) by (apply Hx, in_system; auto). unfold holds in H1. cbn [l_a l_b l_st] in H1. rewrite dot_vscale in H1.
      exists x. split; [exact SX|]. unfold obj. lra.
    - right. apply comb_der in Dc as (lam & eta & tt & P1 & P2 & P3 & P4 & P5 & P6 & P7 & P8).
      assert (Z : forall j, j < n -> (nth j (l_a c) 0 == 0)%Q) by (intros j Hj; rewrite Forall_forall in A1; apply A1, nth_In; lia).
      destruct (Qlt_le_dec 0 tt) as [T|T].
      + exists (fun j => / tt * lam j + 0 * 0)%Q, (fun t i => / tt * eta t i + 0 * 0)%Q. assert (TI : (0 < / tt)%Q) by now apply Qinv_lt_0_compat.
        assert (TE : (/ tt * tt == 1)%Q) by (field; lra). repeat split.
        * intro j. specialize (P1 j). nra.
        * intros t i. specialize (P2 t i). nra.
        * intros t i Ho. rewrite (P3 t i Ho). ring.
        * intros j Hj. rewrite (SA_lin j (/ tt) eta 0 (fun _ _ => 0%Q)). assert (E := P7 j Hj). rewrite (Z j Hj) in E.
          assert (E2 : (- lam j + lam (n + j)%nat + SA j eta == tt * nth j (i_c I) 0)%Q) by lra.
          transitivity (/ tt * (- lam j + lam (n + j)%nat + SA j eta))%Q; [ring|]. rewrite E2, Qmult_assoc, TE. ring.
        * rewrite (SL_lin (/ tt) lam 0 (fun _ => 0%Q)), (SB_lin (/ tt) eta 0 (fun _ _ => 0%Q)).
          assert (BL : (l_b c <= 0)%Q) by (destruct (l_st c); lra). assert (E : (SL lam + SB eta == l_b c + tt * V)%Q) by lra.
          assert (E2 : (/ tt * SL lam + 0 * SL (fun _ => 0) + (/ tt * SB eta + 0 * SB (fun _ _ => 0)) == / tt * l_b c + V)%Q).
          { transitivity (/ tt * (SL lam + SB eta))%Q; [ring|]. rewrite E. transitivity (/ tt * l_b c + (/ tt * tt) * V)%Q; [ring|]. rewrite TE. ring. }
          rewrite E2. nra.
      + assert (TZ : (tt == 0)%Q) by lra. destruct (l_st c) eqn:ES; [specialize (P5 eq_refl); lra|].
        set (lam0 := fun j => if j <? n then Qmax 0 (- nth j (i_c I) 0)%Q else Qmax 0 (nth (j - n) (i_c I) 0%Q)).
        destruct (big (l_b c) (V - SL lam0) A2) as (K & K1 & K2). rewrite TZ in P8.
        exists (fun j => 1 * lam0 j + K * lam j)%Q, (fun t i => 1 * 0 + K * eta t i)%Q. repeat split.
        * intro j. assert (0 <= lam0 j)%Q by (unfold lam0; destruct (j <? n); apply Qmax0_nonneg). specialize (P1 j). nra.
        * intros t i. specialize (P2 t i). nra.
        * intros t i Ho. rewrite (P3 t i Ho). ring.
        * intros j Hj. rewrite (SA_lin j 1 (fun _ _ => 0%Q) K eta), SA0. assert (E := P7 j Hj). rewrite (Z j Hj), TZ in E.
          assert (E0 : (- lam0 j + lam0 (n + j)%nat == nth j (i_c I) 0)%Q).
          { unfold lam0. replace (j <? n) with true by (symmetry; now apply Nat.ltb_lt). replace (n + j <? n) with false by (symmetry; apply Nat.ltb_ge; lia).
            replace (n + j - n) with j by lia. apply Qmax0_diff. }
          rewrite <- E0. assert (E2 : (SA j eta == lam j - lam (n + j)%nat)%Q) by lra. rewrite E2. ring.
        * rewrite (SL_lin 1 lam0 K lam), (SB_lin 1 (fun _ _ => 0%Q) K eta), SB0. assert (E : (SB eta == l_b c - SL lam)%Q) by lra. rewrite E. lra.
  Qed.
End Side.

(** ** The point of the split model *)
Definition lam_list (n : nat) (lam : nat -> Q) : list Q := map lam (seq 0 (2 * n)).
Definition eta_list (k m : nat) (eta : nat -> nat -> Q) : list (list Q) := map (fun t => map (eta t) (seq 0 m)) (seq 0 k).
Lemma eta_nth k m eta t i : t < k -> i < m -> nth i (nth t (eta_list k m eta) []) 0%Q = eta t i.
Proof. intros Ht Hi. unfold eta_list. rewrite (nth_map_seq (fun t => map (eta t) (seq 0 m))) by exact Ht. now rewrite nth_map_seq. Qed.

Section Point.
  Variables (I : inst) (scen inf : list nat) (on : nat -> bool) (V : Q).
  Hypothesis W : wf_inst I.
  Hypothesis HS : Forall (fun s => s < i_k I) scen.

  Lemma side_lists o : (exists x, side_sat I scen o x /\ (V < obj I x)%Q) \/
    exists lam eta, length lam = 2 * i_n I /\ Forall (fun v => 0 <= v)%Q lam /\ length eta = length scen /\
      Forall (fun e => length e = i_m I /\ Forall (fun v => 0 <= v)%Q e) eta /\ acc_dual_cost I scen V lam eta /\ acc_dual_feas I scen lam eta /\
      (forall t i, t < length scen -> i < i_m I -> o t = false -> (nth i (nth t eta []) 0 == 0)%Q).
  Proof.
    destruct (dual_exists I scen o V W HS) as [X|(lam & eta & P1 & P2 & P3 & P4 & P5)]; [now left|right].
    exists (lam_list (i_n I) lam), (eta_list (length scen) (i_m I) eta).
    assert (LN : forall j, j < 2 * i_n I -> nth j (lam_list (i_n I) lam) 0%Q = lam j) by (intros j Hj; unfold lam_list; now rewrite nth_map_seq).
    split; [unfold lam_list; now rewrite map_length, seq_length|]. split; [apply Forall_forall; intros v Hv; apply in_map_iff in Hv as (? & <- & _); apply P1|].
    split; [unfold eta_list; now rewrite map_length, seq_length|]. split.
    { apply Forall_forall. intros e He. apply in_map_iff in He as (t & <- & _). split; [now rewrite map_length, seq_length|].
      apply Forall_forall. intros v Hv. apply in_map_iff in Hv as (? & <- & _). apply P2. }
    split; [|split].
    - unfold acc_dual_cost. eapply Qle_trans; [|exact P5]. apply Qle_lteq. right. unfold SL, SB.
      assert (E1 : (qsum (map (fun j => nth (i_n I + j) (lam_list (i_n I) lam) 0) (seq 0 (i_n I))) == qsum (map (fun j => lam (i_n I + j)%nat) (seq 0 (i_n I))))%Q).
      { apply qsum_map_ext. intros j Hj. apply in_seq in Hj. now rewrite LN by lia. }
      rewrite E1. apply Qplus_comp; [reflexivity|]. apply qsum_map_ext. intros t Ht. apply in_seq in Ht.
      rewrite (dot_qsum _ _ (i_m I)); [|now rewrite map_length, seq_length|unfold eta_list; rewrite (nth_map_seq (fun t => map (eta t) (seq 0 (i_m I)))) by lia; now rewrite map_length, seq_length].
      apply qsum_map_ext. intros i Hi. apply in_seq in Hi. rewrite nth_map_seq, eta_nth by lia. reflexivity.
    - intros j Hj. rewrite !LN by lia. rewrite <- (P4 j Hj), (Nat.add_comm j). apply Qplus_comp; [reflexivity|]. unfold SA. apply qsum_map_ext. intros t Ht. apply in_seq in Ht.
      apply qsum_map_ext. intros i Hi. apply in_seq in Hi. rewrite eta_nth by lia. reflexivity.
    - intros t i Ht Hi Ho. rewrite eta_nth by assumption. now apply P3.
  Qed.

  Lemma point_exists : (exists t, t < length scen /\ on t = true /\ In (nth t scen O) inf) -> (exists t, t < length scen /\ on t = false /\ In (nth t scen O) inf) ->
    (exists x, (side_sat I scen on x \/ side_sat I scen (fun t => negb (on t)) x) /\ (V < obj I x)%Q) \/
    exists p, acc_feasible I scen inf p /\ ap_alpha p = V /\ ap_piL p = map (fun t => if on t then 1%Q else 0%Q) (seq 0 (length scen)).
  Proof.
    intros (t1 & T1 & O1 & N1) (t2 & T2 & O2 & N2).
    destruct (side_lists on) as [(x & X1 & X2)|(lamL & etaL & L1 & L2 & L3 & L4 & L5 & L6 & L7)]; [left; exists x; auto|].
    destruct (side_lists (fun t => negb (on t))) as [(x & X1 & X2)|(lamR & etaR & R1 & R2 & R3 & R4 & R5 & R6 & R7)]; [left; exists x; auto|right].
    set (piL := map (fun t => if on t then 1%Q else 0%Q) (seq 0 (length scen))). set (piR := map (fun t => if on t then 0%Q else 1%Q) (seq 0 (length scen))).
    assert (NL : forall t, t < length scen -> nth t piL 0%Q = if on t then 1%Q else 0%Q) by (intros t Ht; unfold piL; now rewrite nth_map_seq).
    assert (NR : forall t, t < length scen -> nth t piR 0%Q = if on t then 0%Q else 1%Q) by (intros t Ht; unfold piR; now rewrite nth_map_seq).
    exists (mkAcc V piL piR lamL lamR etaL etaR). split; [|split; reflexivity]. unfold acc_feasible. cbv zeta. cbn [ap_alpha ap_piL ap_piR ap_lamL ap_lamR ap_etaL ap_etaR].
    assert (PL : Forall (fun v => 0 <= v)%Q piL) by (apply Forall_forall; intros v Hv; apply in_map_iff in Hv as (t & <- & _); destruct (on t); discriminate).
    assert (PR : Forall (fun v => 0 <= v)%Q piR) by (apply Forall_forall; intros v Hv; apply in_map_iff in Hv as (t & <- & _); destruct (on t); discriminate).
    split; [unfold piL; now rewrite map_length, seq_length|]. split; [unfold piR; now rewrite map_length, seq_length|].
    split; [apply Forall_forall; intros v Hv; apply in_map_iff in Hv as (t & <- & _); destruct (on t); auto with qarith; (left; reflexivity) || (right; reflexivity)|].
    split; [apply Forall_forall; intros v Hv; apply in_map_iff in Hv as (t & <- & _); destruct (on t); (left; reflexivity) || (right; reflexivity)|].
    repeat (split; [assumption|]). split; [|split; [|split; [|split]]].
    - intros t i Ht Hi E. apply L7; auto. rewrite NL in E by exact Ht. destruct (on t); [discriminate|reflexivity].
    - intros t i Ht Hi E. apply R7; auto. rewrite NR in E by exact Ht. destruct (on t); [reflexivity|discriminate].
    - intros t Ht. rewrite NL, NR by exact Ht. destruct (on t); reflexivity.
    - apply (inf_sum_ge scen inf piL t1); auto. rewrite NL, O1 by exact T1. reflexivity.
    - apply (inf_sum_ge scen inf piR t2); auto. rewrite NR, O2 by exact T2. reflexivity.
  Qed.
End Point.

(** ** Splits as lists *)
Lemma perm_filter_in (scen l : list nat) : NoDup scen -> NoDup l -> incl l scen ->
  Permutation (map (fun t => nth t scen O) (filter (fun t => memb (nth t scen O) l) (seq 0 (length scen)))) l.
Proof.
  intros N1 N2 HI. apply NoDup_Permutation.
  - assert (E : map (fun t => nth t scen O) (filter (fun t => memb (nth t scen O) l) (seq 0 (length scen))) = filter (fun s => memb s l) scen).
    { transitivity (filter (fun s => memb s l) (map (fun t => nth t scen O) (seq 0 (length scen)))); [|now rewrite map_nth_seq].
      generalize (seq 0 (length scen)) as L. induction L as [|t L IH]; [reflexivity|]. cbn [map filter]. destruct (memb (nth t scen 0) l); cbn [map]; now rewrite IH. }
    rewrite E. now apply NoDup_filter.
  - exact N2.
  - intro s. rewrite in_map_iff. split.
    + intros (t & <- & Ht). apply filter_In in Ht as [_ M]. now apply memb_In.
    + intro Hs. destruct (In_nth scen s O (HI s Hs)) as (t & Ht & <-). exists t. split; [reflexivity|]. apply filter_In. split; [apply in_seq; lia|now apply memb_In].
Qed.

Lemma split_reached I scen inf l r V : wf_inst I -> Forall (fun s => s < i_k I) scen -> NoDup scen -> admissible scen inf l r ->
  (exists x, (relax_sat I l x \/ relax_sat I r x) /\ (V < obj I x)%Q) \/
  exists p l' r', acc_feasible I scen inf p /\ ap_alpha p = V /\ acc_subsets scen p = (l', r') /\ Permutation l' l /\ Permutation r' r.
Proof.
  intros W HS ND (HP & (a & A1 & A2) & (b & B1 & B2)).
  assert (NLR : NoDup (l ++ r)) by (eapply Permutation_NoDup; [symmetry; exact HP|exact ND]). destruct (NoDup_app_inv l r NLR) as (NL & NR & ND2).
  assert (IL : incl l scen) by (intros s Hs; eapply Permutation_in; [exact HP|]; apply in_app_iff; auto).
  assert (IR : incl r scen) by (intros s Hs; eapply Permutation_in; [exact HP|]; apply in_app_iff; auto).
  pose (on := fun t => memb (nth t scen O) l).
  assert (ON : forall t, t < length scen -> negb (on t) = memb (nth t scen O) r).
  { intros t Ht. unfold on. assert (Hs : In (nth t scen O) (l ++ r)) by (eapply Permutation_in; [symmetry; exact HP|]; now apply nth_In).
    apply in_app_iff in Hs. destruct (memb (nth t scen 0) l) eqn:E; cbn.
    - apply memb_In in E. symmetry. apply memb_false. intro C. exact (ND2 _ E C).
    - apply memb_false in E. symmetry. apply memb_In. tauto. }
  assert (SL1 : forall x, side_sat I scen on x <-> relax_sat I l x).
  { intro x. split; intros [H1 H2]; split; auto.
    - intros s Hs. destruct (In_nth scen s O (IL s Hs)) as (t & Ht & <-). apply H2; [exact Ht|]. unfold on. now apply memb_In.
    - intros t Ht Ho. apply H2. now apply memb_In. }
  assert (SR1 : forall x, side_sat I scen (fun t => negb (on t)) x <-> relax_sat I r x).
  { intro x. split; intros [H1 H2]; split; auto.
    - intros s Hs. destruct (In_nth scen s O (IR s Hs)) as (t & Ht & <-). apply H2; [exact Ht|]. rewrite ON by exact Ht. now apply memb_In.
    - intros t Ht Ho. apply H2. rewrite ON in Ho by exact Ht. now apply memb_In. }
  destruct (point_exists I scen inf on V W HS) as [(x & X & XV)|(p & P1 & P2 & P3)].
  - destruct (In_nth scen a O (IL a A1)) as (t & Ht & E). exists t. rewrite E. unfold on. rewrite E. split; [exact Ht|]. split; [now apply memb_In|exact A2].
  - destruct (In_nth scen b O (IR b B1)) as (t & Ht & E). exists t. rewrite E. split; [exact Ht|]. split; [|exact B2].
    assert (X := ON t Ht). rewrite E in X. replace (memb b r) with true in X by (symmetry; now apply memb_In). now apply negb_true_iff in X.
  - left. exists x. split; [|exact XV]. destruct X as [H|H]; [left; now apply SL1|right; now apply SR1].
  - right. destruct (acc_subsets scen p) as [l' r'] eqn:E. exists p, l', r'. split; [exact P1|]. split; [exact P2|]. split; [exact E|].
    apply acc_subsets_spec in E as [El Er].
    assert (PI : forall t, t < length scen -> acc_is_left (nth t (ap_piL p) 0%Q) = on t).
    { intros t Ht. rewrite P3, nth_map_seq by exact Ht. destruct (on t); reflexivity. }
    split.
    + rewrite El, (filter_ext_in _ (fun t => memb (nth t scen O) l)); [now apply perm_filter_in|]. intros t Ht. apply in_seq in Ht. rewrite PI by lia. reflexivity.
    + rewrite Er, (filter_ext_in _ (fun t => memb (nth t scen O) r)); [now apply perm_filter_in|]. intros t Ht. apply in_seq in Ht. rewrite PI by lia. apply ON. lia.
Qed.


Lemma subset_within I scen inf p l r : wf_inst I -> Forall (fun s => s < i_k I) scen -> acc_feasible I scen inf p -> acc_subsets scen p = (l, r) ->
  admissible scen inf l r /\ split_within I l r (ap_alpha p).
Proof.
  intros W HS HP E. split; [exact (acc_sides I scen inf p l r HP E)|]. intros x [[H1 H2]|[H1 H2]]; (eapply (acc_cost_bound I scen inf p l r x W HS HP E H1); auto).
Qed.

(** ** Optimal points of a relaxation *)
Lemma dot_snoc a x v z : length a = length x -> (dot (a ++ [v]) (x ++ [z]) == dot a x + v * z)%Q.
Proof.
  revert x. induction a as [|p a IH]; intros [|q x] L; try discriminate; cbn [app dot]; [ring|]. rewrite IH by now injection L. ring.
Qed.
Lemma obj_cap I x : wf_inst I -> in_box (i_n I) x -> (obj I x <= qsum (map (fun c => Qmax 0 c) (i_c I)))%Q.
Proof.
  intros W [Lx Bx]. unfold obj. assert (L : length (i_c I) = length x) by (rewrite Lx; apply W). clear W Lx. revert x L Bx.
  induction (i_c I) as [|c l IH]; intros [|v x] L Bx; try discriminate. cbn [dot map qsum]. inversion Bx as [|? ? V1 V2]; subst.
  assert (H := IH x ltac:(now injection L) V2). assert (G := Q.le_max_l 0 c). assert (G2 := Q.le_max_r 0 c). unfold qsum in *. cbn [fold_right]. nra.
Qed.
Section Max.
  Variables (I : inst) (l : list nat).
  Hypothesis W : wf_inst I.
  Hypothesis HL : Forall (fun s => s < i_k I) l.
  Let n := i_n I.
  Let m := i_m I.
  Definition max_system : list lin :=
    flat_map (fun s => map (fun i => mkLin (row I s i ++ [0%Q]) (rhs I s i) false) (seq 0 m)) l ++
    map (fun j => mkLin (unit_vec n j (-1) ++ [0%Q]) 0 false) (seq 0 n) ++ map (fun j => mkLin (unit_vec n j 1 ++ [0%Q]) 1 false) (seq 0 n) ++
    [mkLin (vscale (-1) (i_c I) ++ [1%Q]) 0 false].
  Lemma in_max c : In c max_system <->
    (exists s i, In s l /\ i < m /\ c = mkLin (row I s i ++ [0%Q]) (rhs I s i) false) \/
    (exists j, j < n /\ c = mkLin (unit_vec n j (-1) ++ [0%Q]) 0 false) \/ (exists j, j < n /\ c = mkLin (unit_vec n j 1 ++ [0%Q]) 1 false) \/
    c = mkLin (vscale (-1) (i_c I) ++ [1%Q]) 0 false.
  Proof.
    unfold max_system. rewrite !in_app_iff, in_flat_map, !in_map_iff. split.
    - intros [(s & Hs & Hc)|[(j & <- & Hj)|[(j & <- & Hj)|[<-|[]]]]].
      + apply in_map_iff in Hc as (i & <- & Hi). apply in_seq in Hi. left. exists s, i. repeat split; auto; lia.
      + apply in_seq in Hj. right. left. exists j. split; [lia|reflexivity].
      + apply in_seq in Hj. right. right. left. exists j. split; [lia|reflexivity].
      + auto.
    - intros [(s & i & Hs & Hi & ->)|[(j & Hj & ->)|[(j & Hj & ->)| ->]]].
      + left. exists s. split; [exact Hs|]. apply in_map_iff. exists i. split; [reflexivity|apply in_seq; lia].
      + right. left. exists j. split; [reflexivity|apply in_seq; lia].
      + right. right. left. exists j. split; [reflexivity|apply in_seq; lia].
      + right. right. right. now left.
  Qed.
  Lemma row_len2 s i : In s l -> i < m -> length (row I s i) = n.
  Proof.
    intros Hs Hi. assert (W' := W). destruct W' as (_ & _ & WA & WM & _). rewrite Forall_forall in HL, WM. unfold row.
    destruct (WM (nth s (i_A I) [])) as [L1 L2]; [apply nth_In; rewrite WA; now apply HL|]. rewrite Forall_forall in L2. apply L2, nth_In. unfold m in Hi. lia.
  Qed.
  Lemma unit_len j v : length (unit_vec n j v) = n. Proof. unfold unit_vec. now rewrite map_length, seq_length. Qed.
  Lemma max_holds x z : length x = n -> (Forall (holds (x ++ [z])) max_system <-> relax_sat I l x /\ (z <= obj I x)%Q).
  Proof.
    intro Lx. rewrite Forall_forall. split.
    - intro H. split; [split; [split; [exact Lx|]|]|].
      + apply Forall_forall. intros v Hv. destruct (In_nth _ _ 0%Q Hv) as (j & Hj & <-). rewrite Lx in Hj.
        assert (H1 : holds (x ++ [z]) (mkLin (unit_vec n j (-1) ++ [0%Q]) 0 false)) by (apply H, in_max; right; left; exists j; auto).
        assert (H2 : holds (x ++ [z]) (mkLin (unit_vec n j 1 ++ [0%Q]) 1 false)) by (apply H, in_max; right; right; left; exists j; auto).
        unfold holds in H1, H2. cbn [l_a l_b l_st] in H1, H2. rewrite dot_snoc, dot_unit in H1, H2 by (rewrite ?unit_len; auto). lra.
      + intros s Hs i Hi. assert (H1 : holds (x ++ [z]) (mkLin (row I s i ++ [0%Q]) (rhs I s i) false)) by (apply H, in_max; left; exists s, i; auto).
        unfold holds in H1. cbn [l_a l_b l_st] in H1. rewrite dot_snoc in H1 by (rewrite row_len2; auto). lra.
      + assert (H1 : holds (x ++ [z]) (mkLin (vscale (-1) (i_c I) ++ [1%Q]) 0 false)) by (apply H, in_max; auto).
        unfold holds in H1. cbn [l_a l_b l_st] in H1. rewrite dot_snoc, dot_vscale in H1 by (unfold vscale; rewrite map_length, Lx; apply W). unfold obj. lra.
    - intros [[[_ Bx] SX] HZ] c Hc. apply in_max in Hc as [(s & i & Hs & Hi & ->)|[(j & Hj & ->)|[(j & Hj & ->)| ->]]]; unfold holds; cbn [l_a l_b l_st].
      + rewrite dot_snoc by (rewrite row_len2; auto). assert (X := SX s Hs i Hi). lra.
      + rewrite dot_snoc, dot_unit by (rewrite ?unit_len; auto). rewrite Forall_forall in Bx. assert (X := Bx (nth j x 0%Q) ltac:(apply nth_In; lia)). lra.
      + rewrite dot_snoc, dot_unit by (rewrite ?unit_len; auto). rewrite Forall_forall in Bx. assert (X := Bx (nth j x 0%Q) ltac:(apply nth_In; lia)). lra.
      + rewrite dot_snoc, dot_vscale by (unfold vscale; rewrite map_length, Lx; apply W). unfold obj in HZ. lra.
  Qed.
  Lemma snoc_of (y : list Q) : length y = S n -> exists x z, y = x ++ [z] /\ length x = n.
  Proof.
    intro L. destruct (exists_last (l := y)) as (x & z & ->); [intros ->; discriminate|]. exists x, z. split; [reflexivity|]. rewrite app_length in L. cbn in L. lia.
  Qed.
  Lemma relax_max : (exists x, relax_sat I l x) -> exists x, relax_sat I l x /\ forall y, relax_sat I l y -> (obj I y <= obj I x)%Q.
  Proof.
    intros (x0 & X0). destruct (last_max n max_system) as (y & Ly & Hy & My).
    - apply Forall_forall. intros c Hc. apply in_max in Hc as [(s & i & Hs & Hi & ->)|[(j & Hj & ->)|[(j & Hj & ->)| ->]]]; cbn [l_a]; rewrite app_length; cbn [length].
      + rewrite row_len2 by auto. lia.
      + rewrite unit_len. lia.
      + rewrite unit_len. lia.
      + unfold vscale. rewrite map_length. assert (length (i_c I) = n) by apply W. lia.
    - apply Forall_forall. intros c Hc. apply in_max in Hc as [(s & i & Hs & Hi & ->)|[(j & Hj & ->)|[(j & Hj & ->)| ->]]]; reflexivity.
    - exists (x0 ++ [obj I x0]). assert (L0 : length x0 = n) by apply X0. split; [rewrite app_length, L0; cbn; lia|]. apply max_holds; [exact L0|]. split; [exact X0|apply Qle_refl].
    - exists (qsum (map (fun c => Qmax 0 c) (i_c I))). intros y Ly Hy. apply snoc_of in Ly as (x & z & -> & Lx). rewrite last_last.
      apply max_holds in Hy as [X HZ]; [|exact Lx]. eapply Qle_trans; [exact HZ|]. apply obj_cap; [exact W|apply X].
    - apply snoc_of in Ly as (x & z & -> & Lx). apply max_holds in Hy as [X HZ]; [|exact Lx]. exists x. split; [exact X|]. intros y Y.
      assert (L1 : length y = n) by apply Y. assert (H := My (y ++ [obj I y])). rewrite !last_last in H. eapply Qle_trans; [|exact HZ]. apply H.
      + rewrite app_length, L1. cbn. lia.
      + apply max_holds; [exact L1|]. split; [exact Y|apply Qle_refl].
  Qed.
  Lemma relax_dec : (exists x, relax_sat I l x) \/ ~ exists x, relax_sat I l x.
  Proof.
    destruct (elimination (S n) max_system) as [(y & Ly & Hy)|(c & Dc & A)].
    - apply Forall_forall. intros c Hc. apply in_max in Hc as [(s & i & Hs & Hi & ->)|[(j & Hj & ->)|[(j & Hj & ->)| ->]]]; cbn [l_a]; rewrite app_length; cbn [length].
      + rewrite row_len2 by auto. lia.
      + rewrite unit_len. lia.
      + rewrite unit_len. lia.
      + unfold vscale. rewrite map_length. assert (length (i_c I) = n) by apply W. lia.
    - left. apply snoc_of in Ly as (x & z & -> & Lx). apply max_holds in Hy as [X HZ]; [|exact Lx]. now exists x.
    - right. intros (x & X). assert (Lx : length x = n) by apply X. apply (der_absurd max_system c (x ++ [obj I x]) (S n)); auto.
      + apply Forall_forall. intros d Hd. apply in_max in Hd as [(s & i & Hs & Hi & ->)|[(j & Hj & ->)|[(j & Hj & ->)| ->]]]; cbn [l_a]; rewrite app_length; cbn [length].
        * rewrite row_len2 by auto. lia.
        * rewrite unit_len. lia.
        * rewrite unit_len. lia.
        * unfold vscale. rewrite map_length. assert (length (i_c I) = n) by apply W. lia.
      + apply max_holds; [exact Lx|]. split; [exact X|apply Qle_refl].
  Qed.
End Max.

Section Exact.
  Variables (I : inst) (scen inf : list nat).
  Hypothesis W : wf_inst I.
  Hypothesis HS : Forall (fun s => s < i_k I) scen.
  Hypothesis ND : NoDup scen.

  Lemma model_value V : 
    (exists p, acc_feasible I scen inf p /\ (ap_alpha p <= V)%Q) <-> (exists l r, admissible scen inf l r /\ split_within I l r V).
  Proof.
    split.
    - intros (p & HP & HV). destruct (acc_subsets scen p) as [l r] eqn:E. exists l, r. destruct (subset_within I scen inf p l r W HS HP E) as [H1 H2]. split; [exact H1|].
      intros x H. eapply Qle_trans; [apply H2, H|exact HV].
    - intros (l & r & A & HV). destruct (split_reached I scen inf l r V W HS ND A) as [(x & X & XV)|(p & _ & _ & P1 & P2 & _)].
      + specialize (HV x X). lra.
      + exists p. split; [exact P1|]. rewrite P2. apply Qle_refl.
  Qed.

  Variable p : acc_point.
  Hypothesis HP : acc_feasible I scen inf p.
  Hypothesis HO : forall q, acc_feasible I scen inf q -> (ap_alpha p <= ap_alpha q)%Q.

  Lemma split_best l r V : admissible scen inf l r -> split_within I l r V -> (ap_alpha p <= V)%Q.
  Proof.
    intros A HV. destruct (split_reached I scen inf l r V W HS ND A) as [(x & X & XV)|(q & _ & _ & P1 & P2 & _)].
    - specialize (HV x X). lra.
    - rewrite <- P2. now apply HO.
  Qed.
  Lemma split_tight l r V : acc_subsets scen p = (l, r) -> (V < ap_alpha p)%Q ->
    exists x, (relax_sat I l x \/ relax_sat I r x) /\ (V < obj I x)%Q.
  Proof.
    intros E HV. assert (A := acc_sides I scen inf p l r HP E). destruct (split_reached I scen inf l r V W HS ND A) as [X|(q & _ & _ & P1 & P2 & _)]; [exact X|].
    specialize (HO q P1). rewrite P2 in HO. lra.
  Qed.
End Exact.

(** ** Existence of an optimal solution *)
Fixpoint partitions (l : list nat) : list (list nat * list nat) :=
  match l with [] => [([], [])] | a :: t => flat_map (fun lr => [(a :: fst lr, snd lr); (fst lr, a :: snd lr)]) (partitions t) end.
Lemma filter_partitions f l : In (filter f l, filter (fun s => negb (f s)) l) (partitions l).
Proof.
  induction l as [|a l IH]; cbn; [now left|]. apply in_flat_map. eexists. split; [exact IH|]. destruct (f a); cbn; auto.
Qed.
Lemma partitions_perm scen l r : In (l, r) (partitions scen) -> Permutation (l ++ r) scen.
Proof.
  revert l r. induction scen as [|a s IH]; intros l r H; cbn in H.
  - destruct H as [E|[]]. injection E as <- <-. constructor.
  - apply in_flat_map in H as ([x y] & Hx & H). cbn in H. destruct H as [E|[E|[]]]; injection E as <- <-; cbn.
    + constructor. now apply IH.
    + rewrite <- Permutation_middle. constructor. now apply IH.
Qed.
Lemma map_partitions (g : nat -> nat) l a b : In (a, b) (partitions l) -> In (map g a, map g b) (partitions (map g l)).
Proof.
  revert a b. induction l as [|c l IH]; intros a b H; cbn in *.
  - destruct H as [E|[]]. injection E as <- <-. now left.
  - apply in_flat_map in H as ([x y] & Hx & H). apply in_flat_map. exists (map g x, map g y). split; [now apply IH|]. cbn in *.
    destruct H as [E|[E|[]]]; injection E as <- <-; cbn; auto.
Qed.
Lemma subsets_partitions scen p l r : acc_subsets scen p = (l, r) -> In (l, r) (partitions scen).
Proof.
  intro E. apply acc_subsets_spec in E as [-> ->]. assert (H := map_partitions (fun t => nth t scen O) _ _ _ (filter_partitions (fun t => acc_is_left (nth t (ap_piL p) 0%Q)) (seq 0 (length scen)))).
  rewrite map_nth_seq in H. exact H.
Qed.
Lemma best_of {A} (ok : A -> Q -> Prop) (L : list A) : (forall a, In a L -> (exists v, ok a v) \/ ~ exists v, ok a v) -> (exists a v, In a L /\ ok a v) ->
  (forall a v w, ok a v -> ok a w -> (v == w)%Q) -> exists a v, In a L /\ ok a v /\ forall b w, In b L -> ok b w -> (v <= w)%Q.
Proof.
  intros D E U. assert (G : (exists a v, In a L /\ ok a v /\ forall b w, In b L -> ok b w -> (v <= w)%Q) \/ (forall b w, In b L -> ~ ok b w)).
  { clear E. induction L as [|c L IH]; [right; intros ? ? []|]. destruct IH as [(a & v & Ha & Hv & M)|N].
    - intros a Ha. apply D. now right.
    - destruct (D c (or_introl eq_refl)) as [(u & Hu)|N].
      + destruct (Qlt_le_dec u v) as [C|C].
        * left. exists c, u. split; [now left|]. split; [exact Hu|]. intros b w [<-|Hb] Hw; [rewrite (U c u w Hu Hw); apply Qle_refl|]. specialize (M b w Hb Hw). lra.
        * left. exists a, v. split; [now right|]. split; [exact Hv|]. intros b w [<-|Hb] Hw; [rewrite <- (U c u w Hu Hw); exact C|]. now apply (M b).
      + left. exists a, v. split; [now right|]. split; [exact Hv|]. intros b w [<-|Hb] Hw; [destruct N; now exists w|]. now apply (M b).
    - destruct (D c (or_introl eq_refl)) as [(u & Hu)|N2].
      + left. exists c, u. split; [now left|]. split; [exact Hu|]. intros b w [<-|Hb] Hw; [rewrite (U c u w Hu Hw); apply Qle_refl|]. destruct (N b w Hb Hw).
      + right. intros b w [<-|Hb] Hw; [destruct N2; now exists w|]. exact (N b w Hb Hw). }
  destruct G as [G|G]; [exact G|]. destruct E as (a & v & Ha & Hv). destruct (G a v Ha Hv).
Qed.

Lemma split_cost_unique I l r v w : split_cost I l r v -> split_cost I l r w -> (v == w)%Q.
Proof.
  intros [V1 (x & X1 & X2)] [W1 (y & Y1 & Y2)]. assert (A := V1 y Y1). assert (B := W1 x X1). rewrite X2 in B. rewrite Y2 in A. now apply Qle_antisym.
Qed.
Lemma split_cost_exists I l r : wf_inst I -> Forall (fun s => s < i_k I) l -> Forall (fun s => s < i_k I) r ->
  (exists x, relax_sat I l x \/ relax_sat I r x) -> exists v, split_cost I l r v.
Proof.
  intros W HL HR (x & X). destruct (relax_dec I l W HL) as [FL|NL]; destruct (relax_dec I r W HR) as [FR|NR].
  - destruct (relax_max I l W HL FL) as (a & A1 & A2). destruct (relax_max I r W HR FR) as (b & B1 & B2). destruct (Qlt_le_dec (obj I a) (obj I b)) as [C|C].
    + exists (obj I b). split; [|exists b; split; [auto|reflexivity]]. intros y [Y|Y]; [specialize (A2 y Y); lra|now apply B2].
    + exists (obj I a). split; [|exists a; split; [auto|reflexivity]]. intros y [Y|Y]; [now apply A2|specialize (B2 y Y); lra].
  - destruct (relax_max I l W HL FL) as (a & A1 & A2). exists (obj I a). split; [|exists a; split; [auto|reflexivity]]. intros y [Y|Y]; [now apply A2|]. destruct NR. now exists y.
  - destruct (relax_max I r W HR FR) as (b & B1 & B2). exists (obj I b). split; [|exists b; split; [auto|reflexivity]]. intros y [Y|Y]; [|now apply B2]. destruct NL. now exists y.
  - exfalso. destruct X as [X|X]; [apply NL|apply NR]; now exists x.
Qed.

Section Optimum.
  Variables (I : inst) (scen inf : list nat).
  Hypothesis W : wf_inst I.
  Hypothesis HQ0 : acc_query I scen inf.
  Hypothesis F : forall l r, admissible scen inf l r -> exists x, relax_sat I l x \/ relax_sat I r x.
  Let HS : Forall (fun s => s < i_k I) scen := proj1 (proj2 HQ0).
  Let ND : NoDup scen := proj1 HQ0.

  Lemma admissible_range l r : admissible scen inf l r -> Forall (fun s => s < i_k I) l /\ Forall (fun s => s < i_k I) r.
  Proof.
    intros (P & _). apply Forall_app. assert (H := HS). rewrite Forall_forall in H |- *. intros s Hs. apply H. eapply Permutation_in; [exact P|exact Hs].
  Qed.
  Lemma cost_of_admissible l r : admissible scen inf l r -> exists v, split_cost I l r v.
  Proof. intro A. destruct (admissible_range l r A). apply split_cost_exists; auto. Qed.
  Lemma some_point : exists p, acc_feasible I scen inf p.
  Proof. assert (X := HQ0). destruct X as (_ & _ & H3 & H4 & H5). eexists. now apply acc_ref_feasible. Qed.

  Lemma admissible_dec l r : In (l, r) (partitions scen) -> admissible scen inf l r \/ ~ admissible scen inf l r.
  Proof.
    intro HP. assert (P := partitions_perm _ _ _ HP).
    assert (D : forall L : list nat, (exists s, In s L /\ In s inf) \/ ~ exists s, In s L /\ In s inf).
    { intro L. destruct (existsb (fun s => memb s inf) L) eqn:E.
      - left. apply existsb_exists in E as (s & H1 & H2). exists s. split; [exact H1|now apply memb_In].
      - right. intros (s & H1 & H2). assert (existsb (fun s => memb s inf) L = true) by (apply existsb_exists; exists s; split; [exact H1|now apply memb_In]). congruence. }
    destruct (D l) as [Dl|Nl]; [|right; intros (_ & X & _); contradiction]. destruct (D r) as [Dr|Nr]; [|right; intros (_ & _ & X); contradiction]. left. now split.
  Qed.

  Lemma optimum_exists : exists p l r, acc_feasible I scen inf p /\ (forall q, acc_feasible I scen inf q -> (ap_alpha p <= ap_alpha q)%Q) /\
    acc_subsets scen p = (l, r) /\ split_cost I l r (ap_alpha p).
  Proof.
    destruct (best_of (fun lr v => admissible scen inf (fst lr) (snd lr) /\ split_cost I (fst lr) (snd lr) v) (partitions scen)) as ([l r] & v & H1 & [H2 H3] & H4).
    - intros [l r] H. cbn [fst snd]. destruct (admissible_dec l r H) as [A|N].
      + left. destruct (cost_of_admissible l r A) as (v & Hv). exists v. auto.
      + right. intros (v & A & _). contradiction.
    - destruct some_point as (p & HP). destruct (acc_subsets scen p) as [l r] eqn:E. assert (A := acc_sides I scen inf p l r HP E).
      destruct (cost_of_admissible l r A) as (v & Hv). exists (l, r), v. split; [exact (subsets_partitions scen p l r E)|auto].
    - intros a v w [_ A] [_ B]. exact (split_cost_unique I _ _ v w A B).
    - cbn [fst snd] in *. destruct (split_reached I scen inf l r v W HS ND H2) as [(x & X & XV)|(p & l' & r' & P1 & P2 & P3 & P4 & P5)].
      { destruct H3 as [H3 _]. specialize (H3 x X). lra. }
      exists p, l', r'. split; [exact P1|]. split; [|split; [exact P3|]].
      + intros q HQ. destruct (acc_subsets scen q) as [lq rq] eqn:E. destruct (subset_within I scen inf q lq rq W HS HQ E) as [A B].
        destruct (cost_of_admissible lq rq A) as (w & Hw). assert (G := H4 (lq, rq) w (subsets_partitions scen q lq rq E) (conj A Hw)). rewrite P2.
        eapply Qle_trans; [exact G|]. destruct Hw as (_ & x & X1 & X2). rewrite <- X2. now apply B.
      + rewrite P2. destruct H3 as [H3 (x & X1 & X2)]. assert (T : forall y, relax_sat I l' y \/ relax_sat I r' y <-> relax_sat I l y \/ relax_sat I r y).
        { intro y. unfold relax_sat, subset_sat. split; (intros [[Y1 Y2]|[Y1 Y2]]; [left|right]; split; auto; intros s Hs; apply Y2).
          - eapply Permutation_in; [symmetry; exact P4|exact Hs].
          - eapply Permutation_in; [symmetry; exact P5|exact Hs].
          - eapply Permutation_in; [exact P4|exact Hs].
          - eapply Permutation_in; [exact P5|exact Hs]. }
        split; [intros y Y; apply H3; now apply T|]. exists x. split; [now apply T|exact X2].
  Qed.

  (** Every optimal solution: its objective is the relaxed cost of its split, and no admissible split costs less. *)
  Lemma optimum_spec p l r : acc_feasible I scen inf p -> (forall q, acc_feasible I scen inf q -> (ap_alpha p <= ap_alpha q)%Q) -> acc_subsets scen p = (l, r) ->
    split_cost I l r (ap_alpha p) /\ forall l' r' v, admissible scen inf l' r' -> split_cost I l' r' v -> (ap_alpha p <= v)%Q.
  Proof.
    intros HP HO E. destruct (subset_within I scen inf p l r W HS HP E) as [A B]. split.
    - destruct (cost_of_admissible l r A) as (v & V1 & x & X1 & X2). split; [exact B|]. exists x. split; [exact X1|]. rewrite X2.
      assert (G := split_best I scen inf W HS ND p HO l r v A V1). assert (G2 := B x X1). rewrite X2 in G2. now apply Qle_antisym.
    - intros l' r' v A' [V1 _]. exact (split_best I scen inf W HS ND p HO l' r' v A' V1).
  Qed.
End Optimum.

Lemma packing_relax I scen inf : packing I -> forall l r, admissible scen inf l r -> exists x, relax_sat I l x \/ relax_sat I r x.
Proof.
  intros P l r _. exists (repeat 0%Q (i_n I)). left. split; [split; [apply repeat_length|]|intros s _; now apply packing_zero].
  apply Forall_forall. intros v Hv. apply repeat_spec in Hv as ->. lra.
Qed.
