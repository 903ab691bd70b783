(** The quantile and the selection of the scenarios in doubles. *)
From Coq Require Import Qpower Qabs Permutation.
From Verif Require Import Base BaseFacts Spec Instance InstanceFacts Bounds Rounding RoundingFacts.

(** No cumulated probability within 1e-9 of the threshold. *)
Definition clear_of (k : nat) (thr : Q) : Prop := forall j, j <= k -> (1 # 1000000000 < Qabs (Qn j / Qn k - thr))%Q.

Section Loop.
  Variables (rnd : Q -> Q) (k : nat).
  Hypothesis R : rounding rnd.
  Hypothesis K0 : 0 < k.
  Hypothesis K1 : (Qn k <= 1000000)%Q.

  Definition acc_err (j : nat) (t : Q) : Prop := (Qabs (t - Qn j / Qn k) <= 3 * Qn j * u53)%Q.
  Lemma k_pos : (0 < Qn k)%Q.
  Proof using K0. unfold Qn. change 0%Q with (inject_Z 0). rewrite <- Zlt_Qlt. lia. Qed.

  Lemma acc_step j t : j < k -> acc_err j t -> acc_err (S j) (rnd (t + rnd (1 / Qn k))%Q).
  Proof using R K0 K1.
    intros Hj H. unfold acc_err in *. assert (KP := k_pos). assert (US := u53_small). assert (U : (0 < u53)%Q) by reflexivity. rewrite Qn_S.
    assert (J0 := Qn_pos j). assert (JK : (Qn j + 1 <= Qn k)%Q) by (rewrite <- Qn_S; unfold Qn; rewrite <- Zle_Qle; lia).
    set (p := (1 / Qn k)%Q). assert (EP : (p * Qn k == 1)%Q) by (unfold p; field; lra).
    assert (P0 : (0 <= p)%Q) by (apply Qnot_lt_le; intro C; nra). assert (P1 : (p <= 1)%Q).
    { apply Qnot_lt_le. intro C. assert (1 <= Qn k)%Q by lra. nra. }
    assert (EJ : (Qn j / Qn k == Qn j * p)%Q) by (unfold p; field; lra). assert (EJ1 : ((Qn j + 1) / Qn k == Qn j * p + p)%Q) by (unfold p; field; lra).
    rewrite EJ in H. rewrite EJ1. assert (JP : (Qn j * p + p <= 1)%Q) by nra.
    assert (RP : (Qabs (rnd p - p) <= u53 * Qabs p)%Q) by apply R. rewrite (Qabs_pos p P0) in RP. set (rp := rnd p) in *. clearbody rp. assert (RS := R (t + rp)%Q). set (v := rnd (t + rp)%Q) in *. clearbody v.
    set (n := Qn j) in *. clearbody n. assert (NP : (0 <= n * p)%Q) by nra. set (np := (n * p)%Q) in *. clearbody np. clearbody p. assert (N6 : (n <= 1000000)%Q) by lra.
    assert (NU : (n * u53 <= 1 # 1000000)%Q) by nra. assert (PU : (u53 * p <= u53)%Q) by nra.
    apply abs_le in H, RP. assert (SB : (Qabs (t + rp) <= 3 # 2)%Q) by (apply abs_le; split; lra).
    assert (SU : (u53 * Qabs (t + rp) <= (3 # 2) * u53)%Q) by nra. apply abs_le in RS. apply abs_le. split; lra.
  Qed.

  Lemma decide j t thr thr0 : j <= k -> acc_err j t -> clear_of k thr0 -> (Qabs (thr - thr0) <= 8 * u53)%Q ->
    forall t0, (t0 == Qn j / Qn k)%Q -> Qle_bool thr t = Qle_bool thr0 t0.
  Proof using K0 K1.
    intros Hj H C T t0 E0. unfold acc_err in H. assert (US : (u53 <= 2 # 10000000000000000)%Q) by discriminate. assert (U : (0 < u53)%Q) by reflexivity. specialize (C j Hj).
    assert (JK : (Qn j <= Qn k)%Q) by (unfold Qn; rewrite <- Zle_Qle; lia). assert (J0 := Qn_pos j).
    rewrite <- E0 in H, C. assert (NU : (Qn j * u53 <= 2 # 10000000000)%Q) by nra. apply abs_le in H, T.
    apply eq_true_iff_eq. rewrite !Qle_bool_iff. destruct (Qlt_le_dec (t0 - thr0) 0) as [S|S].
    - assert (EA : (Qabs (t0 - thr0) == - (t0 - thr0))%Q) by (apply Qabs_neg; lra). split; intro; lra.
    - assert (EA : (Qabs (t0 - thr0) == t0 - thr0)%Q) by (apply Qabs_pos; lra). split; intro; lra.
  Qed.

  Lemma geti_repeat (q : Q) n s : geti (repeat q n) s = if s <? n then Ok q else Err IndexError.
  Proof.
    unfold geti. destruct (Nat.ltb_spec s n) as [L|L].
    - rewrite (nth_error_nth' _ q) by now rewrite repeat_length. now rewrite nth_repeat.
    - destruct (nth_error _ s) eqn:E; [|reflexivity]. assert (L2 : s < length (repeat q n)) by (apply nth_error_Some; congruence). rewrite repeat_length in L2. lia.
  Qed.

  Lemma tot_step j t0 : (t0 == Qn j / Qn k)%Q -> (t0 + 1 / Qn k == Qn (S j) / Qn k)%Q.
  Proof using K0. intro E. assert (KP := k_pos). rewrite E, Qn_S. field. lra. Qed.

  Lemma ahmed_same costs eps thr : clear_of k (eps + (1 # 10000000)) -> (Qabs (thr - (eps + (1 # 10000000))) <= 8 * u53)%Q ->
    forall l j t t0, j + length l <= k -> acc_err j t -> (t0 == Qn j / Qn k)%Q ->
    ahmed_loop_fl rnd costs (uniform_fl rnd k) thr t l = ahmed_loop costs (uniform k) eps t0 l.
  Proof using R K0 K1.
    intros C T. induction l as [|s l IH]; intros j t t0 HL H E; [reflexivity|]. cbn [ahmed_loop_fl ahmed_loop length] in *.
    unfold uniform_fl, uniform. rewrite !geti_repeat. destruct (s <? k); cbn [rbind]; [|reflexivity]. cbv zeta.
    assert (H' := acc_step j t ltac:(lia) H). assert (E' := tot_step j t0 E). rewrite (decide (S j) _ thr _ ltac:(lia) H' C T _ E').
    destruct (Qle_bool _ _); [reflexivity|]. apply (IH (S j)); [lia|exact H'|exact E'].
  Qed.
  Lemma select_same eps thr : clear_of k (1 - eps - (1 # 10000000)) -> (Qabs (thr - (1 - eps - (1 # 10000000))) <= 8 * u53)%Q ->
    forall l j t t0 done, j + length l <= k -> acc_err j t -> (t0 == Qn j / Qn k)%Q ->
    select_loop_fl rnd (uniform_fl rnd k) thr t done l = select_loop (uniform k) eps t0 done l.
  Proof using R K0 K1.
    intros C T. induction l as [|s l IH]; intros j t t0 done HL H E; [reflexivity|]. cbn [select_loop_fl select_loop length] in *.
    unfold uniform_fl, uniform. rewrite !geti_repeat. destruct (s <? k); cbn [rbind]; [|reflexivity]. cbv zeta.
    assert (H' := acc_step j t ltac:(lia) H). assert (E' := tot_step j t0 E). rewrite (decide (S j) _ thr _ ltac:(lia) H' C T _ E').
    destruct (Qle_bool _ _); [reflexivity|]. apply (IH (S j)); [lia|exact H'|exact E'].
  Qed.

  Lemma thr_up eps : (0 <= eps <= 1)%Q -> (Qabs (rnd (rnd eps + rnd (1 # 10000000)) - (eps + (1 # 10000000))) <= 8 * u53)%Q.
  Proof using R.
    intro HE. assert (US := u53_small). assert (U : (0 < u53)%Q) by reflexivity. assert (R1 : (Qabs (rnd eps - eps) <= u53 * Qabs eps)%Q) by apply R. assert (R2 := R (1 # 10000000)). change (Qabs (1 # 10000000)) with (1 # 10000000) in R2.
    rewrite (Qabs_pos eps (proj1 HE)) in R1. set (a := rnd eps) in *. set (b := rnd (1 # 10000000)) in *. assert (R3 := R (a + b)%Q). set (c := rnd (a + b)%Q) in *. clearbody a b c.
    assert (u53 * eps <= u53)%Q by nra. apply abs_le in R1, R2. assert (S : (Qabs (a + b) <= 2)%Q) by (apply abs_le; split; lra).
    assert (u53 * Qabs (a + b) <= u53 * 2)%Q by nra. apply abs_le in R3. apply abs_le. split; lra.
  Qed.
  Lemma thr_low eps : (0 <= eps <= 1)%Q -> (Qabs (rnd (rnd (1 - rnd eps) - rnd (1 # 10000000)) - (1 - eps - (1 # 10000000))) <= 8 * u53)%Q.
  Proof using R.
    intro HE. assert (US := u53_small). assert (U : (0 < u53)%Q) by reflexivity. assert (R1 : (Qabs (rnd eps - eps) <= u53 * Qabs eps)%Q) by apply R. assert (R2 := R (1 # 10000000)). change (Qabs (1 # 10000000)) with (1 # 10000000) in R2.
    rewrite (Qabs_pos eps (proj1 HE)) in R1. set (a := rnd eps) in *. set (b := rnd (1 # 10000000)) in *. assert (R3 := R (1 - a)%Q). set (c := rnd (1 - a)%Q) in *.
    assert (R4 := R (c - b)%Q). set (d := rnd (c - b)%Q) in *. clearbody a b c d.
    assert (u53 * eps <= u53)%Q by nra. apply abs_le in R1, R2. assert (S : (Qabs (1 - a) <= 2)%Q) by (apply abs_le; split; lra).
    assert (u53 * Qabs (1 - a) <= u53 * 2)%Q by nra. apply abs_le in R3. assert (S2 : (Qabs (c - b) <= 2)%Q) by (apply abs_le; split; lra).
    assert (u53 * Qabs (c - b) <= u53 * 2)%Q by nra. apply abs_le in R4. apply abs_le. split; lra.
  Qed.

  Lemma acc_0 : acc_err 0 0.
  Proof using K0. unfold acc_err. change (Qn 0) with 0%Q. assert (KP := k_pos). assert (E : (0 - 0 / Qn k == 0)%Q) by (field; lra). rewrite E. change (Qabs 0) with 0%Q. lra. Qed.
  Lemma tot_0 : (0 == Qn 0 / Qn k)%Q.
  Proof using K0. change (Qn 0) with 0%Q. assert (KP := k_pos). field. lra. Qed.

  Lemma quantile_same argsort costs eps : length (argsort costs) <= k -> (0 <= eps <= 1)%Q -> clear_of k (eps + (1 # 10000000)) ->
    ahmed_bound_fl rnd argsort costs k eps = ahmed_bound argsort costs (uniform k) eps.
  Proof using R K0 K1.
    intros L HE C. unfold ahmed_bound_fl, ahmed_bound. apply (ahmed_same costs eps _ C (thr_up eps HE) _ 0); [exact L|apply acc_0|apply tot_0].
  Qed.
  Lemma selection_same argsort index eps : length (argsort index) <= k -> (0 <= eps <= 1)%Q -> clear_of k (1 - eps - (1 # 10000000)) ->
    selected_scenarios_fl rnd argsort eps k index = selected_scenarios argsort (uniform k) eps k index.
  Proof using R K0 K1.
    intros L HE C. unfold selected_scenarios_fl, selected_scenarios. destruct (_ <? _); [reflexivity|].
    apply (select_same eps _ C (thr_low eps HE) _ 0); [exact L|apply acc_0|apply tot_0].
  Qed.
End Loop.

(** Risk levels with at most three decimals, at most 5000 scenarios. *)
Lemma frac_gap p k j : 0 < k -> k <= 50 * 100 -> let q := (Qn j / Qn k - inject_Z p / 1000)%Q in (q == 0 \/ 2 # 10000000 <= Qabs q)%Q.
Proof.
  intros K0 K1 q. assert (KP : (0 < Qn k)%Q) by (unfold Qn; change 0%Q with (inject_Z 0); rewrite <- Zlt_Qlt; lia).
  assert (KL : (Qn k <= 5000)%Q) by (change 5000%Q with (inject_Z 5000); unfold Qn; rewrite <- Zle_Qle; lia).
  assert (E : (q * (1000 * Qn k) == inject_Z (1000 * Z.of_nat j - p * Z.of_nat k))%Q).
  { unfold q. unfold Z.sub. rewrite inject_Z_plus, inject_Z_opp, !inject_Z_mult. fold (Qn j) (Qn k). change (inject_Z 1000) with 1000%Q. field. lra. }
  set (z := (1000 * Z.of_nat j - p * Z.of_nat k)%Z) in *. clearbody q z. destruct (Z.eq_dec z 0) as [->|NZ].
  - left. change (inject_Z 0) with 0%Q in E. nra.
  - right. assert (A : (1 <= Qabs (q * (1000 * Qn k)))%Q).
    { rewrite E. unfold Qabs, inject_Z, Qle. cbn. lia. }
    rewrite Qabs_Qmult, (Qabs_pos (1000 * Qn k)) in A by lra. assert (P := Qabs_nonneg q). set (a := Qabs q) in *. clearbody a.
    apply Qnot_lt_le. intro C. nra.
Qed.
Lemma clear_permille p k : 0 < k -> k <= 50 * 100 -> clear_of k (inject_Z p / 1000 + (1 # 10000000)) /\ clear_of k (1 - inject_Z p / 1000 - (1 # 10000000)).
Proof.
  intros K0 K1. split; intros j _.
  - destruct (frac_gap p k j K0 K1) as [H|H].
    + assert (E : (Qn j / Qn k - (inject_Z p / 1000 + (1 # 10000000)) == - (1 # 10000000))%Q) by lra. rewrite E. reflexivity.
    + set (q := (Qn j / Qn k - inject_Z p / 1000)%Q) in *. assert (E : (Qn j / Qn k - (inject_Z p / 1000 + (1 # 10000000)) == q - (1 # 10000000))%Q) by (unfold q; ring). rewrite E.
      clearbody q. assert (X := Qabs_triangle_reverse q (1 # 10000000)). change (Qabs (1 # 10000000)) with (1 # 10000000) in X. lra.
  - destruct (frac_gap (1000 - p) k j K0 K1) as [H|H]; cbv zeta in H; set (q := (Qn j / Qn k - inject_Z (1000 - p) / 1000)%Q) in *;
      (assert (E : (Qn j / Qn k - (1 - inject_Z p / 1000 - (1 # 10000000)) == q + (1 # 10000000))%Q);
       [unfold q, Z.sub; rewrite inject_Z_plus, inject_Z_opp; change (inject_Z 1000) with 1000%Q; field; assert (0 < Qn k)%Q by (unfold Qn; change 0%Q with (inject_Z 0); rewrite <- Zlt_Qlt; lia); lra|]); rewrite E.
    + rewrite H. reflexivity.
    + assert (E2 : (q + (1 # 10000000) == q - - (1 # 10000000))%Q) by ring. rewrite E2. clearbody q. assert (X := Qabs_triangle_reverse q (- (1 # 10000000))). change (Qabs (- (1 # 10000000))) with (1 # 10000000) in X. lra.
Qed.
