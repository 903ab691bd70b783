(** The double stored for a decimal of the file is the double nearest to the decimal rounded to tenths. *)
From Coq Require Import Qpower Qabs Permutation.
From Verif Require Import Base BaseFacts Spec Instance InstanceFacts Rounding RoundingFacts.

Lemma Z_between (a b : Z) : (inject_Z a < inject_Z b + 1 -> inject_Z b < inject_Z a + 1 -> a = b)%Q.
Proof.
  intros H1 H2. change 1%Q with (inject_Z 1) in H1, H2. rewrite <- inject_Z_plus, <- Zlt_Qlt in H1, H2. lia.
Qed.
Lemma Qrnd_near q z : (inject_Z z - (1 # 2) < q < inject_Z z + (1 # 2))%Q -> Qrnd q = z.
Proof. intros [H1 H2]. destruct (Qrnd_bounds q) as [B1 B2]. apply Z_between; lra. Qed.
Lemma Qrnd_even q t : (Qabs (q - inject_Z (2 * t)) <= 1 # 2)%Q -> Qrnd q = (2 * t)%Z.
Proof.
  intro H. apply abs_le in H. assert (A : Qrnd (inject_Z (2 * t) - (1 # 2)) = (2 * t)%Z).
  { unfold Qrnd. assert (F : Qfloor (inject_Z (2 * t) - (1 # 2)) = (2 * t - 1)%Z).
    { destruct (Qfloor_bounds (inject_Z (2 * t) - (1 # 2))) as [F1 F2]. apply Z_between; unfold Z.sub; rewrite inject_Z_plus; change (inject_Z (- (1))) with (- (1))%Q; lra. }
    rewrite F. assert (D : (inject_Z (2 * t) - (1 # 2) - inject_Z (2 * t - 1) == 1 # 2)%Q) by (unfold Z.sub; rewrite inject_Z_plus; change (inject_Z (- (1))) with (- (1))%Q; ring).
    replace (Qlt_bool _ (1 # 2)) with false by (symmetry; apply Qlt_bool_false; lra).
    replace (Qlt_bool (1 # 2) _) with false by (symmetry; apply Qlt_bool_false; lra).
    replace (Z.even (2 * t - 1)) with false; [lia|]. symmetry. rewrite Z.even_sub, Z.even_mul. reflexivity. }
  assert (B : Qrnd (inject_Z (2 * t) + (1 # 2)) = (2 * t)%Z).
  { unfold Qrnd. assert (F : Qfloor (inject_Z (2 * t) + (1 # 2)) = (2 * t)%Z).
    { destruct (Qfloor_bounds (inject_Z (2 * t) + (1 # 2))) as [F1 F2]. apply Z_between; lra. }
    rewrite F. replace (Qlt_bool _ (1 # 2)) with false by (symmetry; apply Qlt_bool_false; lra).
    replace (Qlt_bool (1 # 2) _) with false by (symmetry; apply Qlt_bool_false; lra).
    now rewrite Z.even_mul. }
  apply Z.le_antisymm; [rewrite <- B|rewrite <- A at 1]; apply Qrnd_mono; lra.
Qed.

(** ** Ties *)
Lemma pow2_split a b : (2 ^ (a + b) == 2 ^ a * 2 ^ b)%Q. Proof. apply Qpower_plus, two_nz. Qed.
Lemma pow2_le a b : (a <= b)%Z -> (2 ^ a <= 2 ^ b)%Q.
Proof. intro H. apply Qpower_le_compat_l; [assumption|discriminate]. Qed.
(** Scaling by 2^j is exact. *)
Lemma div_pow q j : (q / 2 ^ (- j) == q * 2 ^ j)%Q.
Proof. assert (P := pow2_pos j). rewrite Qpower_opp. field. lra. Qed.

Lemma tie_first k x : (x == (2 * inject_Z k + 1) / 20)%Q -> (Qabs x <= 1000000000)%Q ->
  (Qabs (10 * rnd53 x - 10 * x) <= 4 * 2 ^ (mag x - 52))%Q /\ (mag x <= 29)%Z.
Proof.
  intros E B. assert (NZ : ~ (x == 0)%Q).
  { intro C. rewrite C in E. assert (A : (inject_Z (2 * k + 1) == 0)%Q). { rewrite inject_Z_plus, inject_Z_mult. change (inject_Z 2) with 2%Q. change (inject_Z 1) with 1%Q.
      assert (2 * inject_Z k + 1 == 20 * ((2 * inject_Z k + 1) / 20))%Q by field. lra. }
    apply (proj1 (inject_Z_injective _ 0)) in A. lia. }
  destruct (mag_spec x NZ) as [M1 M2]. assert (ME : (mag x <= 29)%Z).
  { destruct (Z_le_gt_dec (mag x) 29) as [L|L]; [assumption|exfalso]. assert (L2 := pow2_le 30 (mag x) ltac:(lia)). change (2 ^ 30)%Q with 1073741824%Q in L2. lra. }
  split; [|exact ME]. unfold rnd53. replace (Qeq_bool x 0) with false by (symmetry; apply not_true_iff_false; intro C; now apply Qeq_bool_iff in C).
  cbv zeta. set (j := (52 - mag x)%Z). replace (mag x - 52)%Z with (- j)%Z by lia. set (s := (2 ^ (- j))%Q).
  assert (PS : (0 < s)%Q) by apply pow2_pos.
  assert (EX : (5 * (x / s) == inject_Z ((2 * k + 1) * 2 ^ (j - 2)))%Q).
  { unfold s. rewrite div_pow, inject_Z_mult, inject_Z_plus, inject_Z_mult, pow2_Z by lia. change (inject_Z 2) with 2%Q. change (inject_Z 1) with 1%Q.
    assert (EJ := pow2_split 2 (j - 2)). replace (2 + (j - 2))%Z with j in EJ by lia. change (2 ^ 2)%Q with 4%Q in EJ. rewrite EJ, E. field. }
  set (N := ((2 * k + 1) * 2 ^ (j - 2))%Z) in *. clearbody N. destruct (Qrnd_bounds (x / s)) as [B1 B2]. set (m := Qrnd (x / s)) in *. clearbody m.
  assert (D : (Z.abs (5 * m - N) <= 2)%Z).
  { assert (H1 : (inject_Z (2 * (5 * m)) <= inject_Z (2 * N + 5))%Q) by (rewrite inject_Z_plus, !inject_Z_mult; change (inject_Z 2) with 2%Q; change (inject_Z 5) with 5%Q; lra).
    assert (H2 : (inject_Z (2 * N) <= inject_Z (2 * (5 * m) + 5))%Q) by (rewrite inject_Z_plus, !inject_Z_mult; change (inject_Z 2) with 2%Q; change (inject_Z 5) with 5%Q; lra).
    rewrite <- Zle_Qle in H1, H2. lia. }
  assert (D1 : (5 * inject_Z m - inject_Z N <= 2 /\ -2 <= 5 * inject_Z m - inject_Z N)%Q).
  { assert (H1 : (inject_Z (5 * m) <= inject_Z (N + 2))%Q) by (rewrite <- Zle_Qle; lia). assert (H2 : (inject_Z N <= inject_Z (5 * m + 2))%Q) by (rewrite <- Zle_Qle; lia).
    rewrite inject_Z_plus, inject_Z_mult in H1, H2. change (inject_Z 2) with 2%Q in *. change (inject_Z 5) with 5%Q in *. split; lra. }
  assert (Q1 : (x == x / s * s)%Q) by (field; lra). set (t := (x / s)%Q) in *. clearbody t. apply abs_le.
  assert (F1 : (inject_Z m - t <= 2 # 5)%Q) by lra. assert (F2 : (- (2 # 5) <= inject_Z m - t)%Q) by lra.
  assert (G : (10 * (inject_Z m * s) - 10 * x == 10 * (inject_Z m - t) * s)%Q) by (rewrite Q1 at 1; ring). rewrite G. split; nra.
Qed.

Lemma tie_second k x : (x == (2 * inject_Z k + 1) / 20)%Q -> (Qabs x <= 1000000000)%Q -> (rnd53 (10 * rnd53 x) == 10 * x)%Q.
Proof.
  intros E B. destruct (Z.eq_dec k 0) as [->|K0]; [assert (X : (x == 1 # 20)%Q) by (rewrite E; reflexivity); rewrite X; vm_compute; reflexivity|].
  destruct (Z.eq_dec k (-1)) as [->|K1]; [assert (X : (x == - (1 # 20))%Q) by (rewrite E; reflexivity); rewrite X; vm_compute; reflexivity|].
  destruct (tie_first k x E B) as [T ME]. set (g := (10 * rnd53 x)%Q) in *. clearbody g. set (y := (10 * x)%Q) in *.
  assert (EY : (y == inject_Z k + (1 # 2))%Q) by (unfold y; rewrite E; field).
  assert (YA : (3 # 2 <= Qabs y)%Q).
  { assert (C : (k <= -2 \/ 1 <= k)%Z) by lia. rewrite EY. destruct C as [C|C]; rewrite Zle_Qle in C.
    - change (inject_Z (-2)) with (-2)%Q in C. rewrite Qabs_neg by lra. lra.
    - change (inject_Z 1) with 1%Q in C. rewrite Qabs_pos by lra. lra. }
  assert (AY : (Qabs y == 10 * Qabs x)%Q) by (unfold y; rewrite Qabs_Qmult; reflexivity).
  assert (NX : ~ (x == 0)%Q) by (intro C; rewrite C in AY; change (Qabs 0) with 0%Q in AY; lra).
  assert (NY : ~ (y == 0)%Q) by (intro C; rewrite C in YA; change (Qabs 0) with 0%Q in YA; lra).
  destruct (mag_spec x NX) as [X1 X2]. destruct (mag_spec y NY) as [Y1 Y2]. set (e := mag x) in *. set (f := mag y) in *.
  assert (EF : (e + 3 <= f)%Z).
  { destruct (Z_le_gt_dec (e + 3) f) as [L|L]; [assumption|exfalso]. assert (L2 := pow2_le (f + 1) (3 + e) ltac:(lia)). rewrite (pow2_split 3 e) in L2. change (2 ^ 3)%Q with 8%Q in L2.
    assert (P := pow2_pos e). lra. }
  assert (F33 : (f <= 33)%Z).
  { destruct (Z_le_gt_dec f 33) as [L|L]; [assumption|exfalso]. assert (L2 := pow2_le 34 f ltac:(lia)). change (2 ^ 34)%Q with 17179869184%Q in L2. lra. }
  assert (F0 : (0 <= f)%Z).
  { destruct (Z_le_gt_dec 0 f) as [L|L]; [assumption|exfalso]. assert (L2 := pow2_le (f + 1) 0 ltac:(lia)). change (2 ^ 0)%Q with 1%Q in L2. lra. }
  (* the error is at most half a unit of the last place of y *)
  set (u := (2 ^ (f - 52))%Q). assert (PU : (0 < u)%Q) by apply pow2_pos.
  assert (H : (Qabs (g - y) <= (1 # 2) * u)%Q).
  { assert (L2 := pow2_le (3 + (e - 52)) (f - 52) ltac:(lia)). rewrite (pow2_split 3) in L2. change (2 ^ 3)%Q with 8%Q in L2. fold u in L2. lra. }
  assert (US : (u <= 1 # 524288)%Q) by (apply (pow2_le (f - 52) (-19)); lia).
  (* y lies inside its binade by at least one half *)
  assert (IN : (2 ^ f + (1 # 2) <= Qabs y /\ Qabs y + (1 # 2) <= 2 ^ (f + 1))%Q).
  { rewrite <- (pow2_Z f) in Y1 |- * by lia. rewrite <- (pow2_Z (f + 1)) in Y2 |- * by lia. set (p := (2 ^ f)%Z) in *. set (r := (2 ^ (f + 1))%Z) in *.
    assert (A2 : exists h, (Qabs y == inject_Z h + (1 # 2))%Q).
    { destruct (Qlt_le_dec y 0) as [S|S].
      - exists (- k - 1)%Z. assert (X : (Qabs y == - y)%Q) by (apply Qabs_neg; lra). unfold Z.sub. rewrite X, inject_Z_plus, inject_Z_opp. change (inject_Z (- (1))) with (- (1))%Q. lra.
      - exists k. assert (X : (Qabs y == y)%Q) by (apply Qabs_pos; lra). lra. }
    destruct A2 as (h & EH). rewrite EH in Y1, Y2 |- *. assert (p <= h)%Z.
    { assert (X : (inject_Z p < inject_Z (h + 1))%Q) by (rewrite inject_Z_plus; change (inject_Z 1) with 1%Q; lra). rewrite <- Zlt_Qlt in X. lia. }
    assert (h + 1 <= r)%Z by (assert (X : (inject_Z h < inject_Z r)%Q) by lra; rewrite <- Zlt_Qlt in X; lia).
    rewrite Zle_Qle in H0, H1. rewrite inject_Z_plus in H1. change (inject_Z 1) with 1%Q in H1. lra. }
  assert (GA : (Qabs y - (1 # 2) * u <= Qabs g <= Qabs y + (1 # 2) * u)%Q).
  { split.
    - assert (X := Qabs_triangle g (y - g)). assert (Z1 : (g + (y - g) == y)%Q) by ring. rewrite Z1 in X. assert (Z2 : (Qabs (y - g) == Qabs (g - y))%Q) by (rewrite Qabs_Qminus; reflexivity). lra.
    - assert (X := Qabs_triangle y (g - y)). assert (Z1 : (y + (g - y) == g)%Q) by ring. rewrite Z1 in X. lra. }
  assert (MG : mag g = f) by (apply mag_unique; lra).
  assert (NG : ~ (g == 0)%Q) by (intro C; rewrite C in GA; change (Qabs 0) with 0%Q in GA; lra).
  unfold rnd53. replace (Qeq_bool g 0) with false by (symmetry; apply not_true_iff_false; intro C; now apply Qeq_bool_iff in C).
  cbv zeta. rewrite MG. fold u.
  assert (YU : (y / u == inject_Z (2 * ((2 * k + 1) * 2 ^ (50 - f))))%Q).
  { unfold u. replace (f - 52)%Z with (- (52 - f))%Z by lia. rewrite div_pow, !inject_Z_mult, inject_Z_plus, inject_Z_mult, pow2_Z by lia. change (inject_Z 2) with 2%Q. change (inject_Z 1) with 1%Q.
    assert (EJ := pow2_split 2 (50 - f)). replace (2 + (50 - f))%Z with (52 - f)%Z in EJ by lia. change (2 ^ 2)%Q with 4%Q in EJ. rewrite EJ, EY. ring. }
  rewrite (Qrnd_even _ ((2 * k + 1) * 2 ^ (50 - f))).
  - rewrite <- YU. field. lra.
  - rewrite <- YU. assert (Z1 : (g / u - y / u == (g - y) / u)%Q) by (field; lra). rewrite Z1. unfold Qdiv. rewrite Qabs_Qmult.
    assert (Z2 : (Qabs (/ u) == / u)%Q) by (apply Qabs_pos, Qlt_le_weak, Qinv_lt_0_compat, PU). rewrite Z2.
    apply Qle_shift_div_r; [exact PU|exact H].
Qed.

(** ** The stored coefficient *)
Lemma near_tie x f g : (Qabs x <= 1000000000)%Q -> (Qabs (f - x) <= u53 * Qabs x)%Q -> (Qabs (g - 10 * f) <= u53 * Qabs (10 * f))%Q ->
  (Qabs (g - 10 * x) <= 3 # 1000000)%Q.
Proof.
  intros B H1 H2. assert (US : (u53 <= 112 # 1000000000000000000)%Q) by discriminate. assert (U : (0 < u53)%Q) by reflexivity.
  assert (AF : (Qabs (10 * f) == 10 * Qabs f)%Q) by (rewrite Qabs_Qmult; reflexivity). rewrite AF in H2. assert (P := Qabs_nonneg x).
  set (a := Qabs x) in *. assert (FB : (Qabs f <= 1000000001)%Q).
  { assert (X : (- a <= x /\ x <= a)%Q) by (apply abs_le, Qle_refl). apply abs_le in H1. assert (u53 * a <= 1)%Q by nra. apply abs_le. lra. }
  assert (u53 * a <= 112 # 1000000000)%Q by nra. assert (P2 := Qabs_nonneg f). set (b := Qabs f) in *. clearbody a b.
  assert (u53 * (10 * b) <= 113 # 100000000)%Q by nra. apply abs_le in H1, H2. apply abs_le. split; lra.
Qed.

(** A decimal with at most six digits after the point. *)
Definition decimal6 (x : Q) : Prop := exists p, (x == inject_Z p / 1000000)%Q.
Lemma int_of_tenths x : decimal6 x -> (Qabs x <= 1000000000)%Q -> Qrnd (rnd53 (10 * rnd53 x)) = Qrnd (10 * x).
Proof.
  intros (p & EP) B. destruct (Z.eq_dec (p mod 100000) 50000) as [T|T].
  { assert (E2 : (x == (2 * inject_Z (p / 100000) + 1) / 20)%Q).
    { assert (D := Z.div_mod p 100000 ltac:(lia)). rewrite T in D. rewrite EP. rewrite D at 1. rewrite inject_Z_plus, inject_Z_mult.
      change (inject_Z 100000) with 100000%Q. change (inject_Z 50000) with 50000%Q. field. }
    now rewrite (tie_second _ x E2 B). }
  apply Qrnd_near. assert (N := near_tie x (rnd53 x) (rnd53 (10 * rnd53 x)) B (rnd53_rounding _) (rnd53_rounding _)).
  set (g := rnd53 _) in *. clearbody g. destruct (Qrnd_bounds (10 * x)) as [B1 B2]. set (z := Qrnd (10 * x)) in *. clearbody z.
  assert (E10 : (100000 * (10 * x) == inject_Z p)%Q) by (rewrite EP; field).
  assert (H1 : (inject_Z (z * 100000 - 50000) <= inject_Z p)%Q).
  { unfold Z.sub. rewrite inject_Z_plus, inject_Z_mult. change (inject_Z 100000) with 100000%Q. change (inject_Z (- (50000))) with (- (50000))%Q. lra. }
  assert (H2 : (inject_Z p <= inject_Z (z * 100000 + 50000))%Q).
  { rewrite inject_Z_plus, inject_Z_mult. change (inject_Z 100000) with 100000%Q. change (inject_Z 50000) with 50000%Q. lra. }
  rewrite <- Zle_Qle in H1, H2.
  assert (H3 : (z * 100000 - 50000 + 1 <= p <= z * 100000 + 50000 - 1)%Z).
  { split; [destruct (Z.eq_dec p (z * 100000 - 50000)) as [C|C]|destruct (Z.eq_dec p (z * 100000 + 50000)) as [C|C]]; try lia; exfalso; apply T; rewrite C.
    - replace (z * 100000 - 50000)%Z with (50000 + (z - 1) * 100000)%Z by lia. rewrite Z.mod_add by lia. reflexivity.
    - replace (z * 100000 + 50000)%Z with (50000 + z * 100000)%Z by lia. rewrite Z.mod_add by lia. reflexivity. }
  destruct H3 as [H3 H4]. rewrite Zle_Qle in H3, H4. unfold Z.sub in H3, H4. rewrite !inject_Z_plus, inject_Z_mult in H3, H4.
  change (inject_Z 100000) with 100000%Q in *. change (inject_Z 50000) with 50000%Q in *. change (inject_Z (- (50000))) with (- (50000))%Q in *.
  change (inject_Z (- (1))) with (- (1))%Q in *. change (inject_Z 1) with 1%Q in *. apply abs_le in N. split; lra.
Qed.

Lemma store_spec x : decimal6 x -> (Qabs x <= 1000000000)%Q -> store x = rnd53 (round1 x).
Proof. intros D B. unfold store, round1. now rewrite int_of_tenths. Qed.

(** ** The loaded instance *)
Lemma parse_with_round1 rows cont eps : parse_with round1 rows cont eps = parse rows cont eps.
Proof. reflexivity. Qed.

Lemma geti_in {A} (l : list A) i a : geti l i = Ok a -> In a l.
Proof. unfold geti. destruct (nth_error l i) eqn:E; [|discriminate]. intro H. injection H as <-. eapply nth_error_In, E. Qed.
Lemma rmap_in {A B} (f : A -> res B) l l' b : rmap f l = Ok l' -> In b l' -> exists a, In a l /\ f a = Ok b.
Proof.
  revert l'. induction l as [|a l IH]; cbn; intros l' H Hb; [injection H as <-; destruct Hb|].
  destruct (f a) as [b0|] eqn:E; cbn in H; [|discriminate]. destruct (rmap f l) as [bs|]; cbn in H; [|discriminate]. injection H as <-.
  destruct Hb as [<-|Hb]; [exists a; auto|]. destruct (IH bs eq_refl Hb) as (a' & H1 & H2). exists a'; auto.
Qed.
Lemma broadcast_in r k m b l q : broadcast r k m = Ok b -> In l b -> In q l -> In q r.
Proof.
  unfold broadcast. destruct (Nat.eqb _ _).
  - intro H. injection H as <-. intros Hl Hq. apply repeat_spec in Hl. now subst.
  - destruct r as [|v [|]]; try discriminate. intro H. injection H as <-. intros Hl Hq. apply repeat_spec in Hl. subst l. apply repeat_spec in Hq. subst q. now left.
Qed.
Lemma last_in {A} (l : list A) d : l <> [] -> In (last l d) l.
Proof.
  induction l as [|a l IH]; [easy|]. intros _. destruct l as [|a' l]; [now left|]. right. apply IH. discriminate.
Qed.

Definition plain (q : Q) : Prop := decimal6 q /\ (Qabs q <= 1000000000)%Q.
Lemma parse_fl_ok rows cont eps : Forall (Forall plain) rows ->
  parse_with store rows cont eps = do J <- parse rows cont eps ;; Ok (fl_inst rnd53 J).
Proof.
  intro HP. assert (HS : forall r q, In r rows -> In q r -> store q = rnd53 (round1 q)).
  { intros r q Hr Hq. rewrite Forall_forall in HP. specialize (HP r Hr). rewrite Forall_forall in HP. destruct (HP q Hq) as [D B]. now apply store_spec. }
  unfold parse_with, parse. destruct (geti rows 0) as [info|]; cbn [rbind]; [|reflexivity].
  destruct (geti info 0) as [fn|]; cbn [rbind]; [|reflexivity]. destruct (geti info 2) as [fk|]; cbn [rbind]; [|reflexivity].
  destruct (geti info 1) as [fm|]; cbn [rbind]; [|reflexivity]. cbv zeta. destruct (_ || _); [reflexivity|].
  destruct (geti rows 1) as [c|] eqn:EC; cbn [rbind]; [|reflexivity]. destruct (rmap _ (seq 0 (Z.to_nat (Qtrunc fk)))) as [A|] eqn:EA; cbn [rbind]; [|reflexivity].
  destruct (negb _); [reflexivity|]. destruct (Nat.eqb _ 0); [reflexivity|]. destruct (_ <? 0)%Z; [reflexivity|].
  destruct (broadcast _ _ _) as [b|] eqn:EB; cbn [rbind]; [|reflexivity]. unfold fl_inst. cbn [i_n i_m i_k i_cont i_eps i_c i_A i_b]. f_equal. f_equal.
  - rewrite map_map. apply map_ext_in. intros q Hq. eapply HS; [eapply geti_in, EC|exact Hq].
  - rewrite map_map. apply map_ext_in. intros M HM. rewrite map_map. apply map_ext_in. intros r Hr. rewrite map_map. apply map_ext_in. intros q Hq.
    destruct (rmap_in _ _ _ _ EA HM) as (s & _ & E1). destruct (rmap_in _ _ _ _ E1 Hr) as (i & _ & E2). eapply HS; [eapply geti_in, E2|exact Hq].
  - rewrite map_map. apply map_ext_in. intros r Hr. rewrite map_map. apply map_ext_in. intros q Hq.
    eapply HS; [apply last_in|eapply broadcast_in; eassumption]. intros ->. discriminate EC.
Qed.

(** ** Feasibility of the loaded instance *)
Lemma near_map rnd l : rounding rnd -> Forall2 near (map rnd l) l.
Proof. intro R. induction l as [|q l IH]; constructor; [apply R|exact IH]. Qed.
Lemma row_fl rnd I s i : row (fl_inst rnd I) s i = map rnd (row I s i).
Proof.
  unfold row, fl_inst. cbn [i_A]. change (@nil (list Q)) with (map (map rnd) []). rewrite map_nth.
  change (@nil Q) with (map rnd []) at 1. rewrite map_nth. reflexivity.
Qed.
Lemma rhs_fl rnd I s i : s < length (i_b I) -> i < length (nth s (i_b I) []) -> rhs (fl_inst rnd I) s i = rnd (rhs I s i).
Proof.
  intros H1 H2. unfold rhs, fl_inst. cbn [i_b]. change (@nil Q) with (map rnd []) at 1. rewrite map_nth.
  rewrite (nth_indep _ _ (rnd 0%Q)) by now rewrite map_length. now rewrite map_nth.
Qed.

Section Flags.
  Variables (rnd : Q -> Q) (I : inst) (d : nat) (delta : Q) (x y : list Q) (v : nat -> nat -> Q).
  Hypothesis R : rounding rnd.
  Hypothesis W : wf_inst I.
  Hypothesis TA : Forall (Forall (Forall tenth)) (i_A I).
  Hypothesis TB : Forall (Forall tenth) (i_b I).
  Hypothesis HX : Forall2 (fun x y => Qabs (x - y) <= delta)%Q x y.
  Hypothesis HY : is_bin y.
  Hypothesis HD : (0 <= delta <= 1)%Q.
  Hypothesis D1 : (Qn d + 1 <= 100000000)%Q.
  Hypothesis D2 : forall s i, s < i_k I -> i < i_m I ->
    ((Qn d + 1) * (asum (row I s i) + Qabs (rhs I s i)) <= 100000000 /\ delta * asum (row I s i) <= 1 # 2000000)%Q.
  Hypothesis HV : forall s i, s < i_k I -> i < i_m I -> fsum rnd d (terms (row (fl_inst rnd I) s i) x) (v s i).

  Lemma flags_exact : flags_fl rnd (fl_inst rnd I) v = map (fun s => negb (satb I 0 y s)) (seq 0 (i_k I)).
  Proof.
    destruct W as (_ & _ & WA & WM & WB & WR). unfold flags_fl. cbn [fl_inst i_k i_m]. apply map_ext_in. intros s Hs. apply in_seq in Hs.
    assert (Hk : s < i_k I) by lia. clear Hs. assert (V : forall i, i < i_m I -> violated_fl rnd (v s i) (rhs (fl_inst rnd I) s i) = negb (Qle_bool (dot (row I s i) y) (rhs I s i + 0))).
    { intros i Hi. assert (LB : length (nth s (i_b I) []) = i_m I) by (rewrite Forall_forall in WR; apply WR, nth_In; lia).
      assert (LA : length (nth s (i_A I) []) = i_m I) by (rewrite Forall_forall in WM; apply (WM (nth s (i_A I) [])), nth_In; lia).
      rewrite rhs_fl by lia. destruct (D2 s i Hk Hi) as [E1 E2]. specialize (HV s i Hk Hi). rewrite row_fl in HV.
      apply eq_true_iff_eq. rewrite (row_verdict rnd R d delta (row I s i) (rhs I s i) (map rnd (row I s i)) (rnd (rhs I s i)) x y (v s i)); auto.
      - rewrite negb_true_iff, <- not_true_iff_false, Qle_bool_iff. split; intro H; [lra|]. apply Qnot_le_lt. intro C. apply H. lra.
      - unfold row. assert (T := TA). rewrite Forall_forall in T. assert (T2 : Forall (Forall tenth) (nth s (i_A I) [])) by (apply T, nth_In; lia).
        rewrite Forall_forall in T2. apply T2, nth_In. lia.
      - unfold rhs. assert (T := TB). rewrite Forall_forall in T. assert (T2 : Forall tenth (nth s (i_b I) [])) by (apply T, nth_In; lia).
        rewrite Forall_forall in T2. apply T2, nth_In. lia.
      - now apply near_map.
      - apply R. }
    unfold satb. apply eq_true_iff_eq. rewrite negb_true_iff, <- not_true_iff_false, forallb_forall, existsb_exists. split.
    - intros (i & Hi & E) C. assert (Hi' : i < i_m I) by (apply in_seq in Hi; lia). rewrite V in E by exact Hi'. rewrite (C i Hi) in E. discriminate.
    - intro C. destruct (existsb (fun i => violated_fl rnd (v s i) (rhs (fl_inst rnd I) s i)) (seq 0 (i_m I))) eqn:E; [now apply existsb_exists in E|].
      exfalso. apply C. intros i Hi. assert (Hi' : i < i_m I) by (apply in_seq in Hi; lia). destruct (Qle_bool _ _) eqn:EQ; [reflexivity|].
      assert (V' := V i Hi'). rewrite EQ in V'. assert (T : existsb (fun i => violated_fl rnd (v s i) (rhs (fl_inst rnd I) s i)) (seq 0 (i_m I)) = true) by (apply existsb_exists; exists i; auto). congruence.
  Qed.

  Lemma count_exact : count (fun f => f) (flags_fl rnd (fl_inst rnd I) v) = nviol I 0 y.
  Proof. rewrite flags_exact. unfold nviol, count. induction (seq 0 (i_k I)) as [|s l IH]; [reflexivity|]. cbn. destruct (negb _); cbn; now rewrite IH. Qed.

  Lemma verdict_exact : Qfloor (rnd (rnd (i_eps I) * Qn (i_k I))%Q) = Qfloor (i_eps I * Qn (i_k I))%Q ->
    feasible_fl rnd (fl_inst rnd I) v = Qle_bool (Qn (nviol I 0 y)) (i_eps I * Qn (i_k I)).
  Proof.
    intro F. unfold feasible_fl. rewrite count_exact. cbn [fl_inst i_eps i_k]. set (nv := nviol I 0 y). assert (K : forall q, (Qn nv <= q)%Q <-> (Z.of_nat nv <= Qfloor q)%Z).
    { intro q. unfold Qn. split; intro H.
      - apply Qfloor_resp_le in H. now rewrite Qfloor_Z in H.
      - eapply Qle_trans; [|apply Qfloor_le]. now rewrite <- Zle_Qle. }
    apply eq_true_iff_eq. rewrite !Qle_bool_iff, !K, F. tauto.
  Qed.
End Flags.
