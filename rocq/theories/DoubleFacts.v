(** Coq's SpecFloat operations for binary64 compute the nearest double of the exact result (C76). *)
From Coq Require Import SpecFloat Qpower Qabs Lia Lqa.
From Verif Require Import Base BaseFacts Spec Instance InstanceFacts Rounding RoundingFacts Floats Double.
From Verif Require ResultSpec ResultFacts.
Local Open Scope Z_scope.

(** ** Positions between integers *)

(** x lies between m and m+1 as the two bits say. *)
Definition located (t : shr_record) (x : Q) : Prop :=
  let m := inject_Z (shr_m t) in
  match shr_r t, shr_s t with
  | false, false => (x == m)%Q
  | false, true => (m < x /\ x < m + (1 # 2))%Q
  | true, false => (x == m + (1 # 2))%Q
  | true, true => (m + (1 # 2) < x /\ x < m + 1)%Q
  end.
Lemma located_range t x : located t x -> (inject_Z (shr_m t) <= x < inject_Z (shr_m t) + 1)%Q.
Proof. unfold located. destruct (shr_r t), (shr_s t); intro H; cbv zeta in H; lra. Qed.
Lemma located_comp t x y : (x == y)%Q -> located t x -> located t y.
Proof. intros E. unfold located. destruct (shr_r t), (shr_s t); cbv zeta; rewrite E; auto. Qed.

Lemma shr_1_located t x : 0 <= shr_m t -> located t x -> 0 <= shr_m (shr_1 t) /\ located (shr_1 t) (x / 2).
Proof.
  destruct t as [m r s]. unfold located. cbn [shr_m shr_r shr_s]. intros M H.
  assert (X : (x == 2 * (x / 2))%Q) by field. set (y := (x / 2)%Q) in *. clearbody y.
  assert (HR : forall m', (r = false /\ s = false -> (x == m')%Q) -> True) by auto. clear HR.
  destruct m as [|p|p]; [| |lia].
  - split; [cbn; lia|]. cbn [shr_1 shr_m shr_r shr_s]. change (inject_Z 0) with 0%Q in *. destruct r, s; cbn [orb]; lra.
  - destruct p as [p|p|].
    + split; [cbn; lia|]. cbn [shr_1 shr_m shr_r shr_s]. assert (E : (inject_Z (Zpos p~1) == 2 * inject_Z (Zpos p) + 1)%Q).
      { rewrite Pos2Z.inj_xI. rewrite inject_Z_plus, inject_Z_mult. reflexivity. }
      set (z := inject_Z (Zpos p)) in *. clearbody z. destruct r, s; cbn [orb]; lra.
    + split; [cbn; lia|]. cbn [shr_1 shr_m shr_r shr_s]. assert (E : (inject_Z (Zpos p~0) == 2 * inject_Z (Zpos p))%Q).
      { rewrite Pos2Z.inj_xO. rewrite inject_Z_mult. reflexivity. }
      set (z := inject_Z (Zpos p)) in *. clearbody z. destruct r, s; cbn [orb]; lra.
    + split; [cbn; lia|]. cbn [shr_1 shr_m shr_r shr_s]. change (inject_Z 0) with 0%Q in *. change (inject_Z 1) with 1%Q in *. destruct r, s; cbn [orb]; lra.
Qed.
Lemma iter_located n : forall t x, 0 <= shr_m t -> located t x ->
  0 <= shr_m (SpecFloat.iter_pos shr_1 n t) /\ located (SpecFloat.iter_pos shr_1 n t) (x / 2 ^ Zpos n).
Proof.
  induction n as [n IH|n IH|]; intros t x M H; cbn [SpecFloat.iter_pos].
  - destruct (shr_1_located t x M H) as [M1 H1]. destruct (IH _ _ M1 H1) as [M2 H2]. destruct (IH _ _ M2 H2) as [M3 H3]. split; [exact M3|].
    eapply located_comp; [|exact H3]. replace (Zpos n~1) with (Zpos n + Zpos n + 1) by lia. rewrite pow2_S, Qpower_plus by apply two_nz.
    assert (P := pow2_pos (Zpos n)). field. lra.
  - destruct (IH _ _ M H) as [M2 H2]. destruct (IH _ _ M2 H2) as [M3 H3]. split; [exact M3|].
    eapply located_comp; [|exact H3]. replace (Zpos n~0) with (Zpos n + Zpos n) by lia. rewrite Qpower_plus by apply two_nz.
    assert (P := pow2_pos (Zpos n)). field. lra.
  - now apply shr_1_located.
Qed.
Lemma pow2_add a b : (2 ^ (a + b) == 2 ^ a * 2 ^ b)%Q.
Proof. apply Qpower_plus, two_nz. Qed.
Lemma shr_located t e n x : 0 <= shr_m t -> located t x ->
  let '(t', e') := shr t e n in 0 <= shr_m t' /\ e' = Z.max e (e + n) /\ located t' (x * 2 ^ e / 2 ^ e').
Proof.
  intros M H. assert (P := pow2_pos e). destruct n as [|n|n]; cbn [shr].
  - split; [exact M|]. split; [lia|]. eapply located_comp; [|exact H]. field. lra.
  - destruct (iter_located n t x M H) as [M1 H1]. split; [exact M1|]. split; [lia|]. eapply located_comp; [|exact H1].
    rewrite pow2_add. assert (P1 := pow2_pos (Zpos n)). field. lra.
  - split; [exact M|]. split; [lia|]. eapply located_comp; [|exact H]. field. lra.
Qed.

Lemma floor_unique x m : (inject_Z m <= x < inject_Z m + 1)%Q -> Qfloor x = m.
Proof.
  intros [H1 H2]. destruct (Qfloor_bounds x) as [F1 F2].
  assert (A : (inject_Z m < inject_Z (Qfloor x + 1))%Q) by (rewrite inject_Z_plus; change (inject_Z 1) with 1%Q; lra).
  assert (B : (inject_Z (Qfloor x) < inject_Z (m + 1))%Q) by (rewrite inject_Z_plus; change (inject_Z 1) with 1%Q; lra).
  rewrite <- Zlt_Qlt in A, B. lia.
Qed.
Lemma nearest_located t x : located t x -> round_nearest_even (shr_m t) (loc_of_shr_record t) = Qrnd x.
Proof.
  intro H. assert (F := floor_unique x (shr_m t) (located_range t x H)). unfold Qrnd. rewrite F. clear F. unfold located in H. cbv zeta in H.
  assert (B1 : forall q, (q < 1 # 2)%Q -> Qlt_bool q (1 # 2) = true) by (intros q Hq; now apply Qlt_bool_iff).
  assert (B2 : forall q, (1 # 2 <= q)%Q -> Qlt_bool q (1 # 2) = false).
  { intros q Hq. destruct (Qlt_bool q (1 # 2)) eqn:E; [|reflexivity]. apply Qlt_bool_iff in E. lra. }
  assert (B3 : forall q, (1 # 2 < q)%Q -> Qlt_bool (1 # 2) q = true) by (intros q Hq; now apply Qlt_bool_iff).
  assert (B4 : forall q, (q == 1 # 2)%Q -> Qlt_bool (1 # 2) q = false).
  { intros q Hq. destruct (Qlt_bool (1 # 2) q) eqn:E; [|reflexivity]. apply Qlt_bool_iff in E. lra. }
  destruct t as [m r s]. cbn [shr_m shr_r shr_s] in *. destruct r, s; cbn [loc_of_shr_record round_nearest_even].
  - rewrite B2, B3 by lra. reflexivity.
  - rewrite B2, B4 by lra. reflexivity.
  - rewrite B1 by lra. reflexivity.
  - rewrite B1 by lra. reflexivity.
Qed.

(** ** Digits *)
Lemma digits_log2 p : Zpos (digits2_pos p) = Z.log2 (Zpos p) + 1.
Proof.
  assert (E : forall q, digits2_pos q = Pos.size q) by (intro q; induction q as [q IH|q IH|]; cbn; congruence).
  rewrite E. destruct p; cbn [Pos.size Z.log2]; lia.
Qed.
Lemma digits_spec m : 0 < m -> 2 ^ (Zdigits2 m - 1) <= m < 2 ^ Zdigits2 m.
Proof.
  intro H. destruct m as [|p|p]; try lia. cbn [Zdigits2]. rewrite digits_log2. replace (Z.log2 (Zpos p) + 1 - 1) with (Z.log2 (Zpos p)) by lia.
  rewrite Z.add_1_r. now apply Z.log2_spec.
Qed.
Lemma digits_pos m : 0 < m -> 0 < Zdigits2 m. Proof. destruct m; cbn; lia. Qed.
Lemma digits_nonneg m : 0 <= Zdigits2 m. Proof. destruct m; cbn; lia. Qed.
Lemma digits_le m d : 0 <= d -> 0 <= m < 2 ^ d -> Zdigits2 m <= d.
Proof.
  intros D [H1 H2]. destruct (Z.eq_dec m 0) as [->|N]; [exact D|]. destruct (digits_spec m) as [A _]; [lia|].
  destruct (Z_le_gt_dec (Zdigits2 m) d) as [C|C]; [exact C|]. assert (2 ^ d <= 2 ^ (Zdigits2 m - 1)) by (apply Z.pow_le_mono_r; lia). lia.
Qed.
Lemma digits_ge m d : 2 ^ d <= m -> d + 1 <= Zdigits2 m.
Proof.
  intro H. destruct (Z_lt_le_dec d 0) as [N|N]; [assert (X := digits_nonneg m); lia|]. assert (0 < 2 ^ d) by (apply Z.pow_pos_nonneg; lia).
  destruct (digits_spec m) as [_ A]; [lia|].
  destruct (Z_le_gt_dec (d + 1) (Zdigits2 m)) as [C|C]; [exact C|]. assert (2 ^ Zdigits2 m <= 2 ^ d) by (apply Z.pow_le_mono_r; lia). lia.
Qed.

(** ** The rounding of SpecFloat *)
Lemma inj_pow2 d : 0 <= d -> (inject_Z (2 ^ d) == 2 ^ d)%Q. Proof. apply pow2_Z. Qed.
Lemma pow2_le a b : a <= b -> (2 ^ a <= 2 ^ b)%Q.
Proof. intro H. apply Qpower_le_compat_l; [exact H|discriminate]. Qed.
Lemma fexp_eq e : fexp 53 1024 e = Z.max (e - 53) (-1074). Proof. reflexivity. Qed.

Lemma rnd64_at q e : (0 <= q)%Q -> ((0 < q)%Q -> ulp64 q = e) -> (rnd64 q == inject_Z (Qrnd (q / 2 ^ e)) * 2 ^ e)%Q.
Proof.
  intros H U. unfold rnd64. destruct (Qeq_bool q 0) eqn:E.
  - apply Qeq_bool_iff in E. assert (P := pow2_pos e). assert (Z0 : (q / 2 ^ e == inject_Z 0)%Q) by (rewrite E; change (inject_Z 0) with 0%Q; field; lra).
    rewrite Z0, Qrnd_Z. change (inject_Z 0) with 0%Q. ring.
  - apply Qeq_bool_neq in E. rewrite U by lra. reflexivity.
Qed.
Lemma round_even_range x n : 0 <= n -> (0 <= x < 2 ^ n)%Q -> 0 <= Qrnd x <= 2 ^ n.
Proof.
  intros N [H1 H2]. split.
  - rewrite <- (Qrnd_Z 0). now apply Qrnd_mono.
  - rewrite <- (Qrnd_Z (2 ^ n)). apply Qrnd_mono. rewrite inj_pow2 by exact N. lra.
Qed.
Lemma round_even_ge x n : 0 <= n -> (2 ^ n <= x)%Q -> 2 ^ n <= Qrnd x.
Proof. intros N H. rewrite <- (Qrnd_Z (2 ^ n)). apply Qrnd_mono. now rewrite inj_pow2. Qed.

Definition rounded (sx : bool) (q : Q) (f : spec_float) : Prop :=
  match f with
  | S754_zero s => s = sx /\ (rnd64 q == 0)%Q
  | S754_finite s m e => s = sx /\ bounded 53 1024 m e = true /\ (rnd64 q == inject_Z (Zpos m) * 2 ^ e)%Q
  | S754_infinity s => s = sx /\ (2 ^ 1024 <= rnd64 q)%Q
  | S754_nan => False
  end.

Lemma round_aux_spec sx mx ex lx x : 0 <= mx -> located (shr_record_of_loc mx lx) x -> ex <= fexp 53 1024 (Zdigits2 mx + ex) ->
  rounded sx (x * 2 ^ ex) (binary_round_aux 53 1024 sx mx ex lx).
Proof.
  intros M H HL. unfold binary_round_aux, shr_fexp. rewrite fexp_eq in *. set (d := Zdigits2 mx) in *. set (e1 := Z.max (d + ex - 53) (-1074)) in *.
  assert (SM : shr_m (shr_record_of_loc mx lx) = mx) by (destruct lx as [|[]]; reflexivity).
  assert (R := located_range _ _ H). rewrite SM in R.
  assert (S1 := shr_located (shr_record_of_loc mx lx) ex (e1 - ex) x). rewrite SM in S1. specialize (S1 M H).
  destruct (shr (shr_record_of_loc mx lx) ex (e1 - ex)) as [t1 e1'] eqn:ES. destruct S1 as (M1 & E1 & H1).
  assert (E1' : e1' = e1) by lia. clear E1. subst e1'. rewrite (nearest_located _ _ H1). clear H SM ES t1 M1 H1.
  set (q := (x * 2 ^ ex)%Q) in *. assert (P := pow2_pos ex). assert (P1 := pow2_pos e1).
  assert (M0 : (0 <= inject_Z mx)%Q) by (change 0%Q with (inject_Z 0); now rewrite <- Zle_Qle).
  assert (Q0 : (0 <= q)%Q) by (unfold q; nra).
  assert (D0 := digits_nonneg mx). fold d in D0.
  assert (DX : (x < 2 ^ d)%Q).
  { rewrite <- inj_pow2 by exact D0. assert (mx + 1 <= 2 ^ d).
    { destruct (Z.eq_dec mx 0) as [->|N]; [reflexivity|]. destruct (digits_spec mx) as [_ A]; [lia|]. fold d in A. lia. }
    assert (A : (inject_Z (mx + 1) <= inject_Z (2 ^ d))%Q) by now rewrite <- Zle_Qle. rewrite inject_Z_plus in A. change (inject_Z 1) with 1%Q in A. lra. }
  assert (QU : (q < 2 ^ (d + ex))%Q) by (rewrite pow2_add; unfold q; nra).
  assert (QL : 0 < mx -> (2 ^ (d - 1 + ex) <= q)%Q).
  { intro MP. destruct (digits_spec mx MP) as [A _]. fold d in A. rewrite Zle_Qle, inj_pow2 in A by (assert (X := digits_pos mx MP); lia).
    rewrite pow2_add. unfold q. assert (X := pow2_pos (d - 1)). nra. }
  assert (U : (0 < q)%Q -> ulp64 q = e1).
  { intro QP. unfold ulp64, e1. destruct (Z.eq_dec mx 0) as [E0|N].
    - assert (d = 0) by (unfold d; now rewrite E0). assert (ex <= -1074) by lia. destruct (mag_spec q) as [A _]; [lra|].
      rewrite Qabs_pos in A by exact Q0. assert (B : (2 ^ mag q < 2 ^ (d + ex))%Q) by lra. apply Qpower_lt_compat_l_inv in B; [|reflexivity]. lia.
    - assert (mag q = d + ex - 1); [|lia]. apply mag_unique. rewrite Qabs_pos by exact Q0. split.
      + replace (d + ex - 1) with (d - 1 + ex) by lia. apply QL. lia.
      + now replace (d + ex - 1 + 1) with (d + ex) by lia. }
  assert (RN := rnd64_at q e1 Q0 U). set (x1 := (q / 2 ^ e1)%Q) in *.
  assert (X1 : (q == x1 * 2 ^ e1)%Q) by (unfold x1; field; lra).
  assert (XR : (0 <= x1 < 2 ^ 53)%Q).
  { split; [apply Qnot_lt_le; intro C; nra|]. apply Qnot_le_lt. intro C. assert (A : (2 ^ (53 + e1) <= q)%Q) by (rewrite pow2_add, X1; nra).
    assert (B : (2 ^ (d + ex) <= 2 ^ (53 + e1))%Q) by (apply pow2_le; lia). lra. }
  assert (XL : e1 <> -1074 -> (2 ^ 52 <= x1)%Q).
  { intro N. assert (MP : 0 < mx). { destruct (Z.eq_dec mx 0) as [E0|N0]; [|lia]. assert (d = 0) by (unfold d; now rewrite E0). lia. }
    specialize (QL MP). apply Qnot_lt_le. intro C. assert (A : (q < 2 ^ (52 + e1))%Q) by (rewrite pow2_add, X1; nra).
    assert (B : (2 ^ (52 + e1) <= 2 ^ (d - 1 + ex))%Q) by (apply pow2_le; lia). lra. }
  assert (MR := round_even_range x1 53 ltac:(lia) XR). assert (ML := fun N => round_even_ge x1 52 ltac:(lia) (XL N)).
  set (m1 := Qrnd x1) in *. clearbody m1. assert (E74 : -1074 <= e1) by lia. clear XL XR X1 U QL QU DX. clearbody e1 x1. clear R M M0 HL D0.
  destruct (Z.eq_dec m1 (2 ^ 53)) as [E53|N53].
  - rewrite E53 in *. rewrite fexp_eq. change (Zdigits2 (2 ^ 53)) with 54. replace (Z.max (54 + e1 - 53) (-1074) - e1) with 1 by lia.
    cbn [shr shr_record_of_loc SpecFloat.iter_pos shr_m]. change (shr_1 {| shr_m := 2 ^ 53; shr_r := false; shr_s := false |}) with {| shr_m := 2 ^ 52; shr_r := false; shr_s := false |}.
    cbn [shr_m]. change (2 ^ 52) with (Zpos 4503599627370496). cbv beta iota. change (1024 - 53) with 971.
    assert (V : (rnd64 q == inject_Z (Zpos 4503599627370496) * 2 ^ (e1 + 1))%Q).
    { rewrite RN, pow2_S. change (inject_Z (2 ^ 53)) with (2 * inject_Z (Zpos 4503599627370496))%Q. ring. }
    destruct (Zle_bool (e1 + 1) 971) eqn:EB; cbn [rounded]; (split; [reflexivity|]).
    + split; [|exact V]. unfold bounded, canonical_mantissa. change (1024 - 53) with 971. rewrite EB, fexp_eq. change (Zpos (digits2_pos 4503599627370496)) with 53.
      rewrite Bool.andb_true_r. apply Zeq_is_eq_bool. lia.
    + rewrite V. change (inject_Z (Zpos 4503599627370496)) with (inject_Z (2 ^ 52)). rewrite inj_pow2 by lia. rewrite <- pow2_add. apply pow2_le.
      apply Z.leb_gt in EB. lia.
  - assert (DM := digits_le m1 53 ltac:(lia) ltac:(lia)). rewrite fexp_eq.
    assert (S2 : shr (shr_record_of_loc m1 loc_Exact) e1 (Z.max (Zdigits2 m1 + e1 - 53) (-1074) - e1) = (shr_record_of_loc m1 loc_Exact, e1)).
    { destruct (Z.max (Zdigits2 m1 + e1 - 53) (-1074) - e1) as [|p|p] eqn:E; try reflexivity. lia. }
    rewrite S2. cbn [shr_record_of_loc shr_m]. destruct m1 as [|m|m]; [| |lia].
    + cbn [rounded]. split; [reflexivity|]. rewrite RN. change (inject_Z 0) with 0%Q. ring.
    + change (1024 - 53) with 971. destruct (Zle_bool e1 971) eqn:EB; cbn [rounded]; (split; [reflexivity|]).
      * split; [|exact RN]. unfold bounded, canonical_mantissa. change (1024 - 53) with 971. rewrite EB, fexp_eq. rewrite Bool.andb_true_r. apply Zeq_is_eq_bool.
        cbn [Zdigits2] in DM. destruct (Z.eq_dec e1 (-1074)) as [->|N]; [lia|]. specialize (ML N). apply digits_ge in ML. cbn [Zdigits2] in ML. lia.
      * rewrite RN. apply Z.leb_gt in EB. specialize (ML ltac:(lia)). assert (A : (inject_Z (2 ^ 52) <= inject_Z (Zpos m))%Q) by now rewrite <- Zle_Qle.
        rewrite inj_pow2 in A by lia. assert (B : (2 ^ 1024 <= 2 ^ (52 + e1))%Q) by (apply pow2_le; lia). rewrite pow2_add in B. nra.
Qed.

(** ** Signs *)
Definition sgnq (s : bool) (q : Q) : Q := if s then (- q)%Q else q.
Global Instance sgnq_proper s : Proper (Qeq ==> Qeq) (sgnq s).
Proof. intros a b E. destruct s; cbn [sgnq]; now rewrite E. Qed.
Lemma nearest_unique x a b : ResultSpec.nearest_even x a -> ResultSpec.nearest_even x b -> a = b.
Proof.
  intros [A1 A2] [B1 B2]. assert (A3 := proj1 (Qabs_Qle_condition _ _) A1). assert (B3 := proj1 (Qabs_Qle_condition _ _) B1).
  assert (D : (inject_Z (a - b) <= 1 /\ inject_Z (b - a) <= 1)%Q).
  { unfold Z.sub. rewrite !inject_Z_plus, !inject_Z_opp. split; lra. }
  destruct D as [D1 D2]. change 1%Q with (inject_Z 1) in D1, D2. rewrite <- Zle_Qle in D1, D2.
  destruct (Z.eq_dec a b) as [E|N]; [exact E|exfalso].
  assert (C : a = b + 1 \/ b = a + 1) by lia. destruct C as [C|C]; rewrite C in *.
  - rewrite inject_Z_plus in *. change (inject_Z 1) with 1%Q in *. assert (E1 : (x == inject_Z b + (1 # 2))%Q) by lra.
    assert (X : Z.even (b + 1) = true) by (apply A2; rewrite E1, Qabs_neg; lra). assert (Y : Z.even b = true) by (apply B2; rewrite E1, Qabs_pos; lra).
    rewrite Z.even_add, Y in X. discriminate.
  - rewrite inject_Z_plus in *. change (inject_Z 1) with 1%Q in *. assert (E1 : (x == inject_Z a + (1 # 2))%Q) by lra.
    assert (X : Z.even (a + 1) = true) by (apply B2; rewrite E1, Qabs_neg; lra). assert (Y : Z.even a = true) by (apply A2; rewrite E1, Qabs_pos; lra).
    rewrite Z.even_add, Y in X. discriminate.
Qed.
Lemma Qrnd_opp x : Qrnd (- x) = - Qrnd x.
Proof.
  apply (nearest_unique (- x)); [apply ResultFacts.Qrnd_nearest|]. destruct (ResultFacts.Qrnd_nearest x) as [A B].
  assert (E : (Qabs (- x - inject_Z (- Qrnd x)) == Qabs (x - inject_Z (Qrnd x)))%Q).
  { rewrite inject_Z_opp. rewrite <- Qabs_opp. apply Qabs_wd. ring. }
  split; [now rewrite E|]. rewrite E, Z.even_opp. exact B.
Qed.
Lemma mag_opp q : mag (- q) = mag q.
Proof.
  destruct q as [n d]. unfold mag. change (- (n # d))%Q with (- n # d). cbn [Qnum Qden]. assert (E : Qabs (- n # d) = Qabs (n # d)) by (cbn; now rewrite Z.abs_opp).
  rewrite E, Z.abs_opp. reflexivity.
Qed.
Global Instance rnd64_proper : Proper (Qeq ==> Qeq) rnd64.
Proof.
  intros q r E. unfold rnd64, ulp64. assert (EB : Qeq_bool q 0 = Qeq_bool r 0) by (apply eq_true_iff_eq; rewrite !Qeq_bool_iff, E; tauto). rewrite <- EB.
  destruct (Qeq_bool q 0) eqn:EZ; [reflexivity|]. apply Qeq_bool_neq in EZ. rewrite (mag_comp q r EZ E). now rewrite E.
Qed.
Lemma rnd64_zero q : (q == 0)%Q -> (rnd64 q == 0)%Q.
Proof. intro H. rewrite H. reflexivity. Qed.
Lemma rnd64_opp q : (rnd64 (- q) == - rnd64 q)%Q.
Proof.
  unfold rnd64, ulp64. assert (EB : Qeq_bool (- q) 0 = Qeq_bool q 0) by (apply eq_true_iff_eq; rewrite !Qeq_bool_iff; split; intro; lra).
  rewrite EB. destruct (Qeq_bool q 0); [reflexivity|]. rewrite mag_opp. cbv zeta. set (s := (2 ^ _)%Q).
  assert (E : (- q / s == - (q / s))%Q) by (unfold Qdiv; ring). rewrite E, Qrnd_opp, inject_Z_opp. ring.
Qed.
Lemma rnd64_sgn s q : (rnd64 (sgnq s q) == sgnq s (rnd64 q))%Q.
Proof. destruct s; [apply rnd64_opp|reflexivity]. Qed.
Lemma abs_sgn s q : (Qabs (sgnq s q) == Qabs q)%Q.
Proof. destruct s; [apply Qabs_opp|reflexivity]. Qed.

Lemma finite_val s m e : exists v, b64_val (S754_finite s m e) = Some v /\ (v == sgnq s (inject_Z (Zpos m) * 2 ^ e))%Q.
Proof.
  eexists. split; [reflexivity|]. assert (E : (inject_Z (if s then Zneg m else Zpos m) == sgnq s (inject_Z (Zpos m)))%Q) by (destruct s; reflexivity).
  destruct (Z.leb_spec 0 e) as [H|H].
  - rewrite inject_Z_mult, inj_pow2, E by exact H. destruct s; cbn [sgnq]; ring.
  - rewrite inj_pow2 by lia. unfold Qdiv. rewrite <- Qpower_opp, Z.opp_involutive, E. destruct s; cbn [sgnq]; ring.
Qed.
Lemma bounded_range m e : bounded 53 1024 m e = true -> -1074 <= e <= 971 /\ Zpos m < 2 ^ 53 /\ (e <> -1074 -> 2 ^ 52 <= Zpos m).
Proof.
  unfold bounded, canonical_mantissa. rewrite fexp_eq. intro H. apply andb_prop in H as [H1 H2]. apply Zeq_bool_eq in H1. apply Zle_bool_imp_le in H2.
  change (Zpos (digits2_pos m)) with (Zdigits2 (Zpos m)) in H1. destruct (digits_spec (Zpos m)) as [D1 D2]; [lia|]. set (d := Zdigits2 (Zpos m)) in *.
  assert (P : 0 < d) by (apply digits_pos; lia). split; [lia|]. split.
  - assert (2 ^ d <= 2 ^ 53) by (apply Z.pow_le_mono_r; lia). lia.
  - intro N. assert (d = 53) by lia. replace (d - 1) with 52 in D1 by lia. lia.
Qed.
Lemma bounded_lt m e : bounded 53 1024 m e = true -> (inject_Z (Zpos m) * 2 ^ e < 2 ^ 1024)%Q.
Proof.
  intro H. apply bounded_range in H as (E & M & _). assert (A : (inject_Z (Zpos m) < inject_Z (2 ^ 53))%Q) by now rewrite <- Zlt_Qlt.
  rewrite inj_pow2 in A by lia. assert (P := pow2_pos e). assert (B : (2 ^ (53 + e) <= 2 ^ 1024)%Q) by (apply pow2_le; lia). rewrite pow2_add in B. nra.
Qed.
Lemma pos_pow m e : (0 < inject_Z (Zpos m) * 2 ^ e)%Q.
Proof. assert (P := pow2_pos e). assert (A : (0 < inject_Z (Zpos m))%Q) by reflexivity. nra. Qed.
Lemma bounded_fixed m e : bounded 53 1024 m e = true -> (rnd64 (inject_Z (Zpos m) * 2 ^ e) == inject_Z (Zpos m) * 2 ^ e)%Q.
Proof.
  intro H. assert (P := pos_pow m e). assert (PE := pow2_pos e). rewrite (rnd64_at _ e); [|lra|].
  - assert (E : (inject_Z (Zpos m) * 2 ^ e / 2 ^ e == inject_Z (Zpos m))%Q) by (field; lra). rewrite E, Qrnd_Z. reflexivity.
  - intros _. unfold bounded, canonical_mantissa in H. rewrite fexp_eq in H. apply andb_prop in H as [H1 _]. apply Zeq_bool_eq in H1.
    change (Zpos (digits2_pos m)) with (Zdigits2 (Zpos m)) in H1. destruct (digits_spec (Zpos m)) as [D1 D2]; [lia|]. set (d := Zdigits2 (Zpos m)) in *.
    assert (D : 0 < d) by (apply digits_pos; lia). rewrite Zle_Qle, inj_pow2 in D1 by lia. rewrite Zlt_Qlt, inj_pow2 in D2 by lia.
    unfold ulp64. assert (M : mag (inject_Z (Zpos m) * 2 ^ e) = d + e - 1); [|lia]. apply mag_unique. rewrite Qabs_pos by lra.
    replace (d + e - 1) with (d - 1 + e) by lia. replace (d - 1 + e + 1) with (d + e) by lia. rewrite !pow2_add. nra.
Qed.

Lemma rounded_nearest sx q f : (0 <= q)%Q -> rounded sx q f -> nearest64 f (sgnq sx q).
Proof.
  intros Q0 H. unfold nearest64. rewrite rnd64_sgn, abs_sgn. destruct f as [s|s| |s m e]; cbn [rounded] in H.
  - destruct H as [-> H]. split; [reflexivity|]. split; [intros _; exists 0%Q; split; [reflexivity|]; rewrite rnd64_sgn, H; destruct sx; reflexivity|]. intro C. exfalso. assert (P := pow2_pos 1024). rewrite H in C. change (Qabs 0) with 0%Q in C. lra.
  - destruct H as [-> H]. assert (P := pow2_pos 1024). split; [reflexivity|]. assert (R0 : (0 <= rnd64 q)%Q) by lra. rewrite Qabs_pos by exact R0.
    split; [intro C; lra|]. intros _. f_equal. symmetry. assert (QP : (0 < q)%Q).
    { apply Qle_lteq in Q0 as [C|C]; [exact C|]. exfalso. symmetry in C. rewrite (rnd64_zero q C) in H. lra. }
    destruct sx; cbn [sgnq]; [apply Qlt_bool_iff; lra|]. destruct (Qlt_bool q 0) eqn:E; [apply Qlt_bool_iff in E; lra|reflexivity].
  - contradiction.
  - destruct H as (-> & B & H). split; [exact B|]. assert (P := pos_pow m e). assert (L := bounded_lt m e B). destruct (finite_val sx m e) as (v & E & V).
    split; [intros _; exists v; split; [exact E|]; rewrite rnd64_sgn, V, H; reflexivity|]. rewrite H, Qabs_pos by lra. intro C. lra.
Qed.
Lemma nearest64_comp f q r : (q == r)%Q -> nearest64 f q -> nearest64 f r.
Proof.
  intros E (H1 & H2 & H3). assert (EB : Qlt_bool q 0 = Qlt_bool r 0) by (apply eq_true_iff_eq; rewrite !Qlt_bool_iff, E; tauto).
  assert (R : (rnd64 q == rnd64 r)%Q) by (apply rnd64_proper; exact E). assert (RA : (Qabs (rnd64 q) == Qabs (rnd64 r))%Q) by (apply Qabs_wd; exact R).
  split; [exact H1|]. split.
  - intro L. destruct H2 as (v & A & B); [eapply Qle_lt_trans; [apply Qle_lteq; right; exact RA|exact L]|]. exists v. split; [exact A|]. eapply Qeq_trans; [exact B|exact R].
  - intro L. rewrite <- EB. apply H3. eapply Qle_trans; [exact L|]. apply Qle_lteq; right. symmetry. exact RA.
Qed.
(** A double is its own rounding. *)
Lemma valid_nearest f v : valid_binary 53 1024 f = true -> b64_val f = Some v -> nearest64 f v /\ (rnd64 v == v)%Q /\ (Qabs v < 2 ^ 1024)%Q.
Proof.
  intros V E. assert (P := pow2_pos 1024). destruct f as [s|s| |s m e]; try discriminate.
  - injection E as <-. split; [|split; [reflexivity|exact P]]. split; [reflexivity|]. split; [intros _; exists 0%Q; split; reflexivity|].
    change (rnd64 0) with 0%Q. intro C. exfalso. change (Qabs 0) with 0%Q in C. lra.
  - destruct (finite_val s m e) as (v' & E' & V'). rewrite E in E'. injection E' as <-. cbn [valid_binary] in V.
    assert (F := bounded_fixed m e V). assert (L := bounded_lt m e V). assert (P0 := pos_pow m e).
    assert (R : (rnd64 v == v)%Q) by (rewrite V', rnd64_sgn, F; reflexivity).
    assert (A : (Qabs v < 2 ^ 1024)%Q) by (rewrite V', abs_sgn, Qabs_pos by lra; exact L).
    split; [|split; assumption]. split; [exact V|]. rewrite R. split; [intros _; exists v; split; [exact E|now symmetry]|]. intro C. exfalso. lra.
Qed.
Lemma nearest_zero s q : (q == 0)%Q -> nearest64 (S754_zero s) q.
Proof. intro E. apply (nearest64_comp _ 0); [now symmetry|]. destruct (valid_nearest (S754_zero s) 0) as (H & _); auto. Qed.
