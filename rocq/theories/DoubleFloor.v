(** floor(epsilon*N) in binary64 (C54). *)
From Coq Require Import SpecFloat Qpower Qabs Lia Lqa.
From Verif Require Import Base BaseFacts Spec Instance InstanceFacts Rounding RoundingFacts Floats Double DoubleFacts DoubleOps DoubleNear.
Local Open Scope Z_scope.

Lemma int_same z : (rnd64 (inject_Z z) == rnd53 (inject_Z z))%Q.
Proof.
  destruct (Z.eq_dec z 0) as [->|N]; [reflexivity|]. apply normal_same. assert (A : (1 <= Qabs (inject_Z z))%Q).
  { assert (E : (Qabs (inject_Z z) == inject_Z (Z.abs z))%Q) by (unfold inject_Z; cbn; reflexivity). rewrite E. change 1%Q with (inject_Z 1). rewrite <- Zle_Qle. lia. }
  assert (B : (2 ^ (-1022) <= 1)%Q) by (change 1%Q with (2 ^ 0)%Q; apply pow2_le; lia). lra.
Qed.
Lemma int_fixed z : Z.abs z < 2 ^ 53 -> (rnd64 (inject_Z z) == inject_Z z)%Q.
Proof.
  intro H. rewrite int_same. assert (E : (inject_Z z == inject_Z z * 2 ^ 0)%Q) by (change (2 ^ 0)%Q with 1%Q; ring). rewrite E. apply grid_fixed. rewrite <- E.
  change (53 + 0) with 53. rewrite <- inj_pow2 by lia. assert (A : (Qabs (inject_Z z) == inject_Z (Z.abs z))%Q) by reflexivity. rewrite A. now rewrite <- Zlt_Qlt.
Qed.
Lemma of_Z_exact z : Z.abs z < 2 ^ 53 -> valid_binary 53 1024 (b64_of_Z z) = true /\ exists v, b64_val (b64_of_Z z) = Some v /\ (v == inject_Z z)%Q.
Proof.
  intro H. assert (N := of_Z_nearest z). split; [apply N|]. destruct (value_of _ _ N) as (v & E & V).
  - assert (A : (Qabs (inject_Z z) == inject_Z (Z.abs z))%Q) by reflexivity. rewrite A. eapply Qlt_trans; [rewrite <- Zlt_Qlt; exact H|reflexivity].
  - exists v. split; [exact E|]. rewrite V. now apply int_fixed.
Qed.
(** The quotient of two doubles, as for a decimal with few digits. *)
Lemma of_Q_nearest q : Z.abs (Qnum q) < 2 ^ 53 -> Zpos (Qden q) < 2 ^ 53 -> nearest64 (b64_of_Q q) q.
Proof.
  intros HN HD. destruct (of_Z_exact (Qnum q) HN) as (VN & a & EA & A). destruct (of_Z_exact (Zpos (Qden q)) ltac:(lia)) as (VD & b & EB & B).
  assert (D : (0 < inject_Z (Zpos (Qden q)))%Q) by reflexivity. unfold b64_of_Q. eapply nearest64_eq; [apply (div_nearest _ _ a b VN VD EA EB); lra|].
  rewrite A, B. destruct q as [n d]. cbn [Qnum Qden]. rewrite (Qmake_Qdiv n d). reflexivity.
Qed.
Lemma bound_1024 q n : n < 1024 -> (Qabs q < 2 ^ n)%Q -> (Qabs q < 2 ^ 1024 - 2 ^ 970)%Q.
Proof. intros N H. assert (A : (2 ^ n <= 2 ^ 1023)%Q) by (apply pow2_le; lia). assert (B : (2 ^ 1023 < 2 ^ 1024 - 2 ^ 970)%Q) by reflexivity. lra. Qed.

(** epsilon*N: both roundings are those of the unbounded exponent range. *)
Lemma rnd53_pos q : (0 < q)%Q -> (0 < rnd53 q)%Q /\ (rnd53 q <= 2 * q)%Q /\ (q <= 2 * rnd53 q)%Q.
Proof.
  intro P. assert (R := rnd53_rounding q). rewrite (Qabs_pos q) in R by lra. apply Qabs_Qle_condition in R. unfold u53 in R. set (r := rnd53 q) in *. clearbody r.
  change (1 # 2 ^ 53) with (1 # 9007199254740992) in R. split; [|split]; lra.
Qed.
Lemma prod_value eps n : (0 < eps)%Q -> Qnum eps < 2 ^ 53 -> Zpos (Qden eps) < 2 ^ 53 -> 0 < n < 2 ^ 53 ->
  exists v, b64_prod eps n = Some v /\ (v == rnd53 (rnd53 eps * inject_Z n))%Q /\ (v == rnd64 (rnd53 eps * inject_Z n))%Q.
Proof.
  intros P HN HD [N0 N1]. unfold b64_prod, b64_mul. assert (PN : 0 < Qnum eps) by (unfold Qlt in P; cbn in P; lia).
  assert (NE := of_Q_nearest eps ltac:(lia) HD).
  assert (LO : (2 ^ (-53) <= eps)%Q).
  { destruct eps as [a d]. cbn [Qnum Qden] in *. rewrite (Qmake_Qdiv a d). apply Qle_shift_div_l; [reflexivity|]. rewrite Zlt_Qlt, inj_pow2 in HD by lia.
    assert (A : (1 <= inject_Z a)%Q) by (change 1%Q with (inject_Z 1); rewrite <- Zle_Qle; lia). assert (E : (2 ^ (-53) * 2 ^ 53 == 1)%Q) by reflexivity.
    assert (P1 := pow2_pos (-53)). nra. }
  assert (UP : (eps < 2 ^ 53)%Q).
  { destruct eps as [a d]. cbn [Qnum Qden] in *. rewrite (Qmake_Qdiv a d). apply Qlt_shift_div_r; [reflexivity|]. rewrite Zlt_Qlt, inj_pow2 in HN by lia.
    assert (A : (1 <= inject_Z (Zpos d))%Q) by (change 1%Q with (inject_Z 1); rewrite <- Zle_Qle; lia). assert (P1 := pow2_pos 53). nra. }
  assert (PA : (Qabs eps == eps)%Q) by (apply Qabs_pos; lra).
  destruct (value_of _ _ NE) as (e & EE & VE); [apply (bound_1024 eps 53); [lia|now rewrite PA]|].
  assert (SE : (rnd64 eps == rnd53 eps)%Q). { apply normal_same. rewrite PA. assert (B : (2 ^ (-1022) <= 2 ^ (-53))%Q) by (apply pow2_le; lia). lra. }
  destruct (of_Z_exact n ltac:(lia)) as (VN & b & EB & B). destruct (rnd53_pos eps P) as (R1 & R2 & R3). rewrite SE in VE.
  assert (I1 : (1 <= inject_Z n)%Q) by (change 1%Q with (inject_Z 1); rewrite <- Zle_Qle; lia). rewrite Zlt_Qlt, inj_pow2 in N1 by lia.
  assert (PE : (e * b == rnd53 eps * inject_Z n)%Q) by now rewrite VE, B. set (p := (rnd53 eps * inject_Z n)%Q) in *.
  assert (PP : (2 ^ (-54) <= p /\ p < 2 ^ 107)%Q).
  { assert (E1 : (2 ^ (-53) == 2 * 2 ^ (-54))%Q) by reflexivity. assert (E2 : (2 ^ 107 == 2 * 2 ^ 53 * 2 ^ 53)%Q) by reflexivity. unfold p. split; [nra|]. rewrite E2. nra. }
  assert (P0 := pow2_pos (-54)). assert (AP : (Qabs p == p)%Q) by (apply Qabs_pos; lra).
  destruct (value_of _ _ (mul_nearest _ _ e b (proj1 NE) VN EE EB)) as (v & EV & V); [apply (bound_1024 _ 107); [lia|rewrite PE, AP; apply PP]|].
  exists v. split; [exact EV|]. assert (VR : (v == rnd64 p)%Q) by now rewrite V, PE. split; [|exact VR]. rewrite VR. apply normal_same. rewrite AP.
  assert (B2 : (2 ^ (-1022) <= 2 ^ (-54))%Q) by (apply pow2_le; lia). lra.
Qed.

Lemma floor_le z x : (inject_Z z <= x)%Q -> z <= Qfloor x.
Proof. intro H. apply Qfloor_resp_le in H. now rewrite Qfloor_Z in H. Qed.
Lemma floor_lt x z : (x < inject_Z z)%Q -> Qfloor x < z.
Proof. intro H. rewrite Zlt_Qlt. eapply Qle_lt_trans; [apply Qfloor_le|exact H]. Qed.
Lemma rational_gap a d n : 0 < d -> (inject_Z (a * n / d) <= inject_Z (a * n) / inject_Z d)%Q /\
  (inject_Z (a * n) / inject_Z d + 1 / inject_Z d <= inject_Z (a * n / d + 1))%Q /\
  ((inject_Z (a * n) / inject_Z d == inject_Z (a * n / d))%Q \/ (inject_Z (a * n / d) + 1 / inject_Z d <= inject_Z (a * n) / inject_Z d)%Q).
Proof.
  intro D. set (z := a * n). assert (DQ : (0 < inject_Z d)%Q) by (change 0%Q with (inject_Z 0); now rewrite <- Zlt_Qlt).
  assert (E := Z.div_mod z d ltac:(lia)). destruct (Z.mod_pos_bound z d D) as [M0 M1]. set (k := z / d) in *. set (r := z mod d) in *.
  assert (X : (inject_Z z / inject_Z d == inject_Z k + inject_Z r / inject_Z d)%Q) by (rewrite E, inject_Z_plus, inject_Z_mult; field; lra).
  rewrite X. set (i := (1 / inject_Z d)%Q). assert (I0 : (0 < i)%Q) by (unfold i; apply Qlt_shift_div_l; lra). assert (I1 : (i * inject_Z d == 1)%Q) by (unfold i; field; lra).
  assert (R : (inject_Z r / inject_Z d == inject_Z r * i)%Q) by (unfold i; field; lra). rewrite R, inject_Z_plus. change (inject_Z 1) with 1%Q.
  assert (M1' : r + 1 <= d) by lia. rewrite Zle_Qle, inject_Z_plus in M1'. change (inject_Z 1) with 1%Q in M1'. assert (M0' := M0). rewrite Zle_Qle in M0'. change (inject_Z 0) with 0%Q in M0'.
  split; [nra|]. split; [nra|]. destruct (Z.eq_dec r 0) as [->|N]; [left; change (inject_Z 0) with 0%Q; ring|right].
  assert (M2 : 1 <= r) by lia. rewrite Zle_Qle in M2. change (inject_Z 1) with 1%Q in M2. nra.
Qed.
Section Floor.
  Variables (eps : Q) (n : Z).
  Hypothesis P : (0 < eps)%Q.
  Hypothesis HD : Zpos (Qden eps) < 2 ^ 53.
  Hypothesis N : 0 < n.
  Hypothesis S : Qnum eps * n < 2 ^ 51.
  Lemma small_prod : 0 < Qnum eps /\ Qnum eps < 2 ^ 53 /\ n < 2 ^ 53.
  Proof. assert (PN : 0 < Qnum eps) by (unfold Qlt in P; cbn in P; lia). split; [exact PN|]. assert (2 ^ 51 <= 2 ^ 53) by discriminate. nia. Qed.
  Lemma floor_value : exists v k, b64_prod eps n = Some v /\ b64_floor eps n = Some k /\ k = Qfloor v /\ (v == rnd64 (rnd53 eps * inject_Z n))%Q /\
    (Qabs (v - eps * inject_Z n) * inject_Z (Zpos (Qden eps)) < 1)%Q.
  Proof.
    destruct small_prod as (PN & HN & NN). destruct (prod_value eps n P HN HD (conj N NN)) as (v & E & V1 & V2). exists v, (Qfloor v).
    unfold b64_floor. rewrite E. split; [reflexivity|]. split; [reflexivity|]. split; [reflexivity|]. split; [exact V2|]. rewrite V1. clear V1 V2 E v.
    assert (R1 := rnd53_rounding eps). rewrite (Qabs_pos eps) in R1 by lra. apply Qabs_Qle_condition in R1. assert (R0 := rnd53_pos eps P). destruct R0 as (R0 & _).
    assert (I1 : (1 <= inject_Z n)%Q) by (change 1%Q with (inject_Z 1); rewrite <- Zle_Qle; lia).
    assert (R2 := rnd53_rounding (rnd53 eps * inject_Z n)%Q). assert (AP : (Qabs (rnd53 eps * inject_Z n) == rnd53 eps * inject_Z n)%Q) by (apply Qabs_pos; nra).
    rewrite AP in R2. apply Qabs_Qle_condition in R2.
    set (t := (eps * inject_Z n)%Q). assert (T : (t * inject_Z (Zpos (Qden eps)) == inject_Z (Qnum eps * n))%Q).
    { unfold t. destruct eps as [a d]. cbn [Qnum Qden]. rewrite (Qmake_Qdiv a d), inject_Z_mult. field. intro C. unfold Qeq in C. cbn in C. lia. }
    assert (TS := S). rewrite Zlt_Qlt, <- T in TS. change (inject_Z (2 ^ 51)) with (2251799813685248 # 1) in TS.
    assert (TP : (0 < t)%Q) by (unfold t; nra).
    assert (F1 : (Qabs (rnd53 eps * inject_Z n - t) <= u53 * t)%Q).
    { unfold t. apply Qabs_Qle_condition. split; nra. }
    apply Qabs_Qle_condition in F1. unfold u53 in *. change (1 # 2 ^ 53) with (1 # 9007199254740992) in *. set (p := (rnd53 eps * inject_Z n)%Q) in *. set (w := rnd53 p) in *.
    assert (F2 : (Qabs (w - t) <= (3 # 9007199254740992) * t)%Q) by (apply Qabs_Qle_condition; split; lra).
    assert (D1 : (0 < inject_Z (Zpos (Qden eps)))%Q) by reflexivity. set (D := inject_Z (Zpos (Qden eps))) in *. clearbody D w p t.
    eapply Qle_lt_trans; [apply Qmult_le_compat_r; [exact F2|lra]|]. nra.
  Qed.
  Lemma floor_exact_value : (eps * inject_Z n == inject_Z (Qnum eps * n) / inject_Z (Zpos (Qden eps)))%Q.
  Proof. destruct eps as [a d]. cbn [Qnum Qden]. rewrite (Qmake_Qdiv a d), inject_Z_mult. field. intro C. unfold Qeq in C. cbn in C. lia. Qed.
  Lemma floor_cases : b64_floor eps n = Some (Qfloor (eps * inject_Z n)) \/
    (b64_floor eps n = Some (Qfloor (eps * inject_Z n) - 1) /\ (eps * inject_Z n == inject_Z (Qfloor (eps * inject_Z n)))%Q /\ (rnd53 eps < eps)%Q).
  Proof.
    destruct floor_value as (v & k & _ & E & K & V & C). rewrite E, K. clear E K k. destruct small_prod as (PN & HN & NN).
    assert (G := rational_gap (Qnum eps) (Zpos (Qden eps)) n ltac:(lia)). rewrite <- floor_exact_value in G. destruct G as (G1 & G2 & G3).
    assert (D1 : (0 < inject_Z (Zpos (Qden eps)))%Q) by reflexivity. set (D := inject_Z (Zpos (Qden eps))) in *.
    assert (I1 : (1 / D * D == 1)%Q) by (field; lra). set (i := (1 / D)%Q) in *. set (t := (eps * inject_Z n)%Q) in *. set (F := Qnum eps * n / Zpos (Qden eps)) in *.
    assert (FT : Qfloor t = F).
    { apply floor_unique. split; [exact G1|]. rewrite inject_Z_plus in G2. change (inject_Z 1) with 1%Q in G2. assert (0 < i)%Q by nra. lra. }
    rewrite FT. assert (CL : (Qabs (v - t) < i)%Q) by nra. apply Qabs_Qlt_condition in CL.
    assert (U : Qfloor v < F + 1) by (apply floor_lt; lra). destruct (Qlt_le_dec (rnd53 eps) eps) as [DN|UPW].
    - destruct G3 as [G3|G3].
      + destruct (Z_le_gt_dec F (Qfloor v)) as [L|L]; [left; f_equal; lia|right]. split; [f_equal|split; [exact G3|exact DN]].
        assert (F - 1 <= Qfloor v); [|lia]. apply floor_le. unfold Z.sub. rewrite inject_Z_plus. change (inject_Z (- (1))) with (- (1))%Q.
        assert (i <= 1)%Q; [|lra]. assert (1 <= D)%Q by (unfold D; change 1%Q with (inject_Z 1); rewrite <- Zle_Qle; lia). nra.
      + left. f_equal. assert (F <= Qfloor v) by (apply floor_le; lra). lia.
    - left. f_equal. assert (F <= Qfloor v); [|lia]. apply floor_le. destruct G3 as [G3|G3]; [|lra].
      assert (F0 : 0 <= F < 2 ^ 53).
      { unfold F. split; [apply Z.div_pos; nia|]. apply Z.div_lt_upper_bound; [lia|]. assert (2 ^ 51 <= 2 ^ 53) by discriminate. nia. }
      rewrite <- (int_fixed F) by lia. rewrite V. apply rnd64_mono. rewrite <- G3. unfold t.
      assert (0 <= inject_Z n)%Q by (change 0%Q with (inject_Z 0); rewrite <- Zle_Qle; lia). nra.
  Qed.
End Floor.
Lemma floor_up eps n : (0 < eps)%Q -> Zpos (Qden eps) < 2 ^ 53 -> 0 < n -> Qnum eps * n < 2 ^ 51 -> (eps <= rnd53 eps)%Q ->
  b64_floor eps n = Some (Qfloor (eps * inject_Z n)).
Proof. intros P D N S U. destruct (floor_cases eps n P D N S) as [H|(_ & _ & H)]; [exact H|lra]. Qed.
Lemma usual_floor : Forall (fun eps => forall n, 0 < n < 2 ^ 50 -> b64_floor eps n = Some (Qfloor (eps * inject_Z n))) [1 # 100; 1 # 50; 1 # 20; 1 # 10; 1 # 5; 1 # 4; 1 # 2]%Q.
Proof.
  assert (T : 2 ^ 51 = 2 * 2 ^ 50) by reflexivity.
  repeat constructor; intros n [N0 N1]; (apply floor_up; [reflexivity|reflexivity|exact N0|cbn [Qnum]; lia|vm_compute; discriminate]).
Qed.
