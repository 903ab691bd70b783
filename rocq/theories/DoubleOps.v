(** Each binary64 operation of SpecFloat is correctly rounded (C76). *)
From Coq Require Import SpecFloat Qpower Qabs Lia Lqa.
From Verif Require Import Base BaseFacts Spec Instance InstanceFacts Rounding RoundingFacts Floats Double DoubleFacts.
Local Open Scope Z_scope.

Lemma nearest64_eq f q r : nearest64 f q -> (q == r)%Q -> nearest64 f r.
Proof. intros H E. exact (nearest64_comp f q r E H). Qed.
Lemma exact_located m : located (shr_record_of_loc m loc_Exact) (inject_Z m).
Proof. unfold located. cbn. reflexivity. Qed.

(** ** Products *)
Lemma mul_nearest x y a b : valid_binary 53 1024 x = true -> valid_binary 53 1024 y = true -> b64_val x = Some a -> b64_val y = Some b ->
  nearest64 (SFmul 53 1024 x y) (a * b).
Proof.
  intros VX VY EX EY. destruct x as [sx|sx| |sx mx ex]; try discriminate; destruct y as [sy|sy| |sy my ey]; try discriminate; cbn [SFmul].
  - injection EX as <-. apply nearest_zero. ring.
  - injection EX as <-. apply nearest_zero. ring.
  - injection EY as <-. apply nearest_zero. ring.
  - destruct (finite_val sx mx ex) as (a' & EA & VA). rewrite EX in EA. injection EA as <-.
    destruct (finite_val sy my ey) as (b' & EB & VB). rewrite EY in EB. injection EB as <-.
    cbn [valid_binary] in VX, VY. apply bounded_range in VX as (XE & XM & XN). apply bounded_range in VY as (YE & YM & YN).
    apply (nearest64_comp _ (sgnq (xorb sx sy) (inject_Z (Zpos (mx * my)) * 2 ^ (ex + ey)))).
    { rewrite VA, VB, pow2_add, Pos2Z.inj_mul, inject_Z_mult. destruct sx, sy; cbn [sgnq xorb]; ring. }
    assert (P := pos_pow (mx * my) (ex + ey)). apply rounded_nearest; [lra|]. apply round_aux_spec; [lia|apply exact_located|].
    rewrite fexp_eq. rewrite Pos2Z.inj_mul. destruct (Z.eq_dec ex (-1074)) as [E1|N1]; [destruct (Z.eq_dec ey (-1074)) as [E2|N2]; [lia|]|].
    + specialize (YN N2). assert (A : 2 ^ 52 <= Zpos mx * Zpos my) by nia. apply digits_ge in A. lia.
    + specialize (XN N1). assert (A : 2 ^ 52 <= Zpos mx * Zpos my) by nia. apply digits_ge in A. lia.
Qed.

(** ** Sums *)
Lemma align_value m e e' : let '(m', e2) := shl_align m e e' in e2 = Z.min e e' /\ Zpos m' = Zpos m * 2 ^ (e - e2).
Proof.
  unfold shl_align. destruct (e' - e) as [|p|p] eqn:E.
  - split; [lia|]. rewrite Z.sub_diag. lia.
  - split; [lia|]. rewrite Z.sub_diag. lia.
  - split; [lia|]. rewrite Zpower.shift_pos_correct. replace (e - e') with (Zpos p) by lia. change (2 ^ Zpos p) with (Z.pow_pos 2 p). lia.
Qed.
Lemma digits_shift m n : 0 < m -> 0 <= n -> Zdigits2 (m * 2 ^ n) = Zdigits2 m + n.
Proof.
  intros M N. destruct (digits_spec m M) as [A B]. assert (P := digits_pos m M). assert (T : 0 < 2 ^ n) by (apply Z.pow_pos_nonneg; lia).
  apply Z.le_antisymm.
  - apply digits_le; [lia|]. split; [nia|]. rewrite Z.pow_add_r by lia. nia.
  - replace (Zdigits2 m + n) with (Zdigits2 m - 1 + n + 1) by lia. apply digits_ge. rewrite Z.pow_add_r by lia. nia.
Qed.
Lemma round_spec sx m e : nearest64 (binary_round 53 1024 sx m e) (sgnq sx (inject_Z (Zpos m) * 2 ^ e)).
Proof.
  unfold binary_round. assert (A := align_value m e (fexp 53 1024 (Zpos (digits2_pos m) + e))).
  destruct (shl_align m e (fexp 53 1024 (Zpos (digits2_pos m) + e))) as [m' e'] eqn:EA. destruct A as [E' M'].
  apply (nearest64_comp _ (sgnq sx (inject_Z (Zpos m') * 2 ^ e'))).
  { rewrite M', inject_Z_mult, inj_pow2 by lia. apply sgnq_proper. rewrite <- Qmult_assoc, <- pow2_add. replace (e - e' + e') with e by lia. reflexivity. }
  assert (P := pos_pow m' e'). apply rounded_nearest; [lra|]. apply round_aux_spec; [lia|apply exact_located|].
  rewrite M', digits_shift by lia. change (Zpos (digits2_pos m)) with (Zdigits2 (Zpos m)) in E'. replace (Zdigits2 (Zpos m) + (e - e') + e') with (Zdigits2 (Zpos m) + e) by lia. lia.
Qed.
Lemma normalize_spec m e s : nearest64 (binary_normalize 53 1024 m e s) (inject_Z m * 2 ^ e).
Proof.
  destruct m as [|m|m]; cbn [binary_normalize].
  - apply nearest_zero. change (inject_Z 0) with 0%Q. ring.
  - apply (round_spec false).
  - eapply nearest64_eq; [apply (round_spec true)|]. change (inject_Z (Zneg m)) with (- inject_Z (Zpos m))%Q. cbn [sgnq]. ring.
Qed.
Lemma of_Z_nearest z : nearest64 (b64_of_Z z) (inject_Z z).
Proof. eapply nearest64_eq; [apply normalize_spec|]. change (2 ^ 0)%Q with 1%Q. ring. Qed.

Lemma cond_value s m e e' : e' <= e -> (inject_Z (cond_Zopp s (Zpos (fst (shl_align m e e')))) * 2 ^ e' == sgnq s (inject_Z (Zpos m) * 2 ^ e))%Q.
Proof.
  intro L. assert (A := align_value m e e'). destruct (shl_align m e e') as [m' e2]. destruct A as [E2 M']. cbn [fst].
  assert (E3 : e2 = e') by lia. rewrite E3 in M'. clear E2 E3. assert (E : (inject_Z (cond_Zopp s (Zpos m')) == sgnq s (inject_Z (Zpos m')))%Q) by (destruct s; reflexivity).
  rewrite E, M', inject_Z_mult, inj_pow2 by lia. assert (X : (2 ^ e == 2 ^ (e - e') * 2 ^ e')%Q) by (rewrite <- pow2_add; replace (e - e' + e') with e by lia; reflexivity).
  rewrite X. destruct s; cbn [sgnq]; ring.
Qed.
Lemma add_nearest x y a b : valid_binary 53 1024 x = true -> valid_binary 53 1024 y = true -> b64_val x = Some a -> b64_val y = Some b ->
  nearest64 (SFadd 53 1024 x y) (a + b).
Proof.
  intros VX VY EX EY. destruct (valid_nearest x a VX EX) as (NX & _). destruct (valid_nearest y b VY EY) as (NY & _).
  destruct x as [sx|sx| |sx mx ex]; try discriminate; destruct y as [sy|sy| |sy my ey]; try discriminate; cbn [SFadd].
  - injection EX as <-. injection EY as <-. destruct (Bool.eqb sx sy); apply nearest_zero; ring.
  - injection EX as <-. eapply nearest64_eq; [exact NY|]. ring.
  - injection EY as <-. eapply nearest64_eq; [exact NX|]. ring.
  - destruct (finite_val sx mx ex) as (a' & EA & VA). rewrite EX in EA. injection EA as <-.
    destruct (finite_val sy my ey) as (b' & EB & VB). rewrite EY in EB. injection EB as <-.
    eapply nearest64_eq; [apply normalize_spec|]. rewrite inject_Z_plus, Qmult_plus_distr_l, !cond_value, VA, VB by lia. reflexivity.
Qed.
Lemma opp_val f v : b64_val f = Some v -> exists w, b64_val (SFopp f) = Some w /\ (w == - v)%Q.
Proof.
  destruct f as [s|s| |s m e]; try discriminate.
  - intro E. injection E as <-. exists 0%Q. split; reflexivity.
  - intro E. cbn [SFopp]. destruct (finite_val s m e) as (v' & E' & V). rewrite E in E'. injection E' as <-.
    destruct (finite_val (negb s) m e) as (w & EW & W). exists w. split; [exact EW|]. rewrite W, V. destruct s; cbn [sgnq negb]; ring.
Qed.
Lemma sub_nearest x y a b : valid_binary 53 1024 x = true -> valid_binary 53 1024 y = true -> b64_val x = Some a -> b64_val y = Some b ->
  nearest64 (SFsub 53 1024 x y) (a - b).
Proof.
  intros VX VY EX EY. destruct (valid_nearest x a VX EX) as (NX & _).
  destruct x as [sx|sx| |sx mx ex]; try discriminate; destruct y as [sy|sy| |sy my ey]; try discriminate; cbn [SFsub].
  - injection EX as <-. injection EY as <-. destruct (Bool.eqb sx (negb sy)); apply nearest_zero; ring.
  - injection EX as <-. destruct (opp_val _ _ EY) as (w & EW & W). destruct (valid_nearest (S754_finite (negb sy) my ey) w VY EW) as (N & _).
    eapply nearest64_eq; [exact N|]. rewrite W. ring.
  - injection EY as <-. eapply nearest64_eq; [exact NX|]. ring.
  - destruct (finite_val sx mx ex) as (a' & EA & VA). rewrite EX in EA. injection EA as <-.
    destruct (finite_val sy my ey) as (b' & EB & VB). rewrite EY in EB. injection EB as <-.
    eapply nearest64_eq; [apply normalize_spec|]. unfold Z.sub. rewrite inject_Z_plus, inject_Z_opp, Qmult_plus_distr_l, <- (Qmult_comm (2 ^ _)) , (Qmult_comm _ (2 ^ _)).
    assert (A := cond_value sx mx ex (Z.min ex ey) ltac:(lia)). assert (B := cond_value sy my ey (Z.min ex ey) ltac:(lia)). rewrite VA, VB, <- A, <- B. ring.
Qed.

(** ** Quotients *)
Lemma location_located m2 q r : 0 < m2 -> 0 <= r < m2 ->
  located (shr_record_of_loc q (new_location m2 r)) ((inject_Z (q * m2 + r)) / inject_Z m2).
Proof.
  intros M R. assert (MQ : (0 < inject_Z m2)%Q) by (change 0%Q with (inject_Z 0); now rewrite <- Zlt_Qlt).
  set (y := (inject_Z r / inject_Z m2)%Q). assert (Y : (y * inject_Z m2 == inject_Z r)%Q) by (unfold y; field; lra).
  assert (X : (inject_Z (q * m2 + r) / inject_Z m2 == inject_Z q + y)%Q) by (unfold y; rewrite inject_Z_plus, inject_Z_mult; field; lra).
  apply (located_comp _ (inject_Z q + y)); [now symmetry|]. clear X. clearbody y.
  assert (R2 : (inject_Z r < inject_Z m2)%Q) by now rewrite <- Zlt_Qlt.
  assert (L0 : r = 0 -> (y == 0)%Q). { intro E. rewrite E in Y. change (inject_Z 0) with 0%Q in Y. nra. }
  assert (L1 : 0 < r -> (0 < y)%Q). { intro E. rewrite Zlt_Qlt in E. change (inject_Z 0) with 0%Q in E. nra. }
  assert (L2 : 2 * r < m2 -> (y < 1 # 2)%Q). { intro E. rewrite Zlt_Qlt, inject_Z_mult in E. change (inject_Z 2) with 2%Q in E. nra. }
  assert (L3 : 2 * r = m2 -> (y == 1 # 2)%Q). { intro E. rewrite <- E, inject_Z_mult in Y, MQ. change (inject_Z 2) with 2%Q in Y, MQ. nra. }
  assert (L4 : m2 < 2 * r -> (1 # 2 < y)%Q). { intro E. rewrite Zlt_Qlt, inject_Z_mult in E. change (inject_Z 2) with 2%Q in E. nra. }
  assert (L5 : (y < 1)%Q) by nra.
  unfold new_location, new_location_even, new_location_odd. destruct (Z.even m2) eqn:EV; (destruct (Zeq_bool r 0) eqn:ER;
    [apply Zeq_bool_eq in ER; unfold located; cbn; rewrite L0 by exact ER; ring|apply Zeq_bool_neq in ER; assert (0 < y)%Q by (apply L1; lia)]).
  - destruct (Z.compare_spec (2 * r) m2) as [C|C|C]; unfold located; cbn [shr_record_of_loc shr_m shr_r shr_s].
    + rewrite L3 by exact C. reflexivity.
    + specialize (L2 C). split; lra.
    + specialize (L4 C). split; lra.
  - assert (NE : 2 * r <> m2). { intro E. rewrite <- E, Z.even_mul in EV. discriminate. }
    destruct (Z.compare_spec (2 * r + 1) m2) as [C|C|C]; unfold located; cbn [shr_record_of_loc shr_m shr_r shr_s].
    + specialize (L2 ltac:(lia)). split; lra.
    + specialize (L2 ltac:(lia)). split; lra.
    + specialize (L4 ltac:(lia)). split; lra.
Qed.
Lemma div_nearest_any x y a b : b64_val x = Some a -> b64_val y = Some b -> ~ (b == 0)%Q ->
  nearest64 (SFdiv 53 1024 x y) (a / b).
Proof.
  intros EX EY NZ. destruct y as [sy|sy| |sy my ey]; try discriminate; [injection EY as <-; exfalso; now apply NZ|].
  destruct x as [sx|sx| |sx mx ex]; try discriminate; cbn [SFdiv].
  - injection EX as <-. apply nearest_zero. field. exact NZ.
  - destruct (finite_val sx mx ex) as (a' & EA & VA). rewrite EX in EA. injection EA as <-.
    destruct (finite_val sy my ey) as (b' & EB & VB). rewrite EY in EB. injection EB as <-. clear EX EY.
    unfold SFdiv_core_binary. rewrite fexp_eq. set (d1 := Zdigits2 (Zpos mx)). set (d2 := Zdigits2 (Zpos my)).
    set (e' := Z.min (Z.max (d1 + ex - (d2 + ey) - 53) (-1074)) (ex - ey)). set (s := ex - ey - e').
    assert (S0 : 0 <= s) by lia.
    assert (EM : match s with Z0 => Zpos mx | Zpos _ => Z.shiftl (Zpos mx) s | Zneg _ => Z0 end = Zpos mx * 2 ^ s).
    { destruct s as [|p|p] eqn:ES; [lia| |lia]. rewrite Z.shiftl_mul_pow2 by lia. reflexivity. }
    rewrite EM. assert (DM := Z_div_mod (Zpos mx * 2 ^ s) (Zpos my) ltac:(lia)). destruct (Z.div_eucl (Zpos mx * 2 ^ s) (Zpos my)) as [q r]. destruct DM as [DQ DR].
    assert (T : 0 < 2 ^ s) by (apply Z.pow_pos_nonneg; lia). assert (Q0 : 0 <= q) by nia.
    assert (PY : (0 < inject_Z (Zpos my))%Q) by reflexivity. assert (PX : (0 < inject_Z (Zpos mx))%Q) by reflexivity.
    assert (P1 := pow2_pos e'). assert (P2 := pow2_pos ey). assert (P3 := pow2_pos s).
    assert (XV : (inject_Z (q * Zpos my + r) / inject_Z (Zpos my) == inject_Z (Zpos mx) * 2 ^ s / inject_Z (Zpos my))%Q).
    { rewrite <- (inj_pow2 s) by exact S0. rewrite <- inject_Z_mult, DQ, (Z.mul_comm q). reflexivity. }
    apply (nearest64_comp _ (sgnq (xorb sx sy) (inject_Z (q * Zpos my + r) / inject_Z (Zpos my) * 2 ^ e'))).
    { rewrite XV, VA, VB. assert (X : (2 ^ ex == 2 ^ s * 2 ^ e' * 2 ^ ey)%Q). { rewrite <- !pow2_add. replace (s + e' + ey) with ex by lia. reflexivity. }
      rewrite X. destruct sx, sy; cbn [sgnq xorb]; field; lra. }
    apply rounded_nearest.
    { rewrite XV. apply Qmult_le_0_compat; [|lra]. apply Qle_shift_div_l; [exact PY|]. nra. }
    apply round_aux_spec; [exact Q0|apply location_located; lia|]. rewrite fexp_eq.
    destruct (Z_le_gt_dec e' (-1074)) as [C|C]; [lia|]. assert (e' <= d1 + ex - (d2 + ey) - 53) by lia.
    destruct (digits_spec (Zpos mx)) as [A1 _]; [lia|]. destruct (digits_spec (Zpos my)) as [_ B2]; [lia|]. fold d1 in A1. fold d2 in B2.
    assert (D1 := digits_pos (Zpos mx) ltac:(lia)). assert (D2 := digits_pos (Zpos my) ltac:(lia)). fold d1 in D1. fold d2 in D2.
    assert (G : 2 ^ 52 <= q).
    { assert (K : 2 ^ 52 * 2 ^ d2 <= 2 ^ (d1 - 1) * 2 ^ s) by (rewrite <- !Z.pow_add_r by lia; apply Z.pow_le_mono_r; lia).
      assert (K2 : 2 ^ 52 * Zpos my < Zpos my * (q + 1)) by nia. nia. }
    apply digits_ge in G. lia.
Qed.

Lemma div_nearest x y a b : valid_binary 53 1024 x = true -> valid_binary 53 1024 y = true -> b64_val x = Some a -> b64_val y = Some b -> ~ (b == 0)%Q ->
  nearest64 (SFdiv 53 1024 x y) (a / b).
Proof. intros _ _. apply div_nearest_any. Qed.
Lemma read_nearest q : nearest64 (b64_read q) q.
Proof.
  destruct q as [[|p|p] d]; unfold b64_read; cbn [Qnum Qden].
  - apply nearest_zero. reflexivity.
  - destruct (finite_val false p 0) as (a & EA & VA). destruct (finite_val false d 0) as (b & EB & VB). cbn [sgnq] in *. change (2 ^ 0)%Q with 1%Q in *.
    assert (D : (0 < inject_Z (Zpos d))%Q) by reflexivity. eapply nearest64_eq; [apply (div_nearest_any _ _ a b EA EB); lra|].
    rewrite VA, VB, (Qmake_Qdiv (Zpos p) d). field. lra.
  - destruct (finite_val true p 0) as (a & EA & VA). destruct (finite_val false d 0) as (b & EB & VB). cbn [sgnq] in *. change (2 ^ 0)%Q with 1%Q in *.
    assert (D : (0 < inject_Z (Zpos d))%Q) by reflexivity. eapply nearest64_eq; [apply (div_nearest_any _ _ a b EA EB); lra|].
    rewrite VA, VB, (Qmake_Qdiv (Zneg p) d). change (inject_Z (Zneg p)) with (- inject_Z (Zpos p))%Q. field. lra.
Qed.

(** ** Comparisons *)
Lemma compare_finite m1 e1 m2 e2 : bounded 53 1024 m1 e1 = true -> bounded 53 1024 m2 e2 = true -> e1 < e2 ->
  (inject_Z (Zpos m1) * 2 ^ e1 < inject_Z (Zpos m2) * 2 ^ e2)%Q.
Proof.
  intros H1 H2 L. apply bounded_range in H1 as (R1 & M1 & _). apply bounded_range in H2 as (R2 & M2 & N2). specialize (N2 ltac:(lia)).
  rewrite Zlt_Qlt, inj_pow2 in M1 by lia. rewrite Zle_Qle, inj_pow2 in N2 by lia. assert (P := pow2_pos e1). assert (P2 := pow2_pos e2).
  assert (A : (2 ^ (53 + e1) <= 2 ^ (52 + e2))%Q) by (apply pow2_le; lia). rewrite !pow2_add in A. nra.
Qed.
Lemma compare_exact x y a b : valid_binary 53 1024 x = true -> valid_binary 53 1024 y = true -> b64_val x = Some a -> b64_val y = Some b ->
  SFcompare x y = Some (a ?= b)%Q.
Proof.
  intros VX VY EX EY.
  assert (CL : (a < b)%Q -> (a ?= b)%Q = Lt) by (intro; now apply Qlt_alt). assert (CG : (b < a)%Q -> (a ?= b)%Q = Gt) by (intro; now apply Qgt_alt).
  assert (CE : (a == b)%Q -> (a ?= b)%Q = Eq) by (intro; now apply Qeq_alt).
  destruct x as [sx|sx| |sx mx ex]; try discriminate; destruct y as [sy|sy| |sy my ey]; try discriminate; cbn [SFcompare]; f_equal.
  - injection EX as <-. injection EY as <-. reflexivity.
  - injection EX as <-. destruct (finite_val sy my ey) as (b' & EB & VB). rewrite EY in EB. injection EB as <-. assert (P := pos_pow my ey).
    symmetry. destruct sy; cbn [sgnq] in VB; [apply CG|apply CL]; lra.
  - injection EY as <-. destruct (finite_val sx mx ex) as (a' & EA & VA). rewrite EX in EA. injection EA as <-. assert (P := pos_pow mx ex).
    symmetry. destruct sx; cbn [sgnq] in VA; [apply CL|apply CG]; lra.
  - destruct (finite_val sx mx ex) as (a' & EA & VA). rewrite EX in EA. injection EA as <-.
    destruct (finite_val sy my ey) as (b' & EB & VB). rewrite EY in EB. injection EB as <-. cbn [valid_binary] in VX, VY.
    assert (PX := pos_pow mx ex). assert (PY := pos_pow my ey). symmetry.
    destruct sx, sy; cbn [sgnq] in VA, VB; [|apply CL; lra|apply CG; lra|].
    + destruct (Z.compare_spec ex ey) as [C|C|C].
      * subst ey. assert (PE := pow2_pos ex). change (Pos.compare_cont Eq mx my) with (mx ?= my)%positive.
        destruct (Pos.compare_spec mx my) as [D|D|D]; cbn [CompOpp].
        -- subst my. apply CE. lra.
        -- apply CG. rewrite VA, VB. assert (K : (inject_Z (Zpos mx) < inject_Z (Zpos my))%Q) by (rewrite <- Zlt_Qlt; lia). nra.
        -- apply CL. rewrite VA, VB. assert (K : (inject_Z (Zpos my) < inject_Z (Zpos mx))%Q) by (rewrite <- Zlt_Qlt; lia). nra.
      * apply CG. assert (K := compare_finite _ _ _ _ VX VY C). lra.
      * apply CL. assert (K := compare_finite _ _ _ _ VY VX C). lra.
    + destruct (Z.compare_spec ex ey) as [C|C|C].
      * subst ey. assert (PE := pow2_pos ex). change (Pos.compare_cont Eq mx my) with (mx ?= my)%positive.
        destruct (Pos.compare_spec mx my) as [D|D|D].
        -- subst my. apply CE. lra.
        -- apply CL. rewrite VA, VB. assert (K : (inject_Z (Zpos mx) < inject_Z (Zpos my))%Q) by (rewrite <- Zlt_Qlt; lia). nra.
        -- apply CG. rewrite VA, VB. assert (K : (inject_Z (Zpos my) < inject_Z (Zpos mx))%Q) by (rewrite <- Zlt_Qlt; lia). nra.
      * apply CL. assert (K := compare_finite _ _ _ _ VX VY C). lra.
      * apply CG. assert (K := compare_finite _ _ _ _ VY VX C). lra.
Qed.
