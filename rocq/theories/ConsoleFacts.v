(** Facts about the console output (C75). *)
From Coq Require Import Ascii String Lia ZArith QArith Qabs Lqa.
From Verif Require Import Base Spec BaseFacts Instance OptModels Bounds Refine CostRefine Merge Violations BigM Adaptive Report.
From Verif Require Import TextSpec.
From Verif Require TextFacts TextIff.
From Verif Require Import ResultText ResultSpec ResultFacts Rounding BoundsFl BoundsFlFacts ConsoleSpec Console.
Local Open Scope nat_scope.
Local Open Scope list_scope.

Lemma zeros_value n l z : digits_value l z -> digits_value (repeat "0"%char n ++ l) z.
Proof.
  intro H. induction H as [|l z c d H IH HC].
  - rewrite app_nil_r. induction n as [|n IH]; [constructor|]. assert (E : repeat "0"%char (S n) = repeat "0"%char n ++ ["0"%char]).
    { clear. induction n as [|n IH]; [reflexivity|]. cbn [repeat app] in *. now rewrite <- IH. }
    rewrite E. replace 0%Z with (10 * 0 + Z.of_nat 0)%Z by reflexivity. apply DV_snoc; [exact IH|reflexivity].
  - rewrite app_assoc. now apply DV_snoc.
Qed.
Lemma digit_not_minus l z : digits_value l z -> forall l', l = "-"%char :: l' -> False.
Proof.
  intro H. induction H as [|l z c d H IH HC]; [discriminate|]. intros l' E. destruct l as [|a l]; cbn in E.
  - injection E as -> _. unfold digit_char in HC. do 10 (destruct d as [|d]; [discriminate|]). destruct d; discriminate.
  - injection E as -> _. now apply (IH l).
Qed.
Lemma zero_pad_minus w u : zero_pad w ("-"%char :: u) = "-"%char :: repeat "0"%char (w - S (List.length u)) ++ u.
Proof. reflexivity. Qed.
Lemma zero_pad_plain w t : (forall u, t <> "-"%char :: u) -> zero_pad w t = repeat "0"%char (w - List.length t) ++ t.
Proof. intro H. destruct t as [|c t]; [reflexivity|]. unfold zero_pad. destruct c as [[] [] [] [] [] [] [] []]; try reflexivity. now contradiction (H t). Qed.

Lemma show_padded_text w d q : padded_text w d q (show_padded w d (finite q)).
Proof.
  unfold show_padded. destruct (show_fixed_places d q) as (sg & ip & fp & z & neg & E & L & N & Z0 & S & SN & V & NE). rewrite E.
  set (tl := match d with 0 => [] | _ => "."%char :: fp end) in *.
  assert (P : zero_pad w (sg ++ ip ++ tl) = sg ++ repeat "0"%char (w - List.length (sg ++ ip ++ tl)) ++ ip ++ tl).
  { destruct neg; subst sg.
    - exact (zero_pad_minus w (ip ++ tl)).
    - cbn [app]. apply zero_pad_plain. intros u EU. destruct ip as [|a ip]; [now contradiction N|]. injection EU as -> _.
      apply (digit_not_minus _ _ V (ip ++ fp)). reflexivity. }
  rewrite P. split; [rewrite !app_length, repeat_length; lia|].
  exists sg, (w - List.length (sg ++ ip ++ tl)), ip, fp, z, neg. split; [reflexivity|]. split.
  - rewrite !app_length, repeat_length. lia.
  - auto 10.
Qed.
(** It is read as the rounded number. *)
Lemma padded_number w d q t : padded_text w d q t -> exists z, nearest_even (q * inject_Z (10 ^ Z.of_nat d)) z /\ number t (inject_Z z / inject_Z (10 ^ Z.of_nat d))%Q.
Proof.
  intros (_ & sg & n & ip & fp & z & neg & -> & _ & L & N & _ & S & _ & V & NE). exists (signed neg z). split; [exact NE|].
  rewrite (app_assoc (repeat _ _)). apply (places_number sg neg d (repeat "0"%char n ++ ip) fp z); auto.
  - intro E. apply app_eq_nil in E. tauto.
  - rewrite <- app_assoc. now apply zeros_value.
Qed.

Lemma padded_read w d q : exists v z, to_real (show_padded w d (finite q)) = Ok (Some (Fin v)) /\
  nearest_even (q * inject_Z (10 ^ Z.of_nat d)) z /\ (v == inject_Z z / inject_Z (10 ^ Z.of_nat d))%Q.
Proof.
  destruct (padded_number w d q _ (show_padded_text w d q)) as (z & NE & H). destruct (number_real _ _ H) as (v & E & S).
  destruct v as [[|v|]|]; cbn in S; try contradiction. exists v, z. auto.
Qed.

(** The lines of an iteration. *)
Lemma lines_of iter u l g elapsed : exists tu tl tg te,
  padded_text 6 2 u tu /\ padded_text 6 2 l tl /\ padded_text 6 2 (g * 100) tg /\ padded_text 6 2 elapsed te /\
  iteration_lines iter (Fin u) (Fin l) (Some (Fin g)) elapsed =
    [ []; chars "        ########      -  Iteration " ++ show_int (Z.of_nat iter) ++ chars " -      ########"
    ; chars "        ####      Best vUB: " ++ tu; chars "        ####      Best vLB: " ++ tl
    ; chars "        ####      Gap: " ++ tg; chars "        ####      Computation Time:  " ++ te ].
Proof.
  exists (show_padded 6 2 (finite u)), (show_padded 6 2 (finite l)), (show_padded 6 2 (finite (g * 100))), (show_padded 6 2 (finite elapsed)).
  do 4 (split; [apply show_padded_text|]). reflexivity.
Qed.
Lemma lines_first iter elapsed : exists te, padded_text 6 2 elapsed te /\
  iteration_lines iter PInf NInf (Some PInf) elapsed =
    [ []; chars "        ########      -  Iteration " ++ show_int (Z.of_nat iter) ++ chars " -      ########"
    ; chars "        ####      Best vUB: 000inf"; chars "        ####      Best vLB:  -inf "
    ; chars "        ####      Gap: inf"; chars "        ####      Computation Time:  " ++ te ].
Proof. exists (show_padded 6 2 (finite elapsed)). split; [apply show_padded_text|]. reflexivity. Qed.
Lemma infinite_padded : show_padded 6 2 (Some PInf) = chars "000inf" /\ forall g, ~ real_text (chars "000inf") g.
Proof. split; [reflexivity|]. eapply to_real_error. vm_compute. reflexivity. Qed.

(** Two numbers that differ by 0.01 or more are shown differently. *)
Lemma padded_distinct w d p q : (inject_Z (10 ^ Z.of_nat d) * Qabs (p - q) > 1)%Q -> show_padded w d (finite p) <> show_padded w d (finite q).
Proof.
  intros H E. destruct (padded_read w d p) as (v & z & E1 & N1 & V1). destruct (padded_read w d q) as (v' & z' & E2 & N2 & V2).
  rewrite E, E2 in E1. injection E1 as ->. set (D := inject_Z (10 ^ Z.of_nat d)) in *.
  assert (DP : (0 < D)%Q). { unfold D. change 0%Q with (inject_Z 0). rewrite <- Zlt_Qlt. apply Z.pow_pos_nonneg; lia. }
  rewrite V1 in V2. assert (Z0 : (inject_Z z == inject_Z z')%Q).
  { assert (X : (inject_Z z / D * D == inject_Z z' / D * D)%Q) by (now rewrite V2). rewrite !(Qmult_comm (_ / _)), !Qmult_div_r in X by lra. exact X. }
  destruct N1 as [N1 _], N2 as [N2 _]. apply Qabs_Qle_condition in N1, N2. revert H. apply Qle_not_lt.
  rewrite <- (Qabs_pos D) by lra. rewrite <- Qabs_Qmult. apply Qabs_Qle_condition. rewrite Z0 in N1. split; lra.
Qed.

(** The progress printed is a multiple of 10. *)
Lemma progress_shown rnd s nb : progress_text rnd s nb = [] \/
  exists j, progress_fl rnd s nb = Some (10 * j)%Z /\ progress_text rnd s nb = "["%char :: show_int (10 * j) ++ chars "%] " ++ [Text.CR].
Proof.
  unfold progress_text. destruct (progress_fl rnd s nb) as [p|] eqn:E; [right|now left]. unfold progress_fl in E.
  destruct (_ =? 0)%Z eqn:M; [|discriminate]. injection E as E. rewrite E in *. clear E. apply Z.eqb_eq in M. exists (p / 10)%Z.
  assert (X : p = (10 * (p / 10))%Z) by (rewrite (Z.div_mod p 10) at 1 by lia; lia). rewrite <- X. auto.
Qed.
