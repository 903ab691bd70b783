(** Facts about the text of result files (ResultText.v): numbers and records. *)
From Coq Require Import Ascii String Lia ZArith QArith Qabs Lqa.
From Verif Require Import Base Spec BaseFacts Instance InstanceFacts OptModels Bounds Refine CostRefine Merge Violations BigM Adaptive Milp Report Main Export.
From Verif Require Import TextSpec.
From Verif Require Text TextFacts TextIff.
From Verif Require Import ResultText ResultSpec.
Import Text (CR, LF, comma, quote, dot_char, is_digit, digit, is_space, take_sign, take_digits, strip, to_float, is_nl, lines_of, last_digits,
  show_nat, join, dec_val, cstate, StartRecord, StartField, InField, InQuoted, QuoteInQuoted, EatCrnl).
Import TextFacts (plain, plain_spec, show_nat_spec, last_digits_spec, last_digits_length, dec_val_app, pow10_pos, digit_chars).
Import TextIff (numeral_char, numeral_char_spec, sign_chars, sign_text_take, take_sign_inv, strip_inv, strip_blank, decimal_chars, digits_value_ex,
  to_float_decimal, to_float_inv, to_float_iff, blank_space, ordinary_plain, line_text_join).
Local Open Scope nat_scope.
Local Open Scope list_scope.

(** ** float() *)

Definition letters : list (ascii * ascii) := [("i", "I"); ("n", "N"); ("f", "F"); ("t", "T"); ("y", "Y"); ("a", "A")]%char.

(** Checking all characters. *)
Lemma all_ascii : forall P : ascii -> bool, forallb P (map ascii_of_nat (seq 0 256)) = true -> forall c, P c = true.
Proof.
  intros P H c. rewrite forallb_forall in H. apply H. rewrite <- (ascii_nat_embedding c). apply in_map. apply in_seq.
  pose proof (nat_ascii_bounded c). lia.
Qed.

Lemma lower_letter : forall l u c, In (l, u) letters -> (lower c = l <-> letter l u c).
Proof.
  assert (A : forall c, forallb (fun p => Bool.eqb (Ascii.eqb (lower c) (fst p)) (Ascii.eqb c (fst p) || Ascii.eqb c (snd p))) letters = true).
  { apply all_ascii. vm_compute. reflexivity. }
  intros l u c H. specialize (A c). rewrite forallb_forall in A. specialize (A _ H). cbn [fst snd] in A. apply Bool.eqb_prop in A.
  unfold letter. rewrite <- (Ascii.eqb_eq (lower c)), A, Bool.orb_true_iff, !Ascii.eqb_eq. reflexivity.
Qed.

Lemma text_eqb_iff : forall a b, text_eqb a b = true <-> a = b.
Proof. intros a b. unfold text_eqb. destruct (list_eq_dec ascii_dec a b); split; congruence. Qed.

Lemma spells_lower : forall small big t, Forall (fun p => In p letters) (combine (chars small) (chars big)) ->
  List.length (chars small) = List.length (chars big) -> (map lower t = chars small <-> spells small big t).
Proof.
  intros small big. unfold spells, chars.
  generalize (list_ascii_of_string small) (list_ascii_of_string big). clear small big.
  induction l as [|a l IH]; intros [|b k] t HF HL; try discriminate HL.
  - split; intro H; [destruct t; [constructor|discriminate]|inversion H; reflexivity].
  - cbn [combine] in HF. inversion HF as [|? ? Ha HF']; subst. injection HL as HL. cbn [combine]. split.
    + intro H. destruct t as [|c t]; [discriminate|]. injection H as H1 H2.
      constructor; [cbn; now apply lower_letter|]. now apply IH.
    + intro H. inversion H as [|? c ? t' H1 H2]; subst. cbn [map]. f_equal; [now apply (lower_letter a b)|]. now apply (IH k).
Qed.

Ltac find_letters := vm_compute; repeat (apply Forall_cons; [repeat (first [left; reflexivity | right])|]); apply Forall_nil.
Lemma inf_lower : forall t, map lower t = chars "inf" <-> spells "inf" "INF" t.
Proof. intro t. apply spells_lower; [find_letters|reflexivity]. Qed.
Lemma infinity_lower : forall t, map lower t = chars "infinity" <-> spells "infinity" "INFINITY" t.
Proof. intro t. apply spells_lower; [find_letters|reflexivity]. Qed.
Lemma nan_lower : forall t, map lower t = chars "nan" <-> spells "nan" "NAN" t.
Proof. intro t. apply spells_lower; [find_letters|reflexivity]. Qed.

(** Letters of these words. *)
Lemma word_chars : forall t, infinity_text t \/ nan_text t ->
  t <> [] /\ Forall (fun c => is_space c = false /\ Ascii.eqb c "-" = false /\ Ascii.eqb c "+" = false /\ plain c = true) t.
Proof.
  assert (S : forall t w, map lower t = chars w -> In w ["inf"; "infinity"; "nan"]%string ->
     t <> [] /\ Forall (fun c => is_space c = false /\ Ascii.eqb c "-" = false /\ Ascii.eqb c "+" = false /\ plain c = true) t).
  { intros t w H Hw.
    assert (L : Forall (fun c => In (lower c) (map fst letters)) t).
    { apply Forall_forall. intros c Hc. apply (in_map lower) in Hc. rewrite H in Hc.
      revert Hc. generalize (lower c). intros d Hd. cbn [In] in Hw.
      repeat (destruct Hw as [<- | Hw]; [cbn in Hd; repeat (destruct Hd as [<- | Hd]; [cbn; repeat (first [left; reflexivity | right])|]); destruct Hd|]).
      destruct Hw. }
    split; [intros ->; cbn [In] in Hw; repeat (destruct Hw as [<- | Hw]; [discriminate H|]); destruct Hw|].
    assert (A : forall c, implb (existsb (Ascii.eqb (lower c)) (map fst letters))
      (negb (is_space c) && negb (Ascii.eqb c "-") && negb (Ascii.eqb c "+") && plain c) = true).
    { apply all_ascii. vm_compute. reflexivity. }
    eapply Forall_impl; [|exact L]. cbn beta. intros c Hc. specialize (A c).
    assert (X : existsb (Ascii.eqb (lower c)) (map fst letters) = true).
    { apply existsb_exists. exists (lower c). split; [exact Hc|apply Ascii.eqb_refl]. }
    rewrite X in A. cbn [implb] in A. rewrite !Bool.andb_true_iff, !Bool.negb_true_iff in A. tauto. }
  intros t [[H | H] | H].
  - apply (S t "inf"%string); [now apply inf_lower|cbn; tauto].
  - apply (S t "infinity"%string); [now apply infinity_lower|cbn; tauto].
  - apply (S t "nan"%string); [now apply nan_lower|cbn; tauto].
Qed.

Lemma word_strip : forall a sg neg u b, Forall blank a -> Forall blank b -> sign_text sg neg -> infinity_text u \/ nan_text u ->
  take_sign (strip (a ++ sg ++ u ++ b)) = (neg, u).
Proof.
  intros a sg neg u b Ha Hb Hs Hu. destruct (word_chars u Hu) as [Hne Hc].
  assert (NS : Forall (fun c => is_space c = false) (sg ++ u)).
  { apply Forall_app. split; [|eapply Forall_impl; [|exact Hc]; tauto].
    eapply Forall_impl; [|eapply sign_chars; exact Hs]. intros c H. now apply numeral_char_spec. }
  rewrite (app_assoc sg u b). rewrite strip_blank; [|exact Ha|exact Hb| | |].
  - apply sign_text_take; [exact Hs|]. intros c E. destruct u as [|c' u]; [discriminate|]. cbn in E. injection E as <-.
    inversion Hc; subst. tauto.
  - intro E. apply app_eq_nil in E. tauto.
  - intros c E. destruct (sg ++ u) as [|c' l]; [discriminate|]. cbn in E. injection E as <-. now inversion NS.
  - intros c E. apply Forall_rev in NS. destruct (rev (sg ++ u)) as [|c' l]; [discriminate|]. cbn in E. injection E as <-. now inversion NS.
Qed.

Lemma number_not_word : forall t v, number t v -> forall neg l, take_sign (strip t) = (neg, l) -> ~ (infinity_text l \/ nan_text l).
Proof.
  intros t v (a & u & b & -> & Ha & Hb & w & Hd & _) neg l E Hw.
  destruct (decimal_chars u w Hd) as [Hch Hne].
  assert (Hstrip : strip (a ++ u ++ b) = u).
  { apply strip_blank; [exact Ha|exact Hb|exact Hne| |].
    - intros c Hc. destruct u as [|c' u]; [discriminate|]. cbn in Hc. injection Hc as <-.
      inversion Hch; subst. now apply numeral_char_spec.
    - intros c Hc. apply Forall_rev in Hch. destruct (rev u) as [|c' u']; [discriminate|].
      cbn in Hc. injection Hc as <-. inversion Hch; subst. now apply numeral_char_spec. }
  rewrite Hstrip in E. destruct (take_sign_inv _ _ _ E) as (sg & _ & ->). apply Forall_app in Hch as [_ Hl].
  assert (X : forall w0, In w0 ["inf"; "infinity"; "nan"]%string -> map lower l <> chars w0).
  { intros w0 Hw0 EE. destruct l as [|c l]; [cbn in Hw0; repeat (destruct Hw0 as [<- | Hw0]; [discriminate EE|]); destruct Hw0|].
    assert (C : lower c = "i"%char \/ lower c = "n"%char).
    { cbn in Hw0. repeat (destruct Hw0 as [<- | Hw0]; [injection EE as -> _; first [left; reflexivity | right; reflexivity]|]). destruct Hw0. }
    inversion Hl as [|? ? Hc _]; subst. clear - C Hc.
    destruct Hc as [Hc | Hc].
    - assert (A : forall c, implb (is_digit c) (negb (Ascii.eqb (lower c) "i") && negb (Ascii.eqb (lower c) "n")) = true).
      { apply all_ascii. vm_compute. reflexivity. }
      specialize (A c). rewrite Hc in A. destruct C as [C | C]; rewrite C in A; discriminate A.
    - cbn in Hc. repeat (destruct Hc as [<- | Hc]; [vm_compute in C; destruct C; discriminate|]). destruct Hc. }
  destruct Hw as [[Hw | Hw] | Hw]; [apply inf_lower in Hw|apply infinity_lower in Hw|apply nan_lower in Hw];
    refine (X _ _ Hw); cbn; tauto.
Qed.

Lemma to_real_cases : forall s, exists neg l, take_sign (strip s) = (neg, l) /\
  ((infinity_text l /\ to_real s = Ok (Some (if neg then NInf else PInf))) \/
   (nan_text l /\ to_real s = Ok None) \/
   (~ infinity_text l /\ ~ nan_text l /\ to_real s = do q <- to_float s ;; Ok (finite q))).
Proof.
  intro s. unfold to_real. destruct (take_sign (strip s)) as [neg l] eqn:E. exists neg, l. split; [reflexivity|].
  cbv zeta. destruct (text_eqb (map lower l) (chars "inf") || text_eqb (map lower l) (chars "infinity")) eqn:E1.
  - left. split; [|reflexivity]. apply Bool.orb_true_iff in E1. destruct E1 as [E1 | E1]; apply text_eqb_iff in E1.
    + left. now apply inf_lower. + right. now apply infinity_lower.
  - apply Bool.orb_false_iff in E1 as [E1 E2].
    assert (NI : ~ infinity_text l).
    { intros [H | H]; [apply inf_lower in H|apply infinity_lower in H]; apply text_eqb_iff in H; congruence. }
    destruct (text_eqb (map lower l) (chars "nan")) eqn:E3.
    + right. left. split; [|reflexivity]. apply nan_lower. now apply text_eqb_iff.
    + right. right. split; [exact NI|]. split; [|reflexivity]. intro H. apply nan_lower in H. apply text_eqb_iff in H. congruence.
Qed.

Lemma inf_not_nan : forall t, infinity_text t -> nan_text t -> False.
Proof.
  intros t [H | H] H2; apply nan_lower in H2; [apply inf_lower in H|apply infinity_lower in H]; rewrite H in H2; discriminate.
Qed.

Lemma same_real_refl : forall g, same_real g g.
Proof. intros [[| q |]|]; cbn; try reflexivity; exact Logic.I. Qed.
Lemma same_real_sym : forall a b, same_real a b -> same_real b a.
Proof. intros [[| p |]|] [[| q |]|]; cbn; try tauto. intro H. now rewrite H. Qed.
Lemma same_real_trans : forall a b c, same_real a b -> same_real b c -> same_real a c.
Proof. intros [[| p |]|] [[| q |]|] [[| r |]|]; cbn; try tauto. intros H1 H2. now rewrite H1. Qed.

Lemma to_real_iff : forall s g, (exists g', real_text s g' /\ same_real g' g) <-> exists g', to_real s = Ok g' /\ same_real g' g.
Proof.
  intros s g. split.
  - intros (g' & H & HS). destruct H as [t v H | a sg neg u b Ha Hb Hs Hu | a sg neg u b Ha Hb Hs Hu].
    + destruct (to_real_cases t) as (neg & l & E & C). pose proof (number_not_word t v H neg l E) as NW.
      destruct C as [[C _] | [[C _] | [_ [_ ->]]]]; [tauto|tauto|].
      apply to_float_iff in H as (q & -> & Hq). cbn [rbind]. eexists. split; [reflexivity|].
      eapply same_real_trans; [|exact HS]. exact Hq.
    + destruct (to_real_cases (a ++ sg ++ u ++ b)) as (neg' & l & E & C).
      rewrite (word_strip a sg neg u b) in E by (auto; fail). injection E as <- <-.
      destruct C as [[_ ->] | [[C _] | [C _]]]; [eauto|exfalso; eapply inf_not_nan; eassumption|tauto].
    + destruct (to_real_cases (a ++ sg ++ u ++ b)) as (neg' & l & E & C).
      rewrite (word_strip a sg neg u b) in E by (auto; fail). injection E as <- <-.
      destruct C as [[C _] | [[_ ->] | [_ [C _]]]]; [exfalso; eapply inf_not_nan; eassumption|eauto|tauto].
  - intros (g' & H & HS). exists g'. split; [|exact HS]. destruct (to_real_cases s) as (neg & l & E & C).
    destruct (strip_inv s) as (a & b & Hs & Ha & Hb). destruct (take_sign_inv _ _ _ E) as (sg & Hsg & El).
    destruct C as [[C E'] | [[C E'] | [_ [_ E']]]]; rewrite E' in H.
    + injection H as <-. rewrite Hs, El, <- app_assoc. now constructor.
    + injection H as <-. rewrite Hs, El, <- app_assoc. econstructor; eassumption.
    + destruct (to_float s) as [q|e] eqn:EF; [|discriminate]. cbn [rbind] in H. injection H as <-. constructor. now apply to_float_inv.
Qed.

Lemma to_real_error : forall s e, to_real s = Err e -> e = ValueError /\ forall g, ~ real_text s g.
Proof.
  intros s e H. split.
  - destruct (to_real_cases s) as (neg & l & _ & [[_ E] | [[_ E] | [_ [_ E]]]]); rewrite E in H; try discriminate.
    destruct (to_float s) as [q|e'] eqn:EF; [discriminate|]. cbn in H. injection H as <-. now apply TextIff.to_float_none in EF.
  - intros g Hg. destruct (proj1 (to_real_iff s g)) as (g' & E & _); [exists g; split; [exact Hg|apply same_real_refl]|congruence].
Qed.

(** ** Numbers with d decimals *)

Lemma int_digits_lead : forall f z c l, (0 <= z)%Z -> (z < 10 ^ Z.of_nat f)%Z -> Text.int_digits f z = "0"%char :: c :: l -> False.
Proof.
  induction f as [|f IH]; intros z c l Hz Hlt E; [discriminate|].
  cbn [Text.int_digits] in E. destruct (z <? 10)%Z eqn:E1; [discriminate|]. apply Z.ltb_ge in E1.
  replace (Z.of_nat (S f)) with (1 + Z.of_nat f)%Z in Hlt by lia. rewrite Z.pow_add_r in Hlt by lia. change (10 ^ 1)%Z with 10%Z in Hlt.
  assert (B : (0 <= z / 10 < 10 ^ Z.of_nat f)%Z) by (split; [apply Z.div_pos; lia|apply Z.div_lt_upper_bound; lia]).
  assert (F0 : f <> 0) by (intros ->; cbn in Hlt; lia).
  destruct (TextFacts.int_digits_spec f (z / 10) (proj1 B) (proj2 B) F0) as (_ & V & N).
  destruct (Text.int_digits f (z / 10)) as [|a [|b k]] eqn:E2; [congruence| |].
  - cbn [app] in E. injection E as -> _. change (Text.dec_val ["0"%char]) with 0%Z in V. assert (1 <= z / 10)%Z by (apply Z.div_le_lower_bound; lia). lia.
  - cbn [app] in E. injection E as -> _ _. apply (IH (z / 10)%Z b k (proj1 B) (proj2 B) E2).
Qed.

Lemma show_nat_lead : forall z c l, (0 <= z)%Z -> show_nat z = "0"%char :: c :: l -> False.
Proof.
  intros z c l Hz. apply int_digits_lead; [exact Hz|].
  destruct (Z.eq_dec z 0) as [->|Hne]; [cbn; lia|].
  destruct (Z.log2_spec z) as [_ Hl]; [lia|]. eapply Z.lt_le_trans; [exact Hl|].
  replace (Z.of_nat (S (Z.to_nat (Z.log2 z)))) with (Z.succ (Z.log2 z))
    by (rewrite Nat2Z.inj_succ, Z2Nat.id by apply Z.log2_nonneg; reflexivity).
  apply Z.pow_le_mono_l. lia.
Qed.

Lemma Qrnd_nearest : forall q, nearest_even q (Qrnd q).
Proof.
  intro q. destruct (Qrnd_bounds q) as [H1 H2]. split; [apply Qabs_Qle_condition; lra|].
  intro T. unfold Qrnd in *. set (f := Qfloor q) in *. destruct (Qfloor_bounds q) as [F1 F2]. fold f in F1, F2.
  destruct (Qlt_bool (q - inject_Z f) (1 # 2)) eqn:E1.
  - exfalso. unfold Qlt_bool in E1. apply Bool.negb_true_iff in E1.
    assert (~ ((1 # 2) <= q - inject_Z f)%Q) by (intro X; apply Qle_bool_iff in X; congruence).
    rewrite Qabs_pos in T by lra. lra.
  - destruct (Qlt_bool (1 # 2) (q - inject_Z f)) eqn:E2.
    + exfalso. unfold Qlt_bool in E2. apply Bool.negb_true_iff in E2.
      assert (~ (q - inject_Z f <= 1 # 2)%Q) by (intro X; apply Qle_bool_iff in X; congruence).
      rewrite inject_Z_plus in T. change (inject_Z 1) with 1%Q in T.
      rewrite Qabs_neg in T by lra. lra.
    + destruct (Z.even f) eqn:E3; [exact E3|]. rewrite Z.even_add, E3. reflexivity.
Qed.

(** Digits of the integer z >= 0 with d decimals. *)
Lemma show_places_digits : forall d z, (0 <= z)%Z ->
  exists ip fp, show_places d z = ip ++ (match d with 0 => [] | _ => "."%char :: fp end) /\
    List.length fp = d /\ ip <> [] /\ (forall c l, ip = "0"%char :: c :: l -> False) /\ digits_value (ip ++ fp) z.
Proof.
  intros d z Hz. exists (show_nat (z / 10 ^ Z.of_nat d)), (last_digits d z).
  assert (P := pow10_pos d). assert (Hd : (0 <= z / 10 ^ Z.of_nat d)%Z) by (apply Z.div_pos; lia).
  destruct (show_nat_spec _ Hd) as (N1 & N2 & N3). destruct (last_digits_spec d z Hz) as (L1 & L2).
  split; [unfold show_places; destruct d; reflexivity|]. split; [apply last_digits_length|]. split; [exact N3|].
  split; [intros c l; now apply show_nat_lead|].
  replace z with (dec_val (show_nat (z / 10 ^ Z.of_nat d) ++ last_digits d z)) at 3.
  - apply digits_value_ex. apply Forall_app. now split.
  - rewrite dec_val_app, N2, L2, last_digits_length. rewrite (Z.div_mod z (10 ^ Z.of_nat d)) at 3 by lia. ring.
Qed.

Lemma fixed_sign : forall d q, signed (Qlt_bool q 0) (Z.abs (Qrnd (q * pow10 d))) = Qrnd (q * pow10 d).
Proof.
  intros d q. assert (P : (0 < pow10 d)%Q).
  { unfold pow10. change 0%Q with (inject_Z 0). rewrite <- Zlt_Qlt. apply pow10_pos. }
  unfold Qlt_bool, signed. destruct (Qle_bool 0 q) eqn:E; cbn [negb].
  - apply Qle_bool_iff in E. apply Z.abs_eq. rewrite <- (Qrnd_Z 0). apply Qrnd_mono. change (inject_Z 0) with 0%Q. nra.
  - assert (N : (q < 0)%Q) by (apply Qnot_le_lt; intro X; apply Qle_bool_iff in X; congruence).
    rewrite Z.abs_neq; [lia|]. rewrite <- (Qrnd_Z 0). apply Qrnd_mono. change (inject_Z 0) with 0%Q. nra.
Qed.

Lemma show_fixed_places : forall d q, places_text d q (show_fixed d (finite q)).
Proof.
  intros d q. unfold finite, show_fixed.
  destruct (show_places_digits d (Z.abs (Qrnd (q * pow10 d)))) as (ip & fp & -> & L & N & Z0 & V); [lia|].
  exists (if Qlt_bool q 0 then ["-"%char] else []), ip, fp, (Z.abs (Qrnd (q * pow10 d))), (Qlt_bool q 0).
  split; [reflexivity|]. split; [exact L|]. split; [exact N|]. split; [exact Z0|].
  split; [destruct (Qlt_bool q 0); reflexivity|]. split.
  - unfold Qlt_bool. rewrite Bool.negb_true_iff. split; intro H.
    + apply Qnot_le_lt. intro X. apply Qle_bool_iff in X. congruence.
    + destruct (Qle_bool 0 q) eqn:E; [|reflexivity]. apply Qle_bool_iff in E. lra.
  - split; [exact V|]. rewrite fixed_sign. apply Qrnd_nearest.
Qed.

(** Such a text is a number. *)
Lemma places_number : forall sg (neg : bool) d ip fp z, (if neg then sg = ["-"%char] else sg = []) -> List.length fp = d -> ip <> [] ->
  digits_value (ip ++ fp) z ->
  number (sg ++ ip ++ match d with 0 => [] | _ => "."%char :: fp end) (inject_Z (signed neg z) / pow10 d)%Q.
Proof.
  intros sg neg d ip fp z Hs L N V.
  set (t := sg ++ ip ++ _). exists [], t, []. split; [cbn; now rewrite app_nil_r|]. split; [constructor|]. split; [constructor|].
  eexists. split.
  - unfold t. replace (match d with 0 => [] | _ => "."%char :: fp end) with ((match d with 0 => [] | _ => ["."%char] end) ++ fp ++ []).
    + apply (D_intro sg neg ip _ fp z [] 0).
      * destruct neg; rewrite Hs; constructor.
      * intro E. apply app_eq_nil in E. tauto.
      * exact V.
      * destruct d; [right|now left]. split; [reflexivity|]. now destruct fp.
      * constructor.
    + rewrite app_nil_r. destruct d; [now destruct fp|reflexivity].
  - rewrite L. unfold pow10. rewrite Z.sub_0_l, <- TextIff.scale10_power, TextFacts.scale10_neg, Qmake_Qdiv.
    rewrite Z2Pos.id by apply pow10_pos. reflexivity.
Qed.

Lemma show_fixed_number : forall d q, number (show_fixed d (finite q)) (inject_Z (Qrnd (q * pow10 d)) / pow10 d)%Q.
Proof.
  intros d q. unfold finite, show_fixed.
  destruct (show_places_digits d (Z.abs (Qrnd (q * pow10 d)))) as (ip & fp & -> & L & N & Z0 & V); [lia|].
  pose proof (places_number (if Qlt_bool q 0 then ["-"%char] else []) (Qlt_bool q 0) d ip fp _
    ltac:(destruct (Qlt_bool q 0); reflexivity) L N V) as X. rewrite fixed_sign in X. exact X.
Qed.

Lemma show_fixed_real : forall d g, exists v, to_real (show_fixed d g) = Ok v /\ same_real v (fixed d g).
Proof.
  intros d [[| q |]|].
  - exists (Some NInf). split; [reflexivity|exact Logic.I].
  - apply to_real_iff. exists (fixed d (finite q)). split; [|apply same_real_refl]. cbn [fixed finite]. constructor. apply show_fixed_number.
  - exists (Some PInf). split; [reflexivity|exact Logic.I].
  - exists None. split; [reflexivity|exact Logic.I].
Qed.

Lemma show_int_number : forall z, number (show_int z) (inject_Z z).
Proof.
  intro z. unfold show_int. destruct (show_nat_spec (Z.abs z)) as (N1 & N2 & N3); [lia|].
  assert (X := places_number (if (z <? 0)%Z then ["-"%char] else []) (z <? 0)%Z 0 (show_nat (Z.abs z)) [] (Z.abs z)).
  destruct X as (a & u & b & E & Ha & Hb & w & Hd & Hw).
  - destruct (z <? 0)%Z; reflexivity. - reflexivity. - exact N3.
  - rewrite app_nil_r. rewrite <- N2 at 2. now apply digits_value_ex.
  - cbn [app] in E. rewrite app_nil_r in E. exists a, u, b. split; [exact E|]. split; [exact Ha|]. split; [exact Hb|]. exists w. split; [exact Hd|].
    rewrite Hw. unfold signed. destruct (z <? 0)%Z eqn:ES; [apply Z.ltb_lt in ES|apply Z.ltb_ge in ES].
    + rewrite Z.abs_neq, Z.opp_involutive by lia. unfold pow10. cbn. field.
    + rewrite Z.abs_eq by lia. unfold pow10. cbn. field.
Qed.

Lemma number_real : forall t q, number t q -> exists v, to_real t = Ok v /\ same_real v (finite q).
Proof. intros t q H. apply to_real_iff. exists (Some (Fin q)). split; [now constructor|apply same_real_refl]. Qed.

(** ** Reading records *)

Fixpoint steps (r : sreader) (l : text) : res sreader :=
  match l with [] => Ok r | c :: l' => do r' <- sstep r c ;; steps r' l' end.

Lemma sfeed_steps : forall l r, sfeed r l = do r' <- steps r l ;; Ok (seol r').
Proof. induction l as [|c l IH]; intro r; [reflexivity|]. cbn. destruct (sstep r c) as [r'|e]; cbn; [apply IH|reflexivity]. Qed.

Lemma steps_snoc : forall l r r1 c, steps r l = Ok r1 -> steps r (l ++ [c]) = sstep r1 c.
Proof.
  induction l as [|d l IH]; intros r r1 c H.
  - cbn in H. injection H as ->. cbn. destruct (sstep r1 c); reflexivity.
  - cbn in *. destruct (sstep r d) as [r'|e]; cbn in *; [now apply IH|discriminate].
Qed.

(** The reader in state r1, after the beginning [rev cur] of a line and from state r at its start. *)
Definition here (cur : text) (r r1 : sreader) : Prop := steps r (rev cur) = Ok r1.
Definition next (cur : text) (l : text) (r : sreader) := next_record (lines_of cur l) r.

Lemma here_start : forall r, here [] r r.
Proof. reflexivity. Qed.

Lemma here_step : forall cur r r1 c r2, here cur r r1 -> sstep r1 c = Ok r2 -> here (c :: cur) r r2.
Proof. intros cur r r1 c r2 H E. unfold here in *. cbn [rev]. rewrite (steps_snoc _ _ _ _ H). exact E. Qed.

Lemma next_step : forall cur r c l, Ascii.eqb c LF = false -> next cur (c :: l) r = next (c :: cur) l r.
Proof. intros cur r c l H. unfold next. cbn [lines_of]. now rewrite H. Qed.

(** End of a line, inside quotes and outside. *)
Lemma next_quoted_lf : forall cur r f row l, here cur r (mkS InQuoted f row) ->
  next cur (LF :: l) r = next [] l (mkS InQuoted (LF :: f) row).
Proof.
  intros cur r f row l H. unfold next. cbn [lines_of]. change (Ascii.eqb LF LF) with true. cbv iota.
  cbn [next_record]. rewrite sfeed_steps. cbn [rev]. rewrite (steps_snoc _ _ _ _ H). reflexivity.
Qed.

Lemma next_lf : forall cur r r1 st f row l, here cur r (mkS st f row) -> sstep (mkS st f row) LF = Ok r1 -> s_state (seol r1) = StartRecord ->
  next cur (LF :: l) r = Ok (Some (rev (s_row (seol r1)), lines_of [] l)).
Proof.
  intros cur r r1 st f row l H E S. unfold next. cbn [lines_of]. change (Ascii.eqb LF LF) with true. cbv iota.
  cbn [next_record]. rewrite sfeed_steps. cbn [rev]. rewrite (steps_snoc _ _ _ _ H), E. cbn [rbind]. now rewrite S.
Qed.

Lemma plain_lf : forall c, plain c = true -> Ascii.eqb c LF = false.
Proof. exact TextFacts.plain_not_lf. Qed.

(** The characters between quotes. *)
Lemma quoted_steps : forall f t, quoted_text f t -> forall cur r acc row rest, here cur r (mkS InQuoted acc row) ->
  exists cur' r', here cur' r' (mkS InQuoted (rev f ++ acc) row) /\ next cur (t ++ rest) r = next cur' rest r'.
Proof.
  induction 1 as [|c f t Hc H IH|f t H IH]; intros cur r acc row rest HH.
  - exists cur, r. split; [exact HH|reflexivity].
  - cbn [app]. destruct (Ascii.eqb c LF) eqn:E.
    + apply Ascii.eqb_eq in E. subst c. rewrite (next_quoted_lf _ _ _ _ _ HH).
      destruct (IH [] _ _ _ rest (here_start (mkS InQuoted (LF :: acc) row))) as (cur' & r' & A & B).
      exists cur', r'. split; [|exact B]. cbn [rev]. rewrite <- app_assoc. exact A.
    + rewrite next_step by exact E.
      assert (X : here (c :: cur) r (mkS InQuoted (c :: acc) row)).
      { eapply here_step; [exact HH|]. unfold sstep. cbn [s_state].
        destruct (Ascii.eqb c quote) eqn:EQ; [apply Ascii.eqb_eq in EQ; subst c; exfalso; apply Hc; reflexivity|reflexivity]. }
      destruct (IH _ _ _ _ rest X) as (cur' & r' & A & B). exists cur', r'. split; [|exact B]. cbn [rev]. rewrite <- app_assoc. exact A.
  - cbn [app]. rewrite !next_step by reflexivity.
    assert (X : here (quote :: quote :: cur) r (mkS InQuoted (quote :: acc) row)).
    { eapply here_step; [eapply here_step; [exact HH|reflexivity]|reflexivity]. }
    destruct (IH _ _ _ _ rest X) as (cur' & r' & A & B). exists cur', r'. split; [|exact B]. cbn [rev]. rewrite <- app_assoc. exact A.
Qed.

Lemma infield_steps : forall f cur r acc row rest, Forall (fun c => plain c = true) f -> here cur r (mkS InField acc row) ->
  exists cur', here cur' r (mkS InField (rev f ++ acc) row) /\ next cur (f ++ rest) r = next cur' rest r.
Proof.
  induction f as [|c f IH]; intros cur r acc row rest HF HH.
  - exists cur. split; [exact HH|reflexivity].
  - inversion HF as [|? ? Hc HF']; subst. destruct (plain_spec c Hc) as (P1 & P2 & P3). cbn [app].
    rewrite next_step by now apply plain_lf.
    assert (X : here (c :: cur) r (mkS InField (c :: acc) row)).
    { eapply here_step; [exact HH|]. unfold sstep. cbn [s_state]. rewrite P1, P2. reflexivity. }
    destruct (IH _ _ _ _ rest HF' X) as (cur' & A & B). exists cur'. split; [|exact B]. cbn [rev]. rewrite <- app_assoc. exact A.
Qed.

(** At the beginning of a field; at the end of a field f. *)
Definition open_state (st : cstate) : Prop := st = StartRecord \/ st = StartField.
Definition closed_state (st : cstate) (acc f t : text) : Prop :=
  (st = InField \/ st = QuoteInQuoted) /\ acc = rev f \/ (open_state st /\ acc = [] /\ f = [] /\ t = []).

Lemma field_steps : forall f t, field_text f t -> forall cur r st row rest, open_state st -> here cur r (mkS st [] row) ->
  exists cur' r' st' acc', here cur' r' (mkS st' acc' row) /\ closed_state st' acc' f t /\ (st' = StartRecord -> st = StartRecord) /\
    next cur (t ++ rest) r = next cur' rest r'.
Proof.
  intros f t HF cur r st row rest Ho HH. destruct HF as [f HF | f t HF].
  - assert (HP : Forall (fun c => plain c = true) f).
    { eapply Forall_impl; [|exact HF]. intros c Hc. now apply ordinary_plain. }
    destruct f as [|c f].
    + exists cur, r, st, []. split; [exact HH|]. split; [right; auto|]. auto.
    + inversion HP as [|? ? Hc HP']; subst. destruct (plain_spec c Hc) as (P1 & P2 & P3).
      assert (X : here (c :: cur) r (mkS InField [c] row)).
      { eapply here_step; [exact HH|]. unfold sstep, sstart. cbn [s_state].
        destruct Ho as [-> | ->]; rewrite P1, ?P2, ?P3; reflexivity. }
      destruct (infield_steps f _ _ _ _ rest HP' X) as (cur' & A & B).
      exists cur', r, InField, (rev f ++ [c]). split; [exact A|]. split; [left; auto|]. split; [discriminate|].
      cbn [app]. rewrite next_step by now apply plain_lf. exact B.
  - assert (X : here (quote :: cur) r (mkS InQuoted [] row)).
    { eapply here_step; [exact HH|]. destruct Ho as [-> | ->]; reflexivity. }
    destruct (quoted_steps f t HF _ _ _ _ (quote :: rest) X) as (cur' & r' & A & B).
    exists (quote :: cur'), r', QuoteInQuoted, (rev f). split.
    + eapply here_step; [rewrite app_nil_r in A; exact A|reflexivity].
    + split; [left; auto|]. split; [discriminate|].
      change (ascii_of_nat 34) with quote. cbn [app]. rewrite next_step by reflexivity. rewrite <- app_assoc. cbn [app].
      rewrite B. rewrite next_step by reflexivity. reflexivity.
Qed.

Lemma closed_comma : forall st acc f t row, closed_state st acc f t -> sstep (mkS st acc row) comma = Ok (mkS StartField [] (f :: row)).
Proof.
  intros st acc f t row [[[-> | ->] ->] | [[-> | ->] [-> [-> _]]]]; try reflexivity;
    cbv - [rev]; rewrite rev_involutive; reflexivity.
Qed.

Lemma closed_lf : forall st acc f t row, closed_state st acc f t -> st <> StartRecord ->
  exists r1, sstep (mkS st acc row) LF = Ok r1 /\ s_state (seol r1) = StartRecord /\ s_row (seol r1) = f :: row.
Proof.
  intros st acc f t row [[[-> | ->] ->] | [[-> | ->] [-> [-> _]]]] NS; try congruence;
    (eexists; split; [reflexivity|]; split; [reflexivity|]); cbv - [rev]; rewrite ?rev_involutive; reflexivity.
Qed.

Lemma record_steps : forall fs ts, Forall2 field_text fs ts -> forall line, line_text ts line -> fs <> [] ->
  forall cur r st row rest, open_state st -> here cur r (mkS st [] row) -> (st = StartRecord -> line <> []) ->
  next cur (line ++ LF :: rest) r = Ok (Some (rev row ++ fs, lines_of [] rest)).
Proof.
  induction fs as [|f fs IH]; intros ts HF line HL NE cur r st row rest Ho HH HS; [congruence|].
  inversion HF as [|? t ? ts' H1 H2]; subst. clear HF.
  inversion HL as [| ? |? ? line' NE' HL']; subst.
  - inversion H2; subst. destruct (field_steps f line H1 _ _ _ _ (LF :: rest) Ho HH) as (cur' & r' & st' & acc' & A & C & D & E).
    rewrite E. destruct (closed_lf st' acc' f line row C) as (r1 & F1 & F2 & F3).
    { intro X. pose proof (D X) as Y. specialize (HS Y). destruct C as [[[C | C] _] | [_ [_ [_ C]]]]; congruence. }
    rewrite (next_lf _ _ _ _ _ _ _ A F1 F2), F3. cbn [rev]. reflexivity.
  - rewrite <- app_assoc. cbn [app].
    destruct (field_steps f t H1 _ _ _ _ (comma :: line' ++ LF :: rest) Ho HH) as (cur' & r' & st' & acc' & A & C & _ & E).
    change ","%char with comma. rewrite E. rewrite next_step by reflexivity.
    rewrite (IH ts' H2 line' HL') with (st := StartField) (row := f :: row).
    + cbn [rev]. rewrite <- app_assoc. reflexivity.
    + intros ->. inversion H2. subst. congruence.
    + right. reflexivity.
    + eapply here_step; [exact A|]. eapply closed_comma; exact C.
    + discriminate.
Qed.

(** ** Universal newlines *)

Lemma universal_app : forall n a b, List.length a <= n -> hd_error b <> Some LF -> universal (a ++ b) = universal a ++ universal b.
Proof.
  induction n as [|n IH]; intros [|c a] b HL HB; cbn [List.length] in HL; try reflexivity; [lia|].
  cbn [app universal]. destruct (Ascii.eqb c CR).
  - destruct a as [|c' a].
    + cbn [app]. destruct b as [|c' b]; [reflexivity|]. destruct (Ascii.eqb c' LF) eqn:E.
      * apply Ascii.eqb_eq in E. subst. exfalso. now apply HB.
      * reflexivity.
    + cbn [app]. destruct (Ascii.eqb c' LF).
      * cbn [app]. f_equal. apply IH; [cbn in HL; lia|exact HB].
      * cbn [app]. f_equal. change (c' :: a ++ b) with ((c' :: a) ++ b). apply IH; [lia|exact HB].
  - cbn [app]. f_equal. apply IH; [lia|exact HB].
Qed.
Lemma universal_app' : forall a b, hd_error b <> Some LF -> universal (a ++ b) = universal a ++ universal b.
Proof. intros a b. apply (universal_app (List.length a)). lia. Qed.
Lemma universal_crlf : forall a b, universal (a ++ CR :: LF :: b) = universal a ++ LF :: universal b.
Proof. intros a b. rewrite universal_app' by discriminate. reflexivity. Qed.

Lemma universal_plain : forall f, Forall (fun c => plain c = true) f -> universal f = f.
Proof.
  induction f as [|c f IH]; intro H; [reflexivity|]. inversion H as [|? ? Hc Hf]; subst. cbn [universal].
  destruct (Ascii.eqb c CR) eqn:E; [apply Ascii.eqb_eq in E; subst; discriminate Hc|]. now rewrite IH.
Qed.

Lemma universal_quoted : forall n f t, List.length f <= n -> quoted_text f t -> quoted_text (universal f) (universal t).
Proof.
  induction n as [|n IH]; intros f t HL H.
  - destruct H; cbn in HL; try lia. constructor.
  - destruct H as [|c f t Hc H|f t H]; [constructor| |]; cbn [List.length] in HL.
    + cbn [universal]. destruct (Ascii.eqb c CR) eqn:E.
      * destruct H as [|c' f t Hc' H|f t H].
        -- constructor; [discriminate|constructor].
        -- destruct (Ascii.eqb c' LF).
           ++ constructor; [discriminate|]. apply IH; [cbn in HL; lia|exact H].
           ++ constructor; [discriminate|]. apply (IH (c' :: f) (c' :: t)); [lia|now constructor].
        -- change (Ascii.eqb (ascii_of_nat 34) LF) with false. cbv iota. constructor; [discriminate|].
           apply (IH (ascii_of_nat 34 :: f) (ascii_of_nat 34 :: ascii_of_nat 34 :: t)); [lia|now apply QT_quote].
      * constructor; [exact Hc|]. apply IH; [lia|exact H].
    + change (universal (ascii_of_nat 34 :: f)) with (ascii_of_nat 34 :: universal f).
      change (universal (ascii_of_nat 34 :: ascii_of_nat 34 :: t)) with (ascii_of_nat 34 :: ascii_of_nat 34 :: universal t).
      apply QT_quote. apply IH; [lia|exact H].
Qed.

Lemma universal_field : forall f t, field_text f t -> field_text (universal f) (universal t).
Proof.
  intros f t [f0 H | f0 t0 H].
  - rewrite universal_plain; [now constructor|]. eapply Forall_impl; [|exact H]. intros c Hc. now apply ordinary_plain.
  - change (universal (ascii_of_nat 34 :: t0 ++ [ascii_of_nat 34])) with (ascii_of_nat 34 :: universal (t0 ++ [ascii_of_nat 34])).
    rewrite universal_app' by discriminate. change (universal [ascii_of_nat 34]) with [ascii_of_nat 34].
    constructor. eapply universal_quoted; [reflexivity|exact H].
Qed.

Lemma universal_line : forall ts line, line_text ts line -> line_text (map universal ts) (universal line).
Proof.
  induction 1 as [|f|f fs t NE H IH]; [constructor|constructor|]. cbn [map].
  rewrite universal_app' by discriminate. change (universal (","%char :: t)) with (","%char :: universal t).
  constructor; [now destruct fs|exact IH].
Qed.

Lemma universal_nil : forall l, universal l = [] -> l = [].
Proof.
  intros [|c l]; [reflexivity|]. cbn [universal]. destruct (Ascii.eqb c CR); [|discriminate].
  destruct l as [|c' l]; [discriminate|]. destruct (Ascii.eqb c' LF); discriminate.
Qed.

Lemma record_read : forall fs t rest, record_text fs t ->
  next_record (lines_of [] (universal (t ++ rest))) sreset = Ok (Some (map universal fs, lines_of [] (universal rest))).
Proof.
  intros fs t rest (ts & line & HF & HL & HN & ->). rewrite <- app_assoc.
  change ([ascii_of_nat 13; ascii_of_nat 10] ++ rest) with (CR :: LF :: rest). rewrite universal_crlf.
  destruct fs as [|f fs].
  - inversion HF; subst. inversion HL; subst. reflexivity.
  - change (map universal (f :: fs)) with (rev [] ++ map universal (f :: fs)).
    apply (record_steps (map universal (f :: fs)) (map universal ts)) with (st := StartRecord) (row := []).
    + clear - HF. induction HF; constructor; [now apply universal_field|assumption].
    + now apply universal_line.
    + discriminate.
    + left. reflexivity.
    + reflexivity.
    + intros _ E. apply universal_nil in E. apply HN in E. discriminate E.
Qed.

Lemma read_table_record : forall fs t rest, record_text fs t -> read_table (t ++ rest) = Ok (map universal fs).
Proof. intros fs t rest H. unfold read_table. rewrite (record_read _ _ _ H). reflexivity. Qed.

Lemma universal_no_cr : forall t, no_cr t -> universal t = t.
Proof.
  induction t as [|c t IH]; intro H; [reflexivity|]. cbn [universal]. destruct (Ascii.eqb c CR) eqn:E.
  - apply Ascii.eqb_eq in E. exfalso. apply H. left. now symmetry.
  - rewrite IH; [reflexivity|]. intro X. apply H. now right.
Qed.

Lemma universal_spec : forall t u, one_newline t u -> universal t = u.
Proof.
  induction 1 as [|t u H IH|t u HN H IH|c t u HC H IH].
  - reflexivity.
  - cbn [universal]. change (Ascii.eqb (ascii_of_nat 13) CR) with true. change (Ascii.eqb (ascii_of_nat 10) LF) with true. cbv iota. now rewrite IH.
  - cbn [universal]. change (Ascii.eqb (ascii_of_nat 13) CR) with true. cbv iota. destruct t as [|c t]; [inversion H; reflexivity|].
    destruct (Ascii.eqb c LF) eqn:E; [apply Ascii.eqb_eq in E; subst; exfalso; now apply HN|]. now rewrite IH.
  - cbn [universal]. destruct (Ascii.eqb c CR) eqn:E; [apply Ascii.eqb_eq in E; subst; exfalso; now apply HC|]. now rewrite IH.
Qed.

(** ** Writing records *)

Lemma special_plain : forall c, special c = negb (plain c).
Proof. intro c. unfold special, plain. rewrite Bool.negb_involutive. destruct (is_nl c), (Ascii.eqb c comma), (Ascii.eqb c quote); reflexivity. Qed.

Lemma double_quotes_text : forall f, quoted_text f (double_quotes f).
Proof.
  induction f as [|c f IH]; [constructor|]. cbn. destruct (Ascii.eqb c quote) eqn:E.
  - apply Ascii.eqb_eq in E. subst. now apply QT_quote.
  - constructor; [|exact IH]. intros ->. discriminate E.
Qed.

Lemma show_field_text : forall f, field_text f (show_field f).
Proof.
  intro f. unfold show_field. destruct (existsb special f) eqn:E; constructor; [apply double_quotes_text|].
  apply Forall_forall. intros c Hc. apply ordinary_plain. destruct (plain c) eqn:P; [reflexivity|].
  assert (existsb special f = true) by (apply existsb_exists; exists c; split; [exact Hc|]; now rewrite special_plain, P). congruence.
Qed.

Lemma show_field_nil : forall f, show_field f = [] -> f = [].
Proof. intros f. unfold show_field. destruct (existsb special f); [discriminate|auto]. Qed.

Lemma join_nil : forall ts, join ts = [] -> ts = [] \/ ts = [[]].
Proof. intros [|t [|u ts]]; cbn; auto; [intros ->; auto|]. intro H. apply app_eq_nil in H as [_ H]. discriminate. Qed.

Lemma csv_row_record : forall fs, record_text fs (csv_row fs).
Proof.
  intro fs. assert (D : fs = [[]] \/ fs <> [[]]).
  { destruct fs as [|[|c f] [|g fs]]; auto; right; discriminate. }
  destruct D as [-> | D].
  - exists [[quote; quote]], [quote; quote]. split; [|split; [constructor|split; [discriminate|reflexivity]]].
    constructor; [|constructor]. apply (FT_quoted [] []). constructor.
  - exists (map show_field fs), (join (map show_field fs)). split; [|split; [now apply line_text_join|split]].
    + clear. induction fs; constructor; [apply show_field_text|assumption].
    + intro E. apply join_nil in E as [E | E]; [now destruct fs|]. exfalso. apply D.
      destruct fs as [|f [|g fs]]; try discriminate. cbn in E. injection E as E. apply show_field_nil in E. now subst.
    + unfold csv_row. destruct fs as [|[|c f] [|g fs]]; try reflexivity. congruence.
Qed.

Lemma csv_rows_records : forall rows, records_text rows (csv_rows rows).
Proof. induction rows as [|r rows IH]; [constructor|]. unfold csv_rows. cbn [map concat]. constructor; [apply csv_row_record|exact IH]. Qed.

(** ** Records are determined by the text *)

Fixpoint read_all (n : nat) (ls : list text) : res (list (list text)) :=
  match n with
  | 0 => Ok []
  | S n' =>
      do o <- next_record ls sreset ;;
      match o with None => Ok [] | Some (row, ls') => do rest <- read_all n' ls' ;; Ok (row :: rest) end
  end.

Lemma read_all_records : forall rows t, records_text rows t -> forall n, List.length rows <= n ->
  read_all n (lines_of [] (universal t)) = Ok (map (map universal) rows).
Proof.
  induction 1 as [|row rows t u H1 H2 IH]; intros n HL.
  - destruct n; reflexivity.
  - cbn [List.length] in HL. destruct n as [|n]; [lia|]. cbn [read_all]. rewrite (record_read _ _ _ H1). cbn [rbind].
    rewrite IH by lia. reflexivity.
Qed.

Lemma map_universal_id : forall fs, Forall no_cr fs -> map universal fs = fs.
Proof. induction 1 as [|f fs H HF IH]; [reflexivity|]. cbn. now rewrite (universal_no_cr f H), IH. Qed.
Lemma rows_universal_id : forall rows, Forall (Forall no_cr) rows -> map (map universal) rows = rows.
Proof. induction 1 as [|f fs H HF IH]; [reflexivity|]. cbn. now rewrite (map_universal_id f H), IH. Qed.

Lemma records_unique : forall rows rows' t, Forall (Forall no_cr) rows -> Forall (Forall no_cr) rows' ->
  records_text rows t -> records_text rows' t -> rows = rows'.
Proof.
  intros rows rows' t N N' H H'. set (n := List.length rows + List.length rows').
  pose proof (read_all_records _ _ H n ltac:(unfold n; lia)) as E. pose proof (read_all_records _ _ H' n ltac:(unfold n; lia)) as E'.
  rewrite E in E'. injection E' as E'. now rewrite !rows_universal_id in E' by assumption.
Qed.
