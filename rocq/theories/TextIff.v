(** The texts accepted by the reader are those of TextSpec.v. *)
From Verif Require Import Base Spec BaseFacts Instance Text TextSpec TextFacts.
From Coq Require Import Ascii String Lia ZArith QArith Qpower Lqa.
Local Open Scope nat_scope.
Local Open Scope list_scope.
Notation length := List.length.

(** ** Numbers *)

Lemma digit_char_spec : forall c d, digit_char c d -> is_digit c = true /\ digit c = Z.of_nat d.
Proof.
  intros c d H. unfold digit_char in H.
  do 10 (destruct d as [|d]; [cbn in H; injection H as <-; split; reflexivity|]).
  destruct d; discriminate H.
Qed.

Lemma is_digit_char : forall c, is_digit c = true -> exists d, digit_char c d.
Proof.
  intros c H. exists (nat_of_ascii c - 48).
  destruct c as [[] [] [] [] [] [] [] []]; vm_compute in H; try discriminate H; reflexivity.
Qed.

Lemma digits_value_spec : forall l z, digits_value l z ->
  Forall (fun c => is_digit c = true) l /\ dec_val l = z.
Proof.
  intros l z H. induction H as [|l z c d H [IH1 IH2] Hc]; [split; [constructor|reflexivity]|].
  destruct (digit_char_spec c d Hc) as [H1 H2]. split.
  - apply Forall_app. split; [exact IH1|]. constructor; [exact H1|constructor].
  - rewrite dec_val_app, IH2. change (dec_val [c]) with (10 * 0 + digit c)%Z. rewrite H2. cbn [length].
    change (10 ^ Z.of_nat 1)%Z with 10%Z. lia.
Qed.

Lemma digits_value_ex : forall l, Forall (fun c => is_digit c = true) l -> digits_value l (dec_val l).
Proof.
  intros l. induction l as [|c l IH] using rev_ind; intros H; [constructor|].
  apply Forall_app in H. destruct H as [H1 H2]. inversion H2 as [|? ? Hc _]; subst.
  destruct (is_digit_char c Hc) as [d Hd]. destruct (digit_char_spec c d Hd) as [_ Hv].
  replace (dec_val (l ++ [c])) with (10 * dec_val l + Z.of_nat d)%Z.
  - constructor; [apply IH; exact H1|exact Hd].
  - rewrite dec_val_app. change (dec_val [c]) with (10 * 0 + digit c)%Z. rewrite Hv. cbn [length].
    change (10 ^ Z.of_nat 1)%Z with 10%Z. lia.
Qed.

Lemma scale10_power : forall m e, scale10 m e == inject_Z m * Qpower (inject_Z 10) e.
Proof.
  intros m e. unfold scale10. destruct (0 <=? e)%Z eqn:E.
  - apply Z.leb_le in E. rewrite inject_Z_mult. rewrite Zpower_Qpower by exact E. reflexivity.
  - apply Z.leb_gt in E. assert (Hp : (0 < 10 ^ (- e))%Z) by (apply Z.pow_pos_nonneg; lia).
    replace e with (- (- e))%Z at 2 by lia. rewrite Qpower_opp. rewrite <- Zpower_Qpower by lia.
    rewrite Qmake_Qdiv. rewrite Z2Pos.id by exact Hp. reflexivity.
Qed.

Lemma sign_text_take : forall sg neg rest, sign_text sg neg ->
  (forall c, hd_error rest = Some c -> Ascii.eqb c "-" = false /\ Ascii.eqb c "+" = false) ->
  take_sign (sg ++ rest) = (neg, rest).
Proof.
  intros sg neg rest H Hr. destruct H; [reflexivity|reflexivity|]. cbn [app].
  destruct rest as [|c rest]; [reflexivity|]. destruct (Hr c eq_refl) as [H1 H2].
  cbn [take_sign]. rewrite H1, H2. reflexivity.
Qed.

Lemma take_sign_inv : forall l neg rest, take_sign l = (neg, rest) -> exists sg, sign_text sg neg /\ l = sg ++ rest.
Proof.
  intros [|c l] neg rest H; cbn in H.
  - injection H as <- <-. exists []. split; [constructor|reflexivity].
  - destruct (Ascii.eqb c "-") eqn:E1; [|destruct (Ascii.eqb c "+") eqn:E2].
    + apply Ascii.eqb_eq in E1. subst c. injection H as <- <-. exists ["-"%char]. split; [constructor|reflexivity].
    + apply Ascii.eqb_eq in E2. subst c. injection H as <- <-. exists ["+"%char]. split; [constructor|reflexivity].
    + injection H as <- <-. exists []. split; [constructor|reflexivity].
Qed.

Lemma take_digits_inv : forall l d r, take_digits l = (d, r) ->
  l = d ++ r /\ Forall (fun c => is_digit c = true) d.
Proof.
  induction l as [|c l IH]; intros d r H; cbn in H.
  - injection H as <- <-. split; [reflexivity|constructor].
  - destruct (is_digit c) eqn:E.
    + destruct (take_digits l) as [d' r'] eqn:E'. injection H as <- <-.
      destruct (IH _ _ eq_refl) as [H1 H2]. split; [cbn; rewrite H1; reflexivity|]. constructor; assumption.
    + injection H as <- <-. split; [reflexivity|constructor].
Qed.

Lemma exponent_spec : forall l e, exponent_text l e -> exponent l = Ok e.
Proof.
  intros l e H. destruct H as [|c sg neg ds z Hc Hs Hne Hv]; [reflexivity|].
  cbn [exponent]. replace (Ascii.eqb c "e" || Ascii.eqb c "E") with true by (destruct Hc; subst c; reflexivity).
  destruct (digits_value_spec _ _ Hv) as [H1 H2].
  rewrite sign_text_take with (neg := neg); [|exact Hs|].
  - rewrite <- (app_nil_r ds). rewrite take_digits_app by (assumption || (intros; discriminate)).
    destruct ds; [congruence|]. rewrite H2. destruct neg; reflexivity.
  - intros c' Hc'. destruct ds as [|d ds]; [discriminate|]. cbn in Hc'. injection Hc' as <-.
    inversion H1; subst. split; apply digit_chars; assumption.
Qed.

Lemma exponent_inv : forall l e, exponent l = Ok e -> exponent_text l e.
Proof.
  intros [|c l] e H; cbn in H.
  - injection H as <-. constructor.
  - destruct (Ascii.eqb c "e" || Ascii.eqb c "E") eqn:E; [|discriminate].
    destruct (take_sign l) as [neg l2] eqn:E1. destruct (take_digits l2) as [d r] eqn:E2.
    destruct d as [|d0 d]; [discriminate|]. destruct r; [|discriminate].
    destruct (take_sign_inv _ _ _ E1) as [sg [Hs ->]]. destruct (take_digits_inv _ _ _ E2) as [-> Hd].
    rewrite app_nil_r. injection H as <-.
    change (exponent_text (c :: sg ++ d0 :: d) (signed neg (dec_val (d0 :: d)))).
    constructor; [|exact Hs|discriminate|apply digits_value_ex; exact Hd].
    apply Bool.orb_true_iff in E. destruct E as [E | E]; apply Ascii.eqb_eq in E; [left|right]; exact E.
Qed.

Lemma blank_space : forall c, blank c <-> is_space c = true.
Proof.
  intros [[] [] [] [] [] [] [] []]; vm_compute; split; intros H; try reflexivity; try discriminate H;
    repeat (destruct H as [H | H]; [discriminate H|]); try contradiction; tauto.
Qed.

Lemma drop_spaces_app : forall a l, Forall blank a -> drop_spaces (a ++ l) = drop_spaces l.
Proof.
  induction a as [|c a IH]; intros l H; [reflexivity|]. inversion H as [|? ? Hc Ha]; subst.
  cbn. apply blank_space in Hc. rewrite Hc. apply IH. exact Ha.
Qed.

Lemma drop_spaces_inv : forall l, exists a, l = a ++ drop_spaces l /\ Forall blank a.
Proof.
  induction l as [|c l [a [IH1 IH2]]]; [exists []; split; [reflexivity|constructor]|].
  cbn. destruct (is_space c) eqn:E.
  - exists (c :: a). split; [cbn; rewrite <- IH1; reflexivity|]. constructor; [apply blank_space; exact E|exact IH2].
  - exists []. split; [reflexivity|constructor].
Qed.

Lemma strip_inv : forall l, exists a b, l = a ++ strip l ++ b /\ Forall blank a /\ Forall blank b.
Proof.
  intros l. unfold strip. destruct (drop_spaces_inv l) as [a [Ha1 Ha2]].
  destruct (drop_spaces_inv (rev (drop_spaces l))) as [b [Hb1 Hb2]].
  exists a, (rev b). split; [|split; [exact Ha2|apply Forall_rev; exact Hb2]].
  rewrite Ha1 at 1. f_equal. rewrite <- rev_app_distr, <- Hb1, rev_involutive. reflexivity.
Qed.

Lemma strip_blank : forall a l b, Forall blank a -> Forall blank b -> l <> [] ->
  (forall c, hd_error l = Some c -> is_space c = false) ->
  (forall c, hd_error (rev l) = Some c -> is_space c = false) -> strip (a ++ l ++ b) = l.
Proof.
  intros a l b Ha Hb Hne H1 H2. unfold strip. rewrite drop_spaces_app by exact Ha.
  rewrite (drop_spaces_head (l ++ b)).
  - rewrite rev_app_distr. rewrite drop_spaces_app by (apply Forall_rev; exact Hb).
    rewrite drop_spaces_head by exact H2. apply rev_involutive.
  - destruct l as [|c l]; [congruence|]. exact H1.
Qed.

(** Characters of a number: none is blank, a comma or a quote. *)
Definition numeral_char (c : ascii) : Prop := is_digit c = true \/ In c ["-"; "+"; "."; "e"; "E"]%char.

Lemma numeral_char_spec : forall c, numeral_char c -> is_space c = false /\ plain c = true.
Proof.
  intros c [H | H].
  - destruct (digit_chars c H) as [H1 [_ [_ [_ H5]]]]. split; assumption.
  - repeat (destruct H as [<- | H]; [split; reflexivity|]). destruct H.
Qed.

Lemma sign_chars : forall sg neg, sign_text sg neg -> Forall numeral_char sg.
Proof. intros sg neg H. destruct H; repeat constructor; right; cbn; tauto. Qed.

Lemma digits_chars : forall l, Forall (fun c => is_digit c = true) l -> Forall numeral_char l.
Proof. intros l. apply Forall_impl. intros c H. left. exact H. Qed.

Lemma exponent_chars : forall l e, exponent_text l e -> Forall numeral_char l.
Proof.
  intros l e H. destruct H as [|c sg neg ds z Hc Hs Hne Hv]; [constructor|]. constructor.
  - right. destruct Hc; subst c; cbn; tauto.
  - apply Forall_app. split; [eapply sign_chars; exact Hs|]. apply digits_chars. eapply digits_value_spec. exact Hv.
Qed.

Lemma decimal_chars : forall t v, decimal t v -> Forall numeral_char t /\ t <> [].
Proof.
  intros t v H. destruct H as [sg neg ip pt fp z ex e Hs Hne Hv Hp He].
  destruct (digits_value_spec _ _ Hv) as [Hd _]. apply Forall_app in Hd. destruct Hd as [Hi Hf]. split.
  - repeat (apply Forall_app; split).
    + eapply sign_chars; exact Hs.
    + apply digits_chars; exact Hi.
    + destruct Hp as [-> | [-> _]]; repeat constructor; right; cbn; tauto.
    + apply digits_chars; exact Hf.
    + eapply exponent_chars; exact He.
  - intros E. apply app_eq_nil in E. destruct E as [_ E]. apply app_eq_nil in E. destruct E as [Ei E].
    apply app_eq_nil in E. destruct E as [_ E]. apply app_eq_nil in E. destruct E as [Ef _]. subst. apply Hne. reflexivity.
Qed.

Lemma exponent_head : forall ex e c, exponent_text ex e -> hd_error ex = Some c -> c = "e"%char \/ c = "E"%char.
Proof. intros ex e c H E. destruct H; [discriminate|]. cbn in E. injection E as <-. assumption. Qed.

Lemma e_chars : forall c, c = "e"%char \/ c = "E"%char -> is_digit c = false /\ Ascii.eqb c dot_char = false.
Proof. intros c [-> | ->]; split; reflexivity. Qed.

(** The body of [to_float] on a text without blanks around. *)
Lemma to_float_decimal : forall t v a b, decimal t v -> Forall blank a -> Forall blank b ->
  exists q, to_float (a ++ t ++ b) = Ok q /\ q == v.
Proof.
  intros t v a b H Ha Hb. destruct (decimal_chars t v H) as [Hch Hne].
  assert (Hstrip : strip (a ++ t ++ b) = t).
  { apply strip_blank; [exact Ha|exact Hb|exact Hne| |].
    - intros c Hc. destruct t as [|c' t]; [discriminate|]. cbn in Hc. injection Hc as <-.
      inversion Hch; subst. apply numeral_char_spec. assumption.
    - intros c Hc. apply Forall_rev in Hch. destruct (rev t) as [|c' t']; [discriminate|].
      cbn in Hc. injection Hc as <-. inversion Hch; subst. apply numeral_char_spec. assumption. }
  unfold to_float. rewrite Hstrip. clear Hstrip Hch Hne.
  destruct H as [sg neg ip pt fp z ex e Hs Hne Hv Hp He].
  destruct (digits_value_spec _ _ Hv) as [Hd Hz]. pose proof Hd as Hd'. apply Forall_app in Hd'. destruct Hd' as [Hi Hf].
  pose proof (exponent_spec _ _ He) as Hex.
  assert (Hexh : forall c, hd_error ex = Some c -> is_digit c = false /\ Ascii.eqb c dot_char = false).
  { intros c Hc. apply e_chars. eapply exponent_head; eassumption. }
  rewrite sign_text_take with (neg := neg); [|exact Hs|].
  2:{ intros c Hc. destruct ip as [|ci ip].
      - cbn [app] in Hc. destruct Hp as [-> | [-> ->]]; [cbn in Hc; injection Hc as <-; split; reflexivity|].
        exfalso. apply Hne. reflexivity.
      - cbn in Hc. injection Hc as <-. inversion Hi; subst. split; apply digit_chars; assumption. }
  rewrite take_digits_app; [|exact Hi|].
  2:{ intros c Hc. destruct Hp as [-> | [-> ->]]; [cbn in Hc; injection Hc as <-; reflexivity|].
      cbn [app] in Hc. apply Hexh. exact Hc. }
  assert (Hpt : match pt ++ fp ++ ex with
                | c :: l' => if Ascii.eqb c dot_char then take_digits l' else ([], pt ++ fp ++ ex)
                | [] => ([], [])
                end = (fp, ex)).
  { destruct Hp as [-> | [-> ->]].
    - cbn [app]. change (Ascii.eqb "." dot_char) with true. cbv iota.
      apply take_digits_app; [exact Hf|]. intros c Hc. apply Hexh. exact Hc.
    - cbn [app]. destruct ex as [|c ex]; [reflexivity|].
      destruct (Hexh c eq_refl) as [_ ->]. reflexivity. }
  rewrite Hpt. destruct (ip ++ fp) as [|d0 ds] eqn:E; [congruence|].
  rewrite Hex. cbn [rbind]. eexists. split; [reflexivity|]. cbv zeta. rewrite Hz.
  destruct neg; cbn [signed]; rewrite scale10_power; [|reflexivity].
  rewrite inject_Z_opp. ring.
Qed.

Lemma to_float_inv : forall s q, to_float s = Ok q -> number s q.
Proof.
  intros s q H. unfold to_float in H. destruct (strip_inv s) as [a [b [Hs [Ha Hb]]]].
  remember (strip s) as u. exists a, u, b. split; [exact Hs|]. split; [exact Ha|]. split; [exact Hb|].
  clear s Hs Hequ a b Ha Hb.
  destruct (take_sign u) as [neg l1] eqn:E1. destruct (take_digits l1) as [ip l2] eqn:E2.
  destruct (take_sign_inv _ _ _ E1) as [sg [Hsg ->]]. destruct (take_digits_inv _ _ _ E2) as [-> Hi].
  assert (Hfp : exists pt fp l3, l2 = pt ++ fp ++ l3 /\ (pt = ["."%char] \/ (pt = [] /\ fp = [])) /\
     Forall (fun c => is_digit c = true) fp /\
     match l2 with c :: l' => if Ascii.eqb c dot_char then take_digits l' else ([], l2) | [] => ([], []) end = (fp, l3)).
  { destruct l2 as [|c l2]; [exists [], [], []; split; [reflexivity|]; split; [right; split; reflexivity|]; split; [constructor|reflexivity]|].
    destruct (Ascii.eqb c dot_char) eqn:E.
    - apply Ascii.eqb_eq in E. subst c. destruct (take_digits l2) as [fp l3] eqn:E3.
      destruct (take_digits_inv _ _ _ E3) as [-> Hf]. exists [dot_char], fp, l3.
      split; [reflexivity|]. split; [left; reflexivity|]. split; [exact Hf|reflexivity].
    - exists [], [], (c :: l2). split; [reflexivity|]. split; [right; split; reflexivity|]. split; [constructor|reflexivity]. }
  destruct Hfp as [pt [fp [l3 [-> [Hpt [Hf Hm]]]]]]. rewrite Hm in H.
  assert (Hds : Forall (fun c => is_digit c = true) (ip ++ fp)) by (apply Forall_app; split; assumption).
  pose proof (digits_value_ex _ Hds) as Hv.
  destruct (ip ++ fp) as [|d0 ds] eqn:E; [discriminate|].
  destruct (exponent l3) as [e|] eqn:Ee; [|discriminate]. cbn [rbind] in H. injection H as <-.
  pose proof (exponent_inv _ _ Ee) as He.
  eexists. split.
  - apply (D_intro sg neg ip pt fp (dec_val (d0 :: ds)) l3 e Hsg); [rewrite E; discriminate|rewrite E; exact Hv|exact Hpt|exact He].
  - destruct neg; cbn [signed]; rewrite scale10_power; [|reflexivity].
    rewrite inject_Z_opp. ring.
Qed.

Lemma to_float_iff : forall s v, number s v <-> exists q, to_float s = Ok q /\ q == v.
Proof.
  intros s v. split.
  - intros [a [u [b [-> [Ha [Hb [w [Hd Hw]]]]]]]]. destruct (to_float_decimal u w a b Hd Ha Hb) as [q [Hq Hv]].
    exists q. split; [exact Hq|]. rewrite Hv. exact Hw.
  - intros [q [Hq Hv]]. destruct (to_float_inv _ _ Hq) as [a [u [b [H1 [H2 [H3 [w [H4 H5]]]]]]]].
    exists a, u, b. split; [exact H1|]. split; [exact H2|]. split; [exact H3|]. exists w. split; [exact H4|].
    rewrite H5. exact Hv.
Qed.

Lemma to_float_none : forall s e, to_float s = Err e -> e = ValueError /\ forall v, ~ number s v.
Proof.
  intros s e H. split.
  - unfold to_float in H. destruct (take_sign (strip s)) as [neg l1]. destruct (take_digits l1) as [ip l2].
    destruct (match l2 with c :: l' => _ | [] => _ end) as [fp l3].
    destruct (ip ++ fp); [congruence|]. destruct (exponent l3) as [x|x] eqn:E; [discriminate|].
    cbn [rbind] in H. injection H as <-.
    destruct l3 as [|c l3]; [discriminate|]. cbn in E.
    destruct (Ascii.eqb c "e" || Ascii.eqb c "E"); [|congruence].
    destruct (take_sign l3) as [n2 l4]. destruct (take_digits l4) as [d r]. destruct d, r; congruence.
  - intros v Hv. apply to_float_iff in Hv. destruct Hv as [q [Hq _]]. congruence.
Qed.

(** ** Lines *)

Lemma ordinary_plain : forall c, ordinary c <-> plain c = true.
Proof.
  intros c. unfold ordinary, plain, is_nl. split.
  - intros H.
    assert (Hne : forall d, In d [ascii_of_nat 10; ascii_of_nat 13; ","%char; ascii_of_nat 34] -> Ascii.eqb c d = false).
    { intros d Hd. apply Ascii.eqb_neq. intros ->. exact (H Hd). }
    rewrite (Hne CR), (Hne LF), (Hne comma), (Hne quote) by (cbn; tauto). reflexivity.
  - intros H Hin. apply Bool.negb_true_iff in H. apply Bool.orb_false_iff in H. destruct H as [H H4].
    apply Bool.orb_false_iff in H. destruct H as [H H3]. apply Bool.orb_false_iff in H. destruct H as [H1 H2].
    apply Ascii.eqb_neq in H1, H2, H3, H4. cbn in Hin. destruct Hin as [E | [E | [E | [E | []]]]]; subst c;
      [apply H2|apply H1|apply H3|apply H4]; reflexivity.
Qed.

Lemma ordinary_fields : forall fs, Forall (Forall ordinary) fs -> Forall (Forall (fun c => plain c = true)) fs.
Proof. intros fs. apply Forall_impl. intros f. apply Forall_impl. intros c. apply ordinary_plain. Qed.

Lemma line_text_join : forall fs t, line_text fs t <-> t = join fs.
Proof.
  split.
  - intros H. induction H as [| |f fs t Hne H IH]; [reflexivity|reflexivity|]. subst t.
    destruct fs; [congruence|reflexivity].
  - intros ->. induction fs as [|f fs IH]; [constructor|]. destruct fs as [|f' fs]; [constructor|].
    change (join (f :: f' :: fs)) with (f ++ ","%char :: join (f' :: fs)). constructor; [discriminate|exact IH].
Qed.

Lemma number_nonempty : forall v, ~ number [] v.
Proof.
  intros v [a [u [b [E [_ [_ [w [Hd _]]]]]]]]. symmetry in E. apply app_eq_nil in E. destruct E as [_ E].
  apply app_eq_nil in E. destruct E as [E _]. destruct (decimal_chars _ _ Hd) as [_ H]. congruence.
Qed.

Lemma row_cells : forall fields row, Forall2 number fields row ->
  fields <> [[]] /\ exists cs, rmap field_cell fields = Ok cs /\ exists q, rmap cell_num cs = Ok q /\ Forall2 Qeq q row.
Proof.
  intros fields row H. split.
  - intros ->. inversion H as [|? ? ? ? Hn _]; subst. eapply number_nonempty; exact Hn.
  - induction H as [|f v fields row Hf H [cs [H1 [q [H2 H3]]]]]; [exists []; split; [reflexivity|]; exists []; split; [reflexivity|constructor]|].
    assert (Hne : f <> []) by (intros ->; eapply number_nonempty; exact Hf).
    apply to_float_iff in Hf. destruct Hf as [q0 [Hq0 Hv]].
    exists (CNum q0 :: cs). split.
    + cbn [rmap]. replace (field_cell f) with (Ok (CNum q0)).
      * cbn [rbind]. rewrite H1. reflexivity.
      * destruct f; [congruence|]. cbn [field_cell]. rewrite Hq0. reflexivity.
    + exists (q0 :: q). cbn [rmap cell_num rbind]. rewrite H2. split; [reflexivity|]. constructor; assumption.
Qed.

Lemma file_read : forall rows text, file_text rows text ->
  exists cells, read_csv text = Ok cells /\ exists qs, rmap (rmap cell_num) cells = Ok qs /\ same_rows qs rows.
Proof.
  intros rows text H. unfold read_csv.
  induction H as [|row fields line term rows text Hn Ho Hl [j Ht] H IH|row fields line j Hne Hn Ho Hl].
  - exists []. split; [reflexivity|]. exists []. split; [reflexivity|constructor].
  - destruct IH as [cells [H1 [qs [H2 H3]]]]. destruct (row_cells _ _ Hn) as [Hf [cs [H4 [q [H5 H6]]]]].
    apply line_text_join in Hl. subst line. exists (cs :: cells). split.
    + pose proof (read_rows_app [(fields, term)] text) as Hr. unfold text_of in Hr; cbn [map List.concat fst snd] in Hr.
      rewrite app_nil_r, <- app_assoc in Hr. rewrite Hr.
      * cbn [rmap rbind]. rewrite H4. cbn [rbind]. rewrite H1. reflexivity.
      * constructor; [|constructor]. split; [exact Hf|]. split; [apply ordinary_fields; exact Ho|]. exists j. exact Ht.
    + exists (q :: qs). cbn [rmap]. rewrite H5. cbn [rbind]. rewrite H2. split; [reflexivity|]. constructor; assumption.
  - destruct (row_cells _ _ Hn) as [Hf [cs [H4 [q [H5 H6]]]]].
    apply line_text_join in Hl. subst line. exists [cs]. split.
    + pose proof (read_csv_unterminated [] fields j) as Hr. unfold read_csv, text_of in Hr. cbn [map List.concat app] in Hr.
      change (ascii_of_nat 13) with CR. rewrite Hr; [|constructor| |exact Hf|apply ordinary_fields; exact Ho].
      * cbn [rmap]. rewrite H4. reflexivity.
      * destruct Hne as [Hne | Hj]; [left|right; exact Hj]. intros ->. inversion Hn; subst. congruence.
    + exists [q]. cbn [rmap]. rewrite H5. split; [reflexivity|]. constructor; [exact H6|constructor].
Qed.

Lemma file_load : forall rows text cont eps, file_text rows text ->
  load_text text cont eps = parse rows cont eps.
Proof.
  intros rows text cont eps H. destruct (file_read _ _ H) as [cells [H1 [qs [H2 H3]]]].
  unfold load_text. rewrite H1. cbn [rbind]. rewrite H2. cbn [rbind]. apply parse_same. exact H3.
Qed.

(** ** Only these texts *)

(** A state whose row will contain a string. *)
Definition doomed (r : reader) : Prop :=
  (exists s, In (CStr s) (rd_row r)) \/
  (rd_num r = false /\ match rd_state r with InField | InQuoted | QuoteInQuoted => True | _ => False end).

Lemma save_doomed : forall st r r', save st r = Ok r' -> doomed r -> exists s, In (CStr s) (rd_row r').
Proof.
  intros st r r' H [[s Hs] | [Hn _]]; unfold save in H.
  - exists s. destruct (rd_num r).
    + destruct (to_float _); [|discriminate]. injection H as <-. right. exact Hs.
    + injection H as <-. right. exact Hs.
  - rewrite Hn in H. injection H as <-. exists (rev (rd_field r)). left. reflexivity.
Qed.

Lemma save_string : forall st r r', save st r = Ok r' -> rd_num r = false -> exists s, In (CStr s) (rd_row r').
Proof. intros st r r' H Hn. unfold save in H. rewrite Hn in H. injection H as <-. eexists. left. reflexivity. Qed.

Lemma doomed_row : forall r, (exists s, In (CStr s) (rd_row r)) -> doomed r.
Proof. intros r H. left. exact H. Qed.

Lemma start_field_doomed : forall r c r', start_field r c = Ok r' -> (exists s, In (CStr s) (rd_row r)) -> doomed r'.
Proof.
  intros r c r' H Hs. unfold start_field in H. destruct (is_nl c).
  - left. eapply save_doomed; [exact H|left; exact Hs].
  - destruct (Ascii.eqb c quote); [injection H as <-; left; exact Hs|].
    destruct (Ascii.eqb c comma); [left; eapply save_doomed; [exact H|left; exact Hs]|].
    injection H as <-. left. exact Hs.
Qed.

Lemma step_doomed : forall r c r', step r c = Ok r' -> doomed r -> doomed r'.
Proof.
  intros [st f nm row] c r' H D. unfold doomed in D. cbn [rd_row rd_num rd_state] in D. unfold step in H. cbn [rd_state] in H.
  destruct st.
  - destruct D as [D | [_ []]]. destruct (is_nl c); [injection H as <-; left; exact D|].
    eapply start_field_doomed; [exact H|exact D].
  - destruct D as [D | [_ []]]. eapply start_field_doomed; [exact H|exact D].
  - destruct (is_nl c); [left; eapply save_doomed; [exact H|exact D]|].
    destruct (Ascii.eqb c comma); [left; eapply save_doomed; [exact H|exact D]|].
    injection H as <-. unfold doomed, push. cbn. exact D.
  - destruct (Ascii.eqb c quote); injection H as <-; unfold doomed, push, goto; cbn; exact D.
  - destruct (Ascii.eqb c quote); [injection H as <-; unfold doomed, push, goto; cbn; exact D|].
    destruct (Ascii.eqb c comma); [left; eapply save_doomed; [exact H|exact D]|].
    destruct (is_nl c); [left; eapply save_doomed; [exact H|exact D]|].
    injection H as <-. unfold doomed, push. cbn. exact D.
  - destruct D as [D | [_ []]]. destruct (is_nl c); [|discriminate]. injection H as <-. left. exact D.
Qed.

Lemma feed_doomed : forall l r r', feed r l = Ok r' -> doomed r -> doomed r'.
Proof.
  induction l as [|c l IH]; intros r r' H D; cbn [feed] in H.
  - destruct r as [st f nm row]. unfold eol in H. cbn [rd_state] in H.
    destruct st; try (injection H as <-; unfold doomed, goto in *; cbn in *; exact D);
      try (left; eapply save_doomed; [exact H|exact D]).
  - destruct (step r c) as [r1|] eqn:E; [|discriminate]. cbn [rbind] in H.
    eapply IH; [exact H|]. eapply step_doomed; eassumption.
Qed.

Lemma strings_fail : forall row s, In (CStr s) row -> forall q, rmap cell_num (rev row) <> Ok q.
Proof.
  intros row s H. apply in_rev in H. induction (rev row) as [|c l IH]; intros q E; [destruct H|].
  cbn [rmap] in E. destruct H as [-> | H]; [discriminate|].
  destruct (cell_num c); [|discriminate]. cbn [rbind] in E.
  destruct (rmap cell_num l) as [q'|] eqn:E'; [|discriminate]. eapply IH; [exact H|reflexivity].
Qed.

Lemma feed_end : forall l r r', feed r l = Ok r' -> rd_state r' = StartRecord \/ rd_state r' = InQuoted.
Proof.
  induction l as [|c l IH]; intros r r' H; cbn [feed] in H.
  - destruct r as [st f nm row]. unfold eol in H. cbn [rd_state] in H.
    destruct st; unfold save in H; cbn [rd_num rd_row rd_field] in H;
      try (injection H as <-; cbn; tauto);
      (destruct nm; [destruct (to_float (rev f)); [|discriminate]; cbn [rbind] in H|]; injection H as <-; left; reflexivity).
  - destruct (step r c) as [r1|]; [|discriminate]. eapply IH. exact H.
Qed.

(** A quoted field gives a string. *)
Lemma quoted_fails : forall ls r cells qs, doomed r -> rd_state r = InQuoted ->
  read_rows ls r = Ok cells -> rmap (rmap cell_num) cells <> Ok qs.
Proof.
  induction ls as [|l ls IH]; intros r cells qs D Hs H.
  - cbn [read_rows] in H. rewrite Hs in H.
    destruct (save StartRecord r) as [r'|] eqn:E; [|discriminate]. cbn [rbind] in H. injection H as <-.
    destruct (save_doomed _ _ _ E D) as [s Hin]. intros Hq. cbn [rmap] in Hq.
    destruct (rmap cell_num (rev (rd_row r'))) as [q|] eqn:E'; [|discriminate].
    eapply strings_fail; eassumption.
  - cbn [read_rows] in H. destruct (feed r l) as [r'|] eqn:E; [|discriminate]. cbn [rbind] in H.
    pose proof (feed_doomed _ _ _ E D) as D'. destruct (feed_end _ _ _ E) as [Hst | Hst].
    + unfold at_start in H. rewrite Hst in H. destruct (read_rows ls reset) as [rest|]; [|discriminate].
      cbn [rbind] in H. injection H as <-. intros Hq. cbn [rmap] in Hq.
      destruct (rmap cell_num (rev (rd_row r'))) as [q|] eqn:E'; [|discriminate].
      destruct D' as [[s Hin] | [_ Hf]]; [|rewrite Hst in Hf; exact Hf]. eapply strings_fail; eassumption.
    + unfold at_start in H. rewrite Hst in H. eapply IH; eassumption.
Qed.

(** No end of line but at the end. *)
Fixpoint lf_last (l : list ascii) : Prop :=
  match l with [] => True | c :: l' => (c = LF -> l' = []) /\ lf_last l' end.

Lemma nl_cases : forall c, is_nl c = true -> c = CR \/ c = LF.
Proof.
  intros c H. unfold is_nl in H. apply Bool.orb_true_iff in H.
  destruct H as [H | H]; apply Ascii.eqb_eq in H; [left|right]; exact H.
Qed.

Lemma eat_inv : forall l row r', lf_last l -> feed (mkRd EatCrnl [] false row) l = Ok r' ->
  ending l /\ r' = mkRd StartRecord [] false row.
Proof.
  induction l as [|c l IH]; intros row r' Hl H; cbn [feed] in H.
  - injection H as <-. split; [right; exists 0; reflexivity|reflexivity].
  - unfold step in H. cbn [rd_state] in H. destruct (is_nl c) eqn:E; [|discriminate]. cbn [rbind] in H.
    destruct Hl as [Hc Hl]. destruct (IH _ _ Hl H) as [H1 H2]. split; [|exact H2].
    destruct (nl_cases c E) as [-> | ->].
    + destruct H1 as [[j ->] | [j ->]]; [left|right]; exists (S j); reflexivity.
    + rewrite (Hc eq_refl). left. exists 0. reflexivity.
Qed.

Lemma ending_nl : forall c l, is_nl c = true -> (c = LF -> l = []) -> ending l -> ending (c :: l).
Proof.
  intros c l E Hc H. destruct (nl_cases c E) as [-> | ->].
  - destruct H as [[j ->] | [j ->]]; [left|right]; exists (S j); reflexivity.
  - rewrite (Hc eq_refl). left. exists 0. reflexivity.
Qed.

(** Fields read as numbers. *)
Definition good_field (f : list ascii) (c : cell) : Prop :=
  f <> [] /\ Forall (fun c => is_nl c = false /\ Ascii.eqb c comma = false) f /\
  exists q, to_float f = Ok q /\ c = CNum q.

Definition clean (r : reader) : Prop := ~ doomed r.

(** What is left of a line, from the start of a field or inside one. *)
Lemma line_inv : forall l, lf_last l ->
  (forall row r', feed (mkRd StartField [] false row) l = Ok r' -> clean r' ->
     exists fs e cells, fs <> [] /\ l = join fs ++ e /\ ending e /\ Forall2 good_field fs cells /\
       rd_row r' = rev cells ++ row) /\
  (forall acc row r', feed (mkRd InField acc true row) l = Ok r' -> clean r' ->
     exists g fs e cells q, l = join (g :: fs) ++ e /\ ending e /\
       Forall (fun c => is_nl c = false /\ Ascii.eqb c comma = false) g /\
       to_float (rev acc ++ g) = Ok q /\ Forall2 good_field fs cells /\
       rd_row r' = rev cells ++ CNum q :: row).
Proof.
  induction l as [|c l IH]; intros Hl.
  - split.
    + intros row r' H D. cbn [feed] in H. injection H as <-. exfalso. apply D. left. exists []. left. reflexivity.
    + intros acc row r' H D. cbn [feed eol rd_state] in H. unfold save in H. cbn [rd_num rd_field rd_row] in H.
      destruct (to_float (rev acc)) as [q|] eqn:E; [|discriminate]. cbn [rbind] in H. injection H as <-.
      exists [], [], [], [], q. split; [reflexivity|]. split; [right; exists 0; reflexivity|]. split; [constructor|].
      split; [rewrite app_nil_r; exact E|]. split; [constructor|reflexivity].
  - destruct Hl as [Hc Hl]. destruct (IH Hl) as [IH1 IH2]. clear IH. split.
    + intros row r' H D. cbn [feed] in H. unfold step in H. cbn [rd_state] in H. unfold start_field in H.
      destruct (is_nl c) eqn:E1.
      { cbn [save rd_num rd_field rd_row rbind] in H. exfalso. apply D.
        eapply feed_doomed; [exact H|]. left. exists []. left. reflexivity. }
      destruct (Ascii.eqb c quote) eqn:E2.
      { cbn [rbind] in H. exfalso. apply D. eapply feed_doomed; [exact H|]. right. split; [reflexivity|exact I]. }
      destruct (Ascii.eqb c comma) eqn:E3.
      { cbn [save rd_num rd_field rd_row rbind] in H. exfalso. apply D.
        eapply feed_doomed; [exact H|]. left. exists []. left. reflexivity. }
      cbn [rbind] in H. unfold push in H. cbn [rd_field rd_row rd_num orb] in H.
      destruct (IH2 _ _ _ H D) as [g [fs [e [cells [q [H1 [H2 [H3 [H4 [H5 H6]]]]]]]]]].
      exists ((c :: g) :: fs), e, (CNum q :: cells). split; [discriminate|]. split.
      { rewrite H1. destruct fs; reflexivity. }
      split; [exact H2|]. split.
      { constructor; [|exact H5]. split; [discriminate|]. split; [constructor; [split; assumption|exact H3]|].
        exists q. split; [exact H4|reflexivity]. }
      rewrite H6. cbn [rev]. rewrite <- app_assoc. reflexivity.
    + intros acc row r' H D. cbn [feed] in H. unfold step in H. cbn [rd_state] in H.
      destruct (is_nl c) eqn:E1; [|destruct (Ascii.eqb c comma) eqn:E3].
      * unfold save in H. cbn [rd_num rd_field rd_row] in H.
        destruct (to_float (rev acc)) as [q|] eqn:E; [|discriminate]. cbn [rbind] in H.
        destruct (eat_inv _ _ _ Hl H) as [He ->].
        exists [], [], (c :: l), [], q. split; [reflexivity|]. split; [apply ending_nl; assumption|]. split; [constructor|].
        split; [rewrite app_nil_r; exact E|]. split; [constructor|reflexivity].
      * unfold save in H. cbn [rd_num rd_field rd_row] in H.
        destruct (to_float (rev acc)) as [q|] eqn:E; [|discriminate]. cbn [rbind] in H.
        destruct (IH1 _ _ H D) as [fs [e [cells [H1 [H2 [H3 [H4 H5]]]]]]].
        apply Ascii.eqb_eq in E3. subst c.
        exists [], fs, e, cells, q. split; [rewrite H2; destruct fs; [congruence|reflexivity]|].
        split; [exact H3|]. split; [constructor|]. split; [rewrite app_nil_r; exact E|]. split; assumption.
      * cbn [rbind] in H. unfold push in H. cbn [rd_field rd_row rd_num orb] in H.
        destruct (IH2 _ _ _ H D) as [g [fs [e [cells [q [H1 [H2 [H3 [H4 [H5 H6]]]]]]]]]].
        exists (c :: g), fs, e, cells, q. split; [rewrite H1; destruct fs; reflexivity|]. split; [exact H2|].
        split; [constructor; [split; assumption|exact H3]|]. split; [|split; assumption].
        cbn [rev] in H4. rewrite <- app_assoc in H4. exact H4.
Qed.

(** A whole line. *)
Lemma record_inv : forall l r', lf_last l -> l <> [] -> feed reset l = Ok r' -> clean r' ->
  exists fs e cells, l = join fs ++ e /\ ending e /\ Forall2 good_field fs cells /\ rd_row r' = rev cells /\
    (fs <> [] \/ e <> []).
Proof.
  intros [|c l] r' Hl Hne H D; [congruence|].
  destruct (is_nl c) eqn:E.
  - cbn [feed] in H. unfold step, reset in H. cbn [rd_state] in H. rewrite E in H. cbn [rbind] in H.
    destruct Hl as [Hc Hl]. destruct (eat_inv _ _ _ Hl H) as [He ->].
    exists [], (c :: l), []. split; [reflexivity|]. split; [apply ending_nl; assumption|]. split; [constructor|].
    split; [reflexivity|]. right. discriminate.
  - rewrite feed_start in H by exact E. destruct (line_inv (c :: l) Hl) as [H1 _].
    destruct (H1 _ _ H D) as [fs [e [cells [A1 [A2 [A3 [A4 A5]]]]]]].
    exists fs, e, cells. split; [exact A2|]. split; [exact A3|]. split; [exact A4|].
    split; [rewrite A5, app_nil_r; reflexivity|]. left. exact A1.
Qed.

(** A number contains no quote. *)
Lemma number_no_quote : forall t v, number t v -> Forall (fun c => Ascii.eqb c quote = false) t.
Proof.
  intros t v [a [u [b [-> [Ha [Hb [w [Hd _]]]]]]]].
  assert (Hbl : forall l, Forall blank l -> Forall (fun c => Ascii.eqb c quote = false) l).
  { intros l. apply Forall_impl. intros c Hc. apply Ascii.eqb_neq. intros ->. vm_compute in Hc.
    repeat (destruct Hc as [Hc | Hc]; [discriminate|]). exact Hc. }
  apply Forall_app. split; [apply Hbl; exact Ha|]. apply Forall_app. split; [|apply Hbl; exact Hb].
  destruct (decimal_chars _ _ Hd) as [Hc _]. eapply Forall_impl; [|exact Hc]. intros c H.
  destruct (numeral_char_spec c H) as [_ Hp]. apply plain_spec in Hp. tauto.
Qed.

Lemma good_numbers : forall fs cells, Forall2 good_field fs cells ->
  exists row, rmap cell_num cells = Ok row /\ Forall2 number fs row /\ Forall (Forall ordinary) fs.
Proof.
  intros fs cells H. induction H as [|f c fs cells [Hne [Hch [q [Hq ->]]]] H [row [H1 [H2 H3]]]].
  - exists []. split; [reflexivity|]. split; constructor.
  - exists (q :: row). cbn [rmap cell_num rbind]. rewrite H1. split; [reflexivity|].
    pose proof (to_float_inv _ _ Hq) as Hn. split; [constructor; assumption|]. constructor; [|exact H3].
    pose proof (number_no_quote _ _ Hn) as Hnq. rewrite Forall_forall in Hch, Hnq |- *. intros c Hc.
    apply ordinary_plain. unfold plain. destruct (Hch c Hc) as [A B]. rewrite A, B, (Hnq c Hc). reflexivity.
Qed.

(** Structure of the lines of a text. *)
Lemma lines_of_cons : forall t cur, Forall (fun c => Ascii.eqb c LF = false) cur ->
  (t = [] /\ cur = [] /\ lines_of cur t = []) \/
  exists l t', lines_of cur t = l :: lines_of [] t' /\ rev cur ++ t = l ++ t' /\ lf_last l /\ l <> [] /\
    (t' = [] \/ exists p, l = p ++ [LF]).
Proof.
  assert (Hlf : forall p, Forall (fun c => Ascii.eqb c LF = false) p -> forall t, (t = [] \/ t = [LF]) -> lf_last (p ++ t)).
  { intros p Hp t Ht. induction Hp as [|c p Hc Hp IH].
    - destruct Ht as [-> | ->]; cbn; tauto.
    - cbn. split; [|exact IH]. intros ->. discriminate Hc. }
  induction t as [|c t IH]; intros cur Hcur.
  - destruct cur as [|c0 cur]; [left; repeat split|right].
    exists (rev (c0 :: cur)), []. cbn [lines_of]. split; [reflexivity|]. split; [reflexivity|].
    split; [rewrite <- (app_nil_r (rev (c0 :: cur))); apply Hlf; [apply Forall_rev; exact Hcur|left; reflexivity]|].
    split; [|left; reflexivity]. intros E. apply (f_equal (@length ascii)) in E. rewrite rev_length in E. discriminate.
  - right. cbn [lines_of]. destruct (Ascii.eqb c LF) eqn:E.
    + apply Ascii.eqb_eq in E. subst c. exists (rev (LF :: cur)), t. split; [reflexivity|].
      cbn [rev]. split; [rewrite <- app_assoc; reflexivity|].
      split; [apply Hlf; [apply Forall_rev; exact Hcur|right; reflexivity]|].
      split; [destruct (rev cur); discriminate|]. right. eexists. reflexivity.
    + destruct (IH (c :: cur)) as [[_ [H _]] | [l [t' [H1 [H2 [H3 [H4 H5]]]]]]]; [constructor; assumption|discriminate|].
      exists l, t'. split; [exact H1|]. split; [|tauto]. rewrite <- H2. cbn [rev]. rewrite <- app_assoc. reflexivity.
Qed.

Lemma read_inv : forall n text cells qs, length text <= n -> read_csv text = Ok cells ->
  rmap (rmap cell_num) cells = Ok qs -> file_text qs text.
Proof.
  unfold read_csv. induction n as [|n IH]; intros text cells qs Hn Hr Hq.
  - destruct text; [|cbn in Hn; lia]. cbn in Hr. injection Hr as <-. cbn in Hq. injection Hq as <-. constructor.
  - destruct (lines_of_cons text []) as [[-> [_ _]] | [l [t' [H1 [H2 [H3 [H4 H5]]]]]]]; [constructor| |].
    { cbn in Hr. injection Hr as <-. cbn in Hq. injection Hq as <-. constructor. }
    rewrite H1 in Hr. cbn [rev app] in H2. subst text. cbn [read_rows] in Hr.
    destruct (feed reset l) as [r'|] eqn:E; [|discriminate]. cbn [rbind] in Hr.
    destruct (feed_end _ _ _ E) as [Hst | Hst].
    + unfold at_start in Hr. rewrite Hst in Hr. destruct (read_rows (lines_of [] t') reset) as [rest|] eqn:Er; [|discriminate].
      cbn [rbind] in Hr. injection Hr as <-. cbn [rmap] in Hq.
      destruct (rmap cell_num (rev (rd_row r'))) as [q|] eqn:Eq; [|discriminate]. cbn [rbind] in Hq.
      destruct (rmap (rmap cell_num) rest) as [qs'|] eqn:Eqs; [|discriminate]. cbn [rbind] in Hq. injection Hq as <-.
      assert (D : clean r').
      { intros [[s Hin] | [_ Hf]]; [|rewrite Hst in Hf; exact Hf]. eapply strings_fail; eassumption. }
      destruct (record_inv l r' H3 H4 E D) as [fs [e [cs [A1 [A2 [A3 [A4 A5]]]]]]].
      rewrite A4, rev_involutive in Eq. destruct (good_numbers _ _ A3) as [row [B1 [B2 B3]]].
      rewrite B1 in Eq. injection Eq as <-.
      assert (Hrest : file_text qs' t').
      { eapply IH; [|exact Er|exact Eqs]. rewrite app_length in Hn. destruct l; [congruence|]. cbn in Hn. lia. }
      assert (Hl : line_text fs (join fs)) by (apply line_text_join; reflexivity).
      destruct A2 as [[j ->] | [j ->]].
      * rewrite A1, <- app_assoc. apply FT_row with (fields := fs); try assumption. exists j. reflexivity.
      * destruct H5 as [-> | [p Hp]].
        -- cbn in Er. injection Er as <-. cbn in Eqs. injection Eqs as <-. rewrite app_nil_r, A1.
           apply FT_last with (fields := fs); try assumption.
           destruct A5 as [A5 | A5]; [left|right; destruct j; [contradiction A5; reflexivity|lia]].
           intros ->. inversion B2; subst. congruence.
        -- (* the line ends with \n *)
           exfalso. rewrite A1 in Hp.
           assert (Hno : Forall (fun c => Ascii.eqb c LF = false) (join fs ++ repeat CR j)).
           { apply Forall_app. split; [apply join_no_lf; apply ordinary_fields; exact B3|].
             apply Forall_forall; intros c Hc; apply repeat_spec in Hc; subst c; reflexivity. }
           rewrite Hp in Hno. apply Forall_app in Hno. destruct Hno as [_ Hno]. inversion Hno; subst. discriminate.
    + unfold at_start in Hr. rewrite Hst in Hr. exfalso. eapply quoted_fails; [|exact Hst|exact Hr|exact Hq].
      assert (Hd : doomed r' \/ clean r').
      { destruct (Bool.bool_dec (rd_num r') false) as [Hb | Hb].
        - left. right. split; [exact Hb|]. rewrite Hst. exact I.
        - destruct (existsb (fun c => match c with CStr _ => true | _ => false end) (rd_row r')) eqn:Ex.
          + left. left. apply existsb_exists in Ex. destruct Ex as [[|s] [Hin Hs]]; [discriminate|]. exists s. exact Hin.
          + right. intros [[s Hin] | [Hb' _]]; [|congruence].
            assert (existsb (fun c => match c with CStr _ => true | _ => false end) (rd_row r') = true)
              by (apply existsb_exists; exists (CStr s); split; [exact Hin|reflexivity]). congruence. }
      destruct Hd as [Hd | Hd]; [exact Hd|]. exfalso.
      (* a clean line ends at the start of a record *)
      destruct (record_inv l r' H3 H4 E Hd) as [fs [e [cs [A1 [A2 [A3 [A4 A5]]]]]]].
      destruct (good_numbers _ _ A3) as [row [_ [B2 B3]]].
      assert (Hf : fs <> [[]]) by (intros ->; inversion A3 as [|? ? ? ? [G _] _]; congruence).
      rewrite A1 in E. rewrite feed_row in E; [|exact Hf|apply ordinary_fields; exact B3|exact A2|tauto].
      destruct (rmap field_cell fs); [|discriminate]. cbn [rbind] in E. injection E as <-. discriminate Hst.
Qed.

Lemma load_iff : forall text cont eps I, load_text text cont eps = Ok I <->
  exists rows, file_text rows text /\ parse rows cont eps = Ok I.
Proof.
  intros text cont eps I. split.
  - intros H. unfold load_text in H. destruct (read_csv text) as [cells|] eqn:E; [|discriminate]. cbn [rbind] in H.
    destruct (rmap (rmap cell_num) cells) as [rows|] eqn:E2; [|discriminate]. cbn [rbind] in H.
    exists rows. split; [|exact H]. eapply read_inv; [apply Nat.le_refl|exact E|exact E2].
  - intros [rows [H1 H2]]. rewrite (file_load _ _ _ _ H1). exact H2.
Qed.

Lemma load_error : forall text cont eps, (forall rows, ~ file_text rows text) ->
  exists e, load_text text cont eps = Err e.
Proof.
  intros text cont eps H. destruct (load_text text cont eps) as [I|e] eqn:E; [|exists e; reflexivity].
  apply load_iff in E. destruct E as [rows [H1 _]]. exfalso. exact (H rows H1).
Qed.

(** ** The generator *)

Lemma dec_number : forall x v, dval x == v -> number (show_dec x) v.
Proof. intros x v H. apply to_float_iff. destruct (show_dec_float x) as [q [H1 H2]]. exists q. split; [exact H1|]. rewrite H2. exact H. Qed.

Lemma gen_file_text : forall term n m c samples b, terminator term ->
  file_text (gen_rows n m (map dval c) samples (map dval b)) (show_rows term (gen_fields n m c samples b)).
Proof.
  intros term n m c samples b Ht.
  assert (Hrows : forall pairs : list (list (list ascii * Q)),
    Forall (Forall (fun fv => number (fst fv) (snd fv) /\ Forall ordinary (fst fv))) pairs ->
    file_text (map (map snd) pairs) (show_rows term (map (map fst) pairs))).
  { induction pairs as [|r pairs IH]; intros H; [constructor|]. inversion H as [|? ? Hr Hp]; subst.
    unfold show_rows. cbn [map List.concat]. unfold show_row at 1. rewrite <- app_assoc.
    apply FT_row with (fields := map fst r).
    - clear -Hr. induction Hr as [|[f v] l [Hn _] Hr IH]; [constructor|]. constructor; assumption.
    - apply Forall_map. eapply Forall_impl; [|exact Hr]. intros fv [_ Ho]. exact Ho.
    - apply line_text_join. reflexivity.
    - exact Ht.
    - apply IH. exact Hp. }
  rewrite <- gen_pairs_values, <- gen_pairs_fields. apply Hrows.
  assert (Hord : forall f, Forall (fun c => plain c = true) f -> Forall ordinary f).
  { intros f. apply Forall_impl. intros x. apply ordinary_plain. }
  assert (Hdec : forall x v, dval x == v -> number (show_dec x) v /\ Forall ordinary (show_dec x)).
  { intros x v Hv. split; [apply dec_number; exact Hv|]. apply Hord. apply show_dec_plain. }
  assert (Hcol : forall l : list dec, Forall (fun fv => number (fst fv) (snd fv) /\ Forall ordinary (fst fv))
       (map (fun x => (show_dec x, dval x)) l)).
  { intros l. apply Forall_map. apply Forall_forall. intros x _. cbn [fst snd]. apply Hdec. reflexivity. }
  unfold gen_pairs. constructor; [|constructor; [apply Hcol|]].
  - apply Forall_map. apply Forall_forall. intros v _. cbn [fst snd]. split.
    + apply to_float_iff. destruct (show_nat_float (Z.of_nat v)) as [q [H1 H2]]; [lia|]. exists q. split; [exact H1|].
      rewrite H2. apply Qn_inject.
    + apply Hord. apply show_nat_plain. lia.
  - apply Forall_app. split; [|constructor; [apply Hcol|constructor]].
    apply Forall_forall. intros r Hr. apply in_concat in Hr. destruct Hr as [M [HM Hr]].
    apply in_map_iff in HM. destruct HM as [M' [<- _]]. apply in_map_iff in Hr. destruct Hr as [r' [<- _]].
    apply Forall_map. apply Forall_forall. intros q _. cbn [fst snd]. apply Hdec. apply dval_entry.
Qed.

(** ** A blank line at the end *)

Lemma file_text_blank : forall rows text, file_text rows text -> forall l, (exists p, text = p ++ [LF]) \/ text = [] ->
  line_end l -> file_text (rows ++ [[]]) (text ++ l).
Proof.
  intros rows text H. induction H as [|row fields line term rows text Hn Ho Hl Ht H IH|row fields line j Hne Hn Ho Hl];
    intros l Hp He.
  - cbn [app]. rewrite <- (app_nil_r l). change l with ([] ++ l) at 1. rewrite <- app_assoc.
    apply FT_row with (fields := []); try constructor. exact He.
  - rewrite <- !app_assoc. cbn [app]. apply FT_row with (fields := fields); try assumption.
    apply IH; [|exact He]. destruct text as [|c text]; [right; reflexivity|left].
    destruct Hp as [[p Hp] | Hp].
    + destruct (@exists_last _ (c :: text)) as [p' [x Hx]]; [discriminate|]. exists p'. rewrite Hx.
      rewrite Hx in Hp. rewrite !app_assoc in Hp. apply app_inj_tail in Hp. destruct Hp as [_ ->]. reflexivity.
    + apply app_eq_nil in Hp. destruct Hp as [_ Hp]. apply app_eq_nil in Hp. destruct Hp as [_ Hp]. discriminate.
  - exfalso. destruct Hp as [[p Hp] | Hp].
    + apply line_text_join in Hl. subst line.
      assert (Hno : Forall (fun c => Ascii.eqb c LF = false) (join fields ++ repeat CR j)).
      { apply Forall_app. split; [apply join_no_lf; apply ordinary_fields; exact Ho|].
        apply Forall_forall; intros c Hc; apply repeat_spec in Hc; subst c; reflexivity. }
      change (ascii_of_nat 13) with CR in Hp. rewrite Hp in Hno. apply Forall_app in Hno. destruct Hno as [_ Hno].
      inversion Hno; subst. discriminate.
    + apply app_eq_nil in Hp. destruct Hp as [Hp1 Hp2]. apply line_text_join in Hl. subst line.
      destruct Hne as [Hne | Hj]; [|destruct j; [lia|discriminate]].
      destruct fields as [|f fs]; [inversion Hn; subst; congruence|].
      destruct (row_cells _ _ Hn) as [Hf _].
      destruct (join_head (f :: fs)) as [c [t [Ej _]]]; [apply ordinary_fields; exact Ho|discriminate|exact Hf|].
      rewrite Ej in Hp1. discriminate.
Qed.

Lemma blank_line : forall rows text l cont eps I, file_text rows text -> (exists p, text = p ++ [LF]) ->
  line_end l -> load_text (text ++ l) cont eps = Ok I -> i_m I = 0.
Proof.
  intros rows text l cont eps I H Hp He HI.
  pose proof (file_text_blank _ _ H l (or_introl Hp) He) as H'.
  rewrite (file_load _ _ _ _ H') in HI. apply parse_last in HI. rewrite last_last in HI. cbn in HI. lia.
Qed.

Lemma file_text_unique : forall rows rows' text, file_text rows text -> file_text rows' text ->
  Forall2 (Forall2 Qeq) rows rows'.
Proof.
  intros rows rows' text H H'. destruct (file_read _ _ H) as [cells [H1 [qs [H2 H3]]]].
  destruct (file_read _ _ H') as [cells' [H1' [qs' [H2' H3']]]].
  rewrite H1 in H1'. injection H1' as <-. rewrite H2 in H2'. injection H2' as <-.
  clear -H3 H3'. revert rows' H3'. induction H3 as [|q r qs rows Hq H3 IH]; intros rows' H3'; inversion H3' as [|? r' ? rs' Hq' Hr']; subst;
    [constructor|]. constructor; [|apply IH; exact Hr'].
  clear -Hq Hq'. revert r' Hq'. induction Hq as [|a b q r Ha Hq IH]; intros r' Hq'; inversion Hq' as [|? b' ? r'' Hb Hr]; subst;
    [constructor|]. constructor; [rewrite <- Ha; exact Hb|]. apply IH. exact Hr.
Qed.

Lemma gen_file : forall n m c samples b,
  file_text (gen_rows n m (map dval c) samples (map dval b)) (gen_text n m c samples b).
Proof. intros. apply gen_file_text. exists 1. reflexivity. Qed.
