(** Facts about the text of instance files (Text.v). *)
From Verif Require Import Base Spec BaseFacts Instance Text.
From Coq Require Import Ascii Lia ZArith QArith Lqa.
Local Open Scope nat_scope.

(** ** Reading rows of unquoted fields *)

Definition plain (c : ascii) : bool := negb (is_nl c || Ascii.eqb c comma || Ascii.eqb c quote).

Definition field_cell (f : list ascii) : res cell :=
  match f with
  | [] => Ok (CStr [])
  | _ => do q <- to_float f ;; Ok (CNum q)
  end.

Lemma plain_spec : forall c, plain c = true -> is_nl c = false /\ Ascii.eqb c comma = false /\ Ascii.eqb c quote = false.
Proof.
  intros c H. unfold plain in H. apply Bool.negb_true_iff in H.
  apply Bool.orb_false_iff in H. destruct H as [H H3]. apply Bool.orb_false_iff in H. tauto.
Qed.

Lemma feed_in_field : forall f acc row rest,
  Forall (fun c => plain c = true) f ->
  feed (mkRd InField acc true row) (f ++ rest) = feed (mkRd InField (rev f ++ acc) true row) rest.
Proof.
  induction f as [|c f IH]; intros acc row rest Hp; [reflexivity|].
  inversion Hp as [|? ? Hc Hf]; subst. destruct (plain_spec c Hc) as [H1 [H2 H3]].
  cbn [app feed]. unfold step at 1. cbn [rd_state]. rewrite H1, H2.
  cbn [rbind]. unfold push. cbn [rd_field rd_num rd_row orb]. rewrite IH by assumption.
  cbn [rev]. rewrite <- app_assoc. reflexivity.
Qed.

(** A field starting in StartField, up to its end. *)
Lemma feed_field : forall f row rest,
  Forall (fun c => plain c = true) f -> f <> [] ->
  feed (mkRd StartField [] false row) (f ++ rest) = feed (mkRd InField (rev f) true row) rest.
Proof.
  intros [|c f] row rest Hp Hne; [congruence|].
  inversion Hp as [|? ? Hc Hf]; subst. destruct (plain_spec c Hc) as [H1 [H2 H3]].
  cbn [app feed]. unfold step at 1. cbn [rd_state]. unfold start_field. rewrite H1, H2, H3.
  cbn [rbind]. unfold push. cbn [rd_field rd_num rd_row orb].
  rewrite feed_in_field by assumption. reflexivity.
Qed.

Lemma comma_step : Ascii.eqb comma comma = true /\ is_nl comma = false /\ Ascii.eqb comma quote = false.
Proof. repeat split. Qed.

Definition terminator (t : list ascii) : Prop := exists j, t = repeat CR j ++ [LF].
Definition ending (t : list ascii) : Prop := terminator t \/ exists j, t = repeat CR j.

Lemma ending_cases : forall t, ending t -> t = [] \/ t = [LF] \/ exists t', t = CR :: t' /\ ending t'.
Proof.
  intros t [[[|j] ->] | [[|j] ->]]; [right; left; reflexivity| |left; reflexivity|];
    (right; right; eexists; split; [reflexivity|]); [left|right]; exists j; reflexivity.
Qed.

Lemma feed_eat : forall t row, ending t ->
  feed (mkRd EatCrnl [] false row) t = Ok (mkRd StartRecord [] false row).
Proof.
  induction t as [|c t IH]; intros row H; [reflexivity|].
  destruct (ending_cases _ H) as [E | [E | [t' [E Ht]]]]; [discriminate| |].
  - injection E as -> ->. reflexivity.
  - injection E as -> ->. cbn [feed]. change (step (mkRd EatCrnl [] false row) CR) with (Ok (mkRd EatCrnl [] false row)).
    cbn [rbind]. apply IH. exact Ht.
Qed.

Lemma feed_term_field : forall t acc row, ending t ->
  feed (mkRd InField acc true row) t =
  (do q <- to_float (rev acc) ;; Ok (mkRd StartRecord [] false (CNum q :: row))).
Proof.
  intros t acc row H. destruct (ending_cases _ H) as [-> | [-> | [t' [-> Ht]]]]; cbn [feed].
  - reflexivity.
  - unfold step. cbn [rd_state]. change (is_nl LF) with true. cbv iota. unfold save. cbn [rd_num rd_field rd_row].
    destruct (to_float (rev acc)); reflexivity.
  - unfold step. cbn [rd_state]. change (is_nl CR) with true. cbv iota. unfold save. cbn [rd_num rd_field rd_row].
    destruct (to_float (rev acc)); [|reflexivity]. cbn [rbind]. apply feed_eat. exact Ht.
Qed.

Lemma feed_term_empty : forall t row, ending t ->
  feed (mkRd StartField [] false row) t = Ok (mkRd StartRecord [] false (CStr [] :: row)).
Proof.
  intros t row H. destruct (ending_cases _ H) as [-> | [-> | [t' [-> Ht]]]]; [reflexivity|reflexivity|].
  cbn [feed]. change (step (mkRd StartField [] false row) CR) with (Ok (mkRd EatCrnl [] false (CStr [] :: row))).
  cbn [rbind]. apply feed_eat. exact Ht.
Qed.

Lemma feed_term_blank : forall t, ending t -> t <> [] -> feed reset t = Ok reset.
Proof.
  intros t H Hne. destruct (ending_cases _ H) as [-> | [-> | [t' [-> Ht]]]]; [congruence|reflexivity|].
  cbn [feed]. change (step reset CR) with (Ok (mkRd EatCrnl [] false [])).
  cbn [rbind]. apply feed_eat. exact Ht.
Qed.

Lemma feed_fields : forall fs t row, fs <> [] ->
  Forall (Forall (fun c => plain c = true)) fs -> ending t ->
  feed (mkRd StartField [] false row) (join fs ++ t) =
  (do cs <- rmap field_cell fs ;; Ok (mkRd StartRecord [] false (rev cs ++ row))).
Proof.
  induction fs as [|f fs IH]; intros t row Hne Hp Ht; [congruence|].
  inversion Hp as [|? ? Hf Hfs]; subst.
  destruct fs as [|f' fs].
  - cbn [join]. destruct f as [|c f].
    + cbn [app]. rewrite feed_term_empty by assumption. reflexivity.
    + rewrite feed_field by (assumption || discriminate).
      rewrite feed_term_field by assumption. rewrite rev_involutive.
      cbn [rmap field_cell]. destruct (to_float (c :: f)); reflexivity.
  - assert (Hrest : forall row', feed (mkRd StartField [] false row') (join (f' :: fs) ++ t) =
        (do cs <- rmap field_cell (f' :: fs) ;; Ok (mkRd StartRecord [] false (rev cs ++ row')))).
    { intros row'. apply IH; [discriminate | assumption | assumption]. }
    change (join (f :: f' :: fs)) with (f ++ comma :: join (f' :: fs)).
    rewrite <- app_assoc. cbn [app].
    change (rmap field_cell (f :: f' :: fs)) with
      (do b <- field_cell f ;; do bs <- rmap field_cell (f' :: fs) ;; Ok (b :: bs)).
    remember (join (f' :: fs) ++ t) as rest. clear Heqrest.
    remember (f' :: fs) as fs'. clear Heqfs'.
    destruct f as [|c f].
    + cbn [app feed]. change (step (mkRd StartField [] false row) comma) with
        (Ok (mkRd StartField [] false (CStr [] :: row))). cbn [rbind field_cell]. rewrite Hrest.
      destruct (rmap field_cell fs') as [cs|e]; cbn [rbind]; [|reflexivity].
      cbn [rev]. rewrite <- app_assoc. reflexivity.
    + rewrite feed_field by (assumption || discriminate).
      cbn [feed]. unfold step at 1. cbn [rd_state].
      change (is_nl comma) with false. change (Ascii.eqb comma comma) with true. cbv iota.
      unfold save. cbn [rd_num rd_field rd_row]. rewrite rev_involutive.
      cbn [field_cell]. destruct (to_float (c :: f)) as [q|e]; cbn [rbind]; [|reflexivity].
      rewrite Hrest. destruct (rmap field_cell fs') as [cs|e]; cbn [rbind]; [|reflexivity].
      cbn [rev]. rewrite <- app_assoc. reflexivity.
Qed.

(** A record starts as a field does, unless the line is empty. *)
Lemma feed_start : forall c l, is_nl c = false ->
  feed reset (c :: l) = feed (mkRd StartField [] false []) (c :: l).
Proof.
  intros c l H. cbn [feed]. unfold reset, step. cbn [rd_state]. rewrite H. reflexivity.
Qed.

Lemma join_head : forall fs, Forall (Forall (fun c => plain c = true)) fs -> fs <> [] -> fs <> [[]] ->
  exists c l, join fs = c :: l /\ is_nl c = false.
Proof.
  intros fs Hp H1 H2. destruct fs as [|f [|f' fs]]; [congruence| |].
  - cbn [join]. destruct f as [|c f]; [congruence|]. exists c, f. split; [reflexivity|].
    inversion Hp as [|? ? Hf _]; subst. inversion Hf; subst. apply plain_spec. assumption.
  - change (join (f :: f' :: fs)) with (f ++ comma :: join (f' :: fs)). destruct f as [|c f].
    + exists comma, (join (f' :: fs)). split; reflexivity.
    + exists c, (f ++ comma :: join (f' :: fs)). split; [reflexivity|].
      inversion Hp as [|? ? Hf _]; subst. inversion Hf; subst. apply plain_spec. assumption.
Qed.

Lemma feed_row : forall fs t, fs <> [[]] ->
  Forall (Forall (fun c => plain c = true)) fs -> ending t -> t <> [] \/ fs <> [] ->
  feed reset (join fs ++ t) =
  (do cs <- rmap field_cell fs ;; Ok (mkRd StartRecord [] false (rev cs))).
Proof.
  intros fs t Hne Hp Ht Hn. destruct fs as [|f fs].
  - cbn [join app]. rewrite feed_term_blank; [reflexivity|exact Ht|]. destruct Hn; congruence.
  - destruct (join_head (f :: fs)) as [c [l [Hj Hc]]]; [assumption|discriminate|assumption|].
    rewrite Hj. cbn [app]. rewrite feed_start by assumption.
    change (c :: l ++ t) with ((c :: l) ++ t). rewrite <- Hj.
    rewrite feed_fields; [|discriminate|assumption|assumption].
    destruct (rmap field_cell (f :: fs)) as [cs|e]; [|reflexivity].
    cbn [rbind]. rewrite app_nil_r. reflexivity.
Qed.

(** Lines of the text *)
Lemma lines_of_app : forall l cur rest, Forall (fun c => Ascii.eqb c LF = false) l ->
  lines_of cur (l ++ rest) = lines_of (rev l ++ cur) rest.
Proof.
  induction l as [|c l IH]; intros cur rest H; [reflexivity|].
  inversion H as [|? ? Hc Hl]; subst. cbn [app lines_of]. rewrite Hc. rewrite IH by assumption.
  cbn [rev]. rewrite <- app_assoc. reflexivity.
Qed.

Lemma plain_not_lf : forall c, plain c = true -> Ascii.eqb c LF = false.
Proof.
  intros c H. apply plain_spec in H. destruct H as [H _]. unfold is_nl in H.
  apply Bool.orb_false_iff in H. tauto.
Qed.

Lemma join_no_lf : forall fs, Forall (Forall (fun c => plain c = true)) fs ->
  Forall (fun c => Ascii.eqb c LF = false) (join fs).
Proof.
  induction fs as [|f fs IH]; intros Hp; [constructor|].
  inversion Hp as [|? ? Hf Hfs]; subst.
  assert (Hf' : Forall (fun c => Ascii.eqb c LF = false) f).
  { eapply Forall_impl; [|exact Hf]. intros c. apply plain_not_lf. }
  destruct fs as [|f' fs]; [exact Hf'|].
  change (join (f :: f' :: fs)) with (f ++ comma :: join (f' :: fs)).
  apply Forall_app. split; [exact Hf'|]. constructor; [reflexivity|]. apply IH. assumption.
Qed.

Lemma lines_of_row : forall fs t rest, Forall (Forall (fun c => plain c = true)) fs -> terminator t ->
  lines_of [] ((join fs ++ t) ++ rest) = (join fs ++ t) :: lines_of [] rest.
Proof.
  intros fs t rest Hp Ht. pose proof (join_no_lf fs Hp) as Hj. rewrite <- app_assoc.
  rewrite lines_of_app by assumption. rewrite app_nil_r.
  destruct Ht as [j ->]. rewrite <- app_assoc.
  rewrite lines_of_app by (apply Forall_forall; intros c Hc; apply repeat_spec in Hc; subst c; reflexivity).
  cbn [app lines_of]. change (Ascii.eqb LF LF) with true. cbv iota. cbn [rev].
  rewrite rev_app_distr, !rev_involutive, app_assoc. reflexivity.
Qed.

(** The text of rows of fields; every row has its own terminator. *)
Definition text_of (rows : list (list (list ascii) * list ascii)) : list ascii :=
  concat (map (fun r => join (fst r) ++ snd r) rows).

Definition row_ok (r : list (list ascii) * list ascii) : Prop :=
  fst r <> [[]] /\ Forall (Forall (fun c => plain c = true)) (fst r) /\ terminator (snd r).

Lemma read_rows_app : forall rows tail, Forall row_ok rows ->
  read_rows (lines_of [] (text_of rows ++ tail)) reset =
  (do cs <- rmap (rmap field_cell) (map fst rows) ;;
   do rest <- read_rows (lines_of [] tail) reset ;; Ok (cs ++ rest)).
Proof.
  induction rows as [|[fs t] rows IH]; intros tail Hok.
  - cbn [text_of map concat app rmap rbind]. destruct (read_rows (lines_of [] tail) reset); reflexivity.
  - inversion Hok as [|? ? H0 Hr]; subst. destruct H0 as [H1 [H2 H3]]. cbn [fst snd] in *.
    change (text_of ((fs, t) :: rows)) with ((join fs ++ t) ++ text_of rows).
    rewrite <- app_assoc. rewrite lines_of_row by assumption. cbn [read_rows].
    rewrite feed_row; [|assumption|assumption|left; assumption|left; destruct H3 as [[|j] ->]; discriminate].
    cbn [map rmap fst]. destruct (rmap field_cell fs) as [cs|e]; cbn [rbind]; [|reflexivity].
    cbn [at_start rd_state rd_row]. rewrite IH by assumption. rewrite rev_involutive.
    destruct (rmap (rmap field_cell) (map fst rows)) as [css|e]; cbn [rbind]; [|reflexivity].
    destruct (read_rows (lines_of [] tail) reset); reflexivity.
Qed.

Lemma read_csv_rows : forall rows, Forall row_ok rows ->
  read_csv (text_of rows) = rmap (rmap field_cell) (map fst rows).
Proof.
  intros rows H. unfold read_csv. rewrite <- (app_nil_r (text_of rows)).
  rewrite read_rows_app by assumption. cbn.
  destruct (rmap (rmap field_cell) (map fst rows)); cbn; [|reflexivity]. rewrite app_nil_r. reflexivity.
Qed.

Lemma rmap_app : forall A B (f : A -> res B) l1 l2,
  rmap f (l1 ++ l2) = (do a <- rmap f l1 ;; do b <- rmap f l2 ;; Ok (a ++ b)).
Proof.
  induction l1 as [|x l1 IH]; intros l2; cbn [app rmap rbind].
  - destruct (rmap f l2); reflexivity.
  - destruct (f x); cbn [rbind]; [|reflexivity]. rewrite IH.
    destruct (rmap f l1); cbn [rbind]; [|reflexivity]. destruct (rmap f l2); reflexivity.
Qed.

(** The end of the last line may be missing. *)
Lemma lines_of_last : forall l, Forall (fun c => Ascii.eqb c LF = false) l -> l <> [] -> lines_of [] l = [l].
Proof.
  intros l H Hne. rewrite <- (app_nil_r l) at 1. rewrite lines_of_app by assumption.
  rewrite app_nil_r. cbn [lines_of]. rewrite rev_involutive.
  destruct (rev l) eqn:E; [|reflexivity].
  apply (f_equal (@length ascii)) in E. rewrite rev_length in E. destruct l; [congruence|discriminate].
Qed.

Lemma read_csv_unterminated : forall rows fs j, Forall row_ok rows ->
  fs <> [] \/ 0 < j -> fs <> [[]] -> Forall (Forall (fun c => plain c = true)) fs ->
  read_csv (text_of rows ++ join fs ++ repeat CR j) = rmap (rmap field_cell) (map fst rows ++ [fs]).
Proof.
  intros rows fs j H Hn1 Hn2 Hp. unfold read_csv. rewrite read_rows_app by assumption.
  rewrite rmap_app. destruct (rmap (rmap field_cell) (map fst rows)) as [cs|e]; cbn [rbind]; [|reflexivity].
  rewrite lines_of_last.
  - cbn [read_rows]. rewrite feed_row; [|assumption|assumption|right; exists j; reflexivity|].
    + cbn [rmap]. destruct (rmap field_cell fs) as [c|e]; cbn [rbind]; [|reflexivity].
      cbn [at_start rd_state rd_row rd_field rbind]. rewrite rev_involutive. reflexivity.
    + destruct Hn1 as [H1 | H1]; [right; exact H1|left]. destruct j; [lia|discriminate].
  - apply Forall_app. split; [apply join_no_lf; assumption|].
    apply Forall_forall; intros c Hc; apply repeat_spec in Hc; subst c; reflexivity.
  - destruct Hn1 as [H1 | H1].
    + destruct (join_head fs Hp H1 Hn2) as [c [l [Hj _]]]. rewrite Hj. discriminate.
    + destruct j; [lia|]. intros E. apply app_eq_nil in E. destruct E as [_ E]. discriminate.
Qed.

(** ** Digits *)

Lemma ascii_digit_spec : forall z, (0 <= z < 10)%Z ->
  is_digit (ascii_digit z) = true /\ digit (ascii_digit z) = z.
Proof.
  intros z H. assert (Hz : (z = 0 \/ z = 1 \/ z = 2 \/ z = 3 \/ z = 4 \/ z = 5 \/ z = 6 \/ z = 7 \/ z = 8 \/ z = 9)%Z) by lia.
  repeat (destruct Hz as [-> | Hz]; [split; reflexivity|]). subst. split; reflexivity.
Qed.

Lemma dec_val_acc : forall l a, fold_left (fun a c => 10 * a + digit c)%Z l a =
  (a * 10 ^ Z.of_nat (length l) + dec_val l)%Z.
Proof.
  unfold dec_val. induction l as [|c l IH]; intros a.
  - cbn. lia.
  - cbn [fold_left length]. rewrite IH. rewrite (IH (10 * 0 + digit c)%Z).
    replace (Z.of_nat (S (length l))) with (1 + Z.of_nat (length l))%Z by lia.
    rewrite Z.pow_add_r by lia. ring.
Qed.

Lemma dec_val_app : forall l1 l2, dec_val (l1 ++ l2) = (dec_val l1 * 10 ^ Z.of_nat (length l2) + dec_val l2)%Z.
Proof. intros. unfold dec_val at 1. rewrite fold_left_app. apply dec_val_acc. Qed.

Lemma last_digits_length : forall d z, length (last_digits d z) = d.
Proof. induction d; intros z; [reflexivity|]. cbn. rewrite app_length, IHd. cbn. lia. Qed.

Lemma last_digits_spec : forall d z, (0 <= z)%Z ->
  Forall (fun c => is_digit c = true) (last_digits d z) /\
  dec_val (last_digits d z) = (z mod 10 ^ Z.of_nat d)%Z.
Proof.
  induction d as [|d IH]; intros z Hz.
  - split; [constructor|]. cbn. rewrite Z.mod_1_r. reflexivity.
  - destruct (IH (z / 10)%Z) as [H1 H2]; [apply Z.div_pos; lia|].
    destruct (ascii_digit_spec (z mod 10)) as [H3 H4]; [apply Z.mod_pos_bound; lia|].
    cbn [last_digits]. split.
    + apply Forall_app. split; [exact H1|]. constructor; [exact H3|constructor].
    + rewrite dec_val_app, H2. cbn [length]. change (dec_val [ascii_digit (z mod 10)]) with
        (10 * 0 + digit (ascii_digit (z mod 10)))%Z. rewrite H4.
      replace (Z.of_nat (S d)) with (1 + Z.of_nat d)%Z by lia. rewrite Z.pow_add_r by lia.
      assert (Hp : (0 < 10 ^ Z.of_nat d)%Z) by (apply Z.pow_pos_nonneg; lia).
      rewrite (Z.rem_mul_r z) by lia. change (10 ^ Z.of_nat 1)%Z with 10%Z. change (10 ^ 1)%Z with 10%Z. ring.
Qed.

Lemma int_digits_spec : forall f z, (0 <= z)%Z -> (z < 10 ^ Z.of_nat f)%Z -> f <> 0 ->
  Forall (fun c => is_digit c = true) (int_digits f z) /\ dec_val (int_digits f z) = z /\ int_digits f z <> [].
Proof.
  induction f as [|f IH]; intros z Hz Hlt Hf; [congruence|].
  cbn [int_digits]. destruct (z <? 10)%Z eqn:E.
  - apply Z.ltb_lt in E. destruct (ascii_digit_spec z) as [H1 H2]; [lia|].
    split; [constructor; [exact H1|constructor]|]. split; [|discriminate].
    change (dec_val [ascii_digit z]) with (10 * 0 + digit (ascii_digit z))%Z. rewrite H2. reflexivity.
  - apply Z.ltb_ge in E.
    replace (Z.of_nat (S f)) with (1 + Z.of_nat f)%Z in Hlt by lia. rewrite Z.pow_add_r in Hlt by lia.
    destruct (IH (z / 10)%Z) as [H1 [H2 _]]; [apply Z.div_pos; lia| |destruct f; [cbn in Hlt; lia|discriminate]|].
    { apply Z.div_lt_upper_bound; [lia|]. change (10 ^ 1)%Z with 10%Z in Hlt. exact Hlt. }
    destruct (ascii_digit_spec (z mod 10)) as [H3 H4]; [apply Z.mod_pos_bound; lia|].
    split; [|split].
    + apply Forall_app. split; [exact H1|]. constructor; [exact H3|constructor].
    + rewrite dec_val_app, H2. cbn [length].
      change (dec_val [ascii_digit (z mod 10)]) with (10 * 0 + digit (ascii_digit (z mod 10)))%Z.
      rewrite H4. change (10 ^ Z.of_nat 1)%Z with 10%Z. rewrite (Z.div_mod z 10) at 3 by lia. ring.
    + intros E'. apply (f_equal (@length ascii)) in E'. rewrite app_length in E'. cbn in E'. lia.
Qed.

Lemma show_nat_spec : forall z, (0 <= z)%Z ->
  Forall (fun c => is_digit c = true) (show_nat z) /\ dec_val (show_nat z) = z /\ show_nat z <> [].
Proof.
  intros z Hz. apply int_digits_spec; [exact Hz| |discriminate].
  destruct (Z.eq_dec z 0) as [->|Hne]; [cbn; lia|].
  destruct (Z.log2_spec z) as [_ Hl]; [lia|].
  eapply Z.lt_le_trans; [exact Hl|].
  replace (Z.of_nat (S (Z.to_nat (Z.log2 z)))) with (Z.succ (Z.log2 z))
    by (rewrite Nat2Z.inj_succ, Z2Nat.id by apply Z.log2_nonneg; reflexivity).
  apply Z.pow_le_mono_l. lia.
Qed.

Lemma drop_zeros_spec : forall l, exists n, l = repeat "0"%char n ++ drop_zeros l.
Proof.
  induction l as [|c l [n IH]]; [exists 0; reflexivity|].
  cbn [drop_zeros]. destruct (Ascii.eqb c "0") eqn:E.
  - apply Ascii.eqb_eq in E. subst c. exists (S n). cbn. rewrite <- IH. reflexivity.
  - exists 0. reflexivity.
Qed.

Lemma rev_repeat : forall A (a : A) n, rev (repeat a n) = repeat a n.
Proof.
  induction n; [reflexivity|]. cbn. rewrite IHn. clear IHn. induction n; [reflexivity|]. cbn. rewrite IHn. reflexivity.
Qed.

Lemma dec_val_zeros : forall n, dec_val (repeat "0"%char n) = 0%Z.
Proof.
  intros n. unfold dec_val. induction n; [reflexivity|]. cbn [repeat fold_left].
  change (10 * 0 + digit "0")%Z with 0%Z. exact IHn.
Qed.

(** The fraction has the value of the digits. *)
Lemma fraction_spec : forall l, Forall (fun c => is_digit c = true) l ->
  Forall (fun c => is_digit c = true) (fraction l) /\ fraction l <> [] /\
  (dec_val l * 10 ^ Z.of_nat (length (fraction l)) = dec_val (fraction l) * 10 ^ Z.of_nat (length l))%Z.
Proof.
  intros l Hd. unfold fraction. destruct (drop_zeros_spec (rev l)) as [n Hn].
  remember (rev (drop_zeros (rev l))) as t eqn:Et.
  assert (Hl : l = t ++ repeat "0"%char n).
  { rewrite <- (rev_involutive l), Hn, rev_app_distr, rev_repeat, Et. reflexivity. }
  assert (Hv : (dec_val l = dec_val t * 10 ^ Z.of_nat n)%Z).
  { rewrite Hl, dec_val_app, repeat_length, dec_val_zeros. lia. }
  assert (Hlen : length l = length t + n) by (rewrite Hl, app_length, repeat_length; reflexivity).
  assert (Hdt : Forall (fun c => is_digit c = true) t).
  { rewrite Hl in Hd. apply Forall_app in Hd. tauto. }
  destruct t as [|c t].
  - split; [constructor; [reflexivity|constructor]|]. split; [discriminate|].
    rewrite Hv. change (dec_val []) with 0%Z. change (dec_val ["0"%char]) with 0%Z. ring.
  - split; [exact Hdt|]. split; [discriminate|]. rewrite Hv, Hlen.
    rewrite Nat2Z.inj_add, Z.pow_add_r by lia. ring.
Qed.

(** ** float of what is written *)

Lemma digit_chars : forall c, is_digit c = true ->
  is_space c = false /\ Ascii.eqb c "-" = false /\ Ascii.eqb c "+" = false /\ Ascii.eqb c dot_char = false /\ plain c = true.
Proof.
  intros [[] [] [] [] [] [] [] []] H; vm_compute in H; try discriminate H; repeat split.
Qed.

Lemma take_digits_app : forall d rest, Forall (fun c => is_digit c = true) d ->
  (forall c, List.hd_error rest = Some c -> is_digit c = false) ->
  take_digits (d ++ rest) = (d, rest).
Proof.
  induction d as [|c d IH]; intros rest Hd Hr.
  - cbn [app]. destruct rest as [|c rest]; [reflexivity|]. cbn [take_digits].
    rewrite (Hr c eq_refl). reflexivity.
  - inversion Hd as [|? ? Hc Hd']; subst. cbn [app take_digits]. rewrite Hc, IH by assumption. reflexivity.
Qed.

Lemma drop_spaces_head : forall l, (forall c, hd_error l = Some c -> is_space c = false) -> drop_spaces l = l.
Proof. intros [|c l] H; [reflexivity|]. cbn. rewrite (H c eq_refl). reflexivity. Qed.

Lemma strip_id : forall l, (forall c, hd_error l = Some c -> is_space c = false) ->
  (forall c, hd_error (rev l) = Some c -> is_space c = false) -> strip l = l.
Proof. intros l H1 H2. unfold strip. rewrite (drop_spaces_head l H1), (drop_spaces_head (rev l) H2). apply rev_involutive. Qed.

Lemma scale10_neg : forall m k, scale10 m (- Z.of_nat k) == Qmake m (Z.to_pos (10 ^ Z.of_nat k)).
Proof.
  intros m k. unfold scale10. destruct (0 <=? - Z.of_nat k)%Z eqn:E.
  - apply Z.leb_le in E. assert (k = 0) by lia. subst k. cbn. unfold Qeq. cbn. lia.
  - rewrite Z.opp_involutive. reflexivity.
Qed.

Lemma pow10_pos : forall k, (0 < 10 ^ Z.of_nat k)%Z.
Proof. intros. apply Z.pow_pos_nonneg; lia. Qed.

(** Unsigned decimals *)
Lemma to_float_unsigned : forall ip fp neg,
  Forall (fun c => is_digit c = true) ip -> Forall (fun c => is_digit c = true) fp -> ip <> [] -> fp <> [] ->
  to_float ((if neg : bool then ["-"%char] else []) ++ ip ++ [dot_char] ++ fp) =
  Ok (let v := scale10 (dec_val (ip ++ fp)) (- Z.of_nat (length fp)) in if neg then (- v)%Q else v).
Proof.
  intros ip fp neg Hi Hf Hi0 Hf0.
  assert (Hlast : exists c l, rev fp = c :: l /\ is_digit c = true).
  { destruct (rev fp) as [|c l] eqn:E.
    - apply (f_equal (@length ascii)) in E. rewrite rev_length in E. destruct fp; [congruence|discriminate].
    - exists c, l. split; [reflexivity|]. assert (In c fp) by (apply in_rev; rewrite E; left; reflexivity).
      rewrite Forall_forall in Hf. apply Hf. assumption. }
  destruct ip as [|ci ip']; [congruence|]. pose proof Hi as Hi'. inversion Hi' as [|? ? Hci _]; subst.
  destruct (digit_chars ci Hci) as [Hs1 [Hs2 [Hs3 [Hs4 _]]]].
  unfold to_float.
  assert (Hstrip : strip ((if neg then ["-"%char] else []) ++ (ci :: ip') ++ [dot_char] ++ fp) =
     (if neg then ["-"%char] else []) ++ (ci :: ip') ++ [dot_char] ++ fp).
  { apply strip_id.
    - intros c. destruct neg; cbn; intros H; injection H as <-; [reflexivity|exact Hs1].
    - intros c. rewrite !rev_app_distr. destruct Hlast as [c' [l [Hr Hc']]]. rewrite Hr. cbn.
      intros H. injection H as <-. apply digit_chars. exact Hc'. }
  rewrite Hstrip.
  assert (Hsign : take_sign ((if neg then ["-"%char] else []) ++ (ci :: ip') ++ [dot_char] ++ fp) =
                  (neg, (ci :: ip') ++ [dot_char] ++ fp)).
  { destruct neg; cbn [app take_sign]; [reflexivity|]. rewrite Hs2, Hs3. reflexivity. }
  rewrite Hsign. rewrite take_digits_app; [|exact Hi|].
  2:{ intros c H. cbn in H. injection H as <-. reflexivity. }
  cbn [app]. change (Ascii.eqb dot_char dot_char) with true. cbv iota.
  rewrite <- (app_nil_r fp) at 1. rewrite take_digits_app; [|exact Hf|intros c H; discriminate].
  cbn [exponent rbind]. reflexivity.
Qed.

Lemma show_dec_float : forall x, exists q, to_float (show_dec x) = Ok q /\ q == dval x.
Proof.
  intros [z d]. unfold show_dec.
  destruct (show_nat_spec (Z.abs z / 10 ^ Z.of_nat d)) as [H1 [H2 H3]].
  { apply Z.div_pos; [lia|apply pow10_pos]. }
  destruct (last_digits_spec d (Z.abs z)) as [H4 H5]; [lia|].
  destruct (fraction_spec _ H4) as [H6 [H7 H8]]. rewrite last_digits_length in H8.
  replace (if (z <? 0)%Z then ["-"%char] else []) with (if (z <? 0)%Z then ["-"%char] else @nil ascii) by reflexivity.
  rewrite to_float_unsigned by assumption.
  eexists. split; [reflexivity|]. cbv zeta.
  set (v := scale10 _ _).
  assert (Hv : v == Qmake (Z.abs z) (Z.to_pos (10 ^ Z.of_nat d))).
  { unfold v. rewrite scale10_neg. unfold Qeq. cbn [Qnum Qden].
    rewrite !Z2Pos.id by apply pow10_pos. rewrite dec_val_app, H2. rewrite H5 in H8.
    rewrite Z.mul_add_distr_r, <- H8.
    pose proof (Z.div_mod (Z.abs z) (10 ^ Z.of_nat d)) as Hdm.
    pose proof (pow10_pos d) as Hpd. specialize (Hdm ltac:(lia)).
    remember (Z.abs z / 10 ^ Z.of_nat d)%Z as a. remember (Z.abs z mod 10 ^ Z.of_nat d)%Z as r.
    rewrite Hdm. ring. }
  unfold dval. cbn [fst snd]. destruct (z <? 0)%Z eqn:E.
  - apply Z.ltb_lt in E. rewrite Hv. unfold Qeq. cbn. rewrite Z.abs_neq by lia. lia.
  - apply Z.ltb_ge in E. rewrite Hv. rewrite Z.abs_eq by lia. reflexivity.
Qed.

Lemma show_nat_float : forall z, (0 <= z)%Z -> exists q, to_float (show_nat z) = Ok q /\ q == inject_Z z.
Proof.
  intros z Hz. destruct (show_nat_spec z Hz) as [H1 [H2 H3]].
  assert (Hlast : exists c l, rev (show_nat z) = c :: l /\ is_digit c = true).
  { destruct (rev (show_nat z)) as [|c l] eqn:E.
    - apply (f_equal (@length ascii)) in E. rewrite rev_length in E. destruct (show_nat z); [congruence|discriminate].
    - exists c, l. split; [reflexivity|]. assert (In c (show_nat z)) by (apply in_rev; rewrite E; left; reflexivity).
      rewrite Forall_forall in H1. apply H1. assumption. }
  destruct (show_nat z) as [|c l] eqn:E; [congruence|].
  pose proof H1 as H1'. inversion H1' as [|? ? Hc _]; subst.
  destruct (digit_chars c Hc) as [Hs1 [Hs2 [Hs3 _]]].
  unfold to_float. rewrite strip_id.
  - assert (Ht : take_sign (c :: l) = (false, c :: l)) by (cbn [take_sign]; rewrite Hs2, Hs3; reflexivity).
    assert (Hd : take_digits (c :: l) = (c :: l, [])).
    { rewrite <- (app_nil_r (c :: l)). rewrite take_digits_app by (assumption || (intros; discriminate)).
      rewrite app_nil_r. reflexivity. }
    rewrite Ht, Hd. rewrite app_nil_r. cbn [exponent rbind]. eexists. split; [reflexivity|].
    unfold scale10. cbn [length Z.of_nat Z.sub Z.leb Z.compare Z.add Z.opp]. rewrite Z.mul_1_r. reflexivity.
  - intros c' H. cbn in H. injection H as <-. exact Hs1.
  - intros c' H. destruct Hlast as [c2 [l2 [Hr Hc2]]]. rewrite Hr in H. cbn in H. injection H as <-.
    apply digit_chars. exact Hc2.
Qed.

Lemma show_dec_plain : forall x, Forall (fun c => plain c = true) (show_dec x) /\ show_dec x <> [].
Proof.
  intros [z d]. unfold show_dec.
  destruct (show_nat_spec (Z.abs z / 10 ^ Z.of_nat d)) as [H1 [_ H3]].
  { apply Z.div_pos; [lia|apply pow10_pos]. }
  destruct (last_digits_spec d (Z.abs z)) as [H4 _]; [lia|].
  destruct (fraction_spec _ H4) as [H6 _].
  assert (Hd : forall l, Forall (fun c => is_digit c = true) l -> Forall (fun c => plain c = true) l).
  { intros l. apply Forall_impl. intros c Hc. apply digit_chars. exact Hc. }
  split.
  - apply Forall_app. split; [destruct (z <? 0)%Z; repeat constructor|].
    apply Forall_app. split; [apply Hd; exact H1|]. cbn [app]. constructor; [reflexivity|]. apply Hd; exact H6.
  - intros E. apply (f_equal (@length ascii)) in E. rewrite !app_length in E. cbn in E. lia.
Qed.

Lemma show_nat_plain : forall z, (0 <= z)%Z -> Forall (fun c => plain c = true) (show_nat z) /\ show_nat z <> [].
Proof.
  intros z Hz. destruct (show_nat_spec z Hz) as [H1 [_ H3]]. split; [|exact H3].
  eapply Forall_impl; [|exact H1]. intros c Hc. apply digit_chars. exact Hc.
Qed.

(** ** Parsing does not depend on the representation of the numbers *)

Lemma Qfloor_eq : forall p q, p == q -> Qfloor p = Qfloor q.
Proof. intros p q H. rewrite H. reflexivity. Qed.

Lemma Qlt_bool_eq : forall p q p' q', p == p' -> q == q' -> Qlt_bool p q = Qlt_bool p' q'.
Proof.
  intros p q p' q' Hp Hq. apply Bool.eq_iff_eq_true. rewrite !Qlt_bool_iff, Hp, Hq. reflexivity.
Qed.

Lemma Qrnd_eq : forall p q, p == q -> Qrnd p = Qrnd q.
Proof.
  intros p q H. unfold Qrnd. rewrite (Qfloor_eq p q H).
  rewrite (Qlt_bool_eq (p - inject_Z (Qfloor q)) (1 # 2) (q - inject_Z (Qfloor q)) (1 # 2)) by (rewrite ?H; reflexivity).
  rewrite (Qlt_bool_eq (1 # 2) (p - inject_Z (Qfloor q)) (1 # 2) (q - inject_Z (Qfloor q))) by (rewrite ?H; reflexivity).
  reflexivity.
Qed.

Lemma round1_eq : forall p q, p == q -> round1 p = round1 q.
Proof. intros p q H. unfold round1. rewrite (Qrnd_eq (10 * p) (10 * q)); [reflexivity|]. rewrite H. reflexivity. Qed.

Lemma Qtrunc_eq : forall p q, p == q -> Qtrunc p = Qtrunc q.
Proof.
  intros p q H. unfold Qtrunc. rewrite (Qlt_bool_eq p 0 q 0) by (assumption || reflexivity).
  rewrite (Qfloor_eq p q H), (Qfloor_eq (- p) (- q)) by (rewrite H; reflexivity). reflexivity.
Qed.

Definition same_rows : list (list Q) -> list (list Q) -> Prop := Forall2 (Forall2 Qeq).

Lemma Forall2_len : forall A B (R : A -> B -> Prop) l l', Forall2 R l l' -> length l = length l'.
Proof. intros A B R l l' H. induction H; [reflexivity|]. cbn. rewrite IHForall2. reflexivity. Qed.

Lemma geti_rel : forall A (R : A -> A -> Prop) l l' i, Forall2 R l l' ->
  match geti l i, geti l' i with
  | Ok a, Ok a' => R a a'
  | Err e, Err e' => e = e'
  | _, _ => False
  end.
Proof.
  intros A R l l' i H. revert i. induction H as [|a a' l l' Ha H IH]; intros i; [destruct i; reflexivity|].
  destruct i as [|i]; [exact Ha|]. apply (IH i).
Qed.

Lemma rmap_rel : forall A B (R : B -> B -> Prop) (f g : A -> res B) l,
  (forall a, match f a, g a with Ok b, Ok b' => R b b' | Err e, Err e' => e = e' | _, _ => False end) ->
  match rmap f l, rmap g l with Ok b, Ok b' => Forall2 R b b' | Err e, Err e' => e = e' | _, _ => False end.
Proof.
  intros A B R f g l H. induction l as [|a l IH]; [constructor|].
  cbn [rmap]. specialize (H a). destruct (f a), (g a); try contradiction; cbn [rbind]; [|exact H].
  destruct (rmap f l), (rmap g l); try contradiction; cbn [rbind]; [|exact IH]. constructor; assumption.
Qed.

Lemma map_rel : forall A B (R : A -> A -> Prop) (f : A -> B) l l', (forall a a', R a a' -> f a = f a') ->
  Forall2 R l l' -> map f l = map f l'.
Proof. intros A B R f l l' Hf H. induction H; [reflexivity|]. cbn. rewrite IHForall2, (Hf _ _ H). reflexivity. Qed.

Lemma rows_round : forall r r', Forall2 Qeq r r' -> map round1 r = map round1 r'.
Proof. intros. eapply map_rel; [|eassumption]. intros; apply round1_eq; assumption. Qed.

Lemma rectangular_rel : forall M M', Forall2 same_rows M M' -> rectangular M = rectangular M'.
Proof.
  intros M M' H. unfold rectangular.
  assert (Hc : same_rows (concat M) (concat M')).
  { induction H; [constructor|]. cbn. apply Forall2_app; assumption. }
  destruct Hc as [|r r' rs rs' Hr Hrs]; [reflexivity|].
  apply Forall2_len in Hr. rewrite <- Hr. clear H.
  induction Hrs as [|a a' rs rs' Ha Hrs IH]; [reflexivity|]. cbn. rewrite IH, (Forall2_len _ _ _ _ _ Ha). reflexivity.
Qed.

Lemma last_rel : forall A (R : A -> A -> Prop) l l' d, R d d -> Forall2 R l l' -> R (last l d) (last l' d).
Proof.
  intros A R l l' d Hd H. induction H as [|a a' l l' Ha H IH]; [exact Hd|].
  destruct H; [exact Ha|]. exact IH.
Qed.

Lemma broadcast_rel : forall r r' k m, Forall2 Qeq r r' ->
  match broadcast r k m, broadcast r' k m with
  | Ok b, Ok b' => map (map round1) b = map (map round1) b'
  | Err e, Err e' => e = e'
  | _, _ => False
  end.
Proof.
  intros r r' k m H. unfold broadcast. rewrite <- (Forall2_len _ _ _ _ _ H).
  destruct (Nat.eqb (length r) m).
  - rewrite !map_repeat. rewrite (rows_round _ _ H). reflexivity.
  - destruct H as [|a a' l l' Ha H]; [reflexivity|]. destruct H; [|reflexivity].
    rewrite !map_repeat. rewrite (round1_eq _ _ Ha). reflexivity.
Qed.

Lemma parse_same : forall rows rows' cont eps, same_rows rows rows' -> parse rows cont eps = parse rows' cont eps.
Proof.
  intros rows rows' cont eps H. unfold parse.
  pose proof (geti_rel _ _ rows rows' 0 H) as H0.
  destruct (geti rows 0) as [info|e], (geti rows' 0) as [info'|e']; try contradiction; cbn [rbind]; [|congruence].
  pose proof (geti_rel _ _ info info' 0 H0) as Hn.
  destruct (geti info 0) as [fn|e], (geti info' 0) as [fn'|e']; try contradiction; cbn [rbind]; [|congruence].
  pose proof (geti_rel _ _ info info' 2 H0) as Hk.
  destruct (geti info 2) as [fk|e], (geti info' 2) as [fk'|e']; try contradiction; cbn [rbind]; [|congruence].
  pose proof (geti_rel _ _ info info' 1 H0) as Hm.
  destruct (geti info 1) as [fm|e], (geti info' 1) as [fm'|e']; try contradiction; cbn [rbind]; [|congruence].
  rewrite (Qtrunc_eq _ _ Hn), (Qtrunc_eq _ _ Hk), (Qtrunc_eq _ _ Hm).
  destruct ((Qtrunc fn' <? 0)%Z || (Qtrunc fk' <? 0)%Z); [reflexivity|].
  pose proof (geti_rel _ _ rows rows' 1 H) as Hc.
  destruct (geti rows 1) as [c|e], (geti rows' 1) as [c'|e']; try contradiction; cbn [rbind]; [|congruence].
  set (mm := Z.to_nat (Qtrunc fm')). set (k := Z.to_nat (Qtrunc fk')).
  assert (HA : match rmap (fun s => rmap (fun i => geti rows (2 + s * mm + i)) (seq 0 mm)) (seq 0 k),
                     rmap (fun s => rmap (fun i => geti rows' (2 + s * mm + i)) (seq 0 mm)) (seq 0 k) with
               | Ok b, Ok b' => Forall2 same_rows b b' | Err e, Err e' => e = e' | _, _ => False end).
  { apply rmap_rel. intros s. apply rmap_rel. intros i. apply geti_rel. exact H. }
  destruct (rmap (fun s => rmap (fun i => geti rows (2 + s * mm + i)) (seq 0 mm)) (seq 0 k)) as [A|e],
           (rmap (fun s => rmap (fun i => geti rows' (2 + s * mm + i)) (seq 0 mm)) (seq 0 k)) as [A'|e'];
    try contradiction; cbn [rbind]; [|congruence].
  rewrite (rectangular_rel _ _ HA). destruct (negb (rectangular A')); [reflexivity|].
  destruct (Nat.eqb k 0); [reflexivity|]. destruct (Qtrunc fm' <? 0)%Z; [reflexivity|].
  assert (Hl : Forall2 Qeq (last rows []) (last rows' [])) by (apply last_rel; [constructor|exact H]).
  pose proof (broadcast_rel _ _ k mm Hl) as Hb.
  destruct (broadcast (last rows []) k mm) as [b|e], (broadcast (last rows' []) k mm) as [b'|e'];
    try contradiction; cbn [rbind]; [|congruence].
  rewrite Hb, (rows_round _ _ Hc).
  rewrite (map_rel _ _ same_rows (map (map round1)) A A'); [reflexivity| |exact HA].
  intros M M' HM. eapply map_rel; [|exact HM]. apply rows_round.
Qed.

(** ** Round trip *)

Lemma rmap_ok_map : forall A B (f : A -> res B) (R : A -> B -> Prop) l,
  (forall a, In a l -> exists b, f a = Ok b /\ R a b) -> exists bs, rmap f l = Ok bs /\ Forall2 R l bs.
Proof.
  intros A B f R l. induction l as [|a l IH]; intros H; [exists []; split; [reflexivity|constructor]|].
  destruct (H a (or_introl eq_refl)) as [b [Hb Rb]].
  destruct IH as [bs [Hbs Rbs]]; [intros; apply H; right; assumption|].
  exists (b :: bs). split; [cbn; rewrite Hb; cbn; rewrite Hbs; reflexivity|constructor; assumption].
Qed.

(** A file of rows of printed numbers is read as these numbers: [show] prints, [val] is the value. *)
Lemma load_printed : forall (rows : list (list (list ascii * Q) * list ascii)) cont eps,
  Forall (fun r => Forall (fun fv => Forall (fun c => plain c = true) (fst fv) /\ fst fv <> [] /\
                     exists q, to_float (fst fv) = Ok q /\ q == snd fv) (fst r) /\ terminator (snd r)) rows ->
  load_text (text_of (map (fun r => (map fst (fst r), snd r)) rows)) cont eps =
  parse (map (fun r => map snd (fst r)) rows) cont eps.
Proof.
  intros rows cont eps H. unfold load_text.
  assert (Hok : Forall row_ok (map (fun r => (map fst (fst r), snd r)) rows)).
  { apply Forall_map. eapply Forall_impl; [|exact H]. intros r [Hr Ht]. unfold row_ok. cbn [fst snd].
    split; [|split; [|exact Ht]].
    - destruct (fst r) as [|[f v] l]; [discriminate|]. inversion Hr as [|? ? Hf _]; subst. cbn in *.
      destruct Hf as [_ [Hne _]]. destruct f; [congruence|discriminate].
    - apply Forall_map. eapply Forall_impl; [|exact Hr]. intros fv [Hp _]. exact Hp. }
  rewrite read_csv_rows by exact Hok. rewrite map_map. cbn [fst].
  assert (Hcells : exists cells, rmap (rmap field_cell) (map (fun r => map fst (fst r)) rows) = Ok cells /\
     exists qs, rmap (rmap cell_num) cells = Ok qs /\ same_rows qs (map (fun r => map snd (fst r)) rows)).
  { clear Hok. induction rows as [|r rows IH]; [exists []; split; [reflexivity|]; exists []; split; [reflexivity|constructor]|].
    inversion H as [|? ? H1 H2]; subst. destruct (IH H2) as [cells [Hc [qs [Hq Hs]]]].
    destruct H1 as [Hr _].
    assert (Hrow : exists cs, rmap field_cell (map fst (fst r)) = Ok cs /\
               exists q, rmap cell_num cs = Ok q /\ Forall2 Qeq q (map snd (fst r))).
    { clear -Hr. induction (fst r) as [|[f v] l IHl]; [exists []; split; [reflexivity|]; exists []; split; [reflexivity|constructor]|].
      inversion Hr as [|? ? Hf Hl]; subst. destruct (IHl Hl) as [cs [Hcs [q [Hq Hs]]]].
      destruct Hf as [_ [Hne [q0 [Hq0 Hv]]]]. cbn [fst snd] in *.
      exists (CNum q0 :: cs). cbn [map rmap fst snd]. split.
      - replace (field_cell f) with (Ok (CNum q0)).
        + cbn [rbind]. rewrite Hcs. reflexivity.
        + destruct f; [congruence|]. cbn [field_cell]. rewrite Hq0. reflexivity.
      - exists (q0 :: q). cbn [rmap cell_num rbind]. rewrite Hq. split; [reflexivity|]. constructor; assumption. }
    destruct Hrow as [cs [Hcs [q [Hq' Hs']]]].
    exists (cs :: cells). cbn [map rmap]. rewrite Hcs. cbn [rbind]. rewrite Hc. split; [reflexivity|].
    exists (q :: qs). cbn [rmap]. rewrite Hq'. cbn [rbind]. rewrite Hq. split; [reflexivity|]. constructor; assumption. }
  destruct Hcells as [cells [-> [qs [Hq Hs]]]]. cbn [rbind]. rewrite Hq. cbn [rbind].
  apply parse_same. exact Hs.
Qed.

Lemma dval_entry : forall q, dval (entry_dec q) == gen_entry q.
Proof.
  intros q. unfold dval, entry_dec, gen_entry, round4. cbn [fst snd].
  change (Z.to_pos (10 ^ Z.of_nat 4)) with 10000%positive.
  unfold Qeq, Qdiv. cbn. lia.
Qed.

Lemma Qn_inject : forall n, inject_Z (Z.of_nat n) == Qn n.
Proof. intros. unfold Qn. reflexivity. Qed.

(** Rows of the generator with the values written. *)
Definition gen_pairs (n m : nat) (c : list dec) (samples : list (list (list Q))) (b : list dec)
  : list (list (list ascii * Q)) :=
  map (fun v => (show_nat (Z.of_nat v), Qn v)) [n; m; length samples] ::
  map (fun x => (show_dec x, dval x)) c ::
  concat (map (map (map (fun q => (show_dec (entry_dec q), gen_entry q)))) samples) ++
  [map (fun x => (show_dec x, dval x)) b].

Lemma map_concat_rows : forall A B (f : A -> B) (l : list (list (list A))),
  map (map f) (concat l) = concat (map (map (map f)) l).
Proof. intros. rewrite concat_map. reflexivity. Qed.

Lemma gen_pairs_fields : forall n m c samples b,
  map (map fst) (gen_pairs n m c samples b) = gen_fields n m c samples b.
Proof.
  intros. unfold gen_pairs, gen_fields. cbn [map fst snd]. rewrite map_map. f_equal. f_equal.
  rewrite map_app. cbn [map]. rewrite map_map. f_equal.
  rewrite map_concat_rows. rewrite map_map. f_equal. apply map_ext. intros M. rewrite map_map.
  apply map_ext. intros r. rewrite map_map. reflexivity.
Qed.

Lemma gen_pairs_values : forall n m c samples b,
  map (map snd) (gen_pairs n m c samples b) = gen_rows n m (map dval c) samples (map dval b).
Proof.
  intros. unfold gen_pairs, gen_rows. cbn [map fst snd]. rewrite map_map. f_equal. f_equal.
  rewrite map_app. cbn [map]. rewrite map_map. f_equal.
  rewrite map_concat_rows. rewrite map_map. f_equal. apply map_ext. intros M. rewrite map_map.
  apply map_ext. intros r. rewrite map_map. reflexivity.
Qed.

Lemma gen_text_of : forall term n m c samples b,
  show_rows term (gen_fields n m c samples b) =
  text_of (map (fun r => (map fst (fst r), snd r)) (map (fun r => (r, term)) (gen_pairs n m c samples b))).
Proof.
  intros. rewrite map_map. unfold show_rows, text_of, show_row. rewrite map_map. cbn [fst snd].
  rewrite <- gen_pairs_fields, map_map. reflexivity.
Qed.

Lemma gen_load_term : forall term n m c samples b cont eps, terminator term ->
  load_text (show_rows term (gen_fields n m c samples b)) cont eps =
  parse (gen_rows n m (map dval c) samples (map dval b)) cont eps.
Proof.
  intros term n m c samples b cont eps Ht. rewrite gen_text_of. rewrite load_printed.
  - f_equal. rewrite map_map. cbn [fst]. apply gen_pairs_values.
  - apply Forall_map. apply Forall_forall. intros r Hr. cbn [fst snd]. split; [|exact Ht].
    assert (Hdec : forall x v, dval x == v -> Forall (fun c => plain c = true) (show_dec x) /\ show_dec x <> [] /\
               exists q, to_float (show_dec x) = Ok q /\ q == v).
    { intros x v Hx. destruct (show_dec_plain x) as [H1 H2]. destruct (show_dec_float x) as [q [H3 H4]].
      split; [exact H1|]. split; [exact H2|]. exists q. split; [exact H3|]. rewrite H4. exact Hx. }
    assert (Hcol : forall l : list dec, Forall (fun fv => Forall (fun c => plain c = true) (fst fv) /\ fst fv <> [] /\
              exists q, to_float (fst fv) = Ok q /\ q == snd fv) (map (fun x => (show_dec x, dval x)) l)).
    { intros l. apply Forall_map. apply Forall_forall. intros x _. cbn [fst snd]. apply Hdec. reflexivity. }
    unfold gen_pairs in Hr. cbn [In] in Hr. destruct Hr as [<- | [<- | Hr]].
    + apply Forall_map. apply Forall_forall. intros v _. cbn [fst snd].
      destruct (show_nat_plain (Z.of_nat v)) as [H1 H2]; [lia|].
      destruct (show_nat_float (Z.of_nat v)) as [q [H3 H4]]; [lia|].
      split; [exact H1|]. split; [exact H2|]. exists q. split; [exact H3|]. rewrite H4. apply Qn_inject.
    + apply Hcol.
    + apply in_app_or in Hr. destruct Hr as [Hr | [<- | []]]; [|apply Hcol].
      apply in_concat in Hr. destruct Hr as [M [HM Hr]]. apply in_map_iff in HM. destruct HM as [M' [<- _]].
      apply in_map_iff in Hr. destruct Hr as [r' [<- _]]. apply Forall_map. apply Forall_forall.
      intros q _. cbn [fst snd]. apply Hdec. apply dval_entry.
Qed.

(** ** A blank line at the end *)

Lemma read_csv_blank : forall rows t, Forall row_ok rows -> terminator t ->
  read_csv (text_of rows ++ t) = rmap (rmap field_cell) (map fst rows ++ [[]]).
Proof.
  intros rows t H Ht. replace (text_of rows ++ t) with (text_of (rows ++ [([], t)])).
  - rewrite read_csv_rows.
    + rewrite map_app. reflexivity.
    + apply Forall_app. split; [exact H|]. constructor; [|constructor]. split; [discriminate|].
      split; [constructor|exact Ht].
  - unfold text_of. rewrite map_app, concat_app. cbn. rewrite app_nil_r. reflexivity.
Qed.

(** Reading succeeds only with a last row of the length of a scenario, or of one element. *)
Lemma parse_last : forall rows cont eps I, parse rows cont eps = Ok I ->
  length (last rows []) = i_m I \/ length (last rows []) = 1.
Proof.
  intros rows cont eps I H. unfold parse in H.
  destruct (geti rows 0) as [info|]; [|discriminate]; cbn [rbind] in H.
  destruct (geti info 0) as [fn|]; [|discriminate]; cbn [rbind] in H.
  destruct (geti info 2) as [fk|]; [|discriminate]; cbn [rbind] in H.
  destruct (geti info 1) as [fm|]; [|discriminate]; cbn [rbind] in H.
  destruct (_ || _) in H; [discriminate|].
  destruct (geti rows 1) as [c|]; [|discriminate]; cbn [rbind] in H.
  destruct (rmap _ _) as [A|] in H; [|discriminate]; cbn [rbind] in H.
  destruct (negb _) in H; [discriminate|]. destruct (Nat.eqb _ _) in H; [discriminate|].
  destruct (_ <? _)%Z in H; [discriminate|].
  unfold broadcast in H. destruct (Nat.eqb (length (last rows [])) (Z.to_nat (Qtrunc fm))) eqn:E.
  - cbn [rbind] in H. injection H as <-. cbn. left. apply Nat.eqb_eq. exact E.
  - destruct (last rows []) as [|v [|]]; try discriminate H. right. reflexivity.
Qed.

Lemma blank_line_fails : forall rows t cont eps I, Forall row_ok rows -> terminator t ->
  load_text (text_of rows ++ t) cont eps = Ok I -> i_m I = 0.
Proof.
  intros rows t cont eps I H Ht HI. unfold load_text in HI. rewrite read_csv_blank in HI by assumption.
  rewrite rmap_app in HI. destruct (rmap (rmap field_cell) (map fst rows)) as [cs|]; [|discriminate].
  cbn [rbind rmap] in HI. rewrite rmap_app in HI. destruct (rmap (rmap cell_num) cs) as [qs|]; [|discriminate].
  cbn [rbind rmap] in HI. apply parse_last in HI. rewrite last_last in HI. cbn in HI. lia.
Qed.
