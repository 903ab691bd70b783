(** Facts about file names (C50). *)
From Coq Require Import String Ascii DecimalString DecimalZ DecimalPos.
From Verif Require Import Base BaseFacts Instance InstanceFacts Main.
Local Open Scope string_scope.

Notation L := list_ascii_of_string.
Lemma L_app a b : L (a ++ b) = (L a ++ L b)%list.
Proof. induction a as [|c a IH]; [reflexivity|]. cbn [append list_ascii_of_string app]. now rewrite IH. Qed.
Lemma L_inj a b : L a = L b -> a = b.
Proof. intro H. rewrite <- (string_of_list_ascii_of_string a), <- (string_of_list_ascii_of_string b). now rewrite H. Qed.

Lemma str_inj a b : str_of_Z a = str_of_Z b -> a = b.
Proof.
  unfold str_of_Z. intro H.
  assert (G : forall z, Z.to_int z <> Decimal.Pos Decimal.Nil /\ Z.to_int z <> Decimal.Neg Decimal.Nil).
  { intros [|p|p]; cbn; split; try discriminate; intro C; injection C as C; now apply (DecimalPos.Unsigned.to_uint_nonnil p). }
  assert (E : Some (Z.to_int a) = Some (Z.to_int b)).
  { rewrite <- (NilZero.isi (Z.to_int a)) by apply G. rewrite <- (NilZero.isi (Z.to_int b)) by apply G. now rewrite H. }
  injection E as E. rewrite <- (DecimalZ.of_to a), <- (DecimalZ.of_to b). now rewrite E.
Qed.

(** Digits only. *)
Definition digit (c : ascii) : Prop := In c (L "0123456789").
Lemma uint_digits d : Forall digit (L (NilEmpty.string_of_uint d)).
Proof. induction d; cbn; constructor; auto; unfold digit; cbn; auto 20. Qed.
Lemma str_digits z : (0 <= z)%Z -> Forall digit (L (str_of_Z z)) /\ L (str_of_Z z) <> [].
Proof.
  intro H. unfold str_of_Z. destruct z as [|p|p]; [|cbn|lia].
  - cbn. split; [|discriminate]. constructor; [|constructor]. unfold digit; cbn; auto.
  - unfold NilZero.string_of_uint. destruct (Pos.to_uint p) as [|u|u|u|u|u|u|u|u|u|u] eqn:E;
      try (split; [apply (uint_digits (_ u))|cbn; discriminate]).
    exfalso. now apply (DecimalPos.Unsigned.to_uint_nonnil p).
Qed.
Lemma digit_not c : digit c -> c <> "-"%char /\ c <> "."%char /\ c <> "/"%char.
Proof. unfold digit. cbn. intros H. repeat destruct H as [<-|H]; try (repeat split; discriminate). destruct H. Qed.
Lemma str_no z c : (0 <= z)%Z -> c = "-"%char \/ c = "."%char \/ c = "/"%char -> ~ In c (L (str_of_Z z)).
Proof.
  intros H Hc Hin. destruct (str_digits z H) as [F _]. rewrite Forall_forall in F. apply F, digit_not in Hin.
  destruct Hin as (H1 & H2 & H3). destruct Hc as [->|[->| ->]]; contradiction.
Qed.

(** Splitting at the last separator is unique. *)
Lemma last_sep {A} (x : A) a b a' b' : ~ In x b -> ~ In x b' -> (a ++ x :: b)%list = (a' ++ x :: b')%list -> a = a' /\ b = b'.
Proof.
  intros Hb Hb'. revert a'. induction a as [|c a IH]; intros [|c' a'] E; cbn [app] in E.
  - injection E as E. auto.
  - injection E as <- E. exfalso. apply Hb. rewrite E. apply in_or_app. right. now left.
  - injection E as -> E. exfalso. apply Hb'. rewrite <- E. apply in_or_app. right. now left.
  - injection E as <- E. destruct (IH a' E) as [-> ->]. auto.
Qed.

Lemma fmt0_nonneg q : (0 <= q)%Q -> fmt0 q = str_of_Z (Qrnd q) /\ (0 <= Qrnd q)%Z.
Proof.
  intro H. unfold fmt0. destruct (Qlt_bool q 0) eqn:E; [apply Qlt_bool_iff in E; lra|]. split; [reflexivity|].
  apply (Qrnd_mono 0 q) in H. exact H.
Qed.

Section Names.
  Variables dir : string.
  Lemma out_name_inj f f' p p' c c' m m' : (0 <= p)%Q -> (0 <= p')%Q -> (0 <= m)%Z -> (0 <= m')%Z ->
    out_name dir f p c m = out_name dir f' p' c' m' -> f = f' /\ Qrnd p = Qrnd p' /\ c = c' /\ m = m'.
  Proof.
    intros Hp Hp' Hm Hm' E. destruct (fmt0_nonneg p Hp) as [E1 N1]. destruct (fmt0_nonneg p' Hp') as [E2 N2].
    apply (f_equal L) in E. unfold out_name in E. rewrite E1, E2 in E. rewrite !L_app in E. apply app_inv_head in E.
    rewrite !app_assoc in E. apply app_inv_tail in E.
    assert (C : forall b : bool, L (if b then "-1-" else "-0-") = (["-"%char; (if b then "1" else "0")%char] ++ ["-"%char])%list) by (intros []; reflexivity).
    rewrite !C in E. rewrite !app_assoc in E.
    rewrite <- (app_assoc _ ["-"%char] (L (str_of_Z m))) in E. rewrite <- (app_assoc _ ["-"%char] (L (str_of_Z m'))) in E. cbn [app] in E.
    apply last_sep in E as [E EM]; [|apply str_no; auto|apply str_no; auto].
    apply L_inj, str_inj in EM.
    assert (S : forall (b : bool) A, (A ++ ["-"%char; (if b then "1" else "0")%char])%list = ((A ++ ["-"%char]) ++ [(if b then "1" else "0")%char])%list)
      by (intros; now rewrite <- app_assoc).
    rewrite !S in E. apply app_inj_tail in E as [E EC]. apply app_inj_tail in E as [E _].
    cbn [list_ascii_of_string] in E. rewrite <- !app_assoc in E. cbn [app] in E. apply last_sep in E as [EF EP]; [|apply str_no; auto|apply str_no; auto].
    apply L_inj in EF. apply L_inj, str_inj in EP. repeat split; auto. destruct c, c'; congruence.
  Qed.

  Definition pathlike (d : string) : Prop := d = "" \/ exists d', d = d' ++ "/".
  Definition no_char (c : ascii) (s : string) : Prop := ~ In c (L s).

  Lemma basename_no s : no_char "/" s -> basename s = s.
  Proof.
    induction s as [|c s IH]; intro H; [reflexivity|]. cbn [basename]. rewrite IH by (intro; apply H; now right).
    destruct (Ascii.eqb_spec c "/"); [exfalso; apply H; left; now subst|]. now rewrite String.eqb_refl.
  Qed.
  Lemma basename_len s : String.length (basename s) <= String.length s.
  Proof. induction s as [|c s IH]; [cbn; lia|]. cbn [basename]. destruct (Ascii.eqb c "/"); [|destruct (String.eqb _ _)]; cbn [String.length]; lia. Qed.
  Lemma basename_slash d b : no_char "/" b -> basename (d ++ String "/" b) = b.
  Proof.
    intro H. induction d as [|c d IH]; cbn [append basename].
    - now apply basename_no.
    - rewrite IH. destruct (Ascii.eqb c "/"); [reflexivity|]. destruct (String.eqb_spec b (d ++ String "/" b)) as [E|_]; [|reflexivity].
      exfalso. apply (f_equal String.length) in E. assert (G : forall d, String.length (d ++ String "/" b) = String.length d + Datatypes.S (String.length b)).
      { induction d0 as [|c0 d0 IH0]; [reflexivity|]. cbn [append String.length]. now rewrite IH0. }
      rewrite G in E. lia.
  Qed.
  Lemma app_str_assoc a b c : (a ++ b) ++ c = a ++ (b ++ c).
  Proof. induction a as [|x a IH]; [reflexivity|]. cbn [append]. now rewrite IH. Qed.
  Lemma basename_path d b : pathlike d -> no_char "/" b -> basename (d ++ b) = b.
  Proof.
    intros [->|(d' & ->)] H; [now apply basename_no|]. rewrite app_str_assoc. now apply basename_slash.
  Qed.
  Lemma before_dot_none e : no_char "." e -> before_dot e = None.
  Proof.
    induction e as [|c e IH]; intro H; [reflexivity|]. cbn [before_dot]. rewrite IH by (intro; apply H; now right).
    destruct (Ascii.eqb_spec c "."); [exfalso; apply H; left; now subst|reflexivity].
  Qed.
  Lemma before_dot_app r e : no_char "." e -> before_dot (r ++ String "." e) = Some r.
  Proof.
    intro H. induction r as [|c r IH]; cbn [append before_dot]; [now rewrite before_dot_none|]. now rewrite IH.
  Qed.
  Lemma all_dots_false r c : In c (L r) -> c <> "."%char -> all_dots r = false.
  Proof.
    induction r as [|x r IH]; intros H Hc; [destruct H|]. cbn [all_dots]. destruct H as [->|H].
    - destruct (Ascii.eqb_spec c "."); [contradiction|reflexivity].
    - rewrite (IH H Hc). apply andb_false_r.
  Qed.
  Lemma file_name_spec d r e c : pathlike d -> no_char "/" r -> no_char "/" e -> no_char "." e -> In c (L r) -> c <> "."%char ->
    file_name (d ++ r ++ "." ++ e) = r.
  Proof.
    intros Hd Hr He He' Hc Hn. unfold file_name. rewrite basename_path; [|exact Hd|].
    - unfold splitext_root. cbn [append]. rewrite before_dot_app by exact He'. now rewrite (all_dots_false r c).
    - intro H. rewrite !L_app in H. apply in_app_or in H as [H|H]; [exact (Hr H)|]. apply in_app_or in H as [H|H]; [|exact (He H)].
      cbn in H. destruct H as [H|[]]. discriminate.
  Qed.

  (** main.py and export_results.py name the same file. *)
  Lemma names_agree inpath i s j pct cont m : pathlike inpath -> no_char "/" i -> (0 <= s)%Z -> (0 <= j)%Z -> (0 <= pct)%Q ->
    (out_name dir (file_name (inpath ++ (i ++ "-" ++ str_of_Z s ++ "-" ++ str_of_Z j) ++ "." ++ "csv")) pct cont m =
     read_name dir i s j pct (if cont then 1 else 0) m <-> Qrnd pct = Qtrunc pct).
  Proof.
    intros Hi Hn Hs Hj Hp. rewrite (file_name_spec inpath _ "csv" "-"); [|exact Hi| | | | |discriminate].
    - destruct (fmt0_nonneg pct Hp) as [E1 N1]. unfold out_name, read_name. rewrite E1.
      assert (C : (if cont then "-1-" else "-0-") = "-" ++ str_of_Z (if cont then 1 else 0) ++ "-") by (destruct cont; reflexivity). rewrite C.
      rewrite !app_str_assoc. split.
      + intro E. apply (f_equal L) in E. rewrite !L_app in E. do 7 apply app_inv_head in E. rewrite !app_assoc in E.
        do 5 apply app_inv_tail in E. apply L_inj, str_inj in E. exact E.
      + now intros ->.
    - intro H. rewrite !L_app in H. repeat (apply in_app_or in H as [H|H]).
      + exact (Hn H).
      + cbn in H. destruct H as [H|[]]. discriminate.
      + revert H. apply str_no; auto.
      + cbn in H. destruct H as [H|[]]. discriminate.
      + revert H. apply str_no; auto.
    - cbn. intros [H|[H|[H|[]]]]; discriminate.
    - cbn. intros [H|[H|[H|[]]]]; discriminate.
    - rewrite L_app. apply in_or_app. right. rewrite L_app. apply in_or_app. left. now left.
  Qed.
End Names.
