(** Reading of the files of data/orlib (C84). *)
From Coq Require Import Ascii String QArith Qabs.
From Verif Require Import Base BaseFacts Spec TextSpec Instance.
From Verif Require Import Text TextFacts TextIff OptModels Adaptive Orlib OrlibSpec.
Local Open Scope nat_scope.
Local Open Scope list_scope.

Lemma split_on_field c f : Forall (fun a => a <> c) f -> split_on c f = [f].
Proof.
  induction 1 as [|a f N F IH]; [reflexivity|]. cbn [split_on]. destruct (Ascii.eqb a c) eqn:E; [apply Ascii.eqb_eq in E; contradiction|]. now rewrite IH.
Qed.
Lemma split_on_cons c f t : Forall (fun a => a <> c) f -> split_on c (f ++ c :: t) = f :: split_on c t.
Proof.
  induction 1 as [|a f N F IH]; cbn [app split_on]; [now rewrite Ascii.eqb_refl|].
  destruct (Ascii.eqb a c) eqn:E; [apply Ascii.eqb_eq in E; contradiction|]. now rewrite IH.
Qed.
Lemma split_spaced fs l : Forall (Forall (fun a => a <> " "%char)) fs -> fs <> [] -> spaced fs l -> split_on space_char l = fs.
Proof.
  intros F N H. induction H as [|f|f fs t NE H IH]; [contradiction| |].
  - inversion F as [|? ? Ff _]; subst. now apply split_on_field.
  - inversion F as [|? ? Ff Ft]; subst. unfold space_char in *. rewrite split_on_cons by exact Ff. f_equal. now apply IH.
Qed.
Lemma spaced_chars (P : ascii -> Prop) fs l : P " "%char -> Forall (Forall P) fs -> spaced fs l -> Forall P l.
Proof.
  intros S F H. induction H as [|f|f fs t NE H IH]; [constructor| |]; inversion F as [|? ? Ff Ft]; subst; [exact Ff|].
  apply Forall_app. split; [exact Ff|]. constructor; [exact S|]. now apply IH.
Qed.
Lemma spaced_nonempty f fs l : f <> [] -> spaced (f :: fs) l -> l <> [].
Proof. intros N H. inversion H; subst; [exact N|]. destruct f; [contradiction|discriminate]. Qed.

Lemma file_lines_concat ls : Forall (Forall (fun c => c <> "010"%char)) ls -> file_lines (concat (map (fun l => l ++ ["010"%char]) ls)) = ls.
Proof.
  intro F. assert (E : split_on LF (concat (map (fun l => l ++ ["010"%char]) ls)) = ls ++ [[]]).
  { induction F as [|l ls N F IH]; [reflexivity|]. cbn [map concat]. rewrite <- app_assoc. cbn [app]. unfold LF in *.
    rewrite split_on_cons by exact N. now rewrite IH. }
  unfold file_lines. rewrite E, rev_app_distr. cbn [rev app]. now rewrite rev_involutive.
Qed.

Lemma digit_not c d : is_digit c = true -> is_digit d = false -> c <> d.
Proof. intros H N ->. congruence. Qed.
Lemma dec_text_ok f x : dec_text f x -> read_dec f = Ok x /\ f <> [] /\ Forall (fun c => c <> " "%char /\ c <> "010"%char) f.
Proof.
  assert (K : forall l, Forall (fun c => is_digit c = true) l -> Forall (fun c => c <> " "%char /\ c <> "010"%char) l).
  { intros l H. eapply Forall_impl; [|exact H]. intros c Hc. split; eapply digit_not; eauto. }
  intros [ip z N V|ip fp z N V]; apply digits_value_spec in V as [D <-].
  - split; [|split; [exact N|now apply K]]. unfold read_dec. rewrite <- (app_nil_r ip) at 1.
    rewrite take_digits_app by (auto; discriminate). destruct ip; [contradiction|reflexivity].
  - assert (D' := D). apply Forall_app in D' as [Di Df]. split; [|split].
    + unfold read_dec. rewrite take_digits_app by (auto; cbn; intros ? [= <-]; reflexivity). destruct ip as [|a ip]; [contradiction|].
      change (Ascii.eqb "." dot_char) with true. cbn [andb]. replace (forallb is_digit fp) with true; [reflexivity|].
      symmetry. apply forallb_forall. rewrite Forall_forall in Df. exact Df.
    + destruct ip; [contradiction|discriminate].
    + apply Forall_app. split; [now apply K|]. constructor; [split; discriminate|now apply K].
Qed.
Lemma int_text_ok f n : int_text f n -> read_int f = Ok n /\ f <> [] /\ Forall (fun c => c <> " "%char /\ c <> "010"%char) f.
Proof.
  intros [N V]. split; [|apply (dec_text_ok f (Z.of_nat n, 0)); now constructor].
  apply digits_value_spec in V as [D V]. unfold read_int. rewrite <- (app_nil_r f) at 1.
  rewrite take_digits_app by (auto; discriminate). destruct f; [contradiction|]. rewrite V. now rewrite Nat2Z.id.
Qed.

Definition fields_of (l : list ascii) : list (list ascii) := match l with [] => [] | _ => split_on space_char l end.
Lemma fields_spaced f fs l : f <> [] -> Forall (Forall (fun a => a <> " "%char)) (f :: fs) -> spaced (f :: fs) l -> fields_of l = f :: fs.
Proof.
  intros N F H. unfold fields_of. assert (NL := spaced_nonempty _ _ _ N H). destruct l; [contradiction|]. now apply split_spaced.
Qed.
Lemma rmap_forall2 {A B} (f : A -> res B) (R : A -> B -> Prop) l l' : (forall a b, R a b -> f a = Ok b) -> Forall2 R l l' -> rmap f l = Ok l'.
Proof. intros H. induction 1 as [|a b l l' E F IH]; [reflexivity|]. cbn [rmap]. rewrite (H _ _ E), IH. reflexivity. Qed.
Lemma dec_line_ok xs l : dec_line xs l -> rmap read_dec (fields_of l) = Ok xs /\ Forall (fun c => c <> "010"%char) l.
Proof.
  intros (fs & F & S). assert (C : Forall (Forall (fun c => c <> " "%char /\ c <> "010"%char)) fs).
  { clear S. induction F as [|f x fs xs H F IH]; constructor; [apply (dec_text_ok f x H)|exact IH]. }
  split.
  - destruct F as [|f x fs xs H F]; [inversion S; subst; reflexivity|].
    rewrite (fields_spaced f fs l); [|apply (dec_text_ok f x H)| |exact S].
    + apply (rmap_forall2 read_dec dec_text); [intros a b K; apply (dec_text_ok a b K)|now constructor].
    + eapply Forall_impl; [|exact C]. intros a K. eapply Forall_impl; [|exact K]. now intros c [? _].
  - eapply spaced_chars; [|eapply Forall_impl; [|exact C]; intros a K; eapply Forall_impl; [|exact K]; intros c Hc; exact (proj2 Hc)|exact S].
    discriminate.
Qed.

Theorem orlib_read o t : orlib_file o t -> read_orlib t = Ok o.
Proof.
  intros [(l0 & lc & lA & lb & more & -> & (fn & fm & extra & HN & HM & S0 & FE) & HC & HA & HB & FM) LM FN].
  apply int_text_ok in HN as (RN & NN & CN), HM as (RM & NM & CM). apply dec_line_ok in HC as [RC LC], HB as [RB LB].
  assert (F0 : Forall (Forall (fun c => c <> " "%char /\ c <> "010"%char)) (fn :: fm :: extra)) by now repeat constructor.
  assert (L0 : Forall (fun c => c <> "010"%char) l0).
  { eapply spaced_chars; [|eapply Forall_impl; [|exact F0]; intros a K; eapply Forall_impl; [|exact K]; intros c Hc; exact (proj2 Hc)|exact S0]. discriminate. }
  assert (LA : Forall (Forall (fun c => c <> "010"%char)) lA /\ rmap (rmap read_dec) (map fields_of lA) = Ok (or_A o)).
  { clear - HA. induction HA as [|r l rs ls H F [IH1 IH2]]; [split; [constructor|reflexivity]|].
    apply dec_line_ok in H as [H1 H2]. split; [now constructor|]. cbn [map]. change (rmap (rmap read_dec) (fields_of l :: map fields_of ls)) with
      (rbind (rmap read_dec (fields_of l)) (fun b => rbind (rmap (rmap read_dec) (map fields_of ls)) (fun bs => Ok (b :: bs)))).
    rewrite H1, IH2. reflexivity. }
  destruct LA as [LA RA]. assert (EL : List.length lA = or_m o) by (rewrite <- LM; symmetry; eapply Forall2_len; exact HA).
  unfold read_orlib, orlib_rows. rewrite file_lines_concat by (repeat constructor; auto; apply Forall_app; split; auto).
  change (map (fun l => match l with [] => [] | _ => split_on space_char l end)) with (map fields_of). cbn [map]. rewrite map_app. cbn [map].
  rewrite (fields_spaced fn (fm :: extra) l0 NN) by (first [exact S0|eapply Forall_impl; [|exact F0]; intros a K; eapply Forall_impl; [|exact K]; intros c Hc; exact (proj1 Hc)]).
  cbn [firstn rmap]. rewrite RN, RM. cbn [rbind]. rewrite RC. cbn [rbind].
  rewrite firstn_app, firstn_all2 by (rewrite map_length; lia). rewrite map_length, EL, Nat.sub_diag. cbn [firstn]. rewrite app_nil_r, RA. cbn [rbind].
  rewrite nth_error_app2 by (rewrite map_length; lia). rewrite map_length, EL, Nat.sub_diag. cbn [nth_error]. rewrite RB. cbn [rbind].
  replace (same_length (or_A o)) with true; [|symmetry].
  - cbn [negb]. replace (forallb (fun r => or_n o <=? List.length r) (or_A o)) with true; [now destruct o|]. symmetry. apply forallb_forall.
    intros r Hr. rewrite Forall_forall in FN. rewrite (FN r Hr). apply Nat.leb_refl.
  - destruct (or_A o) as [|r M]; [reflexivity|]. inversion FN as [|? ? E F]; subst. apply forallb_forall. intros r' Hr. rewrite Forall_forall in F.
    rewrite (F r' Hr), E. apply Nat.eqb_refl.
Qed.

(** Conversely, a text that ends with an end of line and is read is such a file. *)
Lemma split_on_spec c t : spaced (split_on c t) (map (fun a => if Ascii.eqb a c then " "%char else a) t) /\ Forall (Forall (fun a => a <> c)) (split_on c t) /\ split_on c t <> [] /\
  t = tl (concat (map (cons c) (split_on c t))).
Proof.
  induction t as [|a t (IH1 & IH2 & IH3 & IH4)]; [repeat constructor; discriminate|]. cbn [split_on map]. destruct (Ascii.eqb a c) eqn:E.
  - apply Ascii.eqb_eq in E. subst a. split; [|split; [|split]]; [|now repeat constructor|discriminate|].
    + apply (SP_more []); assumption.
    + cbn [map concat tl app]. destruct (split_on c t) as [|f fs]; [contradiction|]. cbn [map concat app tl] in *. now f_equal.
  - destruct (split_on c t) as [|f fs]; [contradiction|]. split; [|split; [|split]]; [| |discriminate|].
    + inversion IH1; subst; [apply SP_one|]. now apply (SP_more (a :: f)).
    + inversion IH2; subst. constructor; [|assumption]. constructor; [|assumption]. intros ->. now rewrite Ascii.eqb_refl in E.
    + cbn [map concat app tl] in *. now f_equal.
Qed.
Lemma split_space_spaced l : spaced (split_on space_char l) l.
Proof.
  destruct (split_on_spec space_char l) as (H & _). replace (map _ l) with l in H; [exact H|]. clear H. induction l as [|a l IH]; [reflexivity|]. cbn [map].
  rewrite <- IH. destruct (Ascii.eqb a space_char) eqn:E; [|reflexivity]. apply Ascii.eqb_eq in E. now rewrite E.
Qed.
Lemma fields_of_spaced l : spaced (fields_of l) l /\ Forall (Forall (fun a => a <> " "%char)) (fields_of l) /\
  (forall P : ascii -> Prop, Forall P l -> Forall (Forall P) (fields_of l)).
Proof.
  assert (K : forall c t (P : ascii -> Prop), Forall P t -> Forall (Forall P) (split_on c t)).
  { intros c t P. induction 1 as [|a t H F IH]; [now repeat constructor|]. cbn [split_on]. destruct (Ascii.eqb a c); [now constructor|].
    destruct (split_on c t); [now repeat constructor|]. inversion IH; subst. constructor; [now constructor|assumption]. }
  destruct l as [|a l]; [repeat constructor|]. unfold fields_of. split; [apply split_space_spaced|]. split; [apply (split_on_spec space_char)|]. intros P. apply K.
Qed.
Lemma file_lines_spec t : (exists p, t = p ++ ["010"%char]) -> t = concat (map (fun l => l ++ ["010"%char]) (file_lines t)) /\ Forall (Forall (fun c => c <> "010"%char)) (file_lines t).
Proof.
  intros [p ->]. unfold file_lines. assert (E : forall p, split_on LF (p ++ [LF]) = split_on LF p ++ [[]]).
  { intro q. induction q as [|a q IH]; [reflexivity|]. cbn [app split_on]. rewrite IH. destruct (Ascii.eqb a LF); [reflexivity|].
    destruct (split_on_spec LF q) as (_ & _ & N & _). destruct (split_on LF q); [contradiction|reflexivity]. }
  change "010"%char with LF. rewrite E, rev_app_distr. cbn [rev app]. rewrite rev_involutive. destruct (split_on_spec LF p) as (_ & F & N & H). split; [|exact F].
  rewrite H at 1. clear H E F. generalize N. generalize (split_on LF p). clear. intros ls N. destruct ls as [|l ls]; [contradiction|]. cbn [map concat tl app]. clear N.
  revert l. induction ls as [|l' ls IH]; intro l; [cbn; now rewrite !app_nil_r|]. specialize (IH l'). cbn [map concat] in *.
  rewrite <- IH, <- !app_assoc. reflexivity.
Qed.
Lemma take_digits_spec l d r : take_digits l = (d, r) -> l = d ++ r /\ Forall (fun c => is_digit c = true) d.
Proof.
  revert d r. induction l as [|c l IH]; intros d r; cbn [take_digits]; [intros [= <- <-]; auto|]. destruct (is_digit c) eqn:E; [|intros [= <- <-]; auto].
  destruct (take_digits l) as [d' r']. intros [= <- <-]. destruct (IH d' r' eq_refl) as [-> F]. split; [reflexivity|now constructor].
Qed.
Lemma dec_val_nonneg l : Forall (fun c => is_digit c = true) l -> (0 <= dec_val l)%Z.
Proof.
  induction l as [|c l IH] using rev_ind; [intros _; vm_compute; discriminate|]. intro F. apply Forall_app in F as [F1 F2]. inversion F2 as [|? ? D _]; subst.
  rewrite dec_val_app. specialize (IH F1). apply is_digit_char in D as [d D]. apply digit_char_spec in D as [_ D]. change (dec_val [c]) with (10 * 0 + digit c)%Z. rewrite D.
  cbn [List.length]. change (10 ^ Z.of_nat 1)%Z with 10%Z. lia.
Qed.
Lemma read_dec_text f x : read_dec f = Ok x -> dec_text f x.
Proof.
  unfold read_dec. destruct (take_digits f) as [ip r] eqn:E. apply take_digits_spec in E as [-> D]. destruct ip as [|a ip]; [discriminate|]. destruct r as [|p fp].
  - intros [= <-]. rewrite app_nil_r. apply DT_int; [discriminate|now apply digits_value_ex].
  - destruct (Ascii.eqb p dot_char) eqn:P; [|discriminate]. destruct (forallb is_digit fp) eqn:FP; [|discriminate]. apply Ascii.eqb_eq in P. subst p. cbn [andb].
    intros [= <-]. apply (DT_point (a :: ip)); [discriminate|]. apply (digits_value_ex ((a :: ip) ++ fp)). apply Forall_app. split; [exact D|]. now apply Forall_forall, forallb_forall.
Qed.
Lemma read_int_text f n : read_int f = Ok n -> int_text f n.
Proof.
  unfold read_int. destruct (take_digits f) as [ip r] eqn:E. apply take_digits_spec in E as [-> D]. destruct ip as [|a ip]; [discriminate|]. destruct r as [|p fp]; [|discriminate].
  rewrite app_nil_r. intros [= <-]. split; [discriminate|]. rewrite Z2Nat.id; [now apply digits_value_ex|]. now apply (dec_val_nonneg (a :: ip)).
Qed.
Lemma rmap_inv {A B} (f : A -> res B) l l' : rmap f l = Ok l' -> Forall2 (fun a b => f a = Ok b) l l'.
Proof.
  revert l'. induction l as [|a l IH]; cbn [rmap]; intros l' H; [injection H as <-; constructor|]. destruct (f a) as [b|] eqn:E; [|discriminate H]. cbn [rbind] in H.
  destruct (rmap f l) as [bs|] eqn:R; [|discriminate H]. cbn [rbind] in H. injection H as <-. constructor; auto.
Qed.
Lemma dec_line_of l xs : rmap read_dec (fields_of l) = Ok xs -> dec_line xs l.
Proof.
  intro H. exists (fields_of l). split; [|apply fields_of_spaced]. apply rmap_inv in H. induction H as [|f x fs ys E H IH]; constructor; [now apply read_dec_text|exact IH].
Qed.

Theorem orlib_file_of o t : (exists p, t = p ++ ["010"%char]) -> List.length (or_A o) = or_m o -> Forall (fun r => List.length r = or_n o) (or_A o) ->
  read_orlib t = Ok o -> orlib_file o t.
Proof.
  intros NL LM FN. destruct (file_lines_spec t NL) as [E F]. unfold read_orlib, orlib_rows. change (map (fun l => match l with [] => [] | _ => split_on space_char l end)) with (map fields_of).
  destruct (file_lines t) as [|l0 [|lc rest]]; try discriminate. cbn [map]. inversion F as [|? ? F0 F']; subst. inversion F' as [|? ? Fc Fr]; subst.
  destruct (fields_of_spaced l0) as (S0 & C0 & P0). specialize (P0 _ F0). destruct (fields_of l0) as [|fn [|fm extra]]; cbn [firstn rmap rbind]; try discriminate.
  { destruct (read_int fn); discriminate. }
  destruct (read_int fn) as [n|] eqn:RN; [|discriminate]. cbn [rbind]. destruct (read_int fm) as [m|] eqn:RM; [|discriminate]. cbn [rbind].
  destruct (rmap read_dec (fields_of lc)) as [c|] eqn:RC; [|discriminate]. cbn [rbind]. destruct (rmap (rmap read_dec) (firstn m (map fields_of rest))) as [M|] eqn:RA; [|discriminate].
  cbn [rbind]. destruct (negb (same_length M)); [discriminate|]. rewrite nth_error_map. destruct (nth_error rest m) as [lb|] eqn:NB; [|discriminate]. cbn [option_map].
  destruct (rmap read_dec (fields_of lb)) as [b|] eqn:RB; [|discriminate]. cbn [rbind]. destruct (forallb _ M); [|discriminate]. intros [= <-]. cbn [or_n or_m or_c or_A or_b] in *.
  constructor; cbn [or_n or_m or_c or_A or_b]; auto. apply nth_error_split in NB as (lA & more & -> & LL).
  exists l0, lc, lA, lb, more. split; [reflexivity|]. apply Forall_app in Fr as [FA FB]. inversion FB as [|? ? _ FM]; subst.
  split; [|split; [now apply dec_line_of|split; [|split; [now apply dec_line_of|exact FM]]]].
  - exists fn, fm, extra. split; [now apply read_int_text|]. split; [now apply read_int_text|]. split; [exact S0|].
    inversion C0 as [|? ? _ C1]; subst. inversion C1 as [|? ? _ C2]; subst. inversion P0 as [|? ? _ P1]; subst. inversion P1 as [|? ? _ P2]; subst.
    clear - C2 P2. induction C2 as [|f fs H C IH]; constructor; inversion P2; subst; auto. clear - H H2. induction H; constructor; inversion H2; subst; auto.
  - rewrite map_app, firstn_app, firstn_all2 in RA by (rewrite map_length; lia). rewrite map_length, LL, Nat.sub_diag in RA. cbn [firstn] in RA. rewrite app_nil_r in RA.
    apply rmap_inv in RA. clear - RA. revert M RA. induction lA as [|l lA IH]; intros M H; inversion H; subst; constructor; [now apply dec_line_of|now apply IH].
Qed.
