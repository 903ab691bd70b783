(** Specification of the files of data/orlib and of the generated instances (C84). *)
From Coq Require Import Ascii String.
From Verif Require Import Base Spec TextSpec Instance.
From Verif Require Import OptModels Bounds Refine CostRefine Merge Violations ViolTable BigM Adaptive AdaptiveSpec NearSpec AgreeSpec Milp Report Main Export Campaign.
From Verif Require Import Text Orlib OrlibData.
Local Open Scope nat_scope.
Local Open Scope list_scope.

(** Digits, possibly with a point between them; the number is x = (z, d), that is z / 10^d. *)
Inductive dec_text : list ascii -> dec -> Prop :=
| DT_int : forall ip z, ip <> [] -> digits_value ip z -> dec_text ip (z, 0)
| DT_point : forall ip fp z, ip <> [] -> digits_value (ip ++ fp) z -> dec_text (ip ++ "."%char :: fp) (z, List.length fp).
(** Digits only. *)
Definition int_text (f : list ascii) (n : nat) : Prop := f <> [] /\ digits_value f (Z.of_nat n).
(** Fields separated by single spaces. *)
Inductive spaced : list (list ascii) -> list ascii -> Prop :=
| SP_none : spaced [] []
| SP_one : forall f, spaced [f] f
| SP_more : forall f fs t, fs <> [] -> spaced fs t -> spaced (f :: fs) (f ++ " "%char :: t).
Definition dec_line (xs : list dec) (l : list ascii) : Prop := exists fs, Forall2 dec_text fs xs /\ spaced fs l.
(** Sizes (and more) on the first line, the objective, the rows of the matrix, the right-hand side; other lines may follow. *)
Record orlib_file (o : orlib) (t : list ascii) : Prop := mkOrlibFile {
  of_lines : exists l0 lc lA lb more, t = concat (map (fun l => l ++ ["010"%char]) (l0 :: lc :: lA ++ lb :: more)) /\
    (exists fn fm extra, int_text fn (or_n o) /\ int_text fm (or_m o) /\ spaced (fn :: fm :: extra) l0 /\
       Forall (Forall (fun c => c <> " "%char /\ c <> "010"%char)) extra) /\
    dec_line (or_c o) lc /\ Forall2 dec_line (or_A o) lA /\ dec_line (or_b o) lb /\ Forall (Forall (fun c => c <> "010"%char)) more;
  of_rows : List.length (or_A o) = or_m o;
  of_columns : Forall (fun r => List.length r = or_n o) (or_A o) }.

(** Objective, matrix and right-hand side have the announced sizes and are not negative; the objective is not zero and at most
    1000 times every right-hand side; some item takes at most a fourth, less 0.1, of every right-hand side and has a positive objective. *)
Record orlib_fit (o : orlib) : Prop := mkOrlibFit {
  fit_n : 0 < or_n o;
  fit_c : List.length (or_c o) = or_n o /\ Forall (fun x => 0 <= fst x)%Z (or_c o);
  fit_b : List.length (or_b o) = or_m o /\ Forall (fun x => 0 <= fst x)%Z (or_b o);
  fit_A : forall i j, (0 <= mean o i j)%Q;
  fit_rhs : forall b, In b (or_b o) -> (qsum (map (fun x => round1 (dval x)) (or_c o)) <= 1000 * round1 (dval b))%Q;
  fit_item : exists j, j < or_n o /\ (0 < round1 (dval (nth j (or_c o) (0%Z, 0%nat))))%Q /\
    forall i, i < or_m o -> (4 * mean o i j + (1 # 10) <= round1 (dval (nth i (or_b o) (0%Z, 0%nat))))%Q }.

(** No normal number is more than 30 standard deviations above the mean. *)
Definition within30 (d : draws) : Prop := forall s i j, (dr_normal d s i j <= 30)%Q.

(** What the theorems on the methods ask of an instance. *)
Record ready (J : inst) : Prop := mkReady {
  rd_wf : wf_inst J;
  rd_packing : packing J;
  rd_eps : eps_ok J;
  rd_within : forall tau, (0 <= tau < 1 # 5000)%Q -> eps_within J tau;
  rd_level : (i_eps J < 1)%Q;
  rd_tolerated : tolerated J + 1 < i_k J;
  rd_items : 0 < i_n J;
  rd_near : near J;
  rd_sum : (0 < qsum (i_c J))%Q;
  rd_rhs : forall s i, s < i_k J -> i < i_m J -> (qsum (i_c J) <= 1000 * rhs J s i)%Q;
  rd_tight : i_cont J = false -> tight J }.
(** A point of positive value satisfies all scenarios. *)
Definition positive (J : inst) : Prop := exists y, det_feasible J (seq 0 (i_k J)) 0 y /\ (0 < obj J y)%Q.
(** Entry of item j in constraint i of scenario s. *)
Definition entry_of (J : inst) (s i j : nat) : Q := nth j (row J s i) 0%Q.

(** The instance files are those of the generator, with the random numbers d. *)
Definition stored (data : string -> res (list ascii)) (d : nat -> Z -> nat -> draws) : Prop :=
  forall name t, In (name, t) (generate_all orlib_texts orlib_scenarios orlib_copies d) -> data (shipped_inpath ++ name)%string = Ok t.
(** Every model is solved exactly, no signal arrives, and an hour is not reached. *)
Definition fine (m : computer) : Prop :=
  argsort_ok (w_argsort (mc_world m)) /\ sort_spec (w_sort (mc_world m)) /\ exact_answers (mc_world m) /\ undisturbed (mc_world m) (cfgM (mc_rfuel m)).
(** A cell with a time, highlighted or not. *)
Definition time_cell (e : entry) : Prop := exists q, e = ETime (finite q) \/ e = EBold (ETime (finite q)).
