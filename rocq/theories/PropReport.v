(** Properties of the result rows, of main.py and of the file names: C48, C49, C50, C54. *)
From Coq Require Import String Ascii.
From Verif Require Import Base BaseFacts Spec Instance OptModels Bounds Refine CostRefine Merge Violations BigM Adaptive AdaptiveSpec
  Milp AdaptiveEx AdaptiveEx2 MilpEx Report Main ReportFacts NameFacts Floats ReportEx.

(** ** C48 *)
(** After every solve that ends normally.  [near3 q g]: g is a multiple of 10^-3 at distance at most 5*10^-4 of q. *)
Theorem C48_milp_row : forall w I cf name um m bt s final, milp_run w I cf um (bigm_of_string m) = (Ok bt, s) -> 0 < i_k I ->
  exists v u, a_vLB s = Fin v /\ a_vUB s = Fin u /\
    (i_n I = 0 -> milp_row name I cf um m bt (Some final) s = Err IndexError) /\
    (0 < i_n I -> (v == 0)%Q -> milp_row name I cf um m bt (Some final) s = Err ZeroDivisionError) /\
    (0 < i_n I -> ~ (v == 0)%Q -> um = false -> milp_row name I cf um m bt (Some final) s = Err AttributeError) /\
    (0 < i_n I -> ~ (v == 0)%Q -> um = true ->
      exists row r t, milp_row name I cf um m bt (Some final) s = Ok row /\ List.length row = 15 /\ read_row row = Ok (CText name, r) /\
        bt = Some t /\ (t <= c_limit cf)%Q /\ row_at (CText name, r) 10 = Ok (finite t) /\
        row_at (CText name, r) 9 = Ok (finite (if String.eqb m "naive" then 1 else 0)%Q) /\
        row_at (CText name, r) 1 = Ok (finite (Qn (i_n I))) /\ row_at (CText name, r) 2 = Ok (finite (Qn (i_m I))) /\
        row_at (CText name, r) 3 = Ok (finite (Qn (i_k I))) /\ row_at (CText name, r) 8 = Ok (finite 1) /\
        (exists g, row_at (CText name, r) 5 = Ok g /\ near3 (i_eps I) g) /\ (exists g, row_at (CText name, r) 6 = Ok g /\ near3 (c_limit cf) g) /\
        (exists g, row_at (CText name, r) 7 = Ok g /\ near3 (100 * c_gap cf) g) /\
        row_at (CText name, r) 4 = Ok (finite (if i_cont I then 1 else 0)%Q) /\
        (exists g, row_neg (CText name, r) 4 = Ok g /\ near3 (final - w_clock w 0) g) /\
        (exists g, row_neg (CText name, r) 3 = Ok g /\ near3 v g) /\
        (exists g, row_neg (CText name, r) 2 = Ok g /\ near3 u g) /\
        (exists g, row_neg (CText name, r) 1 = Ok g /\ near3 (100 * ((u - v) / v)) g)).
Proof. exact milp_row_spec. Qed.
Print Assumptions C48_milp_row.

Example C48_example : row_of true "song" = Ok [CText "mk-4-1-9-1"; CInt 4; CInt 1; CInt 9; CInt 0; CFloat (Some (Fin (333 # 1000)));
    CFloat (Some (Fin 100)); CFloat (Some (Fin (1 # 100))); CInt 1; CInt 0; CFloat (Some (Fin 0)); CFloat (Some (Fin (25 # 2)));
    CFloat (Some (Fin 14)); CFloat (Some (Fin 14)); CFloat (Some (Fin 0))]%Q /\
  row_of false "naive" = Err AttributeError /\ row_of true "qiu_et_al" = Err ValueError /\ row_zero = Err ZeroDivisionError.
Proof. vm_compute. auto. Qed.

(** ** C49 *)
(** Whatever the instance, the run and the other parameters: a split method accepted by the constructor has no code. *)
Theorem C49_row_keyerror : forall name I cf split init proj acc x started final s, init_refiner split acc = Ok x ->
  adaptive_row name I cf split init proj true started final s = Err KeyError.
Proof. exact adaptive_row_keyerror. Qed.
Print Assumptions C49_row_keyerror.

(** A row exists for the names of two codes only; it would have 18 cells, in this order. *)
Theorem C49_row_layout : forall name I cf split init proj solved started final s row,
  adaptive_row name I cf split init proj solved started final s = Ok row ->
  in_dict split /\ in_dict init /\ in_dict proj /\ solved = true /\ started = true /\
  List.length row = 18 /\ exists r t, final = Some t /\ read_row row = Ok (CText name, r) /\
    row_at (CText name, r) 1 = Ok (finite (Qn (i_n I))) /\ row_at (CText name, r) 2 = Ok (finite (Qn (i_m I))) /\
    row_at (CText name, r) 3 = Ok (finite (Qn (i_k I))) /\ row_at (CText name, r) 4 = Ok (finite (if i_cont I then 1 else 0)%Q) /\
    (exists g, row_at (CText name, r) 5 = Ok g /\ near3 (i_eps I) g) /\ (exists g, row_at (CText name, r) 6 = Ok g /\ near3 (c_limit cf) g) /\
    (exists g, row_at (CText name, r) 7 = Ok g /\ near3 (100 * c_gap cf) g) /\
    row_at (CText name, r) 8 = Ok (finite (if c_bigM cf then 1 else 0)%Q) /\
    row_at (CText name, r) 9 = Ok (finite (dict_code split)) /\ row_at (CText name, r) 10 = Ok (finite (dict_code init)) /\
    row_at (CText name, r) 11 = Ok (finite (dict_code proj)) /\
    row_neg (CText name, r) 6 = Ok (finite (Qn (a_iter s))) /\ row_neg (CText name, r) 5 = Ok (finite (Qn (v_k (a_view s)))) /\
    (exists g, row_neg (CText name, r) 4 = Ok g /\ near3 (t - a_start s) g) /\
    (forall v, a_vLB s = Fin v -> exists g, row_neg (CText name, r) 3 = Ok g /\ near3 v g) /\
    (forall u, a_vUB s = Fin u -> exists g, row_neg (CText name, r) 2 = Ok g /\ near3 u g) /\
    (forall v u, a_vLB s = Fin v -> a_vUB s = Fin u -> ~ (v == 0)%Q -> exists g, row_neg (CText name, r) 1 = Ok g /\ near3 (100 * ((u - v) / v)) g).
Proof. exact adaptive_row_inv. Qed.
Print Assumptions C49_row_layout.

(** main.py with METHOD 3 or 4: nothing is written; TypeError as soon as the construction succeeds. *)
Theorem C49_main_fails : forall w I name path fuel rfuel METHOD, METHOD = 3%Z \/ METHOD = 4%Z ->
  let cf := if (METHOD =? 3)%Z then cfg3 rfuel else cfg4 rfuel in
  main w I name path fuel rfuel METHOD =
  (match fst (construct w I cf (ast0 I)) with Ok _ => Err TypeError | Err e => Err e end, []).
Proof. exact main_adaptive_fails. Qed.
Print Assumptions C49_main_fails.

(** The same for every configuration and every list of keywords, also without the unknown one. *)
Theorem C49_nothing_written : forall w I name path fuel cf kws split init acc x, init_refiner split acc = Ok x ->
  exists e, main_adaptive w I name path fuel cf kws split init = (Err e, []).
Proof. exact main_adaptive_nothing. Qed.
Print Assumptions C49_nothing_written.

(** METHOD 1 or 2: one row of 15 cells under the computed path, or an exception and nothing; other methods: NameError. *)
Theorem C49_main_milp : forall w I name path fuel rfuel METHOD, METHOD = 1%Z \/ METHOD = 2%Z ->
  (exists row, main w I name path fuel rfuel METHOD = (Ok tt, [(path, row)]) /\ List.length row = 15) \/
  (exists e, main w I name path fuel rfuel METHOD = (Err e, [])).
Proof. exact main_milp_file. Qed.
Print Assumptions C49_main_milp.
Theorem C49_main_other : forall w I name path fuel rfuel METHOD, (METHOD < 1 \/ 4 < METHOD)%Z ->
  main w I name path fuel rfuel METHOD = (Err NameError, []).
Proof. exact main_other. Qed.
Print Assumptions C49_main_other.

Example C49_example : map (fun m => fst (main (brute_world exS) exS "n" "p" 20 20 m)) [1; 2; 3; 4; 5]%Z =
    [Ok tt; Ok tt; Err TypeError; Err TypeError; Err NameError] /\
  fst (main_adaptive (brute_world exS) exS "n" "p" 20 (cfg3 20) ["use_merger"; "use_big_M"]%string "random" "random") = Err KeyError /\
  snd (main (brute_world exS) exS "n" "p" 20 20 2) <> [].
Proof. vm_compute. split; [reflexivity|]. split; [reflexivity|discriminate]. Qed.

Example C49_row_example :
  match adaptive_row "n" exS ex_merge "counter" "rescaled_max_violation" "counter" true true (Some 7%Q) (snd (run (brute_world exS) exS ex_merge 20)) with
  | Ok l => Ok (map red_cell l) | Err e => Err e end =
  Ok [CText "n"; CInt 4; CInt 1; CInt 9; CInt 0; CFloat (Some (Fin (333 # 1000))); CFloat (Some (Fin 100)); CFloat (Some (Fin (1 # 100)));
      CInt 0; CInt 1; CInt 5; CInt 1; CInt 4; CInt 6; CFloat (Some (Fin 7)); CFloat (Some (Fin 14)); CFloat (Some (Fin 14)); CFloat (Some (Fin 0))]%Q.
Proof. vm_compute. reflexivity. Qed.

(** ** C50 *)
(** The path written by main.py for the instance file i-s-j.csv is the path read by export_results.py iff rounding and
    truncating the percentage agree. *)
Theorem C50_names_agree : forall dir inpath i s j pct cont m, pathlike inpath -> no_char "/" i -> (0 <= s)%Z -> (0 <= j)%Z -> (0 <= pct)%Q ->
  (out_name dir (file_name (inpath ++ (i ++ "-" ++ str_of_Z s ++ "-" ++ str_of_Z j) ++ "." ++ "csv")) pct cont m =
   read_name dir i s j pct (if cont then 1 else 0) m <-> Qrnd pct = Qtrunc pct)%string.
Proof. exact names_agree. Qed.
Print Assumptions C50_names_agree.

(** Different instance, type of variables, method or rounded percentage: different path. *)
Theorem C50_injective : forall dir f f' p p' c c' m m', (0 <= p)%Q -> (0 <= p')%Q -> (0 <= m)%Z -> (0 <= m')%Z ->
  out_name dir f p c m = out_name dir f' p' c' m' -> f = f' /\ Qrnd p = Qrnd p' /\ c = c' /\ m = m'.
Proof. exact out_name_inj. Qed.
Print Assumptions C50_injective.

(** In binary64 arithmetic 0.29*100 is written as 29 and read as 28; the shipped epsilons give 10 and 20. *)
Theorem C50_float_refuted : exists p, b64_prod (29 # 100) 100 = Some p /\
  (out_name "d/" "f-500-1" p false 1 = "d/f-500-1-29-0-1.csv" /\ read_name "d/" "f" 500 1 p 0 1 = "d/f-500-1-28-0-1.csv")%string.
Proof. exact float_names. Qed.
Print Assumptions C50_float_refuted.
Theorem C50_shipped : exists p q, b64_prod (1 # 10) 100 = Some p /\ b64_prod (1 # 5) 100 = Some q /\ (p == 10)%Q /\ (q == 20)%Q.
Proof. exact shipped_percent. Qed.
Print Assumptions C50_shipped.

Example C50_example : (out_name "./results/tables/" (file_name "./data/cc-instances/knapsack/ccmknap-10-10-500-1.csv") 10 false 3 =
    "./results/tables/ccmknap-10-10-500-1-10-0-3.csv" /\
  read_name "./results/tables/" "ccmknap-10-10" 500 1 10 0 3 = "./results/tables/ccmknap-10-10-500-1-10-0-3.csv" /\
  out_name "d/" "f" (104 # 10) true 3 = out_name "d/" "f" (101 # 10) true 3 /\
  out_name "d/" "f" (128 # 10) true 3 = "d/f-13-1-3.csv" /\ file_name "a.b/..c" = "..c" /\ file_name "x/b.c.d" = "b.c")%string.
Proof. vm_compute. repeat split. Qed.

(** ** C54 *)
(** Products of the shipped experiments have the exact floor. *)
Theorem C54_shipped_exact : Forall (fun n => Forall (fun e => b64_floor e n = Some (Qfloor (e * inject_Z n))) [1 # 10; 1 # 5]%Q) [500; 1000; 3000; 5000]%Z.
Proof. exact shipped_exact. Qed.
Print Assumptions C54_shipped_exact.

(** All percentages: where the floor of the binary64 product differs, it is one less. *)
Theorem C54_percent_floor : bad_floor 100 100 = [29; 57; 58] /\ bad_floor 100 500 = [] /\ bad_floor 100 1000 = [] /\
  bad_floor 100 3000 = [29; 57; 58] /\ bad_floor 100 5000 = [57; 69].
Proof. exact percent_floor. Qed.
Print Assumptions C54_percent_floor.
Theorem C54_one_less_refuted : Forall (fun n => Forall (fun a => b64_floor (Z.of_nat a # 100) n = Some (Qfloor ((Z.of_nat a # 100) * inject_Z n) - 1)%Z)
  (bad_floor 100 n)) [100; 500; 1000; 3000; 5000]%Z.
Proof. exact percent_short. Qed.
Print Assumptions C54_one_less_refuted.

Example C54_example : b64_floor (29 # 100) 3000 = Some 869%Z /\ Qfloor ((29 # 100) * 3000) = 870%Z /\ b64_floor (1 # 5) 3000 = Some 600%Z.
Proof. vm_compute. auto. Qed.
