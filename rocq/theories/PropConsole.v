(** Property C75: console output of an iteration. *)
From Coq Require Import Ascii String Qabs.
From Verif Require Import Base Spec Instance Bounds Adaptive AdaptiveSpec Report TextSpec ResultText ResultSpec BoundsFl Rounding ConsoleSpec Console ConsoleFacts ConsoleRun ConsoleEx.
Local Open Scope nat_scope.
Local Open Scope list_scope.

(** ** C75 *)
(** "{:0w.df}" shows the nearest number with d decimals on at least w characters. *)
Theorem C75_padded : forall w d q, padded_text w d q (show_padded w d (finite q)).
Proof. exact show_padded_text. Qed.
Print Assumptions C75_padded.

(** It is read back as this number. *)
Theorem C75_padded_read : forall w d q, exists v z, to_real (show_padded w d (finite q)) = Ok (Some (Fin v)) /\
  nearest_even (q * inject_Z (10 ^ Z.of_nat d)) z /\ (v == inject_Z z / inject_Z (10 ^ Z.of_nat d))%Q.
Proof. exact padded_read. Qed.
Print Assumptions C75_padded_read.

(** Numbers more than 10^-d apart are told apart. *)
Theorem C75_distinct : forall w d p q, (inject_Z (10 ^ Z.of_nat d) * Qabs (p - q) > 1)%Q ->
  show_padded w d (finite p) <> show_padded w d (finite q).
Proof. exact padded_distinct. Qed.
Print Assumptions C75_distinct.

(** The lines of an iteration, with both bounds known and a finite gap. *)
Theorem C75_lines : forall iter u l g elapsed, exists tu tl tg te,
  padded_text 6 2 u tu /\ padded_text 6 2 l tl /\ padded_text 6 2 (g * 100) tg /\ padded_text 6 2 elapsed te /\
  iteration_lines iter (Fin u) (Fin l) (Some (Fin g)) elapsed =
    [ []; chars "        ########      -  Iteration " ++ show_int (Z.of_nat iter) ++ chars " -      ########"
    ; chars "        ####      Best vUB: " ++ tu; chars "        ####      Best vLB: " ++ tl
    ; chars "        ####      Gap: " ++ tg; chars "        ####      Computation Time:  " ++ te ].
Proof. exact lines_of. Qed.
Print Assumptions C75_lines.

(** With unknown bounds. *)
Theorem C75_first_lines : forall iter elapsed, exists te, padded_text 6 2 elapsed te /\
  iteration_lines iter PInf NInf (Some PInf) elapsed =
    [ []; chars "        ########      -  Iteration " ++ show_int (Z.of_nat iter) ++ chars " -      ########"
    ; chars "        ####      Best vUB: 000inf"; chars "        ####      Best vLB:  -inf "
    ; chars "        ####      Gap: inf"; chars "        ####      Computation Time:  " ++ te ].
Proof. exact lines_first. Qed.
Print Assumptions C75_first_lines.

(** An unknown upper bound is not shown as a number nor as an infinity. *)
Theorem C75_infinity_refuted : show_padded 6 2 (Some PInf) = chars "000inf" /\ forall g, ~ real_text (chars "000inf") g.
Proof. exact infinite_padded. Qed.
Print Assumptions C75_infinity_refuted.

(** That happens in the first iteration only: from the second one on, both bounds are numbers. *)
Theorem C75_known : forall w I cf s, clock_mono w -> head_reach w I cf s ->
  a_iter s = 1 \/ exists u l, a_vUB s = Fin u /\ a_vLB s = Fin l.
Proof. exact first_unknown. Qed.
Print Assumptions C75_known.

(** The bounds never are infinities of the wrong sign. *)
Theorem C75_signs : forall w I cf s, clock_mono w -> head_reach w I cf s -> a_vUB s <> NInf /\ a_vLB s <> PInf.
Proof. exact never_absurd. Qed.
Print Assumptions C75_signs.

(** Progress: nothing, or a multiple of 10. *)
Theorem C75_progress : forall rnd s nb, progress_text rnd s nb = [] \/
  exists j, progress_fl rnd s nb = Some (10 * j)%Z /\ progress_text rnd s nb = "["%char :: show_int (10 * j) ++ chars "%] " ++ [Text.CR].
Proof. exact progress_shown. Qed.
Print Assumptions C75_progress.

(** Iterations 1 to 3 of a run; the last time is shown as if the clock had been set back. *)
Example C75_example : printed_at 0 (7 # 2) =
  [""; "        ########      -  Iteration 1 -      ########"; "        ####      Best vUB: 000inf"; "        ####      Best vLB: 014.00";
   "        ####      Gap: inf"; "        ####      Computation Time:  003.50"]%string /\
  printed_at 1 62 =
  [""; "        ########      -  Iteration 2 -      ########"; "        ####      Best vUB: 019.00"; "        ####      Best vLB: 014.00";
   "        ####      Gap: 035.71"; "        ####      Computation Time:  062.00"]%string /\
  printed_at 2 (-9) =
  [""; "        ########      -  Iteration 3 -      ########"; "        ####      Best vUB: 018.00"; "        ####      Best vLB: 014.00";
   "        ####      Gap: 028.57"; "        ####      Computation Time:  -09.00"]%string.
Proof. vm_compute. auto. Qed.
Example C75_progress_example : map (fun s => string_of_list_ascii (progress_text rnd53 s 30)) [0; 1; 3; 29] =
  ["[0%] " ++ String Text.CR ""; ""; "[10%] " ++ String Text.CR ""; ""]%string.
Proof. vm_compute. reflexivity. Qed.
