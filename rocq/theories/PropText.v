(** Instance files as text (Text.v, specification in TextSpec.v). *)
From Verif Require Import Base Spec Instance Text TextSpec TextIff TextGen.
From Coq Require Import Ascii String.
Local Open Scope nat_scope.
Local Open Scope list_scope.

(** ** C67 *)

(** float() accepts exactly the decimal notations, with blanks around, and gives their value. *)
Theorem C67_number : forall s v, number s v <-> exists q, to_float s = Ok q /\ (q == v)%Q.
Proof. exact to_float_iff. Qed.
Print Assumptions C67_number.

Theorem C67_not_a_number : forall s e, to_float s = Err e -> e = ValueError /\ forall v, ~ number s v.
Proof. exact to_float_none. Qed.
Print Assumptions C67_not_a_number.

(** A text is loaded exactly when it is made of rows of unquoted numbers that parse accepts. *)
Theorem C67_load : forall text cont eps I, load_text text cont eps = Ok I <->
  exists rows, file_text rows text /\ parse rows cont eps = Ok I.
Proof. exact load_iff. Qed.
Print Assumptions C67_load.

(** The errors of parse are those of the file. *)
Theorem C67_load_result : forall rows text cont eps, file_text rows text ->
  load_text text cont eps = parse rows cont eps.
Proof. exact file_load. Qed.
Print Assumptions C67_load_result.

Theorem C67_unambiguous : forall rows rows' text, file_text rows text -> file_text rows' text ->
  Forall2 (Forall2 Qeq) rows rows'.
Proof. exact file_text_unique. Qed.
Print Assumptions C67_unambiguous.

(** The text written by the generator is the text of its rows... *)
Theorem C67_generated_text : forall n m c samples b,
  file_text (gen_rows n m (map dval c) samples (map dval b)) (gen_text n m c samples b).
Proof. exact gen_file. Qed.
Print Assumptions C67_generated_text.

(** ... and is read back as the data, rounded to one decimal. *)
Theorem C67_generated_load : forall n m c samples b cont eps,
  0 < List.length samples ->
  Forall (fun M => List.length M = m /\ Forall (fun r => List.length r = n) M) samples ->
  List.length b = m ->
  load_text (gen_text n m c samples b) cont eps =
    Ok (mkInst n m (List.length samples) cont eps (map (fun x => round1 (dval x)) c)
          (map (map (map (fun v => round1 (gen_entry v)))) samples)
          (repeat (map (fun x => round1 (dval x)) b) (List.length samples))).
Proof. exact gen_load. Qed.
Print Assumptions C67_generated_load.

(** A blank line added at the end makes the file unreadable: it is taken for the right-hand side. *)
Theorem C67_blank_line : forall rows text l cont eps I, file_text rows text ->
  (exists p, text = p ++ [ascii_of_nat 10]) -> line_end l ->
  load_text (text ++ l) cont eps = Ok I -> i_m I = 0.
Proof. exact blank_line. Qed.
Print Assumptions C67_blank_line.

Definition lf : string := String (ascii_of_nat 10) EmptyString.
Definition exT : string :=
  "2,1,2" ++ lf ++ "100.0,-0.25" ++ lf ++ "8.3724, 1e1" ++ lf ++ ".5,+3.E-1" ++ lf ++ "7" ++ lf.

(** A file, and what becomes of it with a blank line, a quoted number, a missing number, a word. *)
Example C67_example :
  load_text (list_ascii_of_string exT) true (1 # 2) =
    Ok (mkInst 2 1 2 true (1 # 2) [1000 # 10; -2 # 10]
          [[[84 # 10; 100 # 10]]; [[5 # 10; 3 # 10]]] [[70 # 10]; [70 # 10]]) /\
  load_text (list_ascii_of_string (exT ++ lf)) true (1 # 2) = Err ValueError /\
  load_text (list_ascii_of_string ("2,1,2" ++ lf ++ """100.0"",1" ++ lf)) true (1 # 2) = Err TypeError /\
  load_text (list_ascii_of_string ("2,1,2" ++ lf ++ "100.0,,1" ++ lf)) true (1 # 2) = Err TypeError /\
  load_text (list_ascii_of_string ("2,1,2" ++ lf ++ "100.0,one" ++ lf)) true (1 # 2) = Err ValueError /\
  string_of_list_ascii (gen_text 2 1 [(1000%Z, 1); ((-25)%Z, 2)] [[[1 # 3; - (1)]]; [[2; 3]]]%Q [(50%Z, 1)]) =
    ("2,1,2" ++ String (ascii_of_nat 13) lf ++ "100.0,-0.25" ++ String (ascii_of_nat 13) lf ++
     "0.3333,0.0" ++ String (ascii_of_nat 13) lf ++ "2.0,3.0" ++ String (ascii_of_nat 13) lf ++
     "5.0" ++ String (ascii_of_nat 13) lf)%string.
Proof. vm_compute. repeat split. Qed.
