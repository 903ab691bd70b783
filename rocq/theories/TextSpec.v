(** What instance files are as text, independently of the reader and the writer of Text.v. *)
From Verif Require Import Base.
From Coq Require Import Ascii String ZArith QArith.
Local Open Scope nat_scope.
Local Open Scope list_scope.

(** ** Decimal numbers *)

Definition digit_char (c : ascii) (d : nat) : Prop :=
  nth_error (list_ascii_of_string "0123456789") d = Some c.

Inductive digits_value : list ascii -> Z -> Prop :=
| DV_nil : digits_value [] 0
| DV_snoc : forall l z c d, digits_value l z -> digit_char c d ->
    digits_value (l ++ [c]) (10 * z + Z.of_nat d).

Inductive sign_text : list ascii -> bool -> Prop :=
| ST_minus : sign_text ["-"%char] true
| ST_plus : sign_text ["+"%char] false
| ST_none : sign_text [] false.

Definition signed (neg : bool) (z : Z) : Z := if neg then (- z)%Z else z.

(** An exponent, e.g. e-05. *)
Inductive exponent_text : list ascii -> Z -> Prop :=
| ET_none : exponent_text [] 0
| ET_some : forall c sg neg ds z, c = "e"%char \/ c = "E"%char ->
    sign_text sg neg -> ds <> [] -> digits_value ds z ->
    exponent_text (c :: sg ++ ds) (signed neg z).

(** [decimal t v]: t is a sign, digits with at most one point among them, and an exponent; v is its value. *)
Inductive decimal : list ascii -> Q -> Prop :=
| D_intro : forall sg neg ip pt fp z ex e,
    sign_text sg neg -> ip ++ fp <> [] -> digits_value (ip ++ fp) z ->
    pt = ["."%char] \/ (pt = [] /\ fp = []) -> exponent_text ex e ->
    decimal (sg ++ ip ++ pt ++ fp ++ ex)
      (inject_Z (signed neg z) * Qpower (inject_Z 10) (e - Z.of_nat (List.length fp)))%Q.

(** Characters stripped by float(). *)
Definition blank (c : ascii) : Prop :=
  In (nat_of_ascii c) [9; 10; 11; 12; 13; 28; 29; 30; 31; 32].

(** [number t v]: what float() accepts. *)
Definition number (t : list ascii) (v : Q) : Prop :=
  exists a u b, t = a ++ u ++ b /\ Forall blank a /\ Forall blank b /\
  exists w, decimal u w /\ (w == v)%Q.

(** ** Rows of fields *)

(** Neither an end of line, nor a comma, nor a quote. *)
Definition ordinary (c : ascii) : Prop :=
  ~ In c [ascii_of_nat 10; ascii_of_nat 13; ","%char; ascii_of_nat 34].

(** Fields separated by commas. *)
Inductive line_text : list (list ascii) -> list ascii -> Prop :=
| LT_none : line_text [] []
| LT_one : forall f, line_text [f] f
| LT_more : forall f fs t, fs <> [] -> line_text fs t -> line_text (f :: fs) (f ++ ","%char :: t).

(** End of line: \n, possibly after some \r. *)
Definition line_end (t : list ascii) : Prop := exists j, t = repeat (ascii_of_nat 13) j ++ [ascii_of_nat 10].

(** Text of a file of unquoted numbers: its rows, each with its own end of line. *)
Inductive file_text : list (list Q) -> list ascii -> Prop :=
| FT_nil : file_text [] []
| FT_row : forall row fields line term rows text,
    Forall2 number fields row -> Forall (Forall ordinary) fields -> line_text fields line ->
    line_end term -> file_text rows text ->
    file_text (row :: rows) (line ++ term ++ text)
| FT_last : forall row fields line j,         (* the last \n may be missing *)
    row <> [] \/ 0 < j -> Forall2 number fields row -> Forall (Forall ordinary) fields ->
    line_text fields line ->
    file_text [row] (line ++ repeat (ascii_of_nat 13) j).
