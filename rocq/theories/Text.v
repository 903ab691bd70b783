(** Instance files as text: the csv reader of ChanceInstance.py:22-27 (delimiter ',', QUOTE_NONNUMERIC,
    file opened with newline='\n') and the csv writer of
    data/cc-instances/knapsack/instance-generator.py:66-72 (excel dialect, line terminator "\r\n").
    The automaton is the one of Python's _csv module for these dialects (quote character, doubled
    quotes, no escape character, not strict).
    Simplifications: csv.Error is represented by ValueError; a number is its exact decimal value (the
    rounding to a double is in Rounding.v); the texts inf, nan, 1_000 and digits outside ASCII, which
    float() accepts, are ValueError here. *)
From Verif Require Import Base Spec Instance.
From Coq Require Import Ascii.

Definition CR : ascii := "013"%char.
Definition LF : ascii := "010"%char.
Definition comma : ascii := ","%char.
Definition quote : ascii := """"%char.
Definition dot_char : ascii := "."%char.

(** ** float(str) *)

Definition is_digit (c : ascii) : bool := (48 <=? nat_of_ascii c) && (nat_of_ascii c <=? 57).
Definition digit (c : ascii) : Z := (Z.of_nat (nat_of_ascii c) - 48)%Z.

(** Space, \t, \n, \v, \f, \r and \x1c-\x1f: what float() strips. *)
Definition is_space (c : ascii) : bool :=
  let n := nat_of_ascii c in
  (n =? 32) || ((9 <=? n) && (n <=? 13)) || ((28 <=? n) && (n <=? 31)).

Fixpoint drop_spaces (l : list ascii) : list ascii :=
  match l with
  | c :: l' => if is_space c then drop_spaces l' else l
  | [] => []
  end.
Definition strip (l : list ascii) : list ascii := rev (drop_spaces (rev (drop_spaces l))).

Definition take_sign (l : list ascii) : bool * list ascii :=
  match l with
  | c :: l' => if Ascii.eqb c "-" then (true, l') else if Ascii.eqb c "+" then (false, l') else (false, l)
  | [] => (false, [])
  end.

Fixpoint take_digits (l : list ascii) : list ascii * list ascii :=
  match l with
  | c :: l' => if is_digit c then let '(d, r) := take_digits l' in (c :: d, r) else ([], l)
  | [] => ([], [])
  end.

(** Value of a string of digits. *)
Definition dec_val (l : list ascii) : Z := fold_left (fun a c => 10 * a + digit c)%Z l 0%Z.

(** m * 10^e *)
Definition scale10 (m e : Z) : Q :=
  if (0 <=? e)%Z then inject_Z (m * 10 ^ e)%Z else Qmake m (Z.to_pos (10 ^ (- e))%Z).

(** The part after the mantissa: nothing, or e/E, a sign and digits. *)
Definition exponent (l : list ascii) : res Z :=
  match l with
  | [] => Ok 0%Z
  | c :: l' =>
      if Ascii.eqb c "e" || Ascii.eqb c "E" then
        let '(neg, l2) := take_sign l' in
        let '(d, r) := take_digits l2 in
        match d, r with
        | _ :: _, [] => Ok (if neg then - dec_val d else dec_val d)%Z
        | _, _ => Err ValueError
        end
      else Err ValueError
  end.

Definition to_float (s : list ascii) : res Q :=
  let '(neg, l1) := take_sign (strip s) in
  let '(ip, l2) := take_digits l1 in
  let '(fp, l3) := match l2 with
                   | c :: l' => if Ascii.eqb c dot_char then take_digits l' else ([], l2)
                   | [] => ([], [])
                   end in
  match ip ++ fp with
  | [] => Err ValueError
  | ds =>
      do e <- exponent l3 ;;
      let v := scale10 (dec_val ds) (e - Z.of_nat (length fp)) in
      Ok (if neg then - v else v)%Q
  end.

(** ** csv.reader (ChanceInstance.py:25-27) *)

Inductive cell : Type := CNum (q : Q) | CStr (s : list ascii).
Inductive cstate : Type := StartRecord | StartField | InField | InQuoted | QuoteInQuoted | EatCrnl.

(** State of the reader; the current field and row are kept in reverse order. *)
Record reader : Type := mkRd { rd_state : cstate; rd_field : list ascii; rd_num : bool; rd_row : list cell }.
Definition reset : reader := mkRd StartRecord [] false [].

(** End of a field: unquoted non-empty fields are numbers. *)
Definition save (st : cstate) (r : reader) : res reader :=
  let s := rev (rd_field r) in
  if rd_num r then do q <- to_float s ;; Ok (mkRd st [] false (CNum q :: rd_row r))
  else Ok (mkRd st [] false (CStr s :: rd_row r)).

Definition is_nl (c : ascii) : bool := Ascii.eqb c CR || Ascii.eqb c LF.
Definition goto (st : cstate) (r : reader) : reader := mkRd st (rd_field r) (rd_num r) (rd_row r).
Definition push (st : cstate) (num : bool) (c : ascii) (r : reader) : reader :=
  mkRd st (c :: rd_field r) (num || rd_num r) (rd_row r).

(** First character of a field. *)
Definition start_field (r : reader) (c : ascii) : res reader :=
  if is_nl c then save EatCrnl r
  else if Ascii.eqb c quote then Ok (goto InQuoted r)
  else if Ascii.eqb c comma then save StartField r
  else Ok (push InField true c r).

Definition step (r : reader) (c : ascii) : res reader :=
  match rd_state r with
  | StartRecord => if is_nl c then Ok (goto EatCrnl r) else start_field (goto StartField r) c
  | StartField => start_field r c
  | InField =>
      if is_nl c then save EatCrnl r
      else if Ascii.eqb c comma then save StartField r
      else Ok (push InField false c r)
  | InQuoted =>
      if Ascii.eqb c quote then Ok (goto QuoteInQuoted r) else Ok (push InQuoted false c r)
  | QuoteInQuoted =>
      if Ascii.eqb c quote then Ok (push InQuoted false c r)
      else if Ascii.eqb c comma then save StartField r
      else if is_nl c then save EatCrnl r
      else Ok (push InField false c r)
  | EatCrnl => if is_nl c then Ok r else Err ValueError
  end.

(** End of a line of the file. *)
Definition eol (r : reader) : res reader :=
  match rd_state r with
  | StartRecord | InQuoted => Ok r
  | EatCrnl => Ok (goto StartRecord r)
  | StartField | InField | QuoteInQuoted => save StartRecord r
  end.

Fixpoint feed (r : reader) (l : list ascii) : res reader :=
  match l with
  | [] => eol r
  | c :: l' => do r' <- step r c ;; feed r' l'
  end.

(** Lines of a file opened with newline='\n': separated by '\n', which they keep. *)
Fixpoint lines_of (cur : list ascii) (l : list ascii) : list (list ascii) :=
  match l with
  | [] => match cur with [] => [] | _ => [rev cur] end
  | c :: l' => if Ascii.eqb c LF then rev (c :: cur) :: lines_of [] l' else lines_of (c :: cur) l'
  end.

Definition at_start (r : reader) : bool := match rd_state r with StartRecord => true | _ => false end.

Fixpoint read_rows (ls : list (list ascii)) (r : reader) : res (list (list cell)) :=
  match ls with
  | [] =>
      match rd_state r, rd_field r with
      | InQuoted, _ | _, _ :: _ => do r' <- save StartRecord r ;; Ok [rev (rd_row r')]
      | _, [] => Ok []
      end
  | l :: ls' =>
      do r' <- feed r l ;;
      if at_start r' then do rest <- read_rows ls' reset ;; Ok (rev (rd_row r') :: rest)
      else read_rows ls' r'
  end.

Definition read_csv (text : list ascii) : res (list (list cell)) := read_rows (lines_of [] text) reset.

(** ** Loading an instance file *)

Definition cell_num (c : cell) : res Q := match c with CNum q => Ok q | CStr _ => Err TypeError end.

(** ChanceKnapInstance.py:9-14: read_data then parse_data.  A file with a cell that is not a number
    is a TypeError here; numpy may raise another exception or, for a cell that is not used, none. *)
Definition load_text (text : list ascii) (cont : bool) (eps : Q) : res inst :=
  do cells <- read_csv text ;;
  do rows <- rmap (rmap cell_num) cells ;;
  parse rows cont eps.

(** ** csv.writer *)

Definition ascii_digit (z : Z) : ascii := ascii_of_nat (48 + Z.to_nat z).

(** The [d] last digits of z, z >= 0. *)
Fixpoint last_digits (d : nat) (z : Z) : list ascii :=
  match d with
  | 0 => []
  | S d' => last_digits d' (z / 10)%Z ++ [ascii_digit (z mod 10)%Z]
  end.

(** Digits of z >= 0 without leading zero, at least one. *)
Fixpoint int_digits (fuel : nat) (z : Z) : list ascii :=
  match fuel with
  | 0 => []
  | S f => if (z <? 10)%Z then [ascii_digit z] else int_digits f (z / 10)%Z ++ [ascii_digit (z mod 10)%Z]
  end.
Definition show_nat (z : Z) : list ascii := int_digits (S (Z.to_nat (Z.log2 z))) z.

(** Digits after the point: trailing zeros are dropped, one digit at least. *)
Fixpoint drop_zeros (l : list ascii) : list ascii :=
  match l with
  | c :: l' => if Ascii.eqb c "0" then drop_zeros l' else l
  | [] => []
  end.
Definition fraction (l : list ascii) : list ascii :=
  match rev (drop_zeros (rev l)) with [] => ["0"%char] | l' => l' end.

(** A decimal number z / 10^d. *)
Definition dec : Type := (Z * nat)%type.
Definition dval (x : dec) : Q := Qmake (fst x) (Z.to_pos (10 ^ Z.of_nat (snd x))%Z).

(** repr of the double nearest to z / 10^d.  For at most 15 significant digits and 0 or
    10^-4 <= |z / 10^d| < 10^16 it is the number itself in positional notation; the other doubles
    are not modelled. *)
Definition show_dec (x : dec) : list ascii :=
  let '(z, d) := x in
  (if (z <? 0)%Z then ["-"%char] else []) ++
  show_nat (Z.abs z / 10 ^ Z.of_nat d)%Z ++ [dot_char] ++
  fraction (last_digits d (Z.abs z)).

(** A row of fields without special characters: no quotes (QUOTE_MINIMAL). *)
Fixpoint join (fields : list (list ascii)) : list ascii :=
  match fields with
  | [] => []
  | [f] => f
  | f :: fs => f ++ comma :: join fs
  end.
Definition show_row (term : list ascii) (fields : list (list ascii)) : list ascii := join fields ++ term.

(** Text of the rows of fields, each followed by the line terminator. *)
Definition show_rows (term : list ascii) (rows : list (list (list ascii))) : list ascii :=
  concat (map (show_row term) rows).

(** instance-generator.py:59: the decimal written for a sample. *)
Definition entry_dec (sample : Q) : dec :=
  (Qrnd (10000 * (if Qlt_bool sample 0 then 0 else sample)), 4).

(** instance-generator.py:66-72: the fields of the file, for an objective and a right-hand side that
    are decimals.  The header is made of integers. *)
Definition gen_fields (n m : nat) (c : list dec) (samples : list (list (list Q))) (b : list dec)
  : list (list (list ascii)) :=
  map (fun v => show_nat (Z.of_nat v)) [n; m; length samples] ::
  map show_dec c ::
  concat (map (map (map (fun q => show_dec (entry_dec q)))) samples) ++ [map show_dec b].

Definition gen_text (n m : nat) (c : list dec) (samples : list (list (list Q))) (b : list dec) : list ascii :=
  show_rows [CR; LF] (gen_fields n m c samples b).
