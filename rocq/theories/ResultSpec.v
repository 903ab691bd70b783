(** What result files are as text, independently of the reader and the writer of ResultText.v. *)
From Verif Require Import Base Adaptive TextSpec.
From Coq Require Import Ascii String ZArith QArith Qabs.
Local Open Scope nat_scope.
Local Open Scope list_scope.

(** Equality of floats, as values. *)
Definition same_real (a b : gapv) : Prop :=
  match a, b with
  | Some (Fin p), Some (Fin q) => (p == q)%Q
  | Some PInf, Some PInf | Some NInf, Some NInf | None, None => True
  | _, _ => False
  end.

(** ** float() *)

(** The two cases of a letter. *)
Definition letter (l u c : ascii) : Prop := c = l \/ c = u.
Definition spells (small big : string) (t : list ascii) : Prop :=
  Forall2 (fun lu c => letter (fst lu) (snd lu) c)
    (combine (list_ascii_of_string small) (list_ascii_of_string big)) t.
Definition infinity_text (t : list ascii) : Prop := spells "inf" "INF" t \/ spells "infinity" "INFINITY" t.
Definition nan_text (t : list ascii) : Prop := spells "nan" "NAN" t.

Inductive real_text : list ascii -> gapv -> Prop :=
| RT_number : forall t v, number t v -> real_text t (Some (Fin v))
| RT_infinity : forall a sg neg u b, Forall blank a -> Forall blank b -> sign_text sg neg -> infinity_text u ->
    real_text (a ++ sg ++ u ++ b) (Some (if neg then NInf else PInf))
| RT_nan : forall a sg neg u b, Forall blank a -> Forall blank b -> sign_text sg neg -> nan_text u ->
    real_text (a ++ sg ++ u ++ b) None.

(** ** Numbers with d decimals *)

(** z is nearest to x, and even if x is halfway between two integers. *)
Definition nearest_even (x : Q) (z : Z) : Prop :=
  (Qabs (x - inject_Z z) <= 1 # 2)%Q /\ ((Qabs (x - inject_Z z) == 1 # 2)%Q -> Z.even z = true).

(** A sign for negative numbers only, an integer without superfluous zeros, a point and d digits. *)
Definition places_text (d : nat) (q : Q) (t : list ascii) : Prop :=
  exists sg ip fp z (neg : bool),
    t = sg ++ ip ++ (match d with 0 => [] | _ => "."%char :: fp end) /\
    List.length fp = d /\ ip <> [] /\ (forall c l, ip = "0"%char :: c :: l -> False) /\
    (if neg then sg = ["-"%char] else sg = []) /\ (neg = true <-> (q < 0)%Q) /\
    digits_value (ip ++ fp) z /\
    nearest_even (q * inject_Z (10 ^ Z.of_nat d)) (signed neg z).

(** ** Records *)

(** Between quotes, a quote is doubled. *)
Inductive quoted_text : list ascii -> list ascii -> Prop :=
| QT_nil : quoted_text [] []
| QT_char : forall c f t, c <> ascii_of_nat 34 -> quoted_text f t -> quoted_text (c :: f) (c :: t)
| QT_quote : forall f t, quoted_text f t -> quoted_text (ascii_of_nat 34 :: f) (ascii_of_nat 34 :: ascii_of_nat 34 :: t).

Inductive field_text : list ascii -> list ascii -> Prop :=
| FT_plain : forall f, Forall ordinary f -> field_text f f
| FT_quoted : forall f t, quoted_text f t -> field_text f (ascii_of_nat 34 :: t ++ [ascii_of_nat 34]).

(** An empty line is the row without fields. *)
Definition record_text (fields : list (list ascii)) (t : list ascii) : Prop :=
  exists ts line, Forall2 field_text fields ts /\ line_text ts line /\ (line = [] -> fields = []) /\
    t = line ++ [ascii_of_nat 13; ascii_of_nat 10].

Inductive records_text : list (list (list ascii)) -> list ascii -> Prop :=
| RS_nil : records_text [] []
| RS_cons : forall row rows t u, record_text row t -> records_text rows u -> records_text (row :: rows) (t ++ u).

Definition no_cr (t : list ascii) : Prop := ~ In (ascii_of_nat 13) t.

(** [one_newline t u]: u is t where \r\n and \r are replaced by \n. *)
Inductive one_newline : list ascii -> list ascii -> Prop :=
| ON_nil : one_newline [] []
| ON_crlf : forall t u, one_newline t u -> one_newline (ascii_of_nat 13 :: ascii_of_nat 10 :: t) (ascii_of_nat 10 :: u)
| ON_cr : forall t u, hd_error t <> Some (ascii_of_nat 10) -> one_newline t u ->
    one_newline (ascii_of_nat 13 :: t) (ascii_of_nat 10 :: u)
| ON_other : forall c t u, c <> ascii_of_nat 13 -> one_newline t u -> one_newline (c :: t) (c :: u).

(** What float() reads in t is the value g. *)
Definition denotes (t : list ascii) (g : gapv) : Prop := exists g', real_text t g' /\ same_real g' g.

(** A text for the float g, e.g. its repr. *)
Definition repr_ok (repr : gapv -> list ascii) (g : gapv) : Prop := denotes (repr g) g /\ Forall ordinary (repr g).

(** The file t is read as the row (name, numbers): see read_result in ResultText.v for what reading is. *)
Definition same_numbers (l l' : list gapv) : Prop := Forall2 same_real l l'.

(** The float g as shown with d decimals; inf and nan are shown by a name. *)
Definition shown (d : nat) (g : gapv) (t : list ascii) : Prop :=
  match g with
  | Some (Fin q) => places_text d q t
  | _ => real_text t g
  end.
