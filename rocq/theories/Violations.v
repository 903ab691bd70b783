(** Model of violations.h and violations.pyx (compiled computation of the violation table).
    Numbers are exact; memory is modelled by lists with explicit indices. *)
From Verif Require Import Base Spec Instance.

(** violations.h:8-15, 28-35 (data of the comparator), violations.h:17-25 (Comp::operator()). *)
Definition comp (profits weights : list Q) (i j : nat) : bool :=
  if Qeq_bool (nth i profits 0%Q) 0 && Qeq_bool (nth i weights 0%Q) 0 then false
  else if Qeq_bool (nth j profits 0%Q) 0 && Qeq_bool (nth j weights 0%Q) 0 then true
  else Qlt_bool (nth j profits 0 * nth i weights 0)%Q (nth i profits 0 * nth j weights 0)%Q.

(** The requirements of std::sort on its comparator, on a set of elements. *)
Definition strict_weak_order (D : nat -> Prop) (lt : nat -> nat -> bool) : Prop :=
  (forall a, D a -> lt a a = false) /\
  (forall a b, D a -> D b -> lt a b = true -> lt b a = false) /\
  (forall a b c, D a -> D b -> D c -> lt a b = true -> lt b c = true -> lt a c = true) /\
  (forall a b c, D a -> D b -> D c -> lt a b = false -> lt b a = false ->
     lt b c = false -> lt c b = false -> lt a c = false /\ lt c a = false).

(** [std::sort] (violations.h:95): for a strict weak order it returns a permutation in
    which no element precedes a smaller one; unspecified otherwise. *)
Definition sort_spec (sort : (nat -> nat -> bool) -> list nat -> list nat) : Prop :=
  forall lt l, strict_weak_order (fun a => In a l) lt ->
    Permutation (sort lt l) l /\ StronglySorted (fun a b => lt b a = false) (sort lt l).

(** One function meeting [sort_spec]. *)
Definition sort_ref (lt : nat -> nat -> bool) (l : list nat) : list nat :=
  isort (fun a b => negb (lt b a)) l.

Definition wtol : Q := 1 # 1000000.

(** violations.h:49-54 *)
Definition zero_profit (profits weights : list Q) (indices : list nat) : Q :=
  qsum (map (fun i => nth i profits 0%Q)
            (filter (fun i => Qle_bool (nth i weights 0%Q) wtol) indices)).

(** violations.h:60-78: loop over the items in the given order. *)
Fixpoint fill (profits weights : list Q) (capacity : Q) (minViol : ext) (order : list nat)
    (violation weight : Q) : Q :=
  match order with
  | [] => violation
  | j :: order' =>
      let w := nth j weights 0%Q in
      if Qle_bool w wtol then fill profits weights capacity minViol order' violation weight
      else
        let weight' := (weight + w)%Q in
        if Qle_bool (capacity - wtol) weight'
        then (violation + nth j profits 0 * (capacity - (weight' - w)) / w)%Q
        else
          let violation' := (violation + nth j profits 0)%Q in
          if ext_leb (ext_add minViol wtol) (Fin violation') then violation'
          else fill profits weights capacity minViol order' violation' weight'
  end.

(** violations.h:37-83 (update): the new value of *minViolPtr. *)
Definition update (profits : list Q) (loss : Q) (weights : list Q) (capacity : Q)
    (minViol : ext) (indices : list nat) (reverse : bool) : ext :=
  let v0 := (- loss + zero_profit profits weights indices)%Q in
  let v := fill profits weights capacity minViol (if reverse then rev indices else indices) v0 0 in
  if ext_ltb (Fin v) minViol then Fin v else minViol.

(** The array [violations] (row-major k x k x m) and the array [indices]. *)
Definition vstate : Type := (list ext * list nat)%type.

Definition vget (tab : list ext) (k m s t i : nat) : ext := nth (s * k * m + t * m + i) tab PInf.

(** violations.h:85-98 (compute) on entries (s,t,i) and (t,s,l), 119-125 and 134-140. *)
Definition compute (sort : (nat -> nat -> bool) -> list nat -> list nat) (I : inst)
    (s t i l : nat) (st : vstate) : vstate :=
  let '(tab, indices) := st in
  let k := i_k I in let m := i_m I in
  let indices' := sort (comp (row I s i) (row I t l)) indices in
  let sp := s * k * m + t * m + i in
  let tp := t * k * m + s * m + l in
  let tab1 := upd sp (update (row I s i) (rhs I s i) (row I t l) (rhs I t l)
                        (nth sp tab PInf) indices' false) tab in
  let tab2 := upd tp (update (row I t l) (rhs I t l) (row I s i) (rhs I s i)
                        (nth tp tab1 PInf) indices' true) tab1 in
  (tab2, indices').

(** violations.h:116-128, 130-144: the sequence of calls, as (s, t, i, l). *)
Definition call_list (k m : nat) : list (nat * nat * nat * nat) :=
  flat_map (fun s => flat_map (fun i => map (fun l => (s, s, i, l)) (seq (i + 1) (m - (i + 1))))
                              (seq 0 m)) (seq 0 k) ++
  flat_map (fun s => flat_map (fun t => flat_map (fun i => map (fun l => (s, t, i, l)) (seq 0 m))
                                                 (seq 0 m))
                              (seq (s + 1) (k - (s + 1)))) (seq 0 k).

(** violations.h:108-114, violations.pyx:11-16: inf, and 0 on the diagonal. *)
Definition init_table (k m : nat) : list ext :=
  flat_map (fun s => flat_map (fun t => repeat (if s =? t then Fin 0 else PInf) m) (seq 0 k)) (seq 0 k).

(** violations.h:100-146, violations.pyx:7-20. *)
Definition compute_all_violations (sort : (nat -> nat -> bool) -> list nat -> list nat) (I : inst)
  : list ext :=
  fst (fold_left (fun st c => let '(s, t, i, l) := c in compute sort I s t i l st)
         (call_list (i_k I) (i_m I)) (init_table (i_k I) (i_m I), seq 0 (i_n I))).
