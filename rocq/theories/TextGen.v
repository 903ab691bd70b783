(** The generated file read back, from the text on. *)
From Verif Require Import Base Spec Instance InstanceFacts Text TextSpec TextFacts TextIff.

Lemma gen_load : forall n m c samples b cont eps,
  0 < length samples ->
  Forall (fun M => length M = m /\ Forall (fun r => length r = n) M) samples ->
  length b = m ->
  load_text (gen_text n m c samples b) cont eps =
    Ok (mkInst n m (length samples) cont eps (map (fun x => round1 (dval x)) c)
          (map (map (map (fun v => round1 (gen_entry v)))) samples)
          (repeat (map (fun x => round1 (dval x)) b) (length samples))).
Proof.
  intros n m c samples b cont eps H1 H2 H3. rewrite (file_load _ _ _ _ (gen_file n m c samples b)).
  rewrite gen_parse; [|exact H1|exact H2|rewrite map_length; exact H3].
  rewrite !map_map. reflexivity.
Qed.
