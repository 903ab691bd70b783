(** Postconditions of computations that may raise: [post E P m] when m returns a value
    satisfying P or raises an exception allowed by E. *)
From Verif Require Import Base BaseFacts Instance InstanceFacts.

Definition post {A} (E : exn -> Prop) (P : A -> Prop) (m : res A) : Prop :=
  match m with Ok a => P a | Err e => E e end.

Definition no_exn (e : exn) : Prop := False.

Lemma post_bind {A B} E (P : A -> Prop) (Q : B -> Prop) m f :
  post E P m -> (forall a, P a -> post E Q (f a)) -> post E Q (rbind m f).
Proof. destruct m as [a|e]; simpl; auto. Qed.
Lemma post_impl {A} E (P Q : A -> Prop) m : post E P m -> (forall a, P a -> Q a) -> post E Q m.
Proof. destruct m; simpl; auto. Qed.
Lemma post_exn {A} (E F : exn -> Prop) (P : A -> Prop) m : post E P m -> (forall e, E e -> F e) -> post F P m.
Proof. destruct m; simpl; auto. Qed.
Lemma post_ok {A} (P : A -> Prop) m : post no_exn P m -> exists a, m = Ok a /\ P a.
Proof. destruct m as [a|e]; simpl; [eauto|intros []]. Qed.
Lemma post_value {A} E (P : A -> Prop) m a : post E P m -> m = Ok a -> P a.
Proof. intros H ->. exact H. Qed.
