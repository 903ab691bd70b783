(** Examples and counterexamples for rounding. *)
From Coq Require Import Qpower Qabs SpecFloat.
From Verif Require Import Base BaseFacts Spec Instance InstanceFacts Bounds Rounding RoundingFacts RoundingStore RoundingLoop Floats.

(** [store] with the binary64 operations of SpecFloat (decimals with few digits). *)
Definition store_b64 (x : Q) : option Q :=
  match b64_val (b64_mul (b64_of_Z 10) (b64_of_Q x)) with
  | Some y => b64_val (SFdiv 53 1024 (b64_of_Z (Qrnd y)) (b64_of_Z 10))
  | None => None
  end.
(** The decimals lo/1000, (lo+1)/1000, … *)
Definition decimals (lo : Z) (n : nat) : list Q := map (fun i => (lo + Z.of_nat i) # 1000) (seq 0 n).
Definition store_agrees (x : Q) : bool :=
  match store_b64 x with Some y => Qeq_bool y (store x) && Qeq_bool y (rnd53 (round1 x)) | None => false end.

(** Dot product from left to right, products rounded. *)
Definition dot_seq (rnd : Q -> Q) (a x : list Q) : Q := fold_left (fun acc q => rnd (acc + rnd q)%Q) (terms a x) 0%Q.

(** Three items of weight 0.1, then of weight 0.1, 0.2, 0.12; capacity 0.3. *)
Definition exR_rows : list (list Q) := [[3; 1; 2]; [1; 1; 1]; [1 # 10; 1 # 10; 1 # 10]; [1 # 10; 2 # 10; 12 # 100]; [3 # 10]]%Q.
Definition exR : inst := mkInst 3 1 2 false (1 # 2) [10 # 10; 10 # 10; 10 # 10]%Q [[[1 # 10; 1 # 10; 1 # 10]]; [[1 # 10; 2 # 10; 1 # 10]]]%Q [[3 # 10]; [3 # 10]]%Q.
Definition sums_seq (J : inst) (x : list Q) (s i : nat) : Q := dot_seq rnd53 (row J s i) x.

(** A point within 1e-5 of a binary point that satisfies every scenario. *)
Definition exT : inst := mkInst 2 1 1 false 0 [1; 1]%Q [[[10; 10]]]%Q [[10]]%Q.
Definition exT_x : list Q := [1; 1 # 100000]%Q.
Definition exT_y : list Q := [1; 0]%Q.
