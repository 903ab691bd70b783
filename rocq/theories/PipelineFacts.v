(** From a run of main.py to the exported tables (C50, C51). *)
From Coq Require Import String Ascii.
From Verif Require Import Base BaseFacts Spec Instance InstanceFacts OptModels Bounds Refine CostRefine Merge Knapsack Violations BigM
  Adaptive AdaptiveSpec Milp Report Main Export ReportFacts NameFacts ExportFacts.

Local Open Scope string_scope.

(** Reading of the files written by a script. *)
Fixpoint files (l : list (string * list cell)) (p : string) : option (list cell) :=
  match l with
  | [] => None
  | (q, row) :: l' => if String.eqb p q then Some row else files l' p
  end.

Section Pipeline.
  Variable w : world.
  Variable I : inst.
  Variable name : string.
  Variable path : string.
  Variables fuel rfuel : nat.

  Lemma main_milp_row METHOD out : METHOD = 1%Z \/ METHOD = 2%Z -> 0 < i_k I -> main w I name path fuel rfuel METHOD = (Ok tt, out) ->
    exists row nums bt s v u, out = [(path, row)] /\ milp_run w I (cfgM rfuel) true (if (METHOD =? 1)%Z then Song else Belotti) = (Ok (Some bt), s) /\
      a_vLB s = Fin v /\ a_vUB s = Fin u /\ ~ (v == 0)%Q /\ read_row row = Ok (CText name, nums) /\ List.length nums = 14 /\
      good_row (CText name, nums) /\ time_field (CText name, nums) = finite bt /\
      field 4 (CText name, nums) = fixed 3 (finite (w_clock w (a_t s) - w_clock w 0)) /\
      field 1 (CText name, nums) = fixed 3 (times100 (finite ((u - v) / v))) /\
      (is_solved (1 # 100) (CText name, nums) = Ok true <-> ((u - v) / v <= 105 # 1000000)%Q).
  Proof.
    intros HM Hk H.
    assert (G : forall m, main_milp w I name path rfuel m = (Ok tt, out) -> bigm_of_string m = (if (METHOD =? 1)%Z then Song else Belotti) ->
      exists row nums bt s v u, out = [(path, row)] /\ milp_run w I (cfgM rfuel) true (if (METHOD =? 1)%Z then Song else Belotti) = (Ok (Some bt), s) /\
      a_vLB s = Fin v /\ a_vUB s = Fin u /\ ~ (v == 0)%Q /\ read_row row = Ok (CText name, nums) /\ List.length nums = 14 /\
      good_row (CText name, nums) /\ time_field (CText name, nums) = finite bt /\
      field 4 (CText name, nums) = fixed 3 (finite (w_clock w (a_t s) - w_clock w 0)) /\
      field 1 (CText name, nums) = fixed 3 (times100 (finite ((u - v) / v))) /\
      (is_solved (1 # 100) (CText name, nums) = Ok true <-> ((u - v) / v <= 105 # 1000000)%Q)).
    { intros m Hm Em. unfold main_milp in Hm. rewrite Em in Hm. remember (milp_run w I (cfgM rfuel) true (if (METHOD =? 1)%Z then Song else Belotti)) as run eqn:ER. symmetry in ER.
      destruct run as [[bt|e] s]; [|discriminate].
      destruct (milp_run_shape w I (cfgM rfuel) _ _ _ _ ER) as ((v & u & EL & EU) & NL & NU & ES & _ & B1).
      destruct (B1 eq_refl) as ((t & -> & Lt) & _).
      unfold milp_row, instance_details, computation_details in Hm. rewrite EL, EU, NL, NU in Hm.
      assert (K : (i_k I =? 0)%nat = false) by (apply Nat.eqb_neq; lia). rewrite K in Hm.
      destruct (i_n I =? 0)%nat eqn:En; [discriminate|]. cbn [orb rbind compute_gap] in Hm.
      destruct (Qeq_bool v 0) eqn:Ev; [discriminate|]. cbn [rbind] in Hm. injection Hm as <-.
      assert (Nv : ~ (v == 0)%Q) by (intro X; apply Qeq_bool_iff in X; congruence).
      do 2 eexists. exists t, s, v, u. split; [reflexivity|]. split; [reflexivity|]. split; [exact EL|]. split; [exact EU|]. split; [exact Nv|].
      split; [reflexivity|]. split; [reflexivity|].
      match goal with |- good_row ?r /\ _ => set (R := r) end.
      assert (F1 : field 1 R = fixed 3 (times100 (finite ((u - v) / v)))) by reflexivity.
      assert (F4 : field 4 R = fixed 3 (finite (w_clock w (a_t s) - w_clock w 0))) by (unfold R, field; cbn -[fixed]; now rewrite ES).
      split. { split; [cbn; lia|]. rewrite F1, F4. split; [reflexivity|]. left. reflexivity. }
      split; [reflexivity|]. split; [exact F4|]. split; [exact F1|]. apply stored_gap_solved; [discriminate|exact F1]. }
    destruct HM as [->| ->]; eapply G; try exact H; reflexivity.
  Qed.

  (** The row is found again by export_results.py when rounding and truncation of the percentage agree, and only then. *)
  Lemma main_read_back METHOD out dir inpath i sn j pct : METHOD = 1%Z \/ METHOD = 2%Z -> 0 < i_k I ->
    pathlike inpath -> no_char "/" i -> (0 <= sn)%Z -> (0 <= j)%Z -> (0 <= pct)%Q ->
    path = out_name dir (file_name (inpath ++ (i ++ "-" ++ str_of_Z sn ++ "-" ++ str_of_Z j) ++ "." ++ "csv")) pct (i_cont I) METHOD ->
    main w I name path fuel rfuel METHOD = (Ok tt, out) ->
    (Qrnd pct = Qtrunc pct -> exists row nums, out = [(path, row)] /\ read_row row = Ok (CText name, nums) /\
       read_single_experiment (files out) dir i sn j pct (if i_cont I then 1 else 0) METHOD = Ok (Some (CText name, nums))) /\
    (Qrnd pct <> Qtrunc pct -> read_single_experiment (files out) dir i sn j pct (if i_cont I then 1 else 0) METHOD = Ok None).
  Proof.
    intros HM Hk H1 H2 H3 H4 H5 EP H. destruct (main_milp_row METHOD out HM Hk H) as (row & nums & bt & s & v & u & -> & _ & _ & _ & _ & R & _).
    assert (N := names_agree dir inpath i sn j pct (i_cont I) METHOD H1 H2 H3 H4 H5). rewrite <- EP in N.
    unfold read_single_experiment. cbn [files]. split.
    - intro E. apply N in E. exists row, nums. split; [reflexivity|]. split; [exact R|]. rewrite <- E, String.eqb_refl, R. reflexivity.
    - intro E. destruct (String.eqb _ path) eqn:X; [|reflexivity]. apply String.eqb_eq in X. exfalso. apply E, N. now symmetry.
  Qed.
End Pipeline.
