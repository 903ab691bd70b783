(** Starts of the relaxations in runs on the nine scenarios of AdaptiveEx. *)
From Verif Require Import Base BaseFacts Spec Instance OptModels Initial Bounds Refine CostRefine Merge Adaptive AdaptiveSpec AdaptiveEx NearSpec SameEx.

(** Turn n up to the relaxation of turn n+1: partition and indicators before, whether subsets were merged, deleted indices,
    partition after, start of the next relaxation. *)
Definition start_after (w : world) (I : inst) (cf : cfg) (n : nat) :=
  match head_state w I cf n with
  | None => None
  | Some s =>
    match bound_phase w I cf s with
    | (Ok (inr x), s1) =>
      match split_step w I cf s1 with
      | (Ok (R, nc), s2) =>
        match merge_step w I cf x R nc s2 with
        | (Ok tt, s3) =>
          match next_iteration w cf s3 with
          | (Ok Continue, s4) =>
            match big_M w I cf s4 with
            | (Ok tt, s5) =>
              match relaxation cf s5 (c_limit cf), partition_bound w I cf s5 with
              | Ok m, (Ok _, _) => Some (a_part s, a_zUB s1, a_merged s3, ms_deleted (a_ms s3), a_part s4, m_start m)
              | _, _ => None
              end
            | _ => None
            end
          | _ => None
          end
        | _ => None
        end
      | _ => None
      end
    | _ => None
    end
  end.
