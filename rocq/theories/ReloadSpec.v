(** Vocabulary for reloading resources. *)
From Verif Require Import Base CompModel CompSpec PackageModel ResourceModel ResourceSpec.
Open Scope Q_scope.

(** Resource [i] of world [w'] is what resource [r] of world [w] is remembered as: same ids, quantity and kind; the
    composition has the same id and the same mass fractions (and is not recorded again), the quality is the same. *)
Definition remembered (E : env) (w : world) (r : resource) (w' : world) (i : nat) : Prop :=
  exists r', nth_error (w_res w') i = Some r' /\
    r_state r' = r_state r /\ r_obj r' = r_obj r /\ r_qty r' = r_qty r /\ r_ctx r' = true /\ r_tracked r' = true /\
    match r_qual r, r_qual r' with
    | QMat c, QMat c' =>
        exists x x', nth_error (w_comps w) c = Some x /\ nth_error (w_comps w') c' = Some x' /\
          c_id x' = c_id x /\ c_recorded x' = true /\ comp_mass E x' = normalize (comp_mass E x) 1 /\
          In (DMatInfo (r_state r) (r_prev r')) (w_db w)
    | QProd s, QProd s' => s' = s /\ assoc s (w_quals w') = assoc s (w_quals w)
    | _, _ => False
    end.
