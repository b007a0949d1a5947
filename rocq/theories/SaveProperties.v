(** * SaveProperties: theorems about generated copying, saving and restoring of agents (C59). *)
From Coq Require Import String.
From Verif Require Import Base CompModel CompSpec PackageModel ResourceModel ResourceSpec ResourceProperties BufModel BufSpec
  BufProperties SaveModel SaveSpec SaveProofs4 SaveExamples.
Open Scope Q_scope.

(** A clone has the values of the original, buffers of the same capacity with nothing in them, and the constructor's
    settings otherwise. *)
Theorem C59_clone_is_an_empty_copy : forall E c fresh self,
  class_ok c -> 0 <= e_eps E -> just_constructed c fresh -> object_of c self ->
  (forall x T b q, buf_var c x T -> find x self = Some (MBuf T b) -> b_cap b = Some q -> 0 <= q) ->
  exists m, clone E c fresh self = Ok m /\
    (forall x, plain_var c x -> find x m = find x self) /\
    (forall x T b b0, buf_var c x T -> find x self = Some (MBuf T b) -> find x fresh = Some (MBuf T b0) ->
       exists b', find x m = Some (MBuf T b') /\ b_cap b' = b_cap b /\ b_rs b' = [] /\ quantity b' == 0 /\
         b_bulk b' = b_bulk b0 /\ b_keep b' = b_keep b0) /\
    (forall x, trk_var c x -> find x m = find x fresh).
Proof. exact clone_copies. Qed.
Print Assumptions C59_clone_is_an_empty_copy.
Example C59_clone_example : class_ok store /\ just_constructed store store_new /\ object_of store store_used /\
  (forall x T b q, buf_var store x T -> find x store_used = Some (MBuf T b) -> b_cap b = Some q -> 0 <= q).
Proof.
  split; [exact store_ok|]. split; [exact store_constructed|]. split; [apply store_object|].
  intros x T b q H F Eq. apply (se_cap _ _ _ _ (store_settled x T b H F) q Eq).
Qed.

(** Saving an agent changes nothing: neither the resources nor the agent.  What was saved is enough to make the agent
    again in another simulation, where the constructor has run and the saved resources have been loaded: every variable
    has its value again, and every inventory holds the loaded resources in the order they had, with the quantity it had
    and the capacity its annotation states. *)
Theorem C59_saved_agent_comes_back : forall E c w o,
  class_ok c -> object_of c o -> 0 <= e_eps E -> settled_agent E c w o ->
  exists row i o', snapshot c o = Ok row /\ snapshot_inv E c (w, o) = (Ok i, (w, o')) /\ same_object o o' /\
    forall fresh w2 i2, just_constructed c fresh -> reloaded_invs w w2 i i2 ->
      (forall x T b b0, buf_var c x T -> find x o = Some (MBuf T b) -> find x fresh = Some (MBuf T b0) ->
         b_bulk b0 = b_bulk b /\ b_keep b0 = b_keep b /\
         exists q, annotated_cap c o x q /\ 0 <= q /\ b_qty b <= q + e_eps E) ->
      exists m m', init_from_db E c [row] fresh = Ok m /\ init_inv E c i2 (w2, m) = (Ok tt, (w2, m')) /\
        (forall x, plain_var c x -> find x m' = find x o) /\
        (forall x T b, buf_var c x T -> find x o = Some (MBuf T b) ->
           exists b' q, find x m' = Some (MBuf T b') /\ Forall2 (reloaded w w2) (b_rs b) (b_rs b') /\
             quantity b' == quantity b /\ annotated_cap c o x q /\ b_cap b' = Some q /\
             b_bulk b' = b_bulk b /\ b_keep b' = b_keep b) /\
        (forall x, trk_var c x -> find x m' = find x fresh).
Proof. exact comes_back. Qed.
Print Assumptions C59_saved_agent_comes_back.
Example C59_saved_agent_example :
  class_ok store /\ object_of store store_used /\ 0 <= e_eps exE /\ settled_agent exE store store_world store_used /\
  just_constructed store store_new /\ reloaded_invs store_world next_world saved_invs next_invs /\
  fst back = Ok tt /\
  match find "stock" (snd (snd back)) with
  | Some (MBuf EMaterial b) => b_rs b = [1%nat; 0%nat] /\ b_qty b == 11 /\ b_cap b = Some 20
  | _ => False end.
Proof.
  split; [exact store_ok|]. split; [apply store_object|]. split; [exact eps_pos|]. split; [exact store_settled|].
  split; [exact store_constructed|]. split; [exact next_reloaded|]. vm_compute. repeat split.
Qed.

(** A buffer that has been pushed over its capacity in crumbs (C08) does not survive the snapshot itself: everything is
    taken out, nothing goes back in, and the run ends with an exception. *)
Theorem C59_snapshot_of_overfull_buffer_refuted :
  exists E c w o, class_ok c /\ object_of c o /\
    (exists b, find "stock" o = Some (MBuf EMaterial b) /\ b_rs b <> []) /\
    exists o', snapshot_inv E c (w, o) = (Throw ValueError, (w, o')) /\
      exists b', find "stock" o' = Some (MBuf EMaterial b') /\ b_rs b' = [].
Proof.
  exists exE, tank, (fst crumbs_state), crumbs_tank. split; [exact tank_ok|]. split.
  - split.
    + intros x [i [t [[H|[]] Ei]]]. injection H as <- <-. discriminate.
    + intros x T H. apply tank_buf in H as [-> ->]. exists (snd crumbs_state). reflexivity.
    + intros x [i [[H|[]] Ei]]. injection H as <- <-. discriminate.
  - destruct crumbs_lost as [R L]. split; [exists (snd crumbs_state); split; [reflexivity|rewrite R; discriminate]|].
    destruct (snapshot_inv exE tank (fst crumbs_state, crumbs_tank)) as [r [w1 o1]] eqn:S. destruct L as [-> [-> L]].
    exists o1. split; [reflexivity|]. destruct (find "stock" o1) as [[v|T b|q l]|] eqn:F; try contradiction.
    destruct (crumbs_kind _ _ _ _ S eq_refl) as [b' F']. rewrite F in F'. injection F' as -> ->.
    exists b'. auto.
Qed.
Print Assumptions C59_snapshot_of_overfull_buffer_refuted.

(** A capacity changed after the agent was built is not saved: the agent gets the annotated one, and if its content is
    more than that, restoring it ends with an exception. *)
Theorem C59_changed_capacity_refuted :
  exists E c w o fresh row i o' w2, class_ok c /\ settled_agent E c w o /\ just_constructed c fresh /\
    snapshot c o = Ok row /\ snapshot_inv E c (w, o) = (Ok i, (w, o')) /\ reloaded_invs w w2 i i /\
    exists m s, init_from_db E c [row] fresh = Ok m /\ init_inv E c i (w2, m) = (Throw ValueError, s).
Proof.
  destruct big_saved as [o' [S1 S2]].
  exists exE, tank, (fst big_state), big_tank, tank_new, [], big_invs, o', big_next.
  split; [exact tank_ok|]. split; [exact big_settled|]. split; [exact tank_constructed|]. split; [exact S1|].
  split; [exact S2|]. split; [exact big_reloaded|]. pose proof big_lost as L.
  destruct (init_from_db exE tank [[]] tank_new) as [m|e|] eqn:D; try contradiction.
  destruct (init_inv exE tank big_invs (big_next, m)) as [r [w1 o1]] eqn:R. destruct L as [-> _].
  exists m, (w1, o1). split; [exact D|exact R].
Qed.
Print Assumptions C59_changed_capacity_refuted.

(** The limit of a tracker is neither copied nor saved, and an agent whose constructor leaves the tracker without
    buffers cannot be cloned. *)
Theorem C59_tracker_limit_refuted :
  exists E c fresh self m q q' l, clone E c fresh self = Ok m /\
    find "total" self = Some (MTrk q l) /\ find "total" m = Some (MTrk q' l) /\ ~ q' == q /\
    exists idle, object_of c idle /\ clone E c idle self = Throw ValueError.
Proof.
  destruct tracker_clone as [A B]. destruct (clone exE store store_new store_used) as [m|e|] eqn:C; try contradiction.
  destruct A as [A1 A2]. exists exE, store, store_new, store_used, m, 500, 1000, ["stock"%string].
  split; [exact C|]. split; [exact A1|]. split; [exact A2|]. split; [vm_compute; discriminate|].
  exists idle_new. split; [apply store_object|exact B].
Qed.
Print Assumptions C59_tracker_limit_refuted.

(** For an inventory of type ResMap, in any class: SnapshotInv hands its content out, InitInv has no statement that takes
    it back, and InitFrom(copy) assigns the map, so that the clone holds the same resources. *)
Theorem C59_resource_map_refuted : forall c x i k T, NoDup (map fst c) -> In (x, Var i) c -> i_type i = TyMap k T ->
  In (SMap x) (gen_snapshotinv c) /\ ~ In (SMap x) (gen_initinv c) /\ ~ In (SPush x) (gen_initinv c) /\
  In (SCopy x) (gen_copy c).
Proof. exact map_not_restored. Qed.
Print Assumptions C59_resource_map_refuted.
Example C59_resource_map_example : exists c, NoDup (map fst c) /\
  In ("shelf"%string, Var (mkInfo (TyMap "std::string" EProduct) None)) c.
Proof.
  exists [("shelf"%string, Var (mkInfo (TyMap "std::string" EProduct) None))]. split; [|simpl; auto].
  simpl. repeat constructor. simpl. tauto.
Qed.
