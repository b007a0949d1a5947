(** C42, resources: the resources of a snapshot come back from the database.
    Vocabulary: ResourceSpec.v, ReloadSpec.v. *)
From Verif Require Import Base CompModel CompSpec CompProofs PackageModel ResourceModel ResourceSpec
  ResourceProperties ResourceDbProperties ReloadModel ReloadSpec ReloadProofs2.
Open Scope Q_scope.

(** Take any resource of any history [ops] with more than eps_rsrc() left, by its state id at that time. Whatever the
    program does afterwards ([later]), the database then brings the resource back into any program ([w1]). *)
Theorem C42_resources : forall E ops w, env_ok E -> 0 <= e_eps E -> Forall no_clone ops -> Forall op_wf ops ->
  run E ops world0 = Some w ->
  forall later w', Forall op_wf later -> run E later w = Some w' ->
  forall k r, nth_error (w_res w) k = Some r -> r_ctx r = true -> e_eps E < r_qty r ->
  forall dummy w1, exists i w2, load_resource E (w_db w') dummy (r_state r) w1 = (Ok i, w2) /\ remembered E w r w2 i.
Proof. exact reload_lemma. Qed.
Print Assumptions C42_resources.

(** A material and a product, both partly used after the snapshot. *)
Definition reload_ops : list op :=
  [ONewComp true [(2%Z, 1); (3%Z, 3)]; OCreateMat 1 10 0 unpackaged_name; OCreateProd 1 5 "bolt" unpackaged_name; OExtract 0 4].
Definition reload_later : list op := [OAdvance; OExtract 0 1; OExtract 1 2].
Lemma reload_wf : Forall op_wf (reload_ops ++ reload_later).
Proof. repeat apply Forall_cons; try exact I; [|constructor]. simpl. repeat split; repeat constructor. Qed.
Example C42_resources_case : Forall no_clone reload_ops /\ exists w w' r p i w2 i' w3,
  run exE reload_ops world0 = Some w /\ run exE reload_later w = Some w' /\
  nth_error (w_res w) 0 = Some r /\ r_ctx r = true /\ e_eps exE < r_qty r /\
  nth_error (w_res w) 1 = Some p /\ r_ctx p = true /\ e_eps exE < r_qty p /\
  load_resource exE (w_db w') 9 (r_state r) world0 = (Ok i, w2) /\ remembered exE w r w2 i /\
  load_resource exE (w_db w') 9 (r_state p) world0 = (Ok i', w3) /\ remembered exE w p w3 i'.
Proof.
  split; [repeat (apply Forall_cons; [exact I|]); constructor|].
  exists (world_after reload_ops), (world_after (reload_ops ++ reload_later)).
  eexists _, _, _, _, _, _. split; [vm_compute; reflexivity|]. split; [vm_compute; reflexivity|].
  split; [vm_compute; reflexivity|]. split; [reflexivity|]. split; [reflexivity|].
  split; [vm_compute; reflexivity|]. split; [reflexivity|]. split; [reflexivity|].
  split; [vm_compute; reflexivity|].
  split.
  - eexists. split; [vm_compute; reflexivity|]. repeat (split; [reflexivity|]). cbn [r_qual].
    eexists _, _. split; [vm_compute; reflexivity|]. split; [vm_compute; reflexivity|]. split; [reflexivity|]. split; [reflexivity|].
    split; [vm_compute; reflexivity|]. vm_compute. tauto.
  - split; [vm_compute; reflexivity|]. eexists. split; [vm_compute; reflexivity|]. repeat (split; [reflexivity|]).
    vm_compute. auto.
Qed.

(** A packaged material comes back unpackaged. *)
Theorem C42_package_refuted : exists ops w r i w2 r', Forall no_clone ops /\ run exE ops world0 = Some w /\
  nth_error (w_res w) 0 = Some r /\ e_eps exE < r_qty r /\ load_resource exE (w_db w) 9 (r_state r) world0 = (Ok i, w2) /\
  nth_error (w_res w2) i = Some r' /\ r_pkg r = "drum"%string /\ r_pkg r' = unpackaged_name.
Proof.
  pose (ops := [ONewComp true [(2%Z, 1)]; OCreateMat 1 3 0 "drum"]).
  exists ops, (world_after ops). eexists _, _, _, _.
  split; [repeat (apply Forall_cons; [exact I|]); constructor|]. split; [vm_compute; reflexivity|].
  split; [vm_compute; reflexivity|]. split; [reflexivity|]. split; [vm_compute; reflexivity|]. split; [vm_compute; reflexivity|]. auto.
Qed.
Print Assumptions C42_package_refuted.

(** A used-up material comes back full. *)
Theorem C42_used_up_refuted : exists ops w r i w2 r', Forall no_clone ops /\ run exE ops world0 = Some w /\
  nth_error (w_res w) 0 = Some r /\ r_qty r == 0 /\ load_resource exE (w_db w) 9 (r_state r) world0 = (Ok i, w2) /\
  nth_error (w_res w2) i = Some r' /\ r_qty r' == 10.
Proof.
  pose (ops := [ONewComp true [(2%Z, 1)]; OCreateMat 1 10 0 unpackaged_name; OExtract 0 10]).
  exists ops, (world_after ops). eexists _, _, _, _.
  split; [repeat (apply Forall_cons; [exact I|]); constructor|]. split; [vm_compute; reflexivity|].
  split; [vm_compute; reflexivity|]. split; [reflexivity|]. split; [vm_compute; reflexivity|]. split; [vm_compute; reflexivity|]. reflexivity.
Qed.
Print Assumptions C42_used_up_refuted.

(** A material transmuted at time 1 (which counts as its last decay) comes back as last decayed at time 0. *)
Theorem C42_decay_time_refuted : exists ops w r i w2 r', Forall no_clone ops /\ run exE ops world0 = Some w /\
  nth_error (w_res w) 0 = Some r /\ e_eps exE < r_qty r /\ load_resource exE (w_db w) 9 (r_state r) world0 = (Ok i, w2) /\
  nth_error (w_res w2) i = Some r' /\ r_prev r = 1%Z /\ r_prev r' = 0%Z.
Proof.
  pose (ops := [ONewComp true [(2%Z, 1)]; OCreateMat 1 3 0 unpackaged_name; OAdvance; OTransmute 0 0]).
  exists ops, (world_after ops). eexists _, _, _, _.
  split; [repeat (apply Forall_cons; [exact I|]); constructor|]. split; [vm_compute; reflexivity|].
  split; [vm_compute; reflexivity|]. split; [reflexivity|]. split; [vm_compute; reflexivity|]. split; [vm_compute; reflexivity|]. auto.
Qed.
Print Assumptions C42_decay_time_refuted.

(** ** C07, qualities of products *)

(** The number in the last row of a tracked product is listed in the table of products for its quality and for no other,
    and its quality under no other number. *)
Theorem C07_quality_named : forall E ops w, 0 <= e_eps E -> Forall no_clone ops -> run E ops world0 = Some w ->
  forall k r s, nth_error (w_res w) k = Some r -> r_ctx r = true -> e_eps E < r_qty r -> r_qual r = QProd s ->
  exists x, last_row (r_obj r) (res_rows (w_db w)) = Some x /\ In (DProd (row_qual x) s) (w_db w) /\
    forall z s', In (DProd z s') (w_db w) -> (z = row_qual x <-> s' = s).
Proof. exact quality_named. Qed.
Print Assumptions C07_quality_named.
Example C07_quality_named_case : exists w, run exE [OCreateProd 1 5 "bolt" unpackaged_name; OCreateProd 1 5 "nut" unpackaged_name] world0 = Some w /\
  In (DProd 1 "bolt") (w_db w) /\ In (DProd 2 "nut") (w_db w) /\
  exists r x, nth_error (w_res w) 1 = Some r /\ r_qual r = QProd "nut" /\ last_row (r_obj r) (res_rows (w_db w)) = Some x /\ row_qual x = 2%Z.
Proof. eexists. split; [vm_compute; reflexivity|]. split; [vm_compute; auto|]. split; [vm_compute; auto 10|]. eexists _, _. split; [vm_compute; reflexivity|]. vm_compute. auto. Qed.
