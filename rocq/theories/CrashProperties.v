(** * C51: no resource operation crashes on valid arguments. *)
From Coq Require Import String List.
From Verif Require Import Base CompModel CompSpec PackageModel ResourceModel ResourceSpec ResourceProperties CrashSpec CrashProofs CrashProofs2.
Import ListNotations.
Open Scope Q_scope.

(** After any history of calls, returning or throwing, an operation has undefined behaviour exactly when it is not a
    valid call: a dead handle, a handle of the wrong class, or a packaging whose fill computation itself is undefined. *)
Theorem C51_crash_only_invalid : forall E ops w o,
  Forall no_untracked_product ops -> run E ops world0 = Some w -> no_untracked_product o ->
  (fst (step E o w) = UB <-> ~ valid_op E w o).
Proof. exact step_ub_iff. Qed.
Print Assumptions C51_crash_only_invalid.

(** Whole histories: a program runs to its end, whatever exceptions it catches on the way, exactly when each of its
    calls is valid in the world it is made in. *)
Theorem C51_valid_history_runs : forall E ops,
  Forall no_untracked_product ops -> (run E ops world0 <> None <-> valid_history E ops world0).
Proof. exact history_iff0. Qed.
Print Assumptions C51_valid_history_runs.

(** Packaging is a valid call for every package made by Package::Create and every positive quantity of less than
    SplitLimit() fills. *)
Theorem C51_packaging_valid : forall E w i r e name fmin fmax strategy p samples,
  nth_error (w_res w) i = Some r -> pkg_create e name fmin fmax strategy = Ok p -> 0 < e_eps E -> 0 < r_qty r ->
  (strategy = "first"%string /\ r_qty r < inject_Z split_limit * fmax \/
   strategy <> "first"%string /\ 0 < fmin /\ r_qty r < inject_Z split_limit * fmin /\
   Forall (fun s => fmin <= s <= fmax) samples /\
   r_qty r <= inject_Z (Z.of_nat (length samples)) * fmin) ->
  valid_op E w (OPackage i p samples).
Proof. exact packaging_valid. Qed.
Print Assumptions C51_packaging_valid.

(** Creation, extraction (accepted and refused), mixing, packaging and a clone: every call is valid; absorbing a product
    into a material, or using a handle that does not exist, is not. *)
Definition c51_ops : list op := ex_ops ++
  [OExtract 0 3; OExtract 0 100; OAbsorb 0 1; OClone 2; OExtract 4 1; OAdvance; ODecay 0 (-1);
   OPackage 2 (mkPackage "drum" 1 5 "first") []; OChangePackage 0 "drum"].
Example C51_ex_runs : Forall no_untracked_product c51_ops /\ exists w, run exE c51_ops world0 = Some w /\
  length (w_res w) = 8%nat /\
  valid_op exE w (OExtract 6 1) /\ fst (step exE (OExtract 6 1) w) <> UB /\
  ~ valid_op exE w (OAbsorb 0 2) /\ fst (step exE (OAbsorb 0 2) w) = UB /\
  ~ valid_op exE w (OExtract 8 1) /\ fst (step exE (OExtract 8 1) w) = UB.
Proof.
  split; [repeat (apply Forall_cons; [exact I|]); constructor|].
  exists (world_after c51_ops). split; [vm_compute; reflexivity|]. split; [vm_compute; reflexivity|].
  split; [eexists; vm_compute; reflexivity|]. split; [vm_compute; discriminate|].
  split; [|split; [vm_compute; reflexivity|split; [|vm_compute; reflexivity]]].
  - intros [(_ & (r & H & c & Q))|((r & H & K) & _)].
    + vm_compute in H. injection H as <-. discriminate.
    + apply K. vm_compute in H. injection H as <-. eexists. reflexivity.
  - intros (r & H). vm_compute in H. discriminate.
Qed.

(** Left out: Product::CreateUntracked, which breaks this (C01_untracked_product_refuted). *)
Theorem C51_untracked_product_refuted : exists ops w o,
  run exE ops world0 = Some w /\ valid_op exE w o /\ fst (step exE o w) = UB.
Proof.
  exists [OCreateProdUntracked 10 "water"; OExtract 0 4], (world_after [OCreateProdUntracked 10 "water"; OExtract 0 4]), (OExtract 1 1).
  split; [vm_compute; reflexivity|]. split; [eexists; vm_compute; reflexivity|vm_compute; reflexivity].
Qed.
Print Assumptions C51_untracked_product_refuted.
