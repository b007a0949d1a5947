(** * C57, C58: the agents a simulation starts with (src/xml_file_loader.cc, src/xml_flat_loader.cc) *)
From Coq Require Import String Ascii List ZArith Bool Arith.
From Verif Require Import Base SpecModel SimModel LoaderModel LoaderSpec LoaderProofs4 LoaderProofs5
  LoaderProofs8 LoaderProofs9 LoaderProofs10 LoaderExamples.
From Verif Require PpModel.
Import PpModel(xml(..)).
Import ListNotations.
Local Open Scope string_scope.

(** Once a file is loaded the context holds exactly the prototypes and agents the file says. *)
Theorem C57_initial_agents_are_those_of_the_file : forall beh cond make read fuel x i s0 r s,
  quiet_code beh -> (forall c, make (mkSpec "" "" "" "") <> Ok c) ->
  says_input x i -> fresh s0 ->
  load_file beh cond make read fuel x s0 = (Normal r, s) ->
  holds make (archetypes i) (prototypes i) (placements i) s0 s /\
  (* each prototype was configured from its own element, by the archetype its class name stands for *)
  r = combine (seq 0 (List.length (prototypes i))) (prototype_elements x) /\
  Forall2 (good_proto make read (archetypes i)) (prototype_elements x) (prototypes i).
Proof. exact file_loaded_good. Qed.
Print Assumptions C57_initial_agents_are_those_of_the_file.
Example C57_initial_agents_example :
  quiet_code beh1 /\ (forall c, make0 (mkSpec "" "" "" "") <> Ok c) /\ says_input file0 input0 /\ fresh (sim0 0 10) /\
  exists r s, load_file beh1 cond0 make0 read0 4 file0 (sim0 0 10) = (Normal r, s) /\
  map (fun x => (a_id x, a_proto x, a_life x, a_parent x)) (heap (w s)) =
  [(0, "Farm", 12, None); (1, "Mill", -1, None); (2, "Guild", -1, None); (3, "North", -1, None);
   (4, "North", -1, None); (5, "Guild", -1, Some 4%nat);
   (6, "Mill", -1, Some 5%nat); (7, "Farm", 12, Some 5%nat); (8, "Farm", 12, Some 5%nat)]%Z.
Proof. exact (conj quiet1 (conj no_spec0 (conj says_input0 (conj fresh0 loads0)))). Qed.

(** A complete file is loaded. *)
Theorem C57_complete_file_is_loaded : forall beh cond make read fuel x i s0,
  quiet_code beh -> (forall a, ends_normally beh cond fuel (HEnter a)) ->
  (forall p a, ends_normally beh cond fuel (HBuildNotify p a)) -> (2 <= fuel)%nat ->
  says_input x i -> complete make read x i -> fresh s0 ->
  exists r s, load_file beh cond make read fuel x s0 = (Normal r, s).
Proof. exact file_complete. Qed.
Print Assumptions C57_complete_file_is_loaded.
Example C57_complete_example :
  quiet_code beh1 /\ (forall h, ends_normally beh1 cond0 4 h) /\
  says_input file0 input0 /\ complete make0 read0 file0 input0 /\ fresh (sim0 0 10).
Proof. exact (conj quiet1 (conj ends1 (conj says_input0 (conj complete0 fresh0)))). Qed.

(** An archetype declared under a second alias cannot be used by that alias. *)
Theorem C57_second_alias_refuted : exists make read x i,
  says_input x i /\ NoDup (map alias_of (archetypes i)) /\
  Forall2 (good_proto make read (archetypes i)) (prototype_elements x) (prototypes i) /\
  forall fuel, exists s, load_file beh0 cond0 make read fuel x (sim0 0 10) = (Raised IOError, s).
Proof. exists make0, read0, file2, input2. exact second_alias. Qed.
Print Assumptions C57_second_alias_refuted.

(** The flat format: each agent once, parents before children. *)
Theorem C58_flat_agents_are_those_of_the_file : forall beh cond make read fuel n x f s0 ps placed s,
  quiet_code beh -> (forall c, make (mkSpec "" "" "" "") <> Ok c) ->
  says_flat x f -> fresh s0 ->
  load_flat_file beh cond make read fuel n x s0 = (Normal (ps, placed), s) ->
  let P := List.length (fl_protos f) in
  ps = combine (seq 0 P) (children "prototype" x) /\
  Forall2 (good_proto make read (fl_archetypes f)) (children "prototype" x) (fl_protos f) /\
  exists order pl, creation_order (fl_members f) P order pl /\
    placed = combine order (seq P (List.length order)) /\
    holds make (fl_archetypes f) (fl_protos f) pl s0 s.
Proof. exact flat_loaded_good. Qed.
Print Assumptions C58_flat_agents_are_those_of_the_file.
Example C58_flat_agents_example :
  quiet_code beh1 /\ (forall c, make0 (mkSpec "" "" "" "") <> Ok c) /\ says_flat file3 flat3 /\ fresh (sim0 0 10) /\
  exists s, load_flat_file beh1 cond0 make0 read0 4 16 file3 (sim0 0 10) =
  (Normal (combine (seq 0 3) (children "prototype" file3), [("gamma", 3); ("beta", 4); ("alpha", 5)]%nat), s) /\
  map (fun x => (a_id x, a_proto x, a_life x, a_parent x)) (heap (w s)) =
  [(0, "Mill", 1, None); (1, "Guild", -1, None); (2, "Land", -1, None);
   (3, "Land", -1, None); (4, "Guild", -1, Some 3%nat); (5, "Mill", 1, Some 4%nat)]%Z.
Proof. exact (conj quiet1 (conj no_spec0 (conj says_flat3 (conj fresh0 loads3)))). Qed.

(** A complete flat file in which every line of parents ends is loaded, in whatever order it lists
    its agents, after at most (agents + 1)^2 rounds of the loop that places them. *)
Theorem C58_complete_flat_file_is_loaded : forall beh cond make read fuel n x f s0,
  quiet_code beh -> (forall a, ends_normally beh cond fuel (HEnter a)) ->
  (forall p a, ends_normally beh cond fuel (HBuildNotify p a)) -> (2 <= fuel)%nat ->
  says_flat x f -> flat_complete make read x f -> rooted (fl_members f) -> fresh s0 ->
  ((List.length (fl_members f) + 1) * (List.length (fl_members f) + 1) <= n)%nat ->
  exists r s, load_flat_file beh cond make read fuel n x s0 = (Normal r, s).
Proof. exact flat_file_complete. Qed.
Print Assumptions C58_complete_flat_file_is_loaded.
Example C58_complete_example :
  quiet_code beh1 /\ (forall h, ends_normally beh1 cond0 4 h) /\ says_flat file3 flat3 /\
  flat_complete make0 read0 file3 flat3 /\ rooted (fl_members flat3) /\ fresh (sim0 0 10).
Proof. exact (conj quiet1 (conj ends1 (conj says_flat3 (conj complete3 (conj rooted3 fresh0))))). Qed.

(** Only such files are: nothing is ever loaded from a file with a missing parent or a circle. *)
Theorem C58_loaded_only_if_parents_are_listed : forall beh cond make read fuel n x f s0 r s,
  quiet_code beh -> (forall c, make (mkSpec "" "" "" "") <> Ok c) -> says_flat x f -> fresh s0 ->
  load_flat_file beh cond make read fuel n x s0 = (Normal r, s) -> rooted (fl_members f).
Proof. exact flat_parents. Qed.
Print Assumptions C58_loaded_only_if_parents_are_listed.
Example C58_parents_example : rooted (fl_members flat3). Proof. exact rooted3. Qed.

(** A missing parent is not reported: loading goes on for ever. *)
Theorem C58_missing_parent_never_ends_refuted : exists make read x f,
  says_flat x f /\ flat_complete make read x f /\
  forall fuel n, fst (load_flat_file beh0 cond0 make read fuel n x (sim0 0 10)) = NoFuel.
Proof. exists make0, read0, file4, flat4. exact missing_parent. Qed.
Print Assumptions C58_missing_parent_never_ends_refuted.

(** Of two agents with the same name only the last is created, silently. *)
Theorem C58_each_element_an_agent_refuted : exists make read x f,
  says_flat x f /\ List.length (fl_members f) = 2%nat /\
  exists s ps placed, load_flat_file beh0 cond0 make read 4 9 x (sim0 0 10) = (Normal (ps, placed), s) /\
    List.length placed = 1%nat /\ List.length (heap (w s)) = 4%nat /\ List.length ps = 3%nat.
Proof.
  exists make0, read0, file5, flat5. destruct same_name as [A (s & E & H)]. split; [exact A|]. split; [reflexivity|].
  exists s, (combine (seq 0 3) (children "prototype" file5)), [("alpha", 3%nat)]. split; [exact E|]. split; [reflexivity|].
  split; [rewrite <- (map_length a_proto), H; reflexivity|reflexivity].
Qed.
Print Assumptions C58_each_element_an_agent_refuted.
