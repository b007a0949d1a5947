(** * C05-C07, C36, C37: identity, provenance, the Resources and Compositions tables, the decay cache.
    Vocabulary: ResourceSpec.v.  [run E ops world0 = Some w]: the history [ops] of API calls, some of
    which may have thrown, ended in [w] without undefined behaviour. *)
From Verif Require Import Base CompModel CompSpec CompProofs PackageModel ResourceModel ResourceSpec
  ResourceProofs9 ResourceProofs10 ResourceProofs12 ResourceProofs13 ResourceProperties.
Open Scope Q_scope.

(** A history with every kind of step: creation, extraction, absorption, packaging, transmutation,
    a refused extraction, an untracked material. *)
Definition ex_hist : list op := ex_ops ++
  [OExtract 0 3; OExtract 0 100; OAbsorb 1 3; OAdvance; OTransmute 1 0; OExtract 2 2;
   OPackage 0 (mkPackage "drum" 1 5 "first") []; OCreateMatUntracked 2 0; OChangePackage 2 "drum"].
Definition exH : world := world_after ex_hist.
Lemma exH_run : run exE ex_hist world0 = Some exH.
Proof. vm_compute. reflexivity. Qed.
Lemma exH_no_clone : Forall no_clone ex_hist.
Proof. repeat (apply Forall_cons; [exact I|]). constructor. Qed.
Lemma exE_eps : 0 <= e_eps exE.
Proof. vm_compute. discriminate. Qed.

(** ** C05 *)

(** No two rows of the Resources table have the same ResourceId, in any history. *)
Theorem C05_state_ids_unique : forall E ops w, run E ops world0 = Some w -> NoDup (map row_id (res_rows (w_db w))).
Proof. exact C05_state_ids_lemma. Qed.
Print Assumptions C05_state_ids_unique.

(** An object keeps its object id, whatever is done to it or to anything else. *)
Theorem C05_object_id_fixed : forall E ops w w' k r, run E ops w = Some w' -> nth_error (w_res w) k = Some r ->
  exists r', nth_error (w_res w') k = Some r' /\ r_obj r' = r_obj r.
Proof. exact C05_object_fixed_lemma. Qed.
Print Assumptions C05_object_id_fixed.

(** Different objects have different object ids (a Clone is a second handle on the same object). *)
Theorem C05_object_ids_unique : forall E ops w, 0 <= e_eps E -> Forall no_clone ops -> run E ops world0 = Some w ->
  NoDup (map r_obj (w_res w)).
Proof. exact C05_object_ids_lemma. Qed.
Print Assumptions C05_object_ids_unique.

Example C05_ex : map row_id (res_rows (w_db exH)) = [1; 2; 3; 5; 6; 7; 8; 10; 11; 12; 13; 14; 16]%Z /\
  map r_obj (w_res exH) = [1; 2; 3; 4; 5; 6; 7; 8]%Z.
Proof. vm_compute. repeat split. Qed.

(** ** C06 *)

(** The parents recorded for a row are rows written earlier; the second parent may also be the state of
    an untracked resource that was absorbed. *)
Theorem C06_parents_are_earlier_rows : forall E ops w, 0 <= e_eps E -> Forall no_clone ops -> run E ops world0 = Some w ->
  forall l1 x l2, res_rows (w_db w) = l1 ++ x :: l2 ->
  (row_p1 x = 0%Z \/ exists y, In y l1 /\ row_id y = row_p1 x) /\
  (row_p2 x = 0%Z \/ (exists y, In y l1 /\ row_id y = row_p2 x) \/
   exists k r, nth_error (w_res w) k = Some r /\ r_ctx r = false /\ r_state r = row_p2 x).
Proof. exact C06_parents_lemma. Qed.
Print Assumptions C06_parents_are_earlier_rows.

(** In histories without untracked resources the graph is closed: every parent is an earlier row. *)
Theorem C06_closed : forall E ops w, 0 <= e_eps E -> Forall no_untracked ops -> run E ops world0 = Some w ->
  forall l1 x l2, res_rows (w_db w) = l1 ++ x :: l2 ->
  (row_p1 x = 0%Z \/ exists y, In y l1 /\ row_id y = row_p1 x) /\
  (row_p2 x = 0%Z \/ exists y, In y l1 /\ row_id y = row_p2 x).
Proof. exact C06_closed_lemma. Qed.
Print Assumptions C06_closed.

(** The rows without a parent are the creations: exactly they have an entry in ResCreators. *)
Theorem C06_only_creations_have_no_parent : forall E ops w, 0 <= e_eps E -> Forall no_clone ops -> run E ops world0 = Some w ->
  forall x, In x (res_rows (w_db w)) -> (row_p1 x = 0%Z <-> exists a, In (DCreator (row_id x) a) (w_db w)).
Proof. exact C06_origin_lemma. Qed.
Print Assumptions C06_only_creations_have_no_parent.

(** A resource that was created untracked, or comes from one, never writes a row. *)
Theorem C06_untracked_never_recorded : forall E ops w, 0 <= e_eps E -> Forall no_clone ops -> run E ops world0 = Some w ->
  forall k r, nth_error (w_res w) k = Some r -> r_ctx r = false ->
  forall x, In x (res_rows (w_db w)) -> row_obj x <> r_obj r /\ row_id x <> r_state r.
Proof. exact C06_untracked_lemma. Qed.
Print Assumptions C06_untracked_never_recorded.

Example C06_ex : map (fun x => (row_id x, row_p1 x, row_p2 x)) (res_rows (w_db exH)) =
  [(1, 0, 0); (2, 0, 0); (3, 0, 0); (5, 1, 0); (6, 1, 0); (7, 2, 5); (8, 7, 0); (10, 3, 0); (11, 3, 0); (12, 6, 0);
   (13, 6, 0); (14, 13, 0); (16, 11, 0)]%Z.
Proof. vm_compute. repeat split. Qed.
Example C06_ex_untracked : exists r, nth_error (w_res exH) 7 = Some r /\ r_ctx r = false.
Proof. vm_compute. eexists. split; reflexivity. Qed.

(** Absorbing an untracked resource writes a parent that no row has. *)
Theorem C06_absorb_untracked_refuted : exists ops w x, Forall no_clone ops /\ run exE ops world0 = Some w /\
  In x (res_rows (w_db w)) /\ row_p2 x <> 0%Z /\ ~ In (row_p2 x) (map row_id (res_rows (w_db w))).
Proof.
  pose (ops := [ONewComp true [(2%Z, 1)]; OCreateMat 1 10 0 unpackaged_name; OCreateMatUntracked 4 0; OAbsorb 0 1]).
  exists ops, (world_after ops), (mkRow 3 1 "Material" 0 14 "kg" 1 unpackaged_name 1 2).
  split; [repeat (apply Forall_cons; [exact I|]); constructor|]. vm_compute.
  split; [reflexivity|]. split; [auto|]. split; [discriminate|]. intros [H|[H|[]]]; discriminate.
Qed.
Print Assumptions C06_absorb_untracked_refuted.

(** Extracting from a clone of a resource that has moved on: rows whose parent no row has. *)
Theorem C06_clone_refuted : exists ops w x, run exE ops world0 = Some w /\
  In x (res_rows (w_db w)) /\ row_p1 x <> 0%Z /\ ~ In (row_p1 x) (map row_id (res_rows (w_db w))).
Proof.
  pose (ops := [ONewComp true [(2%Z, 1)]; OCreateMat 1 10 0 unpackaged_name; OClone 0; OExtract 1 4; OExtract 2 1]).
  exists ops, (world_after ops), (mkRow 4 3 "Material" 0 1 "kg" 1 unpackaged_name 2 0).
  vm_compute. split; [reflexivity|]. split; [auto|]. split; [discriminate|]. intros H; repeat destruct H as [H|H]; try discriminate; contradiction.
Qed.
Print Assumptions C06_clone_refuted.

(** ** C07 *)

(** For every tracked resource with more than eps_rsrc() of material left, the most recent row of its
    object carries its state id, quantity, kind, quality and package. *)
Theorem C07_last_row_agrees : forall E ops w, 0 <= e_eps E -> Forall no_clone ops -> run E ops world0 = Some w ->
  forall k r, nth_error (w_res w) k = Some r -> r_ctx r = true -> e_eps E < r_qty r ->
  exists x, last_row (r_obj r) (res_rows (w_db w)) = Some x /\ row_id x = r_state r /\ row_qty x = r_qty r /\
    row_type x = res_type (r_qual r) /\
    match r_qual r with
    | QMat c => exists y, nth_error (w_comps w) c = Some y /\ row_qual x = c_id y
    | QProd s => assoc s (w_quals w) = Some (row_qual x)
    end /\
    (row_pkg x = r_pkg r \/ row_type x = "Material"%string /\ r_pkg r = unpackaged_name).
Proof. exact C07_last_row_lemma. Qed.
Print Assumptions C07_last_row_agrees.

Example C07_ex : exists r x, nth_error (w_res exH) 2 = Some r /\ r_ctx r = true /\ e_eps exE < r_qty r /\
  last_row (r_obj r) (res_rows (w_db exH)) = Some x /\ row_id x = 16%Z /\ row_qty x == 4 /\ row_pkg x = "drum"%string.
Proof.
  eexists _, _. split; [vm_compute; reflexivity|]. vm_compute. repeat split.
Qed.

(** Taking a material out of its package is not recorded. *)
Theorem C07_unpackaging_refuted : exists ops w k r x, Forall no_clone ops /\ run exE ops world0 = Some w /\
  nth_error (w_res w) k = Some r /\ r_ctx r = true /\ e_eps exE < r_qty r /\
  last_row (r_obj r) (res_rows (w_db w)) = Some x /\ row_pkg x <> r_pkg r.
Proof.
  pose (ops := [ONewComp true [(2%Z, 1)]; OCreateMat 1 3 0 "drum"; OChangePackage 0 unpackaged_name]).
  exists ops, (world_after ops), 0%nat, (mkRes (QMat 0) 3 1 1 true true 0 0 0 unpackaged_name 0),
    (mkRow 1 1 "Material" 0 3 "kg" 1 "drum" 0 0).
  split; [repeat (apply Forall_cons; [exact I|]); constructor|]. vm_compute. repeat split. discriminate.
Qed.
Print Assumptions C07_unpackaging_refuted.

(** ** C36 *)

(** Decaying a composition by [a] and the result by [b] gives the very object that decaying by [a + b] gives. *)
Theorem C36_chain : forall E ops w c a b s n1 w1 n2 w2, run E ops world0 = Some w ->
  comp_decay E c a s w = (Ok n1, w1) -> comp_decay E n1 b s w1 = (Ok n2, w2) ->
  comp_decay E c (a + b) s w2 = (Ok n2, w2).
Proof. exact C36_chain_lemma. Qed.
Print Assumptions C36_chain.

(** Asking again for the same decay, any time later, returns the same object and changes nothing. *)
Theorem C36_repeatable : forall E ops w c a s n w1 ops' w2 s', run E ops world0 = Some w ->
  comp_decay E c a s w = (Ok n, w1) -> run E ops' w1 = Some w2 ->
  comp_decay E c a s' w2 = (Ok n, w2).
Proof. exact C36_repeat_lemma. Qed.
Print Assumptions C36_repeatable.

(** A decay for which a new composition object is made is computed from the composition asked for, for
    the duration asked for. *)
Theorem C36_fresh_is_computed : forall E ops c a s w n w', run E ops world0 = Some w ->
  comp_decay E c a s w = (Ok n, w') -> (n >= length (w_comps w))%nat ->
  exists x y, nth_error (w_comps w) c = Some x /\ nth_error (w_comps w') n = Some y /\
    comp_atom E y = decayed E (comp_atom E x) (s * a).
Proof. exact C36_fresh_lemma. Qed.
Print Assumptions C36_fresh_is_computed.

(** Cached or not: with one step length, and a solver for which decaying composes over time, the result
    is what the solver makes of the composition asked for after the duration asked for. *)
Theorem C36_result_is_right : forall E s ops w c a n w', decay_composes E -> e_dt E = s ->
  Forall (one_step_length s) ops -> run E ops world0 = Some w ->
  comp_decay E c a s w = (Ok n, w') ->
  exists x y, nth_error (w_comps w) c = Some x /\ nth_error (w_comps w') n = Some y /\
    comp_atom E y = decayed E (comp_atom E x) (s * a).
Proof. exact C36_exact_lemma. Qed.
Print Assumptions C36_result_is_right.

(** A solver that composes: every nuclide turns into the next one, none is lost. *)
Definition exD : env := mkEnv (1#1000000) "manual" 10 [] (fun n => Z.ltb 0 n) (fun _ => 1) (fun _ _ _ => 1) (fun _ => true)
  (fun v t => match v with [(n, q)] => [((n + t)%Z, q)] | _ => [] end).
Lemma exD_composes : decay_composes exD.
Proof.
  intros v t1 t2. destruct v as [|[n q] [|p v]]; [reflexivity| |]; unfold decayed, decayed_atoms; simpl.
  - destruct (Qltb 0 q) eqn:Q; simpl; [|rewrite ?Q; reflexivity]. rewrite Q. simpl. now rewrite Z.add_assoc.
  - reflexivity.
Qed.
Definition exD_world : world := match run exD [ONewComp false [(5%Z, 2)]] world0 with Some w => w | None => world0 end.
Example C36_ex : let '(r1, w1) := comp_decay exD 0 3 10 exD_world in let '(r2, w2) := comp_decay exD 1 4 10 w1 in
  let '(r3, w3) := comp_decay exD 0 7 10 w2 in
  r1 = Ok 1%nat /\ r2 = Ok 2%nat /\ r3 = Ok 2%nat /\ option_map c_atom (nth_error (w_comps w3) 2) = Some [(75%Z, 2)].
Proof. vm_compute. repeat split. Qed.

(** The cache ignores the step length: the result for one step length is handed out for another. *)
Theorem C36_step_length_refuted : exists w c a s s' n n' w1 w2 x y, run exD [ONewComp false [(5%Z, 2)]] world0 = Some w /\
  s <> s' /\ comp_decay exD c a s w = (Ok n, w1) /\ comp_decay exD c a s' w1 = (Ok n', w2) /\
  nth_error (w_comps w) c = Some x /\ nth_error (w_comps w2) n' = Some y /\
  comp_atom exD y <> decayed exD (comp_atom exD x) (s' * a).
Proof.
  exists exD_world, 0%nat, 3%Z, 10%Z, 20%Z, 1%nat, 1%nat, (snd (comp_decay exD 0 3 10 exD_world)), (snd (comp_decay exD 0 3 10 exD_world)),
    (mkComp 1 [(5%Z, 2)] [] false 0 0), (mkComp 2 [(35%Z, 2)] [] false 3 0).
  vm_compute. repeat split; discriminate.
Qed.
Print Assumptions C36_step_length_refuted.

(** ** C37 *)

(** Composition ids are the numbers 1, 2, ... in the order of creation. *)
Theorem C37_ids : forall E w, reachable E w -> forall k x, nth_error (w_comps w) k = Some x -> c_id x = (Z.of_nat k + 1)%Z.
Proof. exact C37_ids_lemma. Qed.
Print Assumptions C37_ids.

(** A composition has no rows, or exactly its mass fractions, once; ids in the table are ids of
    compositions; and the composition of every recorded material has its rows, which sum to one. *)
Theorem C37_recorded_once : forall E w, env_ok E -> reachable E w ->
  (forall k x, nth_error (w_comps w) k = Some x ->
     comp_table (w_db w) (c_id x) = [] \/ comp_table (w_db w) (c_id x) = normalize (comp_mass E x) 1) /\
  (forall id, comp_table (w_db w) id <> [] -> exists k x, nth_error (w_comps w) k = Some x /\ c_id x = id) /\
  (forall r, In r (res_rows (w_db w)) -> row_type r = "Material"%string ->
     exists k x, nth_error (w_comps w) k = Some x /\ c_id x = row_qual r /\
       comp_table (w_db w) (row_qual r) = normalize (comp_mass E x) 1 /\
       (0 < total (comp_mass E x) -> qsum (map snd (comp_table (w_db w) (row_qual r))) == 1)).
Proof. exact C37_recorded_lemma. Qed.
Print Assumptions C37_recorded_once.

Example C37_ex : comp_table (w_db exH) 1 = [(2%Z, 1 # 4); (3%Z, 3 # 4)] /\ comp_table (w_db exH) 3 <> [].
Proof. split; vm_compute; [reflexivity|discriminate]. Qed.
