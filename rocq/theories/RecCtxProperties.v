(** * RecCtxProperties: C64, the relations of commodities, recipes and resources of an agent. *)
From Verif Require Import Base RecCtxModel RecCtxSpec RecCtxProofs.
Open Scope string_scope.
Open Scope list_scope.

(** Every question is answered with what was last said, whatever was asked in between. *)
Theorem C64_answers : forall h c id,
  answer (run h empty) (AskOutCommod c) = Some (last_said (says_out_commod c) h) /\
  answer (run h empty) (AskInRecipe c) = Some (last_said (says_in_recipe c) h) /\
  answer (run h empty) (AskOutRecipe c) = Some (last_said (says_out_recipe c) h) /\
  answer (run h empty) (AskCommod id) = Some (last_said (says_commod id) h) /\
  (In c (ins (run h empty)) <-> added c h) /\
  (In c (outs (run h empty)) <-> exists ic ir ort, In (AddInCommod ic ir c ort) h).
Proof.
  intros h c id. rewrite ask_out, ask_in, ask_orec, ask_com.
  rewrite (run_said (fun s => s_out s c) (says_out_commod c) (fun s o => step_out s o c) eq_refl h).
  rewrite (run_said (fun s => s_in s c) (says_in_recipe c) (fun s o => step_in s o c) eq_refl h).
  rewrite (run_said (fun s => s_orec s c) (says_out_recipe c) (fun s o => step_orec s o c) eq_refl h).
  rewrite (run_said (fun s => s_com s id) (says_commod id) (fun s o => step_com s o id) eq_refl h).
  do 4 (split; [reflexivity|]). split.
  - rewrite run_ins. cbn. tauto.
  - rewrite run_outs. cbn. tauto.
Qed.
Print Assumptions C64_answers.

(** The fuels of an input file are known after initialisation as if they had been added in order. *)
Theorem C64_input_file : forall fuels others, fuels <> [] ->
  exists s, init_from (table others (infile_to_db fuels)) None empty = Ok s /\
  s = run (map (fun f => AddInCommod (f_in f) (f_inrec f) (f_out f) (f_outrec f)) fuels) empty.
Proof.
  intros [|f r] others N; [now contradiction N|]. eexists. split; [|reflexivity].
  cbn [table infile_to_db init_from]. now rewrite fuels_run.
Qed.
Print Assumptions C64_input_file.

(** A context with at least one input commodity comes back from a snapshot: the snapshot changes nothing, the
    input commodities are the same, so is the answer to every question about one of them or about a resource,
    the output commodities are those last stated, and another snapshot records the same rows. *)
Theorem C64_restored : forall h others_in others_res, (exists c, added c h) \/ others_in = true ->
  let s := run h empty in
  let rows := snd (snapshot s) in
  fst (snapshot s) = s /\
  exists s', init_from (table others_in (fst rows)) (table others_res (snd rows)) empty = Ok s' /\
    ins s' = ins s /\ same_answers (fun c => added c h) s s' /\ snd (snapshot s') = rows /\
    forall c, In c (outs s') <-> exists ic, added ic h /\ last_said (says_out_commod ic) h = c.
Proof.
  intros h o1 o2 N s rows. assert (G : good s) by (apply good_run, good_empty).
  split; [now rewrite (snapshot_eq s G)|]. exists (back s).
  split.
  { apply restore_eq; [exact G|]. destruct N as [[c C]|N]; [|now right]. left. intro E.
    assert (I : In c (ins s)) by (apply run_ins; now right). now rewrite E in I. }
  split; [now apply back_ins|]. split; [|split; [now apply back_snapshot|]].
  - split.
    + intros c C. assert (I : In c (ins s)) by (apply run_ins; now right). apply existsb_in in I.
      now rewrite !ask_out, !ask_in, !ask_orec, back_out, back_in, back_orec, I.
    + intro id. now rewrite !ask_com.
  - intro c. rewrite back_outs. split; intros (ic & A & B); exists ic.
    + apply run_ins in A. destruct A as [[]|A]. split; [exact A|]. rewrite <- B. symmetry.
      apply (run_said (fun s => s_out s ic) (says_out_commod ic)); [intros; apply step_out|reflexivity].
    + split; [apply run_ins; now right|]. rewrite <- B.
      apply (run_said (fun s => s_out s ic) (says_out_commod ic)); [intros; apply step_out|reflexivity].
Qed.
Print Assumptions C64_restored.

(** Contexts that compare equal answer every question alike. *)
Theorem C64_equal : forall s s', ctx_eqb s s' = true -> same_answers (fun _ => True) s s'.
Proof.
  intros s s' E. apply ctx_eqb_maps in E. destruct E as (A & B & C & D). split.
  - intros c _. rewrite !ask_out, !ask_in, !ask_orec. unfold s_out, s_in, s_orec. now rewrite A, B, C.
  - intro id. rewrite !ask_com. unfold s_com. now rewrite D.
Qed.
Print Assumptions C64_equal.

(** A history that meets the hypothesis: a commodity added twice, a recipe changed, resources added, changed
    and removed. *)
Example C64_example : (exists c, added c some_calls) /\
  ins (run some_calls empty) = ["mox"; "uox"] /\ outs (run some_calls empty) = ["spent"; "spent_m"] /\
  answer (run some_calls empty) (AskInRecipe "uox") = Some "low" /\
  answer (run some_calls empty) (AskOutCommod "mox") = Some "spent_m" /\
  answer (run some_calls empty) (AskCommod 7) = Some "spent" /\
  answer (run some_calls empty) (AskCommod 4) = Some "".
Proof.
  split; [exists "uox"; do 3 eexists; left; reflexivity|]. repeat split; vm_compute; reflexivity.
Qed.
Example C64_equal_example : exists s s', s <> s' /\ ctx_eqb s s' = true.
Proof.
  exists (run [AddInCommod "a" "r" "x" "q"; AddInCommod "a" "r" "y" "q"] empty),
         (run [AddInCommod "a" "r" "z" "q"; AddInCommod "a" "r" "y" "q"] empty).
  split; [vm_compute; discriminate|vm_compute; reflexivity].
Qed.

(** Contexts that compare equal may have different output commodities. *)
Theorem C64_equal_refuted : exists h h', ctx_eqb (run h empty) (run h' empty) = true /\
  outs (run h empty) <> outs (run h' empty).
Proof.
  exists [AddInCommod "a" "r" "x" "q"; AddInCommod "a" "r" "y" "q"],
         [AddInCommod "a" "r" "z" "q"; AddInCommod "a" "r" "y" "q"].
  split; [vm_compute; reflexivity|vm_compute; discriminate].
Qed.
Print Assumptions C64_equal_refuted.

(** Asking about a resource that is not there makes a context differ from its copy. *)
Theorem C64_question_refuted : forall s id, get Z.compare id (rmap s) = None ->
  ctx_eqb s (fst (step s (AskCommod id))) = false.
Proof.
  intros s id N. destruct (ctx_eqb _ _) eqn:E; [|reflexivity]. exfalso.
  apply ctx_eqb_maps in E. destruct E as (_ & _ & _ & D). cbn in D. unfold look in D. rewrite N in D. cbn in D.
  apply (f_equal (get Z.compare id)) in D. rewrite (get_put _ z_laws), Z.compare_refl, N in D. discriminate.
Qed.
Print Assumptions C64_question_refuted.

(** A context without input commodities cannot be restored when no other agent recorded one, even if it knows
    resources. *)
Theorem C64_empty_refuted : forall others_res, exists h,
  let rows := snd (snapshot (run h empty)) in
  last_said (says_commod 1) h = "uox" /\
  init_from (table false (fst rows)) (table others_res (snd rows)) empty = Throw ValueError.
Proof. intro o. exists [AddRsrc "uox" 1]. split; vm_compute; reflexivity. Qed.
Print Assumptions C64_empty_refuted.

(** The recipe of a commodity that was not added is not restored, nor is an output commodity that was
    replaced. *)
Theorem C64_lost_refuted :
  (exists h s', let rows := snd (snapshot (run h empty)) in
     init_from (table false (fst rows)) (table false (snd rows)) empty = Ok s' /\
     answer (run h empty) (AskInRecipe "mox") = Some "low" /\ answer s' (AskInRecipe "mox") = Some "") /\
  (exists h s', let rows := snd (snapshot (run h empty)) in
     init_from (table false (fst rows)) (table false (snd rows)) empty = Ok s' /\
     In "x" (outs (run h empty)) /\ ~ In "x" (outs s')).
Proof.
  split.
  - exists [AddInCommod "a" "r" "x" "q"; UpdateInRec "mox" "low"]. eexists. cbv zeta.
    split; [vm_compute; reflexivity|]. split; vm_compute; reflexivity.
  - exists [AddInCommod "a" "r" "x" "q"; AddInCommod "a" "r" "y" "q"]. eexists. cbv zeta.
    split; [vm_compute; reflexivity|]. split; [vm_compute; auto|]. vm_compute. intros [H|[]]; discriminate.
Qed.
Print Assumptions C64_lost_refuted.
