(** * C45: agent specifications. *)
From Coq Require Import Ascii.
From Verif Require Import Base SpecModel SpecSpec SpecProofs.
Local Open Scope string_scope.

(** Printing a spec and parsing the result gives the same path, library and agent back (unless one of them
    contains the separator); the alias becomes the agent's name. *)
Theorem C45_print_parse : forall x, plain x ->
  exists y, spec_parse (spec_str x) = Ok y /\ same_archetype y x /\ sp_alias y = sp_agent x /\ spec_str y = spec_str x.
Proof. exact print_parse. Qed.
Print Assumptions C45_print_parse.
Example C45_print_parse_case : plain (spec_new "my/path" "" "Reactor" "lwr") /\ spec_str (spec_new "my/path" "" "Reactor" "lwr") = "my/path:Reactor:Reactor".
Proof. repeat split. Qed.

(** A string is a spec exactly when it has two separators; parsing it and printing the result gives it back. *)
Theorem C45_parse_print : forall s,
  (colons s = 2%nat /\ exists x, spec_parse s = Ok x /\ spec_str x = s /\ sp_alias x = sp_agent x /\ plain x) \/
  (colons s <> 2%nat /\ spec_parse s = Throw ValueError).
Proof. exact parse_print. Qed.
Print Assumptions C45_parse_print.
Example C45_parse_print_case : spec_parse ":agents:Sink" = Ok (mkSpec "" "agents" "Sink" "Sink") /\ spec_parse "agents:Sink" = Throw ValueError /\
  spec_parse "a:b:c:" = Throw ValueError.
Proof. repeat split. Qed.

(** The printed form identifies the archetype. *)
Theorem C45_unique : forall x y, plain x -> plain y -> spec_str x = spec_str y -> same_archetype x y.
Proof. exact str_unique. Qed.
Print Assumptions C45_unique.
Example C45_unique_case : plain (spec_new "" "a" "b" "") /\ plain (spec_new "" "a" "b" "z").
Proof. repeat split. Qed.
(** Not if a part contains the separator. *)
Theorem C45_unique_refuted : exists x y, spec_str x = spec_str y /\ ~ same_archetype x y.
Proof. exists (spec_new "a:b" "c" "d" ""), (spec_new "a" "b:c" "d" ""). split; [reflexivity|]. intros [H _]. discriminate. Qed.
Print Assumptions C45_unique_refuted.

(** Specs of an input file: missing library and alias are the agent's name. *)
Theorem C45_infile_defaults : forall name lib path alias x, spec_infile name lib path alias = Ok x ->
  name = Some (sp_agent x) /\ (alias = None -> sp_alias x = sp_agent x) /\ (lib = None -> sp_lib x = sp_agent x) /\
  (path = None -> sp_path x = "").
Proof. exact infile_defaults. Qed.
Print Assumptions C45_infile_defaults.
Example C45_infile_defaults_case : spec_infile (Some "Sink") None (Some "p") None = Ok (mkSpec "p" "Sink" "Sink" "Sink").
Proof. reflexivity. Qed.

(** Specs built from four strings: a missing library is the agent's name... *)
Theorem C45_built : forall path lib agent alias,
  let x := spec_new path lib agent alias in
  sp_path x = path /\ sp_agent x = agent /\ sp_lib x = (if String.eqb lib "" then agent else lib) /\ sp_alias x = alias.
Proof. exact new_defaults. Qed.
Print Assumptions C45_built.
(** ...but a missing alias stays empty (line 31 assigns the wrong variable). *)
Theorem C45_default_alias_refuted : exists path lib agent, agent <> "" /\ sp_alias (spec_new path lib agent "") <> agent.
Proof. exists "", "agents", "Sink". split; discriminate. Qed.
Print Assumptions C45_default_alias_refuted.

(** Two specs get the same table name exactly when their printed forms agree up to the characters
    / - : . _ , and table names contain none of the first four. *)
Theorem C45_table_names : forall x y, sanitize x = sanitize y <-> Forall2 alike (chars (spec_str x)) (chars (spec_str y)).
Proof. exact table_names. Qed.
Print Assumptions C45_table_names.
Theorem C45_table_name_chars : forall x c, In c (chars (sanitize x)) -> ~ unsafe c.
Proof. exact table_name_safe. Qed.
Print Assumptions C45_table_name_chars.
Example C45_table_names_case : sanitize (mkSpec "x.y" "my-lib" "Sink" "s") = "x_y_my_lib_Sink".
Proof. reflexivity. Qed.
(** So different archetypes can share their tables. *)
Theorem C45_table_names_refuted : exists s t x y, spec_parse s = Ok x /\ spec_parse t = Ok y /\
  ~ same_archetype x y /\ sanitize x = sanitize y.
Proof.
  exists ":my-lib:Sink", ":my_lib:Sink". do 2 eexists. split; [reflexivity|]. split; [reflexivity|]. split; [|reflexivity].
  intros [_ [H _]]. discriminate.
Qed.
Print Assumptions C45_table_names_refuted.
