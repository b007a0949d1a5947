(** * C56: what the input file says is what the agent gets (cli/cycpp.py, src/infile_tree.cc) *)
From Coq Require Import Ascii Sorted.
From Verif Require Import Base PpModel PpSpec PpProofs PpProofs2 PpProofs3 PpProofs4 PpProofs5 PpProofs6
  PpProofs7 PpProofs8 PpExamples.
Open Scope string_scope.
Open Scope list_scope.

(** The generated schema accepts an input exactly when the input gives every variable a value. *)
Theorem C56_schema_accepts_what_has_values : forall xsd nucid lex c l,
  libraries xsd lex -> class_ok c -> c <> [] ->
  (forall m a d, In (m, EVar a d false) c -> no_nuclides a \/ (forall s, nucid s <> None)) ->
  (valid xsd (schema c) l <-> exists r, config xsd nucid c l r).
Proof. exact accepted_iff_configured. Qed.
Print Assumptions C56_schema_accepts_what_has_values.
Example C56_schema_example : valid xsd0 (schema vmap_class) vmap_kids.
Proof. exact vmap_valid. Qed.

(** The generated reader compiles. *)
Theorem C56_generated_reader_compiles : forall c, class_ok c -> compiles c = true.
Proof. intros c. exact (generated_compiles (fun _ _ => None) (fun _ => None) (fun _ _ => None) c). Qed.
Print Assumptions C56_generated_reader_compiles.
Example C56_class_example : declare_all decls0 [] = Some class0 /\ class_ok class0.
Proof. exact (conj declare0 class_ok0). Qed.

(** Run on the input, it gives every variable the value the input writes down, or its default. *)
Theorem C56_input_read_as_written : forall xsd nucid lex c proto arch before before' kids r,
  libraries xsd lex -> class_ok c -> alone before before' ->
  plain_config c (elems kids) -> config xsd nucid c (elems kids) r ->
  exists r', infile_to_db nucid lex c (document proto arch before before' kids) = Ok r' /\
    config xsd nucid c (elems kids) r'.
Proof. exact read_as_written. Qed.
Print Assumptions C56_input_read_as_written.
Example C56_read_example :
  libraries xsd0 lex0 /\ class_ok class0 /\ alone [txt "name" "r1"] [XText " "] /\
  plain_config class0 (elems kids0) /\ config xsd0 nuc0 class0 (elems kids0) row0 /\
  infile_to_db nuc0 lex0 class0 doc0 = Ok row0.
Proof. exact (conj libraries0 (conj class_ok0 (conj alone0 (conj plain0 (conj config0 reads0))))). Qed.

(** Every input the schema accepts is read. *)
Theorem C56_accepted_input_is_read : forall xsd nucid lex c proto arch before before' kids,
  libraries xsd lex -> class_ok c -> c <> [] -> alone before before' ->
  (forall m a d, In (m, EVar a d false) c -> no_nuclides a \/ (forall s, nucid s <> None)) ->
  plain_config c (elems kids) -> valid xsd (schema c) (elems kids) ->
  exists r, infile_to_db nucid lex c (document proto arch before before' kids) = Ok r /\
    config xsd nucid c (elems kids) r.
Proof. exact accepted_read. Qed.
Print Assumptions C56_accepted_input_is_read.
Example C56_accepted_example :
  class_ok num_class /\ plain_config num_class [txt "mass" "2"] /\
  valid xsd0 (schema num_class) [txt "mass" "2"] /\
  infile_to_db nuc0 lex0 num_class (doc_of [txt "mass" "2"]) = Ok [("mass", VP (VD 2))].
Proof. exact num_example. Qed.

(** A variable whose element is given gets that element's value. *)
Theorem C56_given_value_is_used : forall xsd nucid lex c proto arch before before' kids r r' m a d x,
  libraries xsd lex -> class_ok c -> alone before before' ->
  plain_config c (elems kids) -> config xsd nucid c (elems kids) r ->
  infile_to_db nucid lex c (document proto arch before before' kids) = Ok r' ->
  In (m, EVar a d false) c -> In x kids -> step_ok (Name (aname a)) x = true ->
  exists v, In (m, v) r' /\ written xsd nucid a x v.
Proof. exact given_used. Qed.
Print Assumptions C56_given_value_is_used.
Example C56_given_example :
  In ("nucs", VSet [VP (VI 10010000); VP (VI 922350000)]) row0 /\
  In ("nucs", EVar (AC KSet "nucs" (AP PInt true "string" "val")) None false) class0.
Proof. split; simpl; tauto. Qed.

(** A variable whose element is absent gets its default, and an internal one always does. *)
Theorem C56_absent_value_is_default : forall xsd nucid lex c proto arch before before' kids r r' m a d,
  libraries xsd lex -> class_ok c -> alone before before' ->
  plain_config c (elems kids) -> config xsd nucid c (elems kids) r ->
  infile_to_db nucid lex c (document proto arch before before' kids) = Ok r' ->
  (In (m, EVar a (Some d) false) c /\ filter (step_ok (Name (aname a))) kids = []) \/
  In (m, EVar a (Some d) true) c ->
  In (m, d) r'.
Proof. exact absent_used. Qed.
Print Assumptions C56_absent_value_is_default.
Example C56_absent_example :
  In ("prefs", VMap [(VP (VS "a"), VP (VD 1)); (VP (VS "b"), VP (VD 2))]) row0 /\
  filter (step_ok (Name "prefs")) kids0 = [] /\ In ("ticks", VP (VI 1)) row0.
Proof. simpl. tauto. Qed.

(** Without annotations the parts have the documented names. *)
Theorem C56_default_names : forall t name,
  canonize t name ANone ANone ANone = Some (default_names t name).
Proof. exact canonize_default. Qed.
Print Assumptions C56_default_names.
Example C56_default_names_example :
  default_names (TMap (TP PString) (TC KVector (TP PInt))) "m" =
  AMap "m" "item" (AP PString false "string" "key") (AC KVector "val" (AP PInt false "int" "val")).
Proof. reflexivity. Qed.

(** The names a user gives, for a type of any depth, are the names used. *)
Theorem C56_given_names : forall a name, named a -> standard a ->
  canonize (ty a) name (alias_of a) (nuclides_of a) ANone = Some a.
Proof. exact canonize_given. Qed.
Print Assumptions C56_given_names.
Example C56_given_names_example :
  let a := AMap "m" "entry" (AP PInt true "string" "nuc") (APair "range" (AP PDouble false "double" "lo")
             (AP PDouble false "double" "hi")) in
  named a /\ standard a /\
  alias_of a = AList [AList [AStr "m"; AStr "entry"]; AStr "nuc"; AList [AStr "range"; AStr "lo"; AStr "hi"]].
Proof. repeat split; discriminate. Qed.

(** Every declared variable is kept, if no alias is the name of a variable. *)
Theorem C56_declared_variables_kept : forall l c, declare_all l [] = Some c ->
  NoDup (map d_name l) ->
  (forall d d' h, In d l -> In d' l -> head_of d' = Some h -> d_name d <> h) ->
  forall d, In d l -> exists a,
    canonize (d_type d) (d_name d) (match d_alias d with Some u => u | None => ANone end)
      (d_ui d) (d_st d) = Some a /\ In (d_name d, EVar a (d_default d) (d_internal d)) c.
Proof. intros l c. exact (declare_all_has l [] c). Qed.
Print Assumptions C56_declared_variables_kept.
Example C56_declared_example : NoDup (map d_name decls0) /\ head_of (nth 1 decls0 (nth 0 decls0 (mk "" (TP PInt) None ANone None false))) = Some "fuel_list".
Proof. split; [nodup|reflexivity]. Qed.

(** ** Where the property fails *)
(** a sequence of maps is accepted by the schema and compiles, but cannot be read *)
Theorem C56_sequence_of_maps_refuted : exists c kids,
  valid xsd0 (schema c) kids /\ compiles c = true /\
  infile_to_db nuc0 lex0 c (doc_of kids) = Throw PlainError.
Proof. exact vmap_refuted. Qed.
(** a pair in a pair, and a nested default, give code that does not compile *)
Theorem C56_pair_in_pair_refuted : exists a,
  ty a = TPair (TPair (TP PInt) (TP PInt)) (TP PInt) /\ compiles [("p", EVar a None false)] = false.
Proof. exact pair_refuted. Qed.
Theorem C56_nested_default_refuted : exists a d,
  ty a = TC KVector (TC KVector (TP PInt)) /\ has_type (ty a) d /\
  compiles [("grid", EVar a (Some d) false)] = false /\ compiles [("grid", EVar a None false)] = true.
Proof. exact nested_refuted. Qed.
(** a flag written as true is accepted and not read *)
Theorem C56_flag_written_true_refuted : exists c kids, class_ok c /\
  valid xsd0 (schema c) kids /\ infile_to_db nuc0 lex0 c (doc_of kids) = Throw PlainError.
Proof. exact flag_refuted. Qed.
(** a comment inside a value, and an empty text, are accepted and not read *)
Theorem C56_comment_in_value_refuted : exists c kids, class_ok c /\
  valid xsd0 (schema c) kids /\ infile_to_db nuc0 lex0 c (doc_of kids) = Throw ValueError.
Proof. exact comment_refuted. Qed.
Theorem C56_empty_text_refuted : exists c kids, class_ok c /\
  valid xsd0 (schema c) kids /\ infile_to_db nuc0 lex0 c (doc_of kids) = Throw ValueError.
Proof. exact empty_refuted. Qed.
(** a variable called n is cut to an integer, without any error *)
Theorem C56_variable_called_n_refuted : exists c kids r r',
  valid xsd0 (schema c) kids /\ compiles c = true /\ config xsd0 nuc0 c kids r /\
  infile_to_db nuc0 lex0 c (doc_of kids) = Ok r' /\
  r = [("n", VP (VD (3 # 2)))] /\ r' = [("n", VP (VI 1))].
Proof. exact n_refuted. Qed.
(** an alias equal to the variable's own name removes the variable *)
Theorem C56_alias_equal_to_name_refuted : exists d c,
  declare_all [d] [] = Some c /\ head_of d = Some (d_name d) /\ variables c = [].
Proof. exact alias_refuted. Qed.
Print Assumptions C56_sequence_of_maps_refuted.
Print Assumptions C56_pair_in_pair_refuted.
Print Assumptions C56_nested_default_refuted.
Print Assumptions C56_flag_written_true_refuted.
Print Assumptions C56_comment_in_value_refuted.
Print Assumptions C56_empty_text_refuted.
Print Assumptions C56_variable_called_n_refuted.
Print Assumptions C56_alias_equal_to_name_refuted.
