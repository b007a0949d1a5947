(** * ConvProperties: C63, input files converted between XML and JSON. *)
From Verif Require Import Base ConvModel ConvSpec ConvProofs1 ConvProofs2 ConvProofs3 ConvExamples.
Open Scope string_scope.
Open Scope list_scope.

(** An XML input file converted to JSON has each child element as a member of its name, repeated ones as an
    array in their order, with the text and the elements they have in them. *)
Theorem C63_xml_to_json : forall root kids, tidy (XE root kids) -> elems kids <> [] ->
  exists ms, xml_to_json root kids = Ok (JObj [(root, JObj ms)]) /\ ordered ms /\
  forall m, Forall2 same (named m kids) (map (fun v => XE m (content v)) (items (member m ms))).
Proof.
  intros root kids T N. destruct (grouped_root root kids T N) as (ms & A & _ & B & C). eauto.
Qed.
Print Assumptions C63_xml_to_json.

(** A JSON document converted to XML is a text that an XML parser reads as what the document says. *)
Theorem C63_json_to_xml : forall ms, clean (JObj ms) ->
  parse_xml (show (json_to_xml (JObj ms))) = Some (content (JObj ms)).
Proof. exact json_parse. Qed.
Print Assumptions C63_json_to_xml.

(** An XML input file converted to JSON and back says the same as before. *)
Theorem C63_round_trip : forall root kids, tidy (XE root kids) -> elems kids <> [] ->
  exists j, xml_to_json root kids = Ok j /\
  exists x, parse_xml (show (json_to_xml j)) = Some [x] /\ same (XE root kids) x.
Proof.
  intros root kids T N. destruct (round_trip root kids T N) as (ms & A & B & x & C & D).
  exists (JObj ms). split; [exact A|]. exists x. split; [|exact D]. rewrite json_parse by exact B. now rewrite C.
Qed.
Print Assumptions C63_round_trip.

(** So every query for the texts at the end of a path of element names has the same answers. *)
Theorem C63_same_queries : forall root kids, tidy (XE root kids) -> elems kids <> [] ->
  exists j x, xml_to_json root kids = Ok j /\ parse_xml (show (json_to_xml j)) = Some [x] /\
  forall path, map text_of (at_path path (XE root kids)) = map text_of (at_path path x).
Proof.
  intros root kids T N. destruct (C63_round_trip root kids T N) as (j & A & x & B & C). exists j, x.
  split; [exact A|]. split; [exact B|]. intro path. now apply same_answers.
Qed.
Print Assumptions C63_same_queries.

(** An input file that meets the hypotheses, with repeated elements, comments and an empty element. *)
Example C63_example : tidy (XE "simulation" small_file) /\ elems small_file <> [] /\
  map text_of (at_path ["recipe"; "nuclide"; "comp"] (XE "simulation" small_file)) = [Some "0.04"; Some "0.96"].
Proof. split; [apply small_file_tidy|]. split; [apply small_file_tidy|vm_compute; reflexivity]. Qed.

(** And a JSON document. *)
Example C63_document : clean (JObj small_doc) /\
  exists x, parse_xml (show (json_to_xml (JObj small_doc))) = Some [x] /\
    map text_of (at_path ["facility"; "vals"; "val"] x) = [Some "a"; Some "2"].
Proof. split; [exact small_doc_clean|]. eexists. split; vm_compute; reflexivity. Qed.

(** Not true of every input file: when the first of several elements of a name is empty it disappears, when
    another one is, what is written is not XML. *)
Theorem C63_empty_repeated_refuted :
  (exists j, xml_to_json "sim" [XE "val" []; leaf "val" "1"] = Ok j /\
     parse_xml (show (json_to_xml j)) = Some [XE "sim" [leaf "val" "1"]]) /\
  (exists j, xml_to_json "sim" [leaf "val" "1"; XE "val" []] = Ok j /\ parse_xml (show (json_to_xml j)) = None).
Proof. split; eexists; (split; [vm_compute; reflexivity|vm_compute; reflexivity]). Qed.
Print Assumptions C63_empty_repeated_refuted.

(** An empty array becomes an element with an element of the same name in it. *)
Theorem C63_empty_array_refuted :
  parse_xml (show (json_to_xml (JObj [("vals", JArr [])]))) = Some [XE "vals" [XE "vals" []]].
Proof. vm_compute. reflexivity. Qed.
Print Assumptions C63_empty_array_refuted.

(** A comment beside a text makes the text disappear, and a comment alone makes the conversion fail. *)
Theorem C63_comment_refuted :
  xml_to_json "sim" [XE "capacity" [XT "5"; XC "kg"]] = Ok (JObj [("sim", JObj [("capacity", JNull)])]) /\
  xml_to_json "sim" [XE "capacity" [XC "to do"]] = Throw CastError.
Proof. split; vm_compute; reflexivity. Qed.
Print Assumptions C63_comment_refuted.

(** Markup characters are written as they are: a text with a less-than sign in it comes back as no XML, and
    a text that looks like an element as an element. *)
Theorem C63_markup_refuted :
  (exists j, xml_to_json "sim" [leaf "note" "a<b"] = Ok j /\ parse_xml (show (json_to_xml j)) = None) /\
  (exists j, xml_to_json "sim" [leaf "note" "<b>1</b>"] = Ok j /\
     parse_xml (show (json_to_xml j)) = Some [XE "sim" [XE "note" [leaf "b" "1"]]]).
Proof. split; eexists; (split; [vm_compute; reflexivity|vm_compute; reflexivity]). Qed.
Print Assumptions C63_markup_refuted.

(** When of several elements of a name the first has elements in it and the last has text, white space is
    added to the text. *)
Theorem C63_mixed_refuted : exists j,
  xml_to_json "sim" [XE "x" [leaf "y" "1"]; leaf "x" "a"] = Ok j /\
  parse_xml (show (json_to_xml j)) = Some [XE "sim" [XE "x" [leaf "y" "1"]; leaf "x" "a  "]].
Proof. eexists. split; [vm_compute; reflexivity|vm_compute; reflexivity]. Qed.
Print Assumptions C63_mixed_refuted.
