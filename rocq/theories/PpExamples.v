(** * Examples for the input reader: a class with several kinds of variables, its input, and the
    inputs and classes that are not served *)
From Coq Require Import Ascii Sorted.
From Verif Require Import Base PpModel PpSpec PpProofs PpProofs2 PpProofs3 PpProofs4 PpProofs5 PpProofs6
  PpProofs7 PpProofs8.
Open Scope string_scope.
Open Scope list_scope.

(** ** Small libraries *)
Definition num0 (s : string) : option Z :=
  if String.eqb s "0" then Some 0%Z else if String.eqb s "1" then Some 1%Z
  else if String.eqb s "2" then Some 2%Z else if String.eqb s "3" then Some 3%Z
  else if String.eqb s " 2 " then Some 2%Z else None.
Definition xsd0 (d s : string) : option pv :=
  if String.eqb d "string" then Some (VS s)
  else if String.eqb d "boolean" then
    (if String.eqb s "1" then Some (VB true) else if String.eqb s "true" then Some (VB true)
     else if String.eqb s "0" then Some (VB false) else None)
  else if String.eqb d "int" then option_map VI (num0 s)
  else if String.eqb d "float" then option_map (fun z => VD (inject_Z z)) (num0 s)
  else if String.eqb d "double" then
    (if String.eqb s "1.5" then Some (VD (3 # 2)) else option_map (fun z => VD (inject_Z z)) (num0 s))
  else None.
Definition lex0 (p : prim) (s : string) : option pv :=
  match p with
  | PBool => if String.eqb s "1" then Some (VB true) else if String.eqb s "0" then Some (VB false)
             else None
  | PInt | PFloat | PDouble => xsd0 (default_type p) s
  | _ => None
  end.
Definition nuc0 (s : string) : option Z :=
  if String.eqb s "U235" then Some 922350000%Z else if String.eqb s "H1" then Some 10010000%Z else None.

Lemma num0_cases s z : num0 s = Some z ->
  (s = "0" /\ z = 0%Z) \/ (s = "1" /\ z = 1%Z) \/ (s = "2" /\ z = 2%Z) \/ (s = "3" /\ z = 3%Z) \/
  (s = " 2 " /\ z = 2%Z).
Proof.
  unfold num0.
  destruct (String.eqb_spec s "0"); [intro H; injection H; auto|].
  destruct (String.eqb_spec s "1"); [intro H; injection H; auto|].
  destruct (String.eqb_spec s "2"); [intro H; injection H; auto|].
  destruct (String.eqb_spec s "3"); [intro H; injection H; auto 6|].
  destruct (String.eqb_spec s " 2 "); [intro H; injection H; auto 8|]. discriminate.
Qed.
Lemma libraries0 : libraries xsd0 lex0.
Proof.
  constructor.
  - intros p s v P H.
    destruct P as [->|[->| ->]]; unfold xsd0, default_type in H; cbn [String.eqb Ascii.eqb Bool.eqb] in H.
    + destruct (num0 s) as [z|] eqn:E; [|discriminate]. injection H as <-.
      apply num0_cases in E. decompose [or and] E; subst; split; exact I || reflexivity.
    + destruct (num0 s) as [z|] eqn:E; [|discriminate]. injection H as <-.
      apply num0_cases in E. decompose [or and] E; subst; split; exact I || reflexivity.
    + destruct (String.eqb_spec s "1.5").
      * injection H as <-. subst. split; exact I || reflexivity.
      * destruct (num0 s) as [z|] eqn:E; [|discriminate]. injection H as <-.
        apply num0_cases in E. decompose [or and] E; subst; split; exact I || reflexivity.
  - reflexivity.
  - intros s v H. unfold xsd0 in H. cbn [String.eqb Ascii.eqb Bool.eqb] in H.
    destruct (String.eqb_spec s "1"); [subst; injection H as <-; split; [exact I|reflexivity]|].
    destruct (String.eqb_spec s "true"); [subst; injection H as <-; split; [exact I|intros [?|?]; congruence]|].
    destruct (String.eqb_spec s "0"); [subst; injection H as <-; split; [exact I|reflexivity]|discriminate].
Qed.

(** ** A class *)
Definition mk n t al ui d i : decl :=
  {| d_name := n; d_type := t; d_alias := al; d_ui := ui; d_st := ANone; d_default := d;
     d_internal := i |}.
Definition decls0 : list decl :=
  [mk "capacity" (TP PDouble) None ANone (Some (VP (VD 2))) false;
   mk "fuels" (TC KVector (TPair (TP PDouble) (TP PString)))
     (Some (AList [AStr "fuel_list"; AList [AStr "fuel"; AStr "mass"; AStr "spec"]])) ANone None false;
   mk "prefs" (TMap (TP PString) (TP PDouble)) None ANone
     (Some (VMap [(VP (VS "a"), VP (VD 1)); (VP (VS "b"), VP (VD 2))])) false;
   mk "nucs" (TC KSet (TP PInt)) None (AList [ANone; AStr "nuclide"]) None false;
   mk "ticks" (TP PInt) None ANone (Some (VP (VI 1))) true].
Definition class0 : ctx :=
  [("capacity", EVar (AP PDouble false "double" "capacity") (Some (VP (VD 2))) false);
   ("fuels", EVar (AC KVector "fuel_list"
      (APair "fuel" (AP PDouble false "double" "mass") (AP PString false "string" "spec"))) None false);
   ("fuel_list", EPtr "fuels");
   ("prefs", EVar (AMap "prefs" "item" (AP PString false "string" "key") (AP PDouble false "double" "val"))
      (Some (VMap [(VP (VS "a"), VP (VD 1)); (VP (VS "b"), VP (VD 2))])) false);
   ("nucs", EVar (AC KSet "nucs" (AP PInt true "string" "val")) None false);
   ("ticks", EVar (AP PInt false "int" "ticks") (Some (VP (VI 1))) true)].
Example declare0 : declare_all decls0 [] = Some class0.
Proof. reflexivity. Qed.

Ltac nodup := repeat (constructor; [simpl; intuition discriminate|]); constructor.
Lemma class_ok0 : class_ok class0.
Proof.
  split; [|split; [|split]].
  - repeat first [apply Forall_nil | apply Forall_cons]; unfold entry_ok; cbn [snd fst]; try exact I;
    (split; [intro H; simpl in H; decompose [or] H; discriminate || tauto|]);
    (split; [discriminate|]);
    (split; [intros v E; first [discriminate E|injection E as <-]|]);
    try (intro E; discriminate E);
    try (intros _; repeat split; simpl; auto; discriminate).
    + repeat split; reflexivity.
    + repeat split; simpl; auto; repeat constructor.
    + repeat split; reflexivity.
  - nodup.
  - nodup.
  - intros m m' H H'. simpl in H, H'.
    decompose [or] H; try tauto; subst; decompose [or] H'; try tauto; subst; discriminate.
Qed.

Definition txt n s := XElem n [XText s].
Definition kids0 : list xml :=
  [XText " "; XOther;
   XElem "nucs" [txt "val" "U235"; XText " "; txt "val" "H1"; txt "val" "U235"];
   XElem "fuel_list" [XOther; XElem "fuel" [txt "spec" "uox"; txt "mass" " 2 "];
                      XElem "fuel" [txt "mass" "1.5"; txt "spec" "mox"]]].
Definition row0 : list (string * val) :=
  [("capacity", VP (VD 2));
   ("fuels", VSeq [VPair (VP (VD 2)) (VP (VS "uox")); VPair (VP (VD (3 # 2))) (VP (VS "mox"))]);
   ("prefs", VMap [(VP (VS "a"), VP (VD 1)); (VP (VS "b"), VP (VD 2))]);
   ("nucs", VSet [VP (VI 10010000); VP (VI 922350000)]);
   ("ticks", VP (VI 1))].
Definition doc0 : xml :=
  document "facility" "Reactor" [txt "name" "r1"] [XText " "] kids0.

Lemma alone0 : alone [txt "name" "r1"] [XText " "].
Proof. split; reflexivity. Qed.
Ltac notext := intros ? H; simpl in H; decompose [or] H; try tauto; try discriminate;
  match goal with E : XText _ = XText _ |- _ => injection E as <-; reflexivity end.
Lemma config0 : config xsd0 nuc0 class0 (elems kids0) row0.
Proof.
  exists [XElem "fuel_list" [XOther; XElem "fuel" [txt "spec" "uox"; txt "mass" " 2 "];
                      XElem "fuel" [txt "mass" "1.5"; txt "spec" "mox"]];
          XElem "nucs" [txt "val" "U235"; XText " "; txt "val" "H1"; txt "val" "U235"]].
  split; [apply perm_swap|].
  apply f_absent. apply f_given.
  { simpl. eexists _, _. split; [reflexivity|]. split; [notext|]. split; [discriminate|].
    split; [|reflexivity]. repeat constructor.
    - eexists _, (txt "mass" " 2 "), (txt "spec" "uox"), _, _. split; [reflexivity|]. split; [notext|].
      split; [right; reflexivity|].
      split; [eexists _, _; split; [reflexivity|]; split; [reflexivity|]; split; [reflexivity|reflexivity]|].
      split; [eexists _, _; split; [reflexivity|]; split; [reflexivity|]; split; [reflexivity|reflexivity]|].
      reflexivity.
    - eexists _, (txt "mass" "1.5"), (txt "spec" "mox"), _, _. split; [reflexivity|]. split; [notext|].
      split; [left; reflexivity|].
      split; [eexists _, _; split; [reflexivity|]; split; [reflexivity|]; split; [reflexivity|reflexivity]|].
      split; [eexists _, _; split; [reflexivity|]; split; [reflexivity|]; split; [reflexivity|reflexivity]|].
      reflexivity. }
  apply f_pointer. apply f_absent. apply f_given.
  { simpl. eexists _, [VP (VI 922350000); VP (VI 10010000); VP (VI 922350000)].
    split; [reflexivity|]. split; [notext|]. split; [discriminate|]. split.
    - repeat constructor; (eexists _, _; split; [reflexivity|]; split; [reflexivity|];
        split; [eexists; split; reflexivity|reflexivity]).
    - eexists. split; [reflexivity|]. split; [|split].
      + repeat constructor.
      + simpl. tauto.
      + simpl. intros x [<-|[<-|[<-|[]]]].
        * exists (VP (VI 922350000)). simpl. tauto.
        * exists (VP (VI 10010000)). simpl. tauto.
        * exists (VP (VI 922350000)). simpl. tauto. }
  apply f_internal. constructor.
Qed.
Lemma plain0 : plain_config class0 (elems kids0).
Proof.
  intros m a d x H I S. simpl in H, I.
  decompose [or] H; try tauto; try discriminate;
    match goal with E : (_, _) = (_, _) |- _ => injection E as <- <- <- end;
    destruct I as [<-|[<-|[]]]; try discriminate S; clear; simpl.
  - repeat constructor; intros _; eexists; split; try reflexivity; discriminate.
  - repeat constructor; eexists; split; try reflexivity; discriminate.
Qed.
Example reads0 : infile_to_db nuc0 lex0 class0 doc0 = Ok row0.
Proof. vm_compute. reflexivity. Qed.

(** ** Classes and inputs that are not served *)
(** a sequence of maps: accepted by the schema, not readable *)
Definition vmap_class : ctx :=
  [("opts", EVar (default_names (TC KVector (TMap (TP PString) (TP PInt))) "opts") None false)].
Definition vmap_kids : list xml :=
  [XElem "opts" [XElem "val" [XElem "item" [txt "key" "a"; txt "val" "1"]]]].
(** a pair in a pair *)
Definition pair_class : ctx :=
  [("p", EVar (default_names (TPair (TPair (TP PInt) (TP PInt)) (TP PInt)) "p") None false)].
(** a default for a vector of vectors *)
Definition nested_class : ctx :=
  [("grid", EVar (default_names (TC KVector (TC KVector (TP PInt))) "grid")
      (Some (VSeq [VSeq [VP (VI 1)]])) false)].
(** a flag *)
Definition flag_class : ctx := [("on", EVar (AP PBool false "boolean" "on") None false)].
(** a text *)
Definition text_class : ctx := [("tag", EVar (AP PString false "string" "tag") None false)].
Definition num_class : ctx := [("mass", EVar (AP PDouble false "double" "mass") None false)].
(** a variable called n *)
Definition n_class : ctx := [("n", EVar (AP PDouble false "double" "n") None false)].
Definition doc_of (kids : list xml) : xml := document "facility" "A" [] [] kids.

Lemma valid_one xsd r l : valid xsd r l -> valid xsd (RInter [r]) l.
Proof.
  intro H. apply v_inter with (a := l) (b := []); auto; [constructor|].
  clear. induction l; constructor; auto.
Qed.
Lemma valid_data xsd n d s v : xsd d s = Some v -> valid xsd (RElem n (RData d)) [txt n s].
Proof. intro H. apply v_data with (v := v); [reflexivity|]. simpl. now rewrite string_app_nil. Qed.
Lemma vmap_valid : valid xsd0 (schema vmap_class) vmap_kids.
Proof.
  apply valid_one. simpl. apply v_elem; [notext|]. apply v_one.
  apply v_elem; [notext|]. apply v_one. apply v_elem; [notext|].
  apply v_inter with (a := [txt "key" "a"]) (b := [txt "val" "1"]).
  - now apply valid_data with (v := VS "a").
  - apply valid_one. now apply valid_data with (v := VI 1).
  - repeat constructor.
Qed.

Lemma single_ok m a : ~ In m reserved -> standard a -> distinct_names a -> no_seq_of_map a ->
  few_pairs a -> m <> (m ++ "_tmp")%string -> class_ok [(m, EVar a None false)].
Proof.
  intros R S D N F T. split; [|split; [|split]].
  - constructor; [|constructor]. split; [exact R|]. split; [discriminate|]. split; [discriminate|].
    intros _. auto.
  - nodup.
  - nodup.
  - intros ? ? [<-|[]] [<-|[]]. exact T.
Qed.
Ltac single := apply single_ok; simpl; auto; try (let H := fresh in intro H; decompose [or] H; discriminate || tauto);
  try (split; simpl; auto); try discriminate.

Lemma vmap_refuted : exists c kids, valid xsd0 (schema c) kids /\ compiles c = true /\
  infile_to_db nuc0 lex0 c (doc_of kids) = Throw PlainError.
Proof.
  exists vmap_class, vmap_kids. split; [exact vmap_valid|]. split; vm_compute; reflexivity.
Qed.
Lemma pair_refuted : exists a, ty a = TPair (TPair (TP PInt) (TP PInt)) (TP PInt) /\
  compiles [("p", EVar a None false)] = false.
Proof.
  exists (default_names (TPair (TPair (TP PInt) (TP PInt)) (TP PInt)) "p").
  split; [reflexivity|vm_compute; reflexivity].
Qed.
Lemma nested_refuted : exists a d,
  ty a = TC KVector (TC KVector (TP PInt)) /\ has_type (ty a) d /\
  compiles [("grid", EVar a (Some d) false)] = false /\ compiles [("grid", EVar a None false)] = true.
Proof.
  exists (default_names (TC KVector (TC KVector (TP PInt))) "grid"), (VSeq [VSeq [VP (VI 1)]]).
  split; [reflexivity|]. split; [repeat constructor|]. split; vm_compute; reflexivity.
Qed.
Lemma flag_refuted : exists c kids, class_ok c /\
  valid xsd0 (schema c) kids /\ infile_to_db nuc0 lex0 c (doc_of kids) = Throw PlainError.
Proof.
  exists flag_class, [txt "on" "true"]. split; [single|].
  split; [|vm_compute; reflexivity]. apply valid_one. now apply valid_data with (v := VB true).
Qed.
Lemma comment_refuted : exists c kids, class_ok c /\
  valid xsd0 (schema c) kids /\ infile_to_db nuc0 lex0 c (doc_of kids) = Throw ValueError.
Proof.
  exists num_class, [XElem "mass" [XText "2"; XOther]]. split; [single|].
  split; [|vm_compute; reflexivity]. apply valid_one. apply v_data with (v := VD 2); reflexivity.
Qed.
Lemma empty_refuted : exists c kids, class_ok c /\
  valid xsd0 (schema c) kids /\ infile_to_db nuc0 lex0 c (doc_of kids) = Throw ValueError.
Proof.
  exists text_class, [XElem "tag" []]. split; [single|].
  split; [|vm_compute; reflexivity]. apply valid_one. apply v_data with (v := VS ""); reflexivity.
Qed.
Lemma n_refuted : exists c kids r r',
  valid xsd0 (schema c) kids /\ compiles c = true /\ config xsd0 nuc0 c kids r /\
  infile_to_db nuc0 lex0 c (doc_of kids) = Ok r' /\
  r = [("n", VP (VD (3 # 2)))] /\ r' = [("n", VP (VI 1))].
Proof.
  exists n_class, [txt "n" "1.5"], [("n", VP (VD (3 # 2)))], [("n", VP (VI 1))].
  split; [|split; [|split; [|split; [|split]]]].
  - apply valid_one. now apply valid_data with (v := VD (3 # 2)).
  - vm_compute; reflexivity.
  - exists [txt "n" "1.5"]. split; [constructor; constructor|]. constructor; [|constructor].
    eexists _, _. split; [reflexivity|]. split; [reflexivity|]. split; reflexivity.
  - vm_compute; reflexivity.
  - reflexivity.
  - reflexivity.
Qed.
Lemma alias_refuted : exists d c,
  declare_all [d] [] = Some c /\ head_of d = Some (d_name d) /\ variables c = [].
Proof.
  exists (mk "mass" (TP PDouble) (Some (AStr "mass")) ANone None false), [("mass", EPtr "mass")].
  repeat split.
Qed.
Lemma num_example :
  class_ok num_class /\ plain_config num_class [txt "mass" "2"] /\
  valid xsd0 (schema num_class) [txt "mass" "2"] /\
  infile_to_db nuc0 lex0 num_class (doc_of [txt "mass" "2"]) = Ok [("mass", VP (VD 2))].
Proof.
  split; [single|]. split; [|split; [|vm_compute; reflexivity]].
  - intros m a d x [E|[]] [<-|[]] _. injection E as <- <- <-. simpl. eexists. split; [reflexivity|discriminate].
  - apply valid_one. now apply valid_data with (v := VD 2).
Qed.
