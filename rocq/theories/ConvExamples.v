(** * ConvExamples: an input file. *)
From Verif Require Import Base ConvModel ConvSpec.
Open Scope string_scope.
Open Scope list_scope.

Definition leaf (n t : string) : xnode := XE n [XT t].

Definition small_file : list xnode :=
  [ XT " "; XE "control" [leaf "duration" "10"; leaf "startmonth" "1"]; XC "the recipe"; XT "  ";
    XE "recipe" [leaf "name" "fresh fuel"; leaf "basis" "mass";
                 XE "nuclide" [leaf "id" "922350000"; leaf "comp" "0.04"]; XT " ";
                 XE "nuclide" [leaf "id" "922380000"; leaf "comp" "0.96"]];
    XE "facility" [leaf "name" "src"; XE "config" [XE "Source" [leaf "val" "a"; leaf "val" "b"]]];
    XE "region" [leaf "name" "r"; XE "config" [XE "NullRegion" []]] ].

Lemma tidy_leaf n t : plain_name n = true -> blank t = false -> plain_text t = true -> tidy (leaf n t).
Proof. intros. now constructor. Qed.

(** A way to see that an element is tidy. *)
Fixpoint names_of (l : list xnode) : list string :=
  match l with [] => [] | XE n _ :: r => n :: names_of r | _ :: r => names_of r end.

Definition tidy_names (k : list xnode) : bool :=
  forallb (fun m =>
    let l := named m k in
    (forallb has_elems l || forallb (fun x => negb (has_elems x)) l) &&
    (negb (existsb (fun x => match x with XE _ [] => true | _ => false end) l) || Nat.eqb (length l) 1))
    (names_of k).

Lemma named_in m k x : In x (named m k) -> In m (names_of k).
Proof.
  unfold named. intro H. apply filter_In in H. destruct H as [H E]. induction k as [|y r IH]; [easy|].
  destruct H as [->|H].
  - destruct x; try discriminate. cbn in E. apply String.eqb_eq in E. subst. left. reflexivity.
  - destruct y; cbn; auto.
Qed.

Lemma tidy_by_names n k : plain_name n = true -> elems k <> [] -> Forall tidy (elems k) -> tidy_names k = true ->
  tidy (XE n k).
Proof.
  intros P N T B. unfold tidy_names in B. rewrite forallb_forall in B.
  constructor; [exact P|exact N|now apply Forall_forall| |].
  - intros m I.
    assert (J : In (XE m []) (named m k)) by (unfold named; apply filter_In; split; [exact I|apply String.eqb_refl]).
    specialize (B m (named_in _ _ _ J)). apply andb_true_iff in B. destruct B as [_ B].
    apply orb_true_iff in B. destruct B as [B|B].
    + apply negb_true_iff in B. exfalso.
      assert (X : existsb (fun x => match x with XE _ [] => true | _ => false end) (named m k) = true)
        by (apply existsb_exists; exists (XE m []); auto).
      congruence.
    + apply Nat.eqb_eq in B. destruct (named m k) as [|y [|z r]]; try discriminate.
      destruct J as [->|[]]. reflexivity.
  - intros m x y X Y. specialize (B m (named_in _ _ _ X)). apply andb_true_iff in B. destruct B as [B _].
    apply orb_true_iff in B. destruct B as [B|B]; rewrite forallb_forall in B.
    + now rewrite (B x X), (B y Y).
    + pose proof (B x X) as A1. pose proof (B y Y) as A2. apply negb_true_iff in A1, A2. congruence.
Qed.

Ltac tidies := cbn [elems filter is_elem small_file];
  repeat first
  [ apply Forall_nil
  | apply Forall_cons
  | apply tidy_leaf; vm_compute; reflexivity
  | apply tidy_empty; vm_compute; reflexivity
  | apply tidy_by_names; [vm_compute; reflexivity|discriminate|cbn [elems filter is_elem leaf]|vm_compute; reflexivity] ].

Example small_file_tidy : tidy (XE "simulation" small_file) /\ elems small_file <> [].
Proof. split; [unfold small_file; tidies|discriminate]. Qed.

(** A JSON document. *)
Definition small_doc : list (string * json) :=
  [("simulation", JObj [("control", JObj [("duration", JPod "10")]);
     ("facility", JArr [JObj [("name", JStr "src"); ("vals", JObj [("val", JArr [JStr "a"; JPod "2"])])];
                        JObj [("name", JStr "sink"); ("other", JNull)]])])].

Example small_doc_clean : clean (JObj small_doc).
Proof.
  unfold small_doc. cbn -[plain_name plain_text].
  repeat match goal with |- _ /\ _ => split end; try exact I; try reflexivity; try discriminate;
    intros x y [<-|[<-|[]]] [<-|[<-|[]]]; reflexivity.
Qed.

Example small_doc_text : show (json_to_xml (JObj small_doc)) =
"<simulation>
  <control>
    <duration>10</duration>
  </control>
  <facility>
    <name>src</name>
    <vals>
      <val>a</val>
      <val>2</val>
    </vals>
  </facility>
  <facility>
    <name>sink</name>
    <other/>
  </facility>
</simulation>
".
Proof. vm_compute. reflexivity. Qed.
