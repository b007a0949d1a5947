(** Concrete input files. *)
From Coq Require Import String Ascii List ZArith Bool Arith Lia.
From Verif Require Import Base SpecModel SimModel LoaderModel LoaderSpec LoaderProofs9.
From Verif Require PpModel.
Import PpModel(xml(..)).
Import ListNotations.
Local Open Scope string_scope.

Definition elem (n t : string) : xml := XElem n [XText t].
Definition gap : xml := XText " ".
Definition make0 (sp : spec) : result (kind * bool) :=
  if String.eqb (sp_agent sp) "Source" then Ok (KFac, false)
  else if String.eqb (sp_agent sp) "Sink" then Ok (KFac, true)
  else if String.eqb (sp_agent sp) "NullInst" then Ok (KInst, false)
  else if String.eqb (sp_agent sp) "NullRegion" then Ok (KRegion, false)
  else Throw IOError.
Definition read0 (_ : spec) (_ : xml) : result unit := Ok tt.
Definition beh0 (_ : hook) (_ : sim) : prog := Done.
(** when an agent enters it registers for the time steps *)
Definition beh1 (h : hook) (_ : sim) : prog :=
  match h with HEnter a => Do (CReg a) (fun _ => Done) | _ => Done end.
Definition cond0 (_ : nat) (_ : sim) : bool := true.

Definition proto_elem (tag name cls : string) (rest : list xml) : xml :=
  XElem tag ([gap; elem "name" name; XElem "config" [gap; XElem cls []; gap]] ++ rest)%list.
Definition file0 : xml := XElem "simulation" [
  XElem "archetypes" [
    XElem "spec" [elem "lib" "agents"; elem "name" "Source"; elem "alias" "Well"];
    XElem "spec" [elem "lib" "agents"; elem "name" "Sink"]; gap;
    XElem "spec" [elem "lib" "agents"; elem "name" "NullInst"];
    XElem "spec" [elem "lib" "agents"; elem "name" "NullRegion"]];
  proto_elem "facility" "Farm" "Well" [elem "lifetime" " 12 "];
  XElem "region" ([gap; elem "name" "North"; XElem "config" [gap; XElem "NullRegion" []; gap];
    XElem "institution" [gap; elem "name" "Guild"; XElem "config" [gap; XElem "NullInst" []; gap];
      XElem "initialfacilitylist" [
        XElem "entry" [elem "prototype" "Mill"; elem "number" "1"]; gap;
        XElem "entry" [elem "prototype" "Farm"; elem "number" "+2"]]]]);
  proto_elem "facility" "Mill" "Sink" []].
Definition arch (name : string) (alias : option string) : archetype :=
  {| ar_name := name; ar_lib := Some "agents"; ar_path := None; ar_alias := alias |}.
Definition input0 : input := {|
  archetypes := [arch "Source" (Some "Well"); arch "Sink" None; arch "NullInst" None; arch "NullRegion" None];
  facilities := [{| pr_name := "Farm"; pr_class := "Well"; pr_life := Some 12%nat |};
                 {| pr_name := "Mill"; pr_class := "Sink"; pr_life := None |}];
  regions := [{| re_self := {| pr_name := "North"; pr_class := "NullRegion"; pr_life := None |};
    re_insts := [{| in_self := {| pr_name := "Guild"; pr_class := "NullInst"; pr_life := None |};
      in_list := [{| en_proto := "Mill"; en_number := 1 |}; {| en_proto := "Farm"; en_number := 2 |}] |}] |}] |}.

Ltac number l ds plus r := exists l, ds, plus, r; repeat split; try reflexivity; try (repeat constructor; fail);
  try (left; reflexivity); try (right; reflexivity); try discriminate; try (repeat constructor; simpl; tauto).
Lemma n12 : says_number " 12 " 12. Proof. number [" "%char] [1%nat; 2%nat] (@nil ascii) [" "%char]. Qed.
Lemma n1 : says_number "1" 1. Proof. number (@nil ascii) [1%nat] (@nil ascii) (@nil ascii). Qed.
Lemma n2 : says_number "+2" 2. Proof. number (@nil ascii) [2%nat] ["+"%char] (@nil ascii). Qed.

Ltac config := eexists [gap], _, [gap]; split; [reflexivity|repeat constructor; intros ? ?; discriminate].
Lemma says_input0 : says_input file0 input0.
Proof.
  split; [|split].
  - split; [eexists; reflexivity|]. repeat constructor.
  - repeat constructor; try config.
    exists " 12 ". split; [reflexivity|exact n12].
  - constructor; [|constructor]. split; [split; [reflexivity|split; [config|reflexivity]]|].
    constructor; [|constructor]. split; [split; [reflexivity|split; [config|reflexivity]]|].
    constructor; [|constructor; [|constructor]]; (split; [reflexivity|]).
    + exists "1". split; [reflexivity|exact n1].
    + exists "+2". split; [reflexivity|exact n2].
Qed.
Ltac nodup := repeat constructor; simpl; intuition discriminate.
Lemma complete0 : complete make0 read0 file0 input0.
Proof.
  split; [|split; [|split]].
  - split; [discriminate|]. split; nodup.
  - nodup.
  - repeat constructor.
    + exists (arch "Source" (Some "Well")). eexists. simpl. repeat split; auto.
    + exists (arch "Sink" None). eexists. simpl. repeat split; auto.
    + exists (arch "NullInst" None). eexists. simpl. repeat split; auto.
    + exists (arch "NullRegion" None). eexists. simpl. repeat split; auto 8.
  - simpl. intros r j e [<-|[]] [<-|[]] [<-|[<-|[]]]; simpl; auto.
Qed.
Lemma no_spec0 : forall c, make0 (mkSpec "" "" "" "") <> Ok c. Proof. discriminate. Qed.
Lemma quiet1 : quiet_code beh1.
Proof. intro s. split; intros; simpl; repeat constructor. Qed.
Lemma fresh0 : fresh (sim0 0 10). Proof. repeat split. Qed.
Lemma ends1 h : ends_normally beh1 cond0 4 h.
Proof.
  intros f s [-> | E] H; [|injection E as ->]; destruct h; try (eexists; reflexivity);
    destruct (H a (or_introl eq_refl)) as (x & Hx & L); simpl; unfold register, bind, deref, get; rewrite Hx, L; eexists; reflexivity.
Qed.
Lemma loads0 : exists r s, load_file beh1 cond0 make0 read0 4 file0 (sim0 0 10) = (Normal r, s) /\
  map (fun x => (a_id x, a_proto x, a_life x, a_parent x)) (heap (w s)) =
  [(0, "Farm", 12, None); (1, "Mill", -1, None); (2, "Guild", -1, None); (3, "North", -1, None);
   (4, "North", -1, None); (5, "Guild", -1, Some 4%nat);
   (6, "Mill", -1, Some 5%nat); (7, "Farm", 12, Some 5%nat); (8, "Farm", 12, Some 5%nat)]%Z.
Proof. eexists. eexists. split; vm_compute; reflexivity. Qed.

(** ** The same archetype under two names *)
Definition file2 : xml := XElem "simulation" [
  XElem "archetypes" [
    XElem "spec" [elem "lib" "agents"; elem "name" "Source"; elem "alias" "Well"];
    XElem "spec" [elem "lib" "agents"; elem "name" "Source"; elem "alias" "Mine"]];
  proto_elem "facility" "Pit" "Mine" []].
Definition input2 : input := {|
  archetypes := [arch "Source" (Some "Well"); arch "Source" (Some "Mine")];
  facilities := [{| pr_name := "Pit"; pr_class := "Mine"; pr_life := None |}]; regions := [] |}.
Lemma says_input2 : says_input file2 input2.
Proof.
  split; [|split].
  - split; [eexists; reflexivity|]. repeat constructor.
  - repeat constructor; config.
  - constructor.
Qed.
Lemma second_alias : says_input file2 input2 /\ NoDup (map alias_of (archetypes input2)) /\
  Forall2 (good_proto make0 read0 (archetypes input2)) (prototype_elements file2) (prototypes input2) /\
  forall fuel, exists s, load_file beh0 cond0 make0 read0 fuel file2 (sim0 0 10) = (Raised IOError, s).
Proof.
  split; [exact says_input2|]. split; [nodup|]. split.
  - repeat constructor. exists (arch "Source" (Some "Mine")). eexists. simpl. repeat split; auto.
  - intro fuel. eexists. vm_compute. reflexivity.
Qed.

(** ** Flat files *)
Definition agent_elem (name proto : string) (parent : list xml) : xml :=
  XElem "agent" ([elem "name" name; gap; elem "prototype" proto] ++ parent)%list.
Definition archs3 : list xml := [
    XElem "spec" [elem "lib" "agents"; elem "name" "Sink"];
    XElem "spec" [elem "lib" "agents"; elem "name" "NullInst"];
    XElem "spec" [elem "lib" "agents"; elem "name" "NullRegion"]].
Definition protos3 : list xml := [
  proto_elem "prototype" "Mill" "Sink" [elem "lifetime" "1"];
  proto_elem "prototype" "Guild" "NullInst" []; gap;
  proto_elem "prototype" "Land" "NullRegion" []].
Definition file3 : xml := XElem "simulation" (XElem "archetypes" archs3 :: protos3 ++ [
  agent_elem "alpha" "Mill" [elem "parent" "beta"];
  agent_elem "beta" "Guild" [elem "parent" "gamma"];
  agent_elem "gamma" "Land" []])%list.
Definition farchs : list archetype := [arch "Sink" None; arch "NullInst" None; arch "NullRegion" None].
Definition fprotos : list proto := [
  {| pr_name := "Mill"; pr_class := "Sink"; pr_life := Some 1%nat |};
  {| pr_name := "Guild"; pr_class := "NullInst"; pr_life := None |};
  {| pr_name := "Land"; pr_class := "NullRegion"; pr_life := None |}].
Definition flat3 : flat := {| fl_archetypes := farchs; fl_protos := fprotos;
  fl_members := [{| me_name := "alpha"; me_proto := "Mill"; me_parent := Some "beta" |};
                 {| me_name := "beta"; me_proto := "Guild"; me_parent := Some "gamma" |};
                 {| me_name := "gamma"; me_proto := "Land"; me_parent := None |}] |}.
Ltac flatfile := split; [split; [eexists; reflexivity|repeat constructor]|]; split;
  [repeat constructor; try config; exists "1"; split; [reflexivity|exact n1]
  |repeat constructor; simpl; try discriminate].
Lemma says_flat3 : says_flat file3 flat3. Proof. flatfile. Qed.
Lemma complete3 : flat_complete make0 read0 file3 flat3.
Proof.
  split; [|split; [|split]].
  - split; [discriminate|]. split; nodup.
  - nodup.
  - repeat constructor.
    + exists (arch "Sink" None). eexists. simpl. repeat split; auto.
    + exists (arch "NullInst" None). eexists. simpl. repeat split; auto.
    + exists (arch "NullRegion" None). eexists. simpl. repeat split; auto.
  - simpl. intros m [<-|[<-|[<-|[]]]]; simpl; auto.
Qed.
Lemma last_in ms n m : last_said ms n m -> In m ms /\ me_name m = n.
Proof. intros (l1 & l2 & -> & N & _). split; [apply in_elt|exact N]. Qed.
Lemma rooted3 : rooted (fl_members flat3).
Proof.
  exists (fun n => if String.eqb n "alpha" then 2 else if String.eqb n "beta" then 1 else 0)%nat.
  intros n m q L. destruct (last_in _ _ _ L) as [I <-]. clear L. simpl in I.
  destruct I as [<-|[<-|[<-|[]]]]; simpl; intro H; inversion H; subst; simpl; (split; [auto|lia]).
Qed.
Lemma loads3 : exists s, load_flat_file beh1 cond0 make0 read0 4 16 file3 (sim0 0 10) =
  (Normal (combine (seq 0 3) (children "prototype" file3), [("gamma", 3); ("beta", 4); ("alpha", 5)]%nat), s) /\
  map (fun x => (a_id x, a_proto x, a_life x, a_parent x)) (heap (w s)) =
  [(0, "Mill", 1, None); (1, "Guild", -1, None); (2, "Land", -1, None);
   (3, "Land", -1, None); (4, "Guild", -1, Some 3%nat); (5, "Mill", 1, Some 4%nat)]%Z.
Proof. eexists. split; vm_compute; reflexivity. Qed.

(** an agent whose parent is not in the file *)
Definition file4 : xml := XElem "simulation" (XElem "archetypes" archs3 :: protos3 ++ [
  agent_elem "alpha" "Mill" [elem "parent" "omega"]])%list.
Definition flat4 : flat := {| fl_archetypes := farchs; fl_protos := fprotos;
  fl_members := [{| me_name := "alpha"; me_proto := "Mill"; me_parent := Some "omega" |}] |}.
Lemma says_flat4 : says_flat file4 flat4. Proof. flatfile. Qed.
Lemma complete4 : flat_complete make0 read0 file4 flat4.
Proof.
  split; [|split; [|split]].
  - split; [discriminate|]. split; nodup.
  - nodup.
  - repeat constructor.
    + exists (arch "Sink" None). eexists. simpl. repeat split; auto.
    + exists (arch "NullInst" None). eexists. simpl. repeat split; auto.
    + exists (arch "NullRegion" None). eexists. simpl. repeat split; auto.
  - simpl. intros m [<-|[]]; simpl; auto.
Qed.
Lemma missing_parent : says_flat file4 flat4 /\ flat_complete make0 read0 file4 flat4 /\
  forall fuel n, fst (load_flat_file beh0 cond0 make0 read0 fuel n file4 (sim0 0 10)) = NoFuel.
Proof.
  split; [exact says_flat4|]. split; [exact complete4|]. intros fuel n.
  assert (E1 : parse_specs file4 = Ok (map as_spec farchs)) by (vm_compute; reflexivity).
  assert (E2 : exists ps s1, over file4 (path ["prototype"]) (load_proto make0 read0 (map as_spec farchs)) (sim0 0 10) = (Normal ps, s1)).
  { eexists. eexists. vm_compute. reflexivity. }
  destruct E2 as (ps & s1 & E2).
  assert (E3 : over file4 (path ["agent"]) read_agent s1 = (Normal [("alpha", ("Mill", "omega"))], s1)) by reflexivity.
  unfold load_flat_file, bind at 1. rewrite E1. cbn [lift ret]. unfold load_flat_agents, bind at 1. rewrite E2. unfold bind at 1. rewrite E3.
  unfold bind at 1. cbn [fold_left fst sset_ins]. rewrite lone_place by discriminate. reflexivity.
Qed.

(** two agents of the same name *)
Definition file5 : xml := XElem "simulation" (XElem "archetypes" archs3 :: protos3 ++ [
  agent_elem "alpha" "Mill" []; agent_elem "alpha" "Guild" []])%list.
Definition flat5 : flat := {| fl_archetypes := farchs; fl_protos := fprotos;
  fl_members := [{| me_name := "alpha"; me_proto := "Mill"; me_parent := None |};
                 {| me_name := "alpha"; me_proto := "Guild"; me_parent := None |}] |}.
Lemma says_flat5 : says_flat file5 flat5. Proof. flatfile. Qed.
Lemma same_name : says_flat file5 flat5 /\
  exists s, load_flat_file beh0 cond0 make0 read0 4 9 file5 (sim0 0 10) =
    (Normal (combine (seq 0 3) (children "prototype" file5), [("alpha", 3)]%nat), s) /\
  map a_proto (heap (w s)) = ["Mill"; "Guild"; "Land"; "Guild"].
Proof. split; [exact says_flat5|]. eexists. split; vm_compute; reflexivity. Qed.
