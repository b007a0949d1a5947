(** * LoaderProofs10: a prototype that was loaded has read its own element. *)
From Coq Require Import String Ascii List ZArith Bool Arith Lia.
From Verif Require Import Base SpecModel SimModel LoaderModel LoaderSpec LoaderProofs LoaderProofs2 LoaderProofs3 LoaderProofs4 LoaderProofs5.
From Verif Require PpModel.
Import PpModel(xml(..), Name, QPath, find_path, get_string, sub_tree, find, nmatches).
Import ListNotations.
Local Open Scope string_scope.

Lemma class_spec (make : spec -> result (kind * bool)) x l r al cls :
  says_archetypes x l -> parse_specs x = Ok r ->
  (forall c, make (mkSpec "" "" "" "") <> Ok c) ->
  make (spec_for r al) = Ok cls -> exists a, In a l /\ alias_of a = al /\ spec_for r al = as_spec a.
Proof.
  intros S P N M. unfold spec_for in *. destruct (spec_for_in al r (mkSpec "" "" "" "")) as [E|(sp & I & A & E)];
    rewrite E in *; [destruct (N _ M)|].
  destruct (parse_specs_in _ _ _ S P _ I) as (a & Ia & ->). exists a. repeat split; auto.
Qed.
Lemma load_proto_good make read x archs specs qe p s r s' :
  says_archetypes x archs -> parse_specs x = Ok specs -> (forall c, make (mkSpec "" "" "" "") <> Ok c) ->
  says_proto qe p -> load_proto make read specs qe s = (Normal r, s') -> good_proto make read archs qe p.
Proof.
  intros Ha Es Nn Hp H. destruct (says_proto_reads _ _ Hp) as (R1 & R2 & R3). unfold load_proto in H.
  nb H. apply lift_normal in E. destruct E as [E ->].
  nb H. apply lift_normal in E0. destruct E0 as [E0 ->]. apply R2 in E0.
  nb H. apply lift_normal in E1. destruct E1 as [E1 ->]. rewrite E0 in E1. nv E1.
  nb H. apply lift_normal in E1. destruct E1 as [E1 ->].
  destruct (class_spec _ _ _ _ _ _ Ha Es Nn E1) as (ar & Ia & Ea & Esp).
  nb H. nb H. nb H.
  nb H. apply lift_normal in E5. destruct E5 as [E5 _].
  exists ar, a1. rewrite <- Esp. destruct a5. auto.
Qed.
Lemma protos_good make read x archs specs :
  says_archetypes x archs -> parse_specs x = Ok specs -> (forall c, make (mkSpec "" "" "" "") <> Ok c) ->
  forall qes ps s r s', Forall2 says_proto qes ps -> collect (load_proto make read specs) qes s = (Normal r, s') ->
  Forall2 (good_proto make read archs) qes ps.
Proof.
  intros Ha Es Nn. induction qes as [|qe qes IH]; intros ps s r s' F H; inversion F as [|? p ? ps' Hp F']; subst; cbn [collect] in H.
  - constructor.
  - nb H. nb H. constructor; [eapply load_proto_good; eauto|eapply IH; eauto].
Qed.

Lemma file_loaded_good beh cond make read fuel x i s0 r s :
  quiet_code beh -> (forall c, make (mkSpec "" "" "" "") <> Ok c) ->
  says_input x i -> fresh s0 ->
  load_file beh cond make read fuel x s0 = (Normal r, s) ->
  holds make (archetypes i) (prototypes i) (placements i) s0 s /\
  r = combine (seq 0 (List.length (prototypes i))) (prototype_elements x) /\
  Forall2 (good_proto make read (archetypes i)) (prototype_elements x) (prototypes i).
Proof.
  intros Q Nn Hi Fr H. destruct (file_loaded _ _ _ _ _ _ _ _ _ _ Q Nn Hi Fr H) as [A B]. split; [exact A|]. split; [exact B|].
  clear A B. destruct Hi as (Ha & Hf & Hr). unfold load_file in H.
  nb H. apply lift_normal in E. destruct E as [Es ->]. unfold load_agents in H.
  nb H. rewrite over_collect, find1 in E.
  nb H. rewrite over_collect, find2 in E0.
  nb H. rewrite over_collect, find1 in E1.
  unfold prototypes, prototype_elements. apply Forall2_app; [|apply Forall2_app].
  - eapply protos_good; eauto.
  - eapply (protos_good make read x _ _ Ha Es Nn); [|exact E0]. apply insts_protos; auto.
  - eapply (protos_good make read x _ _ Ha Es Nn); [|exact E1]. apply regions_protos; auto.
Qed.
Lemma flat_loaded_good beh cond make read fuel n x f s0 ps placed s :
  quiet_code beh -> (forall c, make (mkSpec "" "" "" "") <> Ok c) ->
  says_flat x f -> fresh s0 ->
  load_flat_file beh cond make read fuel n x s0 = (Normal (ps, placed), s) ->
  let P := List.length (fl_protos f) in
  ps = combine (seq 0 P) (children "prototype" x) /\
  Forall2 (good_proto make read (fl_archetypes f)) (children "prototype" x) (fl_protos f) /\
  exists order pl, creation_order (fl_members f) P order pl /\
    placed = combine order (seq P (List.length order)) /\
    holds make (fl_archetypes f) (fl_protos f) pl s0 s.
Proof.
  intros Q Nn Hf Fr H P. destruct (flat_loaded _ _ _ _ _ _ _ _ _ _ _ _ Q Nn Hf Fr H) as [A B]. split; [exact A|]. split; [|exact B].
  clear A B. destruct Hf as (Ha & Hp & Hm). unfold load_flat_file in H.
  nb H. apply lift_normal in E. destruct E as [Es ->]. unfold load_flat_agents in H.
  nb H. rewrite over_collect, find1 in E. eapply protos_good; eauto.
Qed.
