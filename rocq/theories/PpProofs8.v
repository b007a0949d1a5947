(** * Proofs: reading a class; names *)
From Coq Require Import Ascii Sorted.
From Verif Require Import Base PpModel PpSpec PpProofs PpProofs2 PpProofs3 PpProofs4 PpProofs5 PpProofs6
  PpProofs7.
Open Scope string_scope.
Open Scope list_scope.

Lemma members_assoc c : NoDup (vars c) -> forall m a, In (m, a) (variables c) ->
  assoc m (members c) = Some (CV (ty a) (fresh (ty a))) /\
  assoc m (member_types c) = Some (KV (ty a)).
Proof.
  unfold vars. induction c as [|[m' [s|b|a' d i]] c IH]; intros N m a H; simpl in *; try tauto.
  - now apply IH.
  - now apply IH.
  - inversion N as [|? ? N1 N2]; subst. destruct H as [E|H].
    + injection E as -> ->. now rewrite String.eqb_refl.
    + destruct (String.eqb_spec m m').
      * subst. exfalso. apply N1. apply in_map_iff. now exists (m', a).
      * now apply IH.
Qed.
Lemma columns_vars c : Forall entry_ok c -> columns c = vars c.
Proof.
  induction 1 as [|[m [s|b|a d i]] c H _ IH]; simpl; auto.
  - change (b = true) in H. now subst b.
  - unfold vars in *. simpl. now rewrite IH.
Qed.

Section Top.
  Variable xsd : string -> string -> option pv.
  Variable nucid : string -> option Z.
  Variable lex : prim -> string -> option pv.
  Notation fills := (fills xsd nucid).

  Lemma fills_vars c l r : fills c l r -> map fst r = vars c.
  Proof. unfold vars. induction 1; simpl; congruence. Qed.

  Lemma row_ok e (r : list (string * val)) :
    (forall m v, In (m, v) r -> value_of e m = Some v) ->
    (fix row (l : list string) : result (list (string * val)) :=
       match l with
       | [] => Ok []
       | m :: l => need (value_of e m) (fun v => lift (row l) (fun r => Ok ((m, v) :: r)))
       end) (map fst r) = Ok r.
  Proof.
    induction r as [|[m v] r IH]; intro H; simpl; auto.
    rewrite (H m v) by (simpl; auto). simpl. rewrite IH by (intros; apply H; simpl; auto). reflexivity.
  Qed.

  Lemma plain_found c kids : plain_config c (elems kids) ->
    forall m a d x, In (m, EVar a d false) c -> filter (step_ok (Name (aname a))) kids = [x] -> plain a x.
  Proof.
    intros H m a d x I F. apply (H m a d x I).
    - assert (K : In x (filter (step_ok (Name (aname a))) kids)) by (rewrite F; simpl; auto).
      rewrite filter_elems in K. now apply filter_In in K.
    - assert (K : In x (filter (step_ok (Name (aname a))) kids)) by (rewrite F; simpl; auto).
      now apply filter_In in K.
  Qed.

  Lemma config_found c kids r : NoDup (user_names c) -> config xsd nucid c (elems kids) r ->
    exists l', Permutation (elems kids) l' /\ found xsd nucid kids c l' r.
  Proof.
    intros N (l' & Pm & Fi). exists l'. split; auto.
    apply found_perm with (all := l').
    - intro s. rewrite (filter_elems s kids). apply perm_filter. now symmetry.
    - now apply (fills_found xsd nucid c l' r Fi []).
  Qed.

  Lemma doc_sub proto arch before before' kids : alone before before' ->
    sub_tree (document proto arch before before' kids) (QPath [Name "config"; Star]) 0 =
    Ok (XElem arch kids).
  Proof.
    intros [A1 A2]. unfold sub_tree, find. cbn [find_path kids_of document].
    rewrite filter_app, A1. cbn [List.app filter step_ok]. rewrite String.eqb_refl.
    cbn [flat_map kids_of]. rewrite filter_app, (filter_elems Star before'), A2. reflexivity.
  Qed.

  Theorem read_as_written c proto arch before before' kids r :
    libraries xsd lex -> class_ok c -> alone before before' ->
    plain_config c (elems kids) -> config xsd nucid c (elems kids) r ->
    exists r', infile_to_db nucid lex c (document proto arch before before' kids) = Ok r' /\
      config xsd nucid c (elems kids) r'.
  Proof.
    intros L (Ok1 & Nv & Nu & Nt) Al Pl Cf.
    destruct (config_found c kids r Nu Cf) as (l' & Pm & Fo).
    set (doc := document proto arch before before' kids).
    set (F := [("n", CV (TP PInt) VUndef); ("i", CV (TP PInt) VUndef);
               ("sub", CT (XElem arch kids))] : scope).
    destruct (class_run xsd nucid lex L arch kids doc c [] F (members c) l' r)
      as (code & r' & F' & M' & E1 & E2 & E3 & E4 & E5 & E6); auto.
    { intros y Hy. left. simpl in *. tauto. }
    { intros m a H. destruct (members_assoc c Nv m a H). eauto. }
    { now apply plain_found. }
    exists r'. split; [|exists l'; auto].
    unfold infile_to_db, infile_code. rewrite E1. cbn [obind].
    rewrite execs_cons.
    assert (D := doc_sub proto arch before before' kids Al).
    eapply lift_eq.
    { eapply lift_eq.
      { cbn [exec]. unfold the_tree. cbn [look assoc]. cbn. eapply lift_eq; [exact D|]. reflexivity. }
      cbn [lift]. rewrite execs_cons. cbn [exec lift declv]. rewrite execs_cons. cbn [exec lift declv].
      exact E2. }
    cbn [lift]. rewrite columns_vars by auto. rewrite <- (fills_vars c l' r' E3).
    apply row_ok. intros m v H. destruct (E5 m v H) as [V (t & A)].
    assert (Rs : ~ In m reserved).
    { unfold vars in V. apply in_map_iff in V. destruct V as ([m1 a] & <- & V).
      unfold variables in V. apply in_flat_map in V. destruct V as ([m2 e] & V1 & V2). simpl in V2.
      destruct e as [| |a' d i]; simpl in V2; try tauto. destruct V2 as [V2|[]]. injection V2 as -> ->.
      apply (proj1 (Forall_forall _ _) Ok1) in V1. exact (proj1 V1). }
    unfold value_of. cbn [look].
    replace (assoc m F') with (@None cell).
    2:{ symmetry. eapply (own_none nucid arch); [exact E4|auto|]. intros m' H'. simpl in H'. now apply Nt. }
    destruct (params_none nucid arch doc m Rs) as [Q _]. cbn [look]. rewrite Q. cbn [look]. now rewrite A.
  Qed.

  Theorem generated_compiles c : class_ok c -> compiles c = true.
  Proof.
    intros (Ok1 & Nv & Nu & Nt).
    set (F := [("n", KV (TP PInt)); ("i", KV (TP PInt)); ("sub", KTree)] : tscope).
    destruct (class_chk nucid lex "" XOther c [] F (member_types c)) as (code & F' & E1 & E2 & E3); auto.
    { intros y Hy. left. simpl in *. tauto. }
    { intros m a H. destruct (members_assoc c Nv m a H). auto. }
    unfold compiles, infile_code. rewrite E1. cbn [obind].
    replace (chks _ _) with (Some (F' :: [("tree", KTree); ("di", KTree)] :: [member_types c]))
      by (symmetry; exact E2).
    rewrite columns_vars by auto. apply forallb_forall. intros m H.
    assert (V : exists a, In (m, a) (variables c)).
    { unfold vars in H. apply in_map_iff in H. destruct H as ([m1 a] & <- & H). eauto. }
    destruct V as (a & V). destruct (members_assoc c Nv m a V) as [_ A].
    assert (Rs : ~ In m reserved).
    { unfold variables in V. apply in_flat_map in V. destruct V as ([m2 e] & V1 & V2). simpl in V2.
      destruct e as [| |a' d i]; simpl in V2; try tauto. destruct V2 as [V2|[]]. injection V2 as -> ->.
      apply (proj1 (Forall_forall _ _) Ok1) in V1. exact (proj1 V1). }
    unfold type_of. cbn [look].
    replace (assoc m F') with (@None kind).
    2:{ symmetry. eapply (own_none nucid ""); [exact E3|auto|]. intros m' H'. simpl in H'. now apply Nt. }
    destruct (params_none nucid "" XOther m Rs) as [_ Q]. cbn [look]. rewrite Q. cbn [look]. now rewrite A.
  Qed.

  Lemma class_std c : Forall entry_ok c -> Forall std_entry c.
  Proof.
    apply Forall_impl. intros [m [s|b|a d i]]; unfold std_entry; simpl; auto.
    destruct i; intros (_ & H1 & _ & H2); [auto|now apply H2].
  Qed.

  Theorem accepted_iff_configured c l : libraries xsd lex -> class_ok c -> c <> [] ->
    (forall m a d, In (m, EVar a d false) c -> no_nuclides a \/ (forall s, nucid s <> None)) ->
    (valid xsd (schema c) l <-> exists r, config xsd nucid c l r).
  Proof.
    intros L (Ok1 & _) N R. apply schema_config; auto.
    - intro s. rewrite (lib_string _ _ L). discriminate.
    - now apply class_std.
    - apply Forall_forall. intros [m [s|b|a d [|]]] H; unfold readable; simpl; auto. eauto.
  Qed.

  (** ** The value of an absent variable *)
  Theorem absent_default c kids r m a d : class_ok c -> config xsd nucid c (elems kids) r ->
    In (m, EVar a (Some d) false) c -> filter (step_ok (Name (aname a))) kids = [] -> In (m, d) r.
  Proof.
    intros (_ & _ & Nu & _) Cf I F. destruct (config_found c kids r Nu Cf) as (l' & _ & Fo).
    clear Cf Nu. induction Fo; simpl in I; try tauto.
    - destruct I as [I|I]; [discriminate|auto].
    - destruct I as [I|I]; [discriminate|auto].
    - destruct I as [I|I]; [discriminate|simpl; auto].
    - destruct I as [I|I]; [|simpl; auto]. injection I as -> -> ->. congruence.
    - destruct I as [I|I]; [|simpl; auto]. injection I as -> -> ->. simpl; auto.
  Qed.
  Theorem given_value c kids r m a d x : class_ok c -> config xsd nucid c (elems kids) r ->
    In (m, EVar a d false) c -> In x kids -> step_ok (Name (aname a)) x = true ->
    exists v, In (m, v) r /\ written xsd nucid a x v.
  Proof.
    intros (_ & _ & Nu & _) Cf I Hx Sx. destruct (config_found c kids r Nu Cf) as (l' & _ & Fo).
    assert (K : In x (filter (step_ok (Name (aname a))) kids)) by now apply filter_In.
    clear Cf Nu. induction Fo; simpl in I; try tauto.
    - destruct I as [I|I]; [discriminate|auto].
    - destruct I as [I|I]; [discriminate|auto].
    - destruct I as [I|I]; [discriminate|]. destruct (IHFo I) as (v & ? & ?). exists v. simpl; auto.
    - destruct I as [I|I].
      + injection I as -> -> ->. rewrite H0 in K. destruct K as [->|[]]. exists v. simpl; auto.
      + destruct (IHFo I) as (v1 & ? & ?). exists v1. simpl; auto.
    - destruct I as [I|I].
      + injection I as -> -> _. rewrite H in K. destruct K.
      + destruct (IHFo I) as (v1 & ? & ?). exists v1. simpl; auto.
  Qed.

  Theorem internal_default c kids r m a d : class_ok c -> config xsd nucid c (elems kids) r ->
    In (m, EVar a (Some d) true) c -> In (m, d) r.
  Proof.
    intros _ (l' & _ & Fi) I. revert I. clear -Fi. induction Fi; simpl; intro I; try tauto.
    - destruct I as [I|I]; [discriminate|auto].
    - destruct I as [I|I]; [discriminate|auto].
    - destruct I as [I|I]; [|auto]. injection I as -> -> ->. auto.
    - destruct I as [I|I]; [discriminate|auto].
    - destruct I as [I|I]; [discriminate|auto].
  Qed.

  Theorem accepted_read c proto arch before before' kids :
    libraries xsd lex -> class_ok c -> c <> [] -> alone before before' ->
    (forall m a d, In (m, EVar a d false) c -> no_nuclides a \/ (forall s, nucid s <> None)) ->
    plain_config c (elems kids) -> valid xsd (schema c) (elems kids) ->
    exists r, infile_to_db nucid lex c (document proto arch before before' kids) = Ok r /\
      config xsd nucid c (elems kids) r.
  Proof.
    intros L C N A R P V. apply accepted_iff_configured in V; auto. destruct V as (r & V).
    now apply read_as_written with (r := r).
  Qed.
  Theorem given_used c proto arch before before' kids r r' m a d x :
    libraries xsd lex -> class_ok c -> alone before before' ->
    plain_config c (elems kids) -> config xsd nucid c (elems kids) r ->
    infile_to_db nucid lex c (document proto arch before before' kids) = Ok r' ->
    In (m, EVar a d false) c -> In x kids -> step_ok (Name (aname a)) x = true ->
    exists v, In (m, v) r' /\ written xsd nucid a x v.
  Proof.
    intros L C A P Cf E. destruct (read_as_written c proto arch before before' kids r L C A P Cf)
      as (r2 & E2 & C2). rewrite E in E2. injection E2 as <-. now apply given_value.
  Qed.
  Theorem absent_used c proto arch before before' kids r r' m a d :
    libraries xsd lex -> class_ok c -> alone before before' ->
    plain_config c (elems kids) -> config xsd nucid c (elems kids) r ->
    infile_to_db nucid lex c (document proto arch before before' kids) = Ok r' ->
    (In (m, EVar a (Some d) false) c /\ filter (step_ok (Name (aname a))) kids = []) \/
    In (m, EVar a (Some d) true) c ->
    In (m, d) r'.
  Proof.
    intros L C A P Cf E H. destruct (read_as_written c proto arch before before' kids r L C A P Cf)
      as (r2 & E2 & C2). rewrite E in E2. injection E2 as <-.
    destruct H as [[H1 H2]|H]; [eapply absent_default|eapply internal_default]; eauto.
  Qed.
End Top.

(** ** Names *)
Lemma canonize_default t : forall name, canonize t name ANone ANone ANone = Some (default_names t name).
Proof.
  induction t; intro name; simpl; auto.
  - now rewrite IHt.
  - now rewrite IHt1, IHt2.
  - now rewrite IHt1, IHt2.
Qed.
Lemma orname_str n name : n <> "" -> orname (AStr n) name = Some n.
Proof. intro H. simpl. apply String.eqb_neq in H. now rewrite H. Qed.
Lemma canonize_given a : forall name, named a -> standard a ->
  canonize (ty a) name (alias_of a) (nuclides_of a) ANone = Some a.
Proof.
  induction a as [p nuc dt n|c n a IH|n a IHa b IHb|n item ka IHk va IHv]; intros name N S.
  - simpl in N, S. cbn [canonize ty alias_of nuclides_of]. rewrite orname_str by auto. cbn [obind].
    destruct nuc.
    + destruct S as [_ [-> ->]]. reflexivity.
    + destruct S as [_ ->]. reflexivity.
  - destruct N as [N1 N2]. simpl in S. cbn [canonize ty alias_of nuclides_of widen anth nth].
    rewrite orname_str by auto. cbn [obind]. now rewrite IH.
  - destruct N as (N1 & N2 & N3), S as [S1 S2]. cbn [canonize ty alias_of nuclides_of widen anth nth].
    rewrite orname_str by auto. cbn [obind]. rewrite IHa by auto. cbn [obind]. now rewrite IHb.
  - destruct N as (N1 & N2 & N3 & N4), S as [S1 S2]. cbn [canonize ty alias_of nuclides_of widen anth nth].
    rewrite !orname_str by auto. cbn [obind]. rewrite IHk by auto. cbn [obind]. now rewrite IHv.
Qed.

(** ** Declarations *)
Lemma od_set_same k e c : In (k, e) (od_set k e c).
Proof.
  induction c as [|[k' e'] c IH]; simpl; auto. destruct (String.eqb_spec k k'); subst; simpl; auto.
Qed.
Lemma od_set_other k e c k' e' : k <> k' -> In (k', e') (od_set k e c) <-> In (k', e') c.
Proof.
  intro N. induction c as [|[k1 e1] c IH]; simpl.
  - split; [intros [E|[]]; congruence|tauto].
  - destruct (String.eqb_spec k k1); simpl.
    + subst k1. split; intros [E|H]; auto; left; congruence.
    + rewrite IH. tauto.
Qed.
Lemma declare_keeps_other c vname t al ui st d i c' m e :
  declare c vname t al ui st d i = Some c' -> m <> vname ->
  (forall h, obind al head_string = Some h -> m <> h) -> In (m, e) c' <-> In (m, e) c.
Proof.
  unfold declare. destruct (canonize _ _ _ _ _) as [a|]; simpl; [|discriminate].
  destruct al as [u|]; simpl.
  - destruct (head_string u) as [h|]; simpl; [|discriminate]. intros [= <-] N1 N2.
    assert (N3 := N2 h eq_refl). rewrite !od_set_other by congruence. tauto.
  - intros [= <-] N1 _. apply od_set_other. congruence.
Qed.
Lemma declare_has c vname t al ui st d i c' :
  declare c vname t al ui st d i = Some c' ->
  (forall h, obind al head_string = Some h -> vname <> h) ->
  exists a, canonize t vname (match al with Some u => u | None => ANone end) ui st = Some a /\
    In (vname, EVar a d i) c'.
Proof.
  unfold declare. destruct (canonize _ _ _ _ _) as [a|]; simpl; [|discriminate].
  intros H N. exists a. split; auto. destruct al as [u|]; simpl in *.
  - destruct (head_string u) as [h|]; simpl in H; [|discriminate]. injection H as <-.
    apply od_set_other; [intro; subst; now apply (N vname)|apply od_set_same].
  - injection H as <-. apply od_set_same.
Qed.
Lemma declare_all_keep l : forall c c' m e, declare_all l c = Some c' ->
  ~ In m (map d_name l) -> (forall d, In d l -> head_of d <> Some m) ->
  In (m, e) c' <-> In (m, e) c.
Proof.
  induction l as [|d l IH]; intros c c' m e H N1 N2; simpl in *.
  - injection H as <-. tauto.
  - destruct (declare _ _ _ _ _ _ _ _) as [c1|] eqn:E; simpl in H; [|discriminate].
    rewrite (IH c1 c' m e H) by (try tauto; auto).
    eapply declare_keeps_other; eauto.
    intros h Hh ->. apply (N2 d (or_introl eq_refl)). exact Hh.
Qed.
Lemma declare_all_has l : forall c c', declare_all l c = Some c' -> NoDup (map d_name l) ->
  (forall d d' h, In d l -> In d' l -> head_of d' = Some h -> d_name d <> h) ->
  forall d, In d l -> exists a,
    canonize (d_type d) (d_name d) (match d_alias d with Some u => u | None => ANone end)
      (d_ui d) (d_st d) = Some a /\ In (d_name d, EVar a (d_default d) (d_internal d)) c'.
Proof.
  induction l as [|d0 l IH]; intros c c' H N A d I; simpl in *; [tauto|].
  destruct (declare _ _ _ _ _ _ _ _) as [c1|] eqn:E; simpl in H; [|discriminate].
  inversion N as [|? ? N1 N2]; subst.
  destruct I as [->|I].
  - destruct (declare_has _ _ _ _ _ _ _ _ _ E) as (a & Ea & Ia).
    { intros h Hh. apply (A d d h); auto. }
    exists a. split; auto. rewrite (declare_all_keep l c1 c'); auto.
    intros d' Hd' Hh. now apply (A d d' (d_name d)); auto.
  - apply (IH c1 c'); auto. intros; eapply A; eauto.
Qed.
