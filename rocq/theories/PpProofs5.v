(** * Proofs: the generated reader compiles; default values *)
From Coq Require Import Ascii Sorted DecimalString DecimalNat.
From Verif Require Import Base PpModel PpSpec PpProofs PpProofs2 PpProofs3 PpProofs4.
Open Scope string_scope.
Open Scope list_scope.

Lemma prim_eqb_refl p : prim_eqb p p = true.
Proof. now destruct p. Qed.
Lemma ctype_eqb_refl t : ctype_eqb t t = true.
Proof.
  induction t; simpl; rewrite ?IHt, ?IHt1, ?IHt2; auto using prim_eqb_refl.
  now destruct c.
Qed.
Lemma assignable_refl t : assignable t t = true.
Proof. unfold assignable. now rewrite ctype_eqb_refl. Qed.

Lemma chks_app a b e : chks (a ++ b) e = obind (chks a e) (chks b).
Proof.
  revert e. induction a as [|s a IH]; intro e; simpl; auto.
  destruct (chk s e); simpl; auto.
Qed.
Lemma chks_cons s l e : chks (s :: l) e = obind (chk s e) (chks l).
Proof. reflexivity. Qed.
Lemma chk_block b e : chk (SBlock b) e = obind (chks b ([] :: e)) (fun _ => Some e).
Proof. reflexivity. Qed.
Lemma chk_for i n b e : chk (SFor i n b) e =
  when (ix_ok e (IVar n)) (obind (chks b ([] :: [(i, KV (TP PInt))] :: e)) (fun _ => Some e)).
Proof. reflexivity. Qed.
Lemma chk_if q a b e : chk (SIf q a b) e =
  when (is_tree e "sub")
    (obind (chks a ([] :: e)) (fun _ => obind (chks b ([] :: e)) (fun _ => Some e))).
Proof. reflexivity. Qed.

Ltac cstep_by H :=
  match goal with
  | |- obind ?r _ = _ =>
      let t := type of H in
      match t with _ = ?v => replace r with v by (symmetry; exact H) end
  end.

Lemma member_chk t m code new sc rest :
  assoc m sc = None ->
  chks code ([] :: ((m, KV t) :: sc) :: rest) = Some (new :: ((m, KV t) :: sc) :: rest) ->
  assoc (in_name m) new = Some (KV t) -> assoc m new = None ->
  chks (member_code t m code) (sc :: rest) = Some (((m, KV t) :: sc) :: rest).
Proof.
  intros H0 H1 H2 H3. unfold member_code. rewrite chks_cons. cbn [chk tdecl]. rewrite H0.
  cbn [obind]. rewrite chks_cons, chk_block, chks_app, H1. cbn [obind]. rewrite chks_cons.
  cbn [chk]. unfold fits, type_of. cbn [look]. rewrite H2, H3. cbn [assoc]. rewrite String.eqb_refl.
  rewrite assignable_refl. reflexivity.
Qed.

Lemma enter_chk n i path rest :
  is_tree ([] :: rest) "sub" = true -> ix_ok ([] :: rest) (tree_idx i) = true ->
  chks [STree "bub" "sub" (QPath (path ++ [Name n])) (tree_idx i); STreeCopy "sub" "bub"]
    ([] :: rest) = Some ([("sub", KTree); ("bub", KTree)] :: rest).
Proof.
  intros H1 H2. rewrite chks_cons. cbn [chk]. rewrite H1, H2. reflexivity.
Qed.

Lemma reader_chk a : forall x idx path lev rest,
  standard a -> (pairs a <= room idx)%nat -> pairs_inside a -> us x = true -> index_ok idx ->
  is_tree ([] :: rest) "sub" = true -> ix_ok ([] :: rest) (tree_idx idx) = true ->
  exists new, chks (reader a x idx path lev) ([] :: rest) = Some (new :: rest) /\
    assoc x new = Some (KV (ty a)) /\
    (forall y, In y (map fst new) -> declared a x idx lev y).
Proof.
  induction a as [p nuc dt n|c n a IH|n a IHa b IHb|n item ka IHk va IHv];
    intros x idx path lev rest St Pr Pi X I Sub Ix.
  - exists [(x, KV (TP p))]. split; [|split].
    + cbn [reader]. rewrite chks_cons. cbn [chk].
      assert (Q : queryable p nuc = true).
      { destruct St as [S1 S2]. unfold queryable. destruct nuc; [destruct S2 as [-> _]; auto|].
        destruct p; tauto. }
      rewrite Q, Sub. unfold oix_ok.
      assert (O : match idx with Some i => ix_ok ([] :: rest) i | None => true end = true).
      { destruct idx; auto. }
      rewrite O. reflexivity.
    + simpl. now rewrite String.eqb_refl.
    + intros y [<-|[]]. now left.
  - destruct Pi as [Pi0 Pi].
    set (sc0 := [(nvar (S lev), KV (TP PInt)); ("sub", KTree); ("bub", KTree)] : tscope).
    destruct (IH (in_name "elem") (Some (IVar (ivar (S lev)))) [] (S lev)
        ([("elem", KV (ty a))] :: [(ivar (S lev), KV (TP PInt))] ::
           ((x, KV (TC c (ty a))) :: sc0) :: rest)) as (new & E1 & E2 & E3); auto.
    { right. right. eauto. }
    { unfold is_tree. cbn [look assoc].
      replace (String.eqb "sub" x) with false by (symmetry; now apply us_neq'). reflexivity. }
    { unfold ix_ok, type_of. cbn [tree_idx look assoc].
      replace (String.eqb (ivar (S lev)) "elem") with false by reflexivity. cbn [look assoc].
      now rewrite String.eqb_refl. }
    assert (Ne : assoc "elem" new = None).
    { eapply assoc_declared; [exact E3|]. intros y. apply not_declared; try discriminate; auto. }
    assert (Nx : assoc x sc0 = None).
    { cbn [sc0 assoc].
      replace (String.eqb x (nvar (S lev))) with false by (symmetry; apply us_neq; [auto|apply us_nvar]).
      replace (String.eqb x "sub") with false by (symmetry; now apply us_neq).
      replace (String.eqb x "bub") with false by (symmetry; now apply us_neq). reflexivity. }
    exists ((x, KV (TC c (ty a))) :: sc0). split; [|split].
    + cbn [reader]. rewrite chks_app. cstep_by (enter_chk n idx path rest Sub Ix). cbn [obind].
      rewrite app_assoc, chks_app.
      replace (chks ([SCount (nvar (S lev)) (elem_query a); SDecl (ty (AC c n a)) x] ++
                match c with KVector => [SResize x (IVar (nvar (S lev)))] | _ => [] end)
                ([("sub", KTree); ("bub", KTree)] :: rest)) with
        (Some (((x, KV (TC c (ty a))) :: sc0) :: rest)).
      2:{ symmetry. rewrite chks_app. rewrite chks_cons.
          change (chk (SCount (nvar (S lev)) (elem_query a)) ([("sub", KTree); ("bub", KTree)] :: rest))
            with (Some (sc0 :: rest)).
          cbn [obind]. rewrite chks_cons. cbn [chk tdecl ty]. rewrite Nx. cbn [obind chks].
          destruct c; cbn [chks obind]; auto. cbn [chk]. unfold ix_ok, type_of. cbn [look assoc sc0].
          rewrite !String.eqb_refl.
          replace (String.eqb (nvar (S lev)) x) with false by (symmetry; apply us_neq'; [auto|apply us_nvar]).
          reflexivity. }
      cbn [obind]. rewrite chks_cons, chk_for. unfold ix_ok, type_of. cbn [look assoc sc0].
      replace (String.eqb (nvar (S lev)) x) with false by (symmetry; apply us_neq'; [auto|apply us_nvar]).
      rewrite String.eqb_refl. cbn [when]. rewrite chks_app.
      replace (chks (member_code (ty a) "elem"
                 (reader a (in_name "elem") (Some (IVar (ivar (S lev)))) [] (S lev)))
                 ([] :: [(ivar (S lev), KV (TP PInt))] :: ((x, KV (TC c (ty a))) :: sc0) :: rest))
        with (Some ([("elem", KV (ty a))] :: [(ivar (S lev), KV (TP PInt))] ::
                      ((x, KV (TC c (ty a))) :: sc0) :: rest)).
      2:{ symmetry. now apply member_chk with (new := new). }
      cbn [obind]. rewrite chks_cons.
      replace (chk _ _) with (Some ([("elem", KV (ty a))] :: [(ivar (S lev), KV (TP PInt))] ::
                      ((x, KV (TC c (ty a))) :: sc0) :: rest)).
      2:{ symmetry. destruct c; cbn [chk]; unfold fits, ix_ok, type_of; cbn [look assoc];
          replace (String.eqb x "elem") with false by (symmetry; now apply us_neq);
          replace (String.eqb x (ivar (S lev))) with false by (symmetry; apply us_neq; [auto|apply us_ivar]);
          rewrite String.eqb_refl;
          replace (String.eqb (ivar (S lev)) "elem") with false by reflexivity;
          rewrite ?String.eqb_refl, assignable_refl; reflexivity. }
      reflexivity.
    + cbn [assoc ty]. now rewrite String.eqb_refl.
    + intros y Hy. simpl in Hy. destruct Hy as [<-|[<-|[<-|[<-|[]]]]].
        * now left.
        * right. right. right. now left.
        * right. right. now left.
        * right. now left.
  - destruct St as [S1 S2]. destruct Pi as [Q1 Q2]. simpl in Pr.
    set (f := first_of idx). set (s := second_of idx).
    assert (Sf : String.eqb s f = false) by reflexivity.
    assert (Fs : String.eqb f s = false) by reflexivity.
    assert (Uf : us f = false /\ us s = false).
    { unfold f, s, first_of, second_of. rewrite !us_app. simpl.
      destruct I as [->|[->|(l & ->)]]; simpl; auto using us_dec. }
    destruct Uf as [Uf Us].
    set (sc0 := [("sub", KTree); ("bub", KTree)] : tscope).
    destruct (IHa (in_name f) (Some (ILit 0)) [] lev (((f, KV (ty a)) :: sc0) :: rest))
      as (new1 & E1 & A1 & G1); auto.
    { destruct I as [->|[->|(l & ->)]]; simpl in *; lia. }
    { apply us_in. }
    { right. left. auto. }
    destruct (IHb (in_name s) (Some (ILit 0)) [] lev (((s, KV (ty b)) :: (f, KV (ty a)) :: sc0) :: rest))
      as (new2 & E2 & A2 & G2); auto.
    { destruct I as [->|[->|(l & ->)]]; simpl in *; lia. }
    { apply us_in. }
    { right. left. auto. }
    assert (R1 : (pairs a <= room idx - 1)%nat) by lia.
    assert (R2 : (pairs b <= room idx - 1)%nat) by lia.
    assert (M1 : assoc f new1 = None).
    { eapply assoc_declared; [exact G1|]. intros y. eapply part_not_declared; eauto. }
    assert (M2 : assoc s new2 = None).
    { eapply assoc_declared; [exact G2|]. intros y. eapply part_not_declared; eauto. }
    exists ((x, KV (TPair (ty a) (ty b))) :: (s, KV (ty b)) :: (f, KV (ty a)) :: sc0).
    split; [|split].
    + cbn [reader]. cbn zeta.
      change ("first" ++ ix_text (tree_idx idx))%string with f.
      change ("second" ++ ix_text (tree_idx idx))%string with s.
      rewrite chks_app. cstep_by (enter_chk n idx path rest Sub Ix). cbn [obind].
      assert (Nf : assoc f sc0 = None) by reflexivity.
      assert (Ns : assoc s ((f, KV (ty a)) :: sc0) = None) by reflexivity.
      rewrite chks_app. cstep_by (member_chk (ty a) f _ new1 sc0 rest Nf E1 A1 M1). cbn [obind].
      rewrite chks_app. cstep_by (member_chk (ty b) s _ new2 ((f, KV (ty a)) :: sc0) rest Ns E2 A2 M2).
      cbn [obind]. rewrite chks_cons. cbn [chk ty]. unfold fits, type_of. cbn [look assoc].
      rewrite Fs, !String.eqb_refl, !assignable_refl. cbn [when andb tdecl assoc].
      replace (String.eqb x s) with false by (symmetry; now apply us_neq).
      replace (String.eqb x f) with false by (symmetry; now apply us_neq).
      cbn [sc0 assoc].
      replace (String.eqb x "sub") with false by (symmetry; now apply us_neq).
      replace (String.eqb x "bub") with false by (symmetry; now apply us_neq). reflexivity.
    + cbn [assoc ty]. now rewrite String.eqb_refl.
    + intros y Hy. simpl in Hy. destruct Hy as [<-|[<-|[<-|[<-|[<-|[]]]]]].
      * now left.
      * right. right. right. right. split; [discriminate|now right].
      * right. right. right. right. split; [discriminate|now left].
      * right. right. now left.
      * right. now left.
  - destruct St as [S1 S2]. destruct Pi as (R1 & R2 & Q1 & Q2).
    set (T := TMap (ty ka) (ty va)).
    set (sc0 := [(nvar (S lev), KV (TP PInt)); ("sub", KTree); ("bub", KTree)] : tscope).
    destruct (IHk (in_name "key") (Some (IVar (ivar (S lev)))) [Name item] (S lev)
        ([("key", KV (ty ka))] :: [(ivar (S lev), KV (TP PInt))] ::
           ((x, KV T) :: sc0) :: rest)) as (new & E1 & E2 & E3); auto.
    { right. right. eauto. }
    { unfold is_tree. cbn [look assoc].
      replace (String.eqb "sub" x) with false by (symmetry; now apply us_neq'). reflexivity. }
    { unfold ix_ok, type_of. cbn [tree_idx look assoc].
      replace (String.eqb (ivar (S lev)) "key") with false by reflexivity. cbn [look assoc].
      now rewrite String.eqb_refl. }
    destruct (IHv (in_name "val") (Some (IVar (ivar (S lev)))) [Name item] (S lev)
        ([("val", KV (ty va)); ("key", KV (ty ka))] :: [(ivar (S lev), KV (TP PInt))] ::
           ((x, KV T) :: sc0) :: rest)) as (new' & J1 & J2 & J3); auto.
    { right. right. eauto. }
    { unfold is_tree. cbn [look assoc].
      replace (String.eqb "sub" x) with false by (symmetry; now apply us_neq'). reflexivity. }
    { unfold ix_ok, type_of. cbn [tree_idx look assoc].
      replace (String.eqb (ivar (S lev)) "val") with false by reflexivity.
      replace (String.eqb (ivar (S lev)) "key") with false by reflexivity. cbn [look assoc].
      now rewrite String.eqb_refl. }
    assert (Ne : assoc "key" new = None).
    { eapply assoc_declared; [exact E3|]. intros y. apply not_declared; try discriminate; auto. }
    assert (Ne' : assoc "val" new' = None).
    { eapply assoc_declared; [exact J3|]. intros y. apply not_declared; try discriminate; auto. }
    assert (Nx : assoc x sc0 = None).
    { cbn [sc0 assoc].
      replace (String.eqb x (nvar (S lev))) with false by (symmetry; apply us_neq; [auto|apply us_nvar]).
      replace (String.eqb x "sub") with false by (symmetry; now apply us_neq).
      replace (String.eqb x "bub") with false by (symmetry; now apply us_neq). reflexivity. }
    exists ((x, KV T) :: sc0). split; [|split].
    + cbn [reader]. rewrite chks_app. cstep_by (enter_chk n idx path rest Sub Ix). cbn [obind].
      rewrite chks_cons.
      change (chk (SCount (nvar (S lev)) (QPath [Name item])) ([("sub", KTree); ("bub", KTree)] :: rest))
            with (Some (sc0 :: rest)).
      cbn [obind]. rewrite chks_cons. cbn [chk tdecl ty]. rewrite Nx. cbn [obind].
      rewrite chks_cons, chk_for. unfold ix_ok, type_of. cbn [look assoc sc0].
      replace (String.eqb (nvar (S lev)) x) with false by (symmetry; apply us_neq'; [auto|apply us_nvar]).
      rewrite String.eqb_refl. cbn [when]. rewrite chks_app. fold T.
      replace (chks (member_code (ty ka) "key"
                 (reader ka (in_name "key") (Some (IVar (ivar (S lev)))) [Name item] (S lev)))
                 ([] :: [(ivar (S lev), KV (TP PInt))] :: ((x, KV T) :: sc0) :: rest))
        with (Some ([("key", KV (ty ka))] :: [(ivar (S lev), KV (TP PInt))] ::
                      ((x, KV T) :: sc0) :: rest)).
      2:{ symmetry. now apply member_chk with (new := new). }
      cbn [obind]. rewrite chks_app.
      replace (chks (member_code (ty va) "val"
                 (reader va (in_name "val") (Some (IVar (ivar (S lev)))) [Name item] (S lev)))
                 ([("key", KV (ty ka))] :: [(ivar (S lev), KV (TP PInt))] :: ((x, KV T) :: sc0) :: rest))
        with (Some ([("val", KV (ty va)); ("key", KV (ty ka))] :: [(ivar (S lev), KV (TP PInt))] ::
                      ((x, KV T) :: sc0) :: rest)).
      2:{ symmetry. now apply member_chk with (new := new'). }
      cbn [obind]. rewrite chks_cons.
      replace (chk _ _) with (Some ([("val", KV (ty va)); ("key", KV (ty ka))] ::
                      [(ivar (S lev), KV (TP PInt))] :: ((x, KV T) :: sc0) :: rest)).
      2:{ symmetry. cbn [chk]. unfold fits, type_of. cbn [look assoc].
          replace (String.eqb x "val") with false by (symmetry; now apply us_neq).
          replace (String.eqb x "key") with false by (symmetry; now apply us_neq).
          replace (String.eqb x (ivar (S lev))) with false by (symmetry; apply us_neq; [auto|apply us_ivar]).
          rewrite String.eqb_refl. unfold T. simpl String.eqb. cbn [assoc].
          rewrite !assignable_refl. reflexivity. }
      reflexivity.
    + cbn [assoc ty]. now rewrite String.eqb_refl.
    + intros y Hy. simpl in Hy. destruct Hy as [<-|[<-|[<-|[<-|[]]]]].
      * now left.
      * right. right. right. now left.
      * right. right. now left.
      * right. now left.
Qed.
