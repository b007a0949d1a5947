(** * Proofs: the generated reader, for every type *)
From Coq Require Import Ascii Sorted DecimalString DecimalNat.
From Verif Require Import Base PpModel PpSpec PpProofs PpProofs2 PpProofs3.
Open Scope string_scope.
Open Scope list_scope.

Lemma Forall2_nth {A B} (R : A -> B -> Prop) l m i x : Forall2 R l m -> nth_error l i = Some x ->
  exists y, nth_error m i = Some y /\ R x y.
Proof.
  intro H. revert i. induction H; intros [|i] E; simpl in *; try discriminate; eauto.
  injection E as <-. eauto.
Qed.
Lemma Forall_nth_e {A} (P : A -> Prop) l i x : Forall P l -> nth_error l i = Some x -> P x.
Proof. intros F E. apply nth_error_In in E. rewrite Forall_forall in F. auto. Qed.
Lemma flat_map_map {A B} (f : A -> list B) (g : A -> B) l : Forall (fun x => f x = [g x]) l ->
  flat_map f l = map g l.
Proof. induction 1 as [|x l H _ IH]; simpl; auto. now rewrite H, IH. Qed.

Ltac step_by H :=
  match goal with
  | |- lift ?r _ = _ =>
      let t := type of H in
      match t with _ = ?v => replace r with v by (symmetry; exact H) end
  end.

Section Run.
  Variable xsd : string -> string -> option pv.
  Variable nucid : string -> option Z.
  Variable lex : prim -> string -> option pv.
  Hypothesis L : libraries xsd lex.
  Notation exec := (exec nucid lex).
  Notation execs := (execs nucid lex).
  Notation written := (written xsd nucid).

  Lemma cvt_written a d v : standard a -> written a d v -> plain a d -> cvt_to (ty a) v = v.
  Proof.
    intros S W P. destruct a; simpl in *; auto.
    destruct W as (kids & w & -> & _ & D & ->). destruct P as (s & K & B). simpl in K. subst kids.
    simpl text in D. rewrite string_app_nil in D. simpl.
    destruct (denotes_prim xsd nucid lex L p nuc dt n s w S D B) as [H _].
    now rewrite (has_prim_cvt _ _ H).
  Qed.

  Lemma reader_run a : forall x idx path lev rest T k d v0,
    standard a -> distinct_names a -> no_seq_of_map a -> (pairs a <= room idx)%nat ->
    pairs_inside a -> us x = true -> index_ok idx ->
    the_tree ([] :: rest) "sub" = Some T -> ix_val ([] :: rest) (tree_idx idx) = Some k ->
    nth_error (find_path (path ++ [Name (aname a)]) T) k = Some d ->
    written a d v0 -> plain a d ->
    exists new v, execs (reader a x idx path lev) ([] :: rest) = Ok (new :: rest) /\
      assoc x new = Some (CV (ty a) v) /\ written a d v /\ cvt_to (ty a) v = v /\
      (forall y, In y (map fst new) -> declared a x idx lev y).
  Proof.
    induction a as [p nuc dt n|c n a IH|n a IHa b IHb|n item ka IHk va IHv];
      intros x idx path lev rest T k d v0 St Dn Nm Pr Pi X I Sub Ix F W P.
    - (* primitive *)
      assert (W' := W). destruct W' as (kids & w & -> & H1 & D & ->).
      assert (P' := P). destruct P' as (s & K & B). simpl in K. subst kids.
      simpl text in D. rewrite string_app_nil in D.
      destruct (denotes_prim xsd nucid lex L p nuc dt n s w St D B) as [Hp Hc].
      exists [(x, CV (TP p) (VP w))], (VP w). split; [|split; [|split; [|split]]].
      + cbn [reader PpModel.execs PpModel.exec]. rewrite Sub. cbn [need].
        rewrite Ix. cbn [need]. unfold get_string, find. simpl aname in F.
        destruct (find_path (path ++ [Name n]) T) as [|z l] eqn:E; [destruct k; discriminate|].
        rewrite F. simpl kids_of. cbn [lift]. rewrite Hc. reflexivity.
      + simpl. now rewrite String.eqb_refl.
      + exact W.
      + simpl. now rewrite (has_prim_cvt _ _ Hp).
      + intros y [<-|[]]. now left.
    - (* vector, set, list *)
      destruct W as (kids & vs & -> & H1 & H2 & H3 & _). simpl in Nm, Pi, P.
      destruct Nm as [Nm0 Nm]. destruct Pi as [Pi0 Pi].
      assert (Q : elem_query a = QPath [Name (aname a)]) by (destruct a; simpl in *; tauto).
      assert (K : filter (step_ok (Name (aname a))) kids = elems kids).
      { apply filter_steps. eapply Forall2_left; [|exact H3]. intros y u. apply written_name. }
      set (sc0 := [(nvar (S lev), CV (TP PInt) (VP (VI (Z.of_nat (List.length (elems kids))))));
                   ("sub", CT (XElem n kids)); ("bub", CT (XElem n kids))] : scope).
      destruct (seq_loop nucid lex (written a) c (ty a) x (S lev)
        (reader a (in_name "elem") (Some (IVar (ivar (S lev)))) [] (S lev)) (elems kids) []
        (List.length (elems kids)) sc0 rest X eq_refl) as (ws & Fw & E).
      { intros k' child j acc Hj Hk. simpl in Hk. subst k'.
        destruct (Forall2_nth _ _ _ _ _ H3 Hj) as (u & _ & Wu).
        assert (Pu : plain a child) by (eapply Forall_nth_e; [exact P|exact Hj]).
        destruct (IH (in_name "elem") (Some (IVar (ivar (S lev)))) [] (S lev)
          ([("elem", CV (ty a) (fresh (ty a)))] ::
           [(ivar (S lev), CV (TP PInt) (VP (VI (Z.of_nat j))))] ::
           ((x, CV (TC c (ty a)) acc) :: sc0) :: rest) (XElem n kids) j child u)
          as (new & v & E1 & E2 & E3 & E4 & E5); auto.
        - right. right. eauto.
        - unfold the_tree. cbn [look assoc].
          replace (String.eqb "sub" x) with false by (symmetry; now apply us_neq').
          reflexivity.
        - unfold ix_val, value_of. cbn [tree_idx look assoc]. replace (String.eqb (ivar (S lev)) "elem") with false by reflexivity. cbn [look assoc]. 
          rewrite String.eqb_refl. now rewrite Nat2Z.id.
        - simpl List.app. rewrite find_one. simpl kids_of. now rewrite K.
        - exists v, new. repeat split; auto.
          eapply assoc_declared; [exact E5|]. intros y. apply not_declared; try discriminate; auto. }
      exists ((x, CV (TC c (ty a)) (seqval c (List.length (elems kids)) ws)) :: sc0),
             (seqval c (List.length (elems kids)) ws).
      assert (Len : List.length ws = List.length (elems kids)) by (clear -Fw; induction Fw; simpl; congruence).
      split; [|split; [|split; [|split]]].
      + cbn [reader].
        rewrite execs_app. step_by (enter_run nucid lex n idx path [] rest T k _ Sub Ix F). cbn [lift].
        rewrite Q.
        assert (C : execs ([SCount (nvar (S lev)) (QPath [Name (aname a)]); SDecl (ty (AC c n a)) x] ++
                     match c with KVector => [SResize x (IVar (nvar (S lev)))] | _ => [] end)
                    ([("sub", CT (XElem n kids)); ("bub", CT (XElem n kids))] :: rest) =
                  Ok (((x, CV (TC c (ty a)) (seqval c (List.length (elems kids)) [])) :: sc0) :: rest)).
        { rewrite execs_app. cbn [PpModel.execs PpModel.exec].
          replace (the_tree ([("sub", CT (XElem n kids)); ("bub", CT (XElem n kids))] :: rest) "sub")
            with (Some (XElem n kids)) by reflexivity.
          cbn [need]. unfold nmatches, find. rewrite find_one. simpl kids_of. rewrite K. cbn [lift declv ty].
          destruct c; cbn [PpModel.execs]; try reflexivity.
          cbn [PpModel.exec]. unfold ix_val, value_of, typed. cbn [look assoc].
          replace (String.eqb (nvar (S lev)) x) with false by (symmetry; apply us_neq'; [auto|apply us_nvar]).
          rewrite !String.eqb_refl. cbn [need]. rewrite Nat2Z.id. cbn [fresh].
          unfold write. cbn [upd_env upd_scope]. rewrite String.eqb_refl. cbn [need lift seqval].
          rewrite firstn_nil. reflexivity. }
        rewrite app_assoc, execs_app, C. cbn [lift]. rewrite execs_cons, exec_for.
        unfold ix_val, value_of. cbn [look assoc sc0].
        replace (String.eqb (nvar (S lev)) x) with false by (symmetry; apply us_neq'; [auto|apply us_nvar]).
        cbn [assoc]. rewrite String.eqb_refl. cbn [need]. rewrite Nat2Z.id.
        simpl List.length in E. rewrite E. reflexivity.
      + cbn [assoc]. now rewrite String.eqb_refl.
      + cbn [written]. simpl. exists kids, ws. repeat split; auto.
        destruct c; simpl.
        * rewrite Len, Nat.sub_diag, app_nil_r. reflexivity.
        * eexists. split; [reflexivity|apply set_of_fold].
        * reflexivity.
      + reflexivity.
      + intros y Hy. simpl in Hy. destruct Hy as [<-|[<-|[<-|[<-|[]]]]].
        * now left.
        * right. right. right. now left.
        * right. right. now left.
        * right. now left.
    - (* pair *)
      destruct W as (kids & x1 & x2 & v1 & v2 & -> & H1 & B & W1 & W2 & ->).
      destruct St as [S1 S2]. destruct Dn as (D0 & D1 & D2). destruct Nm as [N1 N2].
      destruct Pi as [Q1 Q2]. simpl in Pr, P.
      destruct (both_filter a b _ x1 x2 B D0 (written_name _ _ _ _ _ W1) (written_name _ _ _ _ _ W2))
        as [F1 F2].
      rewrite <- filter_elems in F1, F2.
      assert (P1 : plain a x1).
      { rewrite Forall_forall in P. destruct (P x1) as [P1 _].
        - destruct B as [->| ->]; simpl; auto.
        - apply P1. eapply written_name; eauto. }
      assert (P2 : plain b x2).
      { rewrite Forall_forall in P. destruct (P x2) as [_ P2].
        - destruct B as [->| ->]; simpl; auto.
        - apply P2. eapply written_name; eauto. }
      set (f := first_of idx). set (s := second_of idx).
      assert (Fs : String.eqb f s = false) by reflexivity.
      assert (Sf : String.eqb s f = false) by reflexivity.
      assert (Uf : us f = false /\ us s = false).
      { unfold f, s, first_of, second_of. rewrite !us_app. simpl.
        destruct I as [->|[->|(l & ->)]]; simpl; auto using us_dec. }
      destruct Uf as [Uf Us].
      set (sc0 := [("sub", CT (XElem n kids)); ("bub", CT (XElem n kids))] : scope).
      destruct (IHa (in_name f) (Some (ILit 0)) [] lev (((f, CV (ty a) (fresh (ty a))) :: sc0) :: rest)
                  (XElem n kids) O x1 v1) as (new1 & w1 & E1 & A1 & W1' & V1 & G1); auto.
      { destruct I as [->|[->|(l & ->)]]; simpl in *; lia. }
      { apply us_in. }
      { right. left. auto. }
      { simpl List.app. rewrite find_one. simpl kids_of. now rewrite F1. }
      destruct (IHb (in_name s) (Some (ILit 0)) [] lev
                  (((s, CV (ty b) (fresh (ty b))) :: (f, CV (ty a) w1) :: sc0) :: rest)
                  (XElem n kids) O x2 v2) as (new2 & w2 & E2 & A2 & W2' & V2 & G2); auto.
      { destruct I as [->|[->|(l & ->)]]; simpl in *; lia. }
      { apply us_in. }
      { right. left. auto. }
      { simpl List.app. rewrite find_one. simpl kids_of. now rewrite F2. }
      assert (R1 : (pairs a <= room idx - 1)%nat) by lia.
      assert (R2 : (pairs b <= room idx - 1)%nat) by lia.
      exists ((x, CV (TPair (ty a) (ty b)) (VPair w1 w2)) :: (s, CV (ty b) w2) :: (f, CV (ty a) w1) :: sc0),
             (VPair w1 w2).
      split; [|split; [|split; [|split]]].
      + cbn [reader]. fold f s. cbn zeta.
        change ("first" ++ ix_text (tree_idx idx))%string with f.
        change ("second" ++ ix_text (tree_idx idx))%string with s.
        rewrite execs_app. step_by (enter_run nucid lex n idx path [] rest T k _ Sub Ix F). cbn [lift].
        assert (M1 : assoc f new1 = None).
        { eapply assoc_declared; [exact G1|]. intros y. eapply part_not_declared; eauto. }
        assert (M2 : assoc s new2 = None).
        { eapply assoc_declared; [exact G2|]. intros y. eapply part_not_declared; eauto. }
        rewrite execs_app. step_by (member_run nucid lex (ty a) f _ w1 new1 sc0 rest E1 A1 M1 V1).
        cbn [lift]. rewrite execs_app.
        step_by (member_run nucid lex (ty b) s _ w2 new2 ((f, CV (ty a) w1) :: sc0) rest E2 A2 M2 V2).
        cbn [lift]. rewrite execs_cons. cbn [PpModel.exec ty]. unfold value_of. cbn [look assoc].
        rewrite Fs, !String.eqb_refl. cbn [need]. rewrite V1, V2. reflexivity.
      + cbn [assoc ty]. now rewrite String.eqb_refl.
      + simpl. exists kids, x1, x2, w1, w2. auto 10.
      + reflexivity.
      + intros y Hy. simpl in Hy. destruct Hy as [<-|[<-|[<-|[<-|[<-|[]]]]]].
        * now left.
        * right. right. right. right. split; [discriminate|now right].
        * right. right. right. right. split; [discriminate|now left].
        * right. right. now left.
        * right. now left.
    - (* map *)
      destruct W as (kids & ps & l & -> & H1 & H2 & H3 & _ & _).
      destruct St as [S1 S2]. destruct Dn as (D0 & D1 & D2). destruct Nm as [N1 N2].
      destruct Pi as (R1 & R2 & Q1 & Q2). simpl in Pr, P.
      assert (K : filter (step_ok (Name item)) kids = elems kids).
      { apply filter_steps. eapply Forall2_left; [|exact H3].
        intros y u (kids' & xk & xv & -> & _). simpl. apply String.eqb_refl. }
      assert (KK : forall j it, nth_error (elems kids) j = Some it ->
        exists xk xv u v, written ka xk u /\ written va xv v /\ plain ka xk /\ plain va xv /\
          it = XElem item (kids_of it) /\ no_text (kids_of it) /\ both (elems (kids_of it)) xk xv /\
          nth_error (find_path ([Name item] ++ [Name (aname ka)]) (XElem n kids)) j = Some xk /\
          nth_error (find_path ([Name item] ++ [Name (aname va)]) (XElem n kids)) j = Some xv).
      { assert (G : Forall (fun it => exists xk xv,
                 filter (step_ok (Name (aname ka))) (kids_of it) = [xk] /\
                 filter (step_ok (Name (aname va))) (kids_of it) = [xv]) (elems kids)).
        { eapply Forall2_left; [|exact H3]. intros it p (kids' & xk & xv & -> & _ & B & Wk & Wv).
          exists xk, xv. simpl kids_of. rewrite !(filter_elems _ kids').
          apply both_filter; auto; eapply written_name; eauto. }
        assert (GG : forall nm, (nm = aname ka \/ nm = aname va) ->
          find_path [Name item; Name nm] (XElem n kids) =
          map (fun it => hd XOther (filter (step_ok (Name nm)) (kids_of it))) (elems kids)).
        { intros nm Hnm. cbn [find_path kids_of]. rewrite K. apply flat_map_map.
          eapply Forall_impl; [|exact G]. intros it (xk & xv & G1 & G2). rewrite flat_single.
          destruct Hnm as [->| ->]; [rewrite G1|rewrite G2]; reflexivity. }
        intros j it Hj. destruct (Forall2_nth _ _ _ _ _ H3 Hj) as (p & _ & kids' & xk & xv & -> & Nt & B & Wk & Wv).
        assert (Pj := Forall_nth_e _ _ _ _ P Hj). simpl in Pj. rewrite Forall_forall in Pj.
        destruct (both_filter ka va _ xk xv B D0 (written_name _ _ _ _ _ Wk) (written_name _ _ _ _ _ Wv))
          as [F1 F2]. rewrite <- filter_elems in F1, F2.
        exists xk, xv, (fst p), (snd p). simpl kids_of. split; [auto|]. split; [auto|].
        split; [|split; [|split; [auto|split; [auto|split; [auto|split]]]]].
        - destruct (Pj xk) as [Pk _]; [destruct B as [->| ->]; simpl; auto|].
          apply Pk. eapply written_name; eauto.
        - destruct (Pj xv) as [_ Pv]; [destruct B as [->| ->]; simpl; auto|].
          apply Pv. eapply written_name; eauto.
        - simpl List.app. rewrite GG by auto. rewrite nth_error_map, Hj. cbn [option_map kids_of]. now rewrite F1.
        - simpl List.app. rewrite GG by auto. rewrite nth_error_map, Hj. cbn [option_map kids_of]. now rewrite F2. }
      set (sc0 := [(nvar (S lev), CV (TP PInt) (VP (VI (Z.of_nat (List.length (elems kids))))));
                   ("sub", CT (XElem n kids)); ("bub", CT (XElem n kids))] : scope).
      destruct (map_loop nucid lex (fun it (p : val * val) =>
            exists kids' xk xv, it = XElem item kids' /\ no_text kids' /\
              both (elems kids') xk xv /\ written ka xk (fst p) /\ written va xv (snd p))
        (ty ka) (ty va) x (S lev)
        (reader ka (in_name "key") (Some (IVar (ivar (S lev)))) [Name item] (S lev))
        (reader va (in_name "val") (Some (IVar (ivar (S lev)))) [Name item] (S lev))
        (elems kids) [] sc0 rest X) as (qs & Fq & E).
      { intros k' it j acc Hj Hk. simpl in Hk. subst k'.
        destruct (KK j it Hj) as (xk & xv & u & w & Wk & Wv & Pk & Pv & Ei & Nt & B & Fk & Fv).
        destruct (IHk (in_name "key") (Some (IVar (ivar (S lev)))) [Name item] (S lev)
          ([("key", CV (ty ka) (fresh (ty ka)))] ::
           [(ivar (S lev), CV (TP PInt) (VP (VI (Z.of_nat j))))] ::
           ((x, CV (TMap (ty ka) (ty va)) acc) :: sc0) :: rest) (XElem n kids) j xk u)
          as (new & uu & E1 & E2 & E3 & E4 & E5); auto.
        { right. right. eauto. }
        { unfold the_tree. cbn [look assoc].
          replace (String.eqb "sub" x) with false by (symmetry; now apply us_neq').
          reflexivity. }
        { unfold ix_val, value_of. cbn [tree_idx look assoc]. replace (String.eqb (ivar (S lev)) "key") with false by reflexivity. cbn [look assoc]. 
          rewrite String.eqb_refl. now rewrite Nat2Z.id. }
        destruct (IHv (in_name "val") (Some (IVar (ivar (S lev)))) [Name item] (S lev)
          ([("val", CV (ty va) (fresh (ty va))); ("key", CV (ty ka) uu)] ::
           [(ivar (S lev), CV (TP PInt) (VP (VI (Z.of_nat j))))] ::
           ((x, CV (TMap (ty ka) (ty va)) acc) :: sc0) :: rest) (XElem n kids) j xv w)
          as (new' & ww & J1 & J2 & J3 & J4 & J5); auto.
        { right. right. eauto. }
        { unfold the_tree. cbn [look assoc].
          replace (String.eqb "sub" x) with false by (symmetry; now apply us_neq').
          reflexivity. }
        { unfold ix_val, value_of. cbn [tree_idx look assoc]. replace (String.eqb (ivar (S lev)) "val") with false by reflexivity. replace (String.eqb (ivar (S lev)) "key") with false by reflexivity. cbn [look assoc]. 
          rewrite String.eqb_refl. now rewrite Nat2Z.id. }
        exists uu, ww, new, new'. split; [exists (kids_of it), xk, xv; auto 10|].
        split; [auto|]. split; [auto|]. split; [exact E1|]. split; [auto|]. split.
        { eapply assoc_declared; [exact E5|]. intros y. apply not_declared; try discriminate; auto. }
        split; [exact J1|]. split; [auto|].
        eapply assoc_declared; [exact J5|]. intros y. apply not_declared; try discriminate; auto. }
      exists ((x, CV (TMap (ty ka) (ty va))
                (VMap (fold_left (fun l p => map_put (fst p) (snd p) l) qs []))) :: sc0),
             (VMap (fold_left (fun l p => map_put (fst p) (snd p) l) qs [])).
      split; [|split; [|split; [|split]]].
      + cbn [reader].
        rewrite execs_app. step_by (enter_run nucid lex n idx path [] rest T k _ Sub Ix F). cbn [lift].
        rewrite execs_cons. cbn [PpModel.exec].
        replace (the_tree ([("sub", CT (XElem n kids)); ("bub", CT (XElem n kids))] :: rest) "sub")
            with (Some (XElem n kids)) by reflexivity.
        cbn [need]. unfold nmatches, find. rewrite find_one. simpl kids_of. rewrite K. cbn [lift declv].
        rewrite execs_cons. cbn [PpModel.exec lift declv ty fresh]. rewrite execs_cons, exec_for.
        unfold ix_val, value_of. cbn [look assoc].
        replace (String.eqb (nvar (S lev)) x) with false by (symmetry; apply us_neq'; [auto|apply us_nvar]).
        rewrite String.eqb_refl. cbn [need]. rewrite Nat2Z.id. fold sc0.
        cbn [fold_left List.length] in E. unfold sc0 in *. rewrite E. reflexivity.
      + cbn [assoc]. now rewrite String.eqb_refl.
      + simpl. exists kids, qs. eexists. repeat split; auto; apply map_of_fold.
      + reflexivity.
      + intros y Hy. simpl in Hy. destruct Hy as [<-|[<-|[<-|[<-|[]]]]].
        * now left.
        * right. right. right. now left.
        * right. right. now left.
        * right. now left.
  Qed.
End Run.
