(** * Proofs: the generated schema accepts exactly the documents that write a value down *)
From Coq Require Import Ascii Sorted.
From Verif Require Import Base PpModel PpSpec PpProofs.
Open Scope string_scope.
Open Scope list_scope.

Lemma set_of_exists vs : exists l, set_of vs l.
Proof.
  induction vs as [|x vs (l & H)] using rev_ind; [exists []; apply set_of_nil|].
  exists (set_insert x l). now apply set_of_insert.
Qed.
Lemma map_of_exists ps : exists l, map_of ps l.
Proof.
  induction ps as [|[k v] vs (l & H)] using rev_ind; [exists []; apply map_of_nil|].
  exists (map_put k v l). now apply map_of_put.
Qed.

Lemma interleave_nil_r {A} (a l : list A) : interleave a [] l -> l = a.
Proof.
  intro H. remember [] as b. induction H; subst; auto; [|discriminate].
  now rewrite (IHinterleave eq_refl).
Qed.
Lemma interleave_perm {A} (a b l : list A) : interleave a b l -> Permutation l (a ++ b).
Proof.
  induction 1; simpl; auto. now apply Permutation_cons_app.
Qed.
Lemma interleave_one {A} (x : A) b l : interleave [x] b l -> exists b1 b2, b = b1 ++ b2 /\ l = b1 ++ x :: b2.
Proof.
  intro H. remember [x] as a. induction H; subst; try discriminate.
  - injection Heqa as -> ->. exists [], b. split; auto. simpl. f_equal.
    clear -H. remember [] as a. induction H; subst; auto; try discriminate. f_equal; auto.
  - destruct (IHinterleave eq_refl) as (b1 & b2 & -> & ->). now exists (x0 :: b1), b2.
Qed.
Lemma interleave_insert {A} (x : A) b1 b2 : interleave [x] (b1 ++ b2) (b1 ++ x :: b2).
Proof.
  induction b1; simpl; [|now constructor]. constructor.
  induction b2; constructor; auto.
Qed.

Section P.
  Variable xsd : string -> string -> option pv.
  Variable nucid : string -> option Z.
  Notation valid := (valid xsd).
  Notation written := (written xsd nucid).

  Lemma valid_data d l : ~ valid (RData d) l.
  Proof. intro H. inversion H. Qed.
  Lemma valid_elem_inv n r l : valid (RElem n r) l ->
    exists kids, l = [XElem n kids] /\
      ((exists d v, r = RData d /\ no_elems kids /\ xsd d (text kids) = Some v) \/
       (no_text kids /\ valid r (elems kids))).
  Proof.
    intro H. inversion H; subst.
    - exists kids. split; auto. left. eauto.
    - exists kids. split; auto.
  Qed.
  Lemma valid_more_inv r l : (forall l, valid r l -> exists x, l = [x]) ->
    valid (ROneOrMore r) l -> l <> [] /\ Forall (fun x => valid r [x]) l.
  Proof.
    intros Hr H. remember (ROneOrMore r) as q. revert r Hr Heqq.
    induction H; intros r' Hr E; try discriminate; injection E as ->.
    - destruct (Hr _ H) as (x & ->). split; [discriminate|auto].
    - destruct (Hr _ H) as (x & ->). destruct (IHvalid2 r' Hr eq_refl) as [_ F].
      split; [discriminate|]. simpl. auto.
  Qed.
  Lemma valid_more_intro r l : l <> [] -> Forall (fun x => valid r [x]) l ->
    valid (ROneOrMore r) l.
  Proof.
    intros N F. induction F as [|x l H F IH]; [congruence|].
    destruct l as [|y l]; [now apply v_one|].
    change (x :: y :: l) with ([x] ++ (y :: l)). apply v_more; auto. apply IH. discriminate.
  Qed.
  Lemma valid_two_inv r s l : (forall l, valid r l -> exists x, l = [x]) ->
    (forall l, valid s l -> exists x, l = [x]) -> valid (RInter [r; s]) l ->
    exists x y, both l x y /\ valid r [x] /\ valid s [y].
  Proof.
    intros Hr Hs H. inversion H as [| | | | |? ? a b ? Ha Hb I| | |]; subst.
    inversion Hb as [| | | | |? ? a' b' ? Ha' Hb' I'| | |]; subst.
    inversion Hb'; subst. apply interleave_nil_r in I'. subst.
    destruct (Hr _ Ha) as (x & ->). destruct (Hs _ Ha') as (y & ->).
    exists x, y. split; [|auto].
    apply interleave_one in I. destruct I as (b1 & b2 & E & ->).
    destruct b1 as [|z b1].
    - simpl in E. subst. now left.
    - injection E as -> E. symmetry in E. apply app_eq_nil in E. destruct E as [-> ->]. now right.
  Qed.
  Lemma valid_two_intro r s l x y : both l x y -> valid r [x] -> valid s [y] ->
    valid (RInter [r; s]) l.
  Proof.
    intros B Hr Hs. apply v_inter with (a := [x]) (b := [y]); auto.
    - apply v_inter with (a := [y]) (b := []); [auto|constructor|repeat constructor].
    - destruct B as [->| ->]; repeat constructor.
  Qed.

  Lemma build_single a l : valid (build_schema a) l -> exists x, l = [x].
  Proof.
    intro H. destruct a; simpl in H; apply valid_elem_inv in H;
      destruct H as (kids & -> & _); eauto.
  Qed.

  Lemma Forall_choice {A B} (R : A -> B -> Prop) l :
    Forall (fun x => exists y, R x y) l -> exists m, Forall2 R l m.
  Proof.
    induction 1 as [|x l (y & H) _ (m & IH)]; [exists []; auto|exists (y :: m); auto].
  Qed.

  Lemma schema_sound a x : standard a -> (no_nuclides a \/ forall s, nucid s <> None) ->
    valid (build_schema a) [x] -> exists v, written a x v.
  Proof.
    revert x. induction a as [p nuc dt n|c n a IH|n a IHa b IHb|n item k IHk v IHv]; intros x St N H;
      simpl in H; apply valid_elem_inv in H; destruct H as (kids & E & H); injection E as ->.
    - destruct H as [(d & v & E & H1 & H2)|[_ H]]; [|now apply valid_data in H].
      injection E as <-. simpl. unfold denotes. destruct nuc.
      + destruct N as [N|N]; [discriminate|]. specialize (N (text kids)).
        destruct (nucid (text kids)) as [z|] eqn:F; [|congruence].
        exists (VP (VI z)), kids, (VI z). repeat split; auto. eauto.
      + exists (VP v), kids, v. auto.
    - destruct H as [(d & v & E & _)|[H1 H2]]; [discriminate|].
      apply valid_more_inv in H2; [|apply build_single]. destruct H2 as [H2 H3].
      assert (F : exists vs, Forall2 (written a) (elems kids) vs).
      { apply Forall_choice. eapply Forall_impl; [|exact H3]. intros y Hy. now apply IH. }
      destruct F as (vs & F). simpl.
      destruct c; [exists (VSeq vs)| |exists (VSeq vs)];
        [exists kids, vs; repeat split; auto| |exists kids, vs; repeat split; auto].
      destruct (set_of_exists vs) as (l & Hl). exists (VSet l), kids, vs.
      repeat split; auto. eauto.
    - destruct H as [(d & v & E & _)|[H1 H2]]; [discriminate|].
      apply valid_two_inv in H2; try apply build_single.
      destruct H2 as (y & z & B & Hy & Hz). destruct St as [S1 S2].
      destruct (IHa y S1) as (v1 & W1); [destruct N as [[]|]; auto|exact Hy|].
      destruct (IHb z S2) as (v2 & W2); [destruct N as [[]|]; auto|exact Hz|].
      exists (VPair v1 v2). simpl. exists kids, y, z, v1, v2. repeat split; auto.
    - destruct H as [(d & w & E & _)|[H1 H2]]; [discriminate|].
      apply valid_more_inv in H2.
      2:{ intros l Hl. apply valid_elem_inv in Hl. destruct Hl as (k' & -> & _). eauto. }
      destruct H2 as [H2 H3]. destruct St as [S1 S2].
      assert (F : exists ps, Forall2 (fun it (p : val * val) =>
            exists kids' xk xv, it = XElem item kids' /\ no_text kids' /\
              both (elems kids') xk xv /\ written k xk (fst p) /\ written v xv (snd p))
            (elems kids) ps).
      { apply Forall_choice. eapply Forall_impl; [|exact H3]. intros it Hi. simpl in Hi.
        apply valid_elem_inv in Hi. destruct Hi as (kids' & E & Hi). injection E as ->.
        destruct Hi as [(d & w & E & _)|[H4 H5]]; [discriminate|].
        apply valid_two_inv in H5; try apply build_single.
        destruct H5 as (y & z & B & Hy & Hz).
        destruct (IHk y S1) as (v1 & W1); [destruct N as [[]|]; auto|exact Hy|].
        destruct (IHv z S2) as (v2 & W2); [destruct N as [[]|]; auto|exact Hz|].
        exists (v1, v2), kids', y, z. auto. }
      destruct F as (ps & F). destruct (map_of_exists ps) as (l & Hl).
      exists (VMap l). simpl. exists kids, ps, l. repeat split; auto; apply Hl.
  Qed.

  Lemma Forall2_left {A B} (R : A -> B -> Prop) (P : A -> Prop) l m :
    (forall x y, R x y -> P x) -> Forall2 R l m -> Forall P l.
  Proof. induction 2; eauto. Qed.

  Hypothesis all_strings : forall s, xsd "string" s <> None.

  Lemma schema_complete a x v : standard a -> written a x v -> valid (build_schema a) [x].
  Proof.
    revert x v. induction a as [p nuc dt n|c n a IH|n a IHa b IHb|n item k IHk w IHw];
      intros x v St W; simpl in W.
    - destruct W as (kids & w & -> & H1 & H2 & ->). simpl. unfold denotes in H2. destruct nuc.
      + destruct St as [_ [_ ->]]. specialize (all_strings (text kids)).
        destruct (xsd "string" (text kids)) as [u|] eqn:E; [|congruence].
        now apply v_data with (v := u).
      + now apply v_data with (v := w).
    - destruct W as (kids & vs & -> & H1 & H2 & H3 & _). simpl. apply v_elem; auto.
      apply valid_more_intro; auto. eapply Forall2_left; [|exact H3]. intros y u. now apply IH.
    - destruct W as (kids & y & z & v1 & v2 & -> & H1 & B & W1 & W2 & ->). simpl.
      apply v_elem; auto. destruct St. eapply valid_two_intro; eauto.
    - destruct W as (kids & ps & l & -> & H1 & H2 & F & _). simpl. apply v_elem; auto.
      apply valid_more_intro; auto. eapply Forall2_left; [|exact F].
      intros it p (kids' & y & z & -> & H4 & B & W1 & W2). apply v_elem; auto.
      destruct St. eapply valid_two_intro; eauto.
  Qed.

  (** ** Whole classes *)
  Definition std_entry (e : string * entry) : Prop :=
    match snd e with EVar a _ false => standard a | EVar _ d true => d <> None
                | EBuf listed => listed = true | EPtr _ => True end.
  Definition readable (e : string * entry) : Prop :=
    match snd e with EVar a _ false => no_nuclides a \/ (forall s, nucid s <> None) | _ => True end.

  Lemma inter_sound c : Forall std_entry c -> Forall readable c -> forall l,
    valid (RInter (flat_map schema_entry c)) l -> exists r, config xsd nucid c l r.
  Proof.
    induction 1 as [|[m e] c He _ IH]; intros R l H.
    - simpl in H. inversion H; subst. exists [], []. split; auto. constructor.
    - inversion R as [|? ? Hr R']; subst. specialize (IH R').
      assert (K : valid (RInter (flat_map schema_entry c)) l ->
                  (forall l' r, fills xsd nucid c l' r -> exists r', fills xsd nucid ((m, e) :: c) l' r') ->
                  exists r, config xsd nucid ((m, e) :: c) l r).
      { intros Hv Hf. destruct (IH l Hv) as (r & l' & P & F). destruct (Hf _ _ F) as (r' & F').
        exists r', l'. auto. }
      destruct e as [s|b|a d [|]]; simpl in *.
      + apply K; auto. intros. eexists. constructor. eassumption.
      + cbv in He. subst b. apply K; auto. intros. eexists. constructor. eassumption.
      + destruct d as [d|]; [|cbv in He; congruence].
        apply K; auto. intros. eexists. constructor. eassumption.
      + assert (G : forall a' b, valid (build_schema a) a' ->
                     valid (RInter (flat_map schema_entry c)) b -> interleave a' b l ->
                     exists r, config xsd nucid ((m, EVar a d false) :: c) l r).
        { intros a' b Va Vb I. destruct (build_single _ _ Va) as (x & ->).
          destruct (schema_sound a x He Hr Va) as (v & W).
          destruct (IH b Vb) as (r & l' & P & F). exists ((m, v) :: r), (x :: l'). split.
          - apply interleave_perm in I. rewrite I. simpl. now apply perm_skip.
          - now constructor. }
        destruct d as [d|]; simpl in H; inversion H as [| | | | |? ? a' b ? Ha Hb I| | |]; subst.
        * inversion Ha; subst; [|eapply G; eauto].
          destruct (IH l) as (r & l' & P & F).
          { assert (E : l = b); [|now subst]. clear -I. remember [] as z.
            induction I; subst; auto; try discriminate. f_equal; auto. }
          exists ((m, d) :: r), l'. split; auto. now constructor.
        * eapply G; eauto.
  Qed.

  Lemma valid_perm rs : forall l l', Forall (fun r => forall l, valid r l -> (List.length l <= 1)%nat) rs ->
    Permutation l l' -> valid (RInter rs) l -> valid (RInter rs) l'.
  Proof.
    induction rs as [|r rs IH]; intros l l' F P H.
    - inversion H; subst. apply Permutation_nil in P. now subst.
    - inversion F as [|? ? F1 F2]; subst.
      inversion H as [| | | | |? ? a b ? Ha Hb I| | |]; subst.
      specialize (F1 a Ha). destruct a as [|x [|y a]]; [| |simpl in F1; lia].
      + apply v_inter with (a := []) (b := l'); auto.
        * apply IH with (l := b); auto. apply interleave_perm in I. simpl in I.
          transitivity l; [now symmetry|auto].
        * clear. induction l'; constructor; auto.
      + apply interleave_perm in I. simpl in I.
        assert (P' : Permutation (x :: b) l') by (transitivity l; [now symmetry|auto]).
        assert (In x l') by (eapply Permutation_in; [exact P'|now left]).
        apply in_split in H0. destruct H0 as (b1 & b2 & ->).
        apply v_inter with (a := [x]) (b := b1 ++ b2); auto.
        * apply IH with (l := b); auto. apply Permutation_cons_app_inv with (a := x). exact P'.
        * apply interleave_insert.
  Qed.

  Lemma entries_short c : Forall (fun r => forall l, valid r l -> (List.length l <= 1)%nat)
                            (flat_map schema_entry c).
  Proof.
    apply Forall_forall. intros r Hr l V. apply in_flat_map in Hr.
    destruct Hr as ([m e] & _ & Hr). destruct e as [s|b|a d [|]]; simpl in Hr; try tauto.
    destruct d; simpl in Hr; destruct Hr as [<-|[]].
    - inversion V as [| | | | | | |? ? V'|]; subst; simpl; auto. destruct (build_single _ _ V') as (x & ->). auto.
    - destruct (build_single _ _ V) as (x & ->). auto.
  Qed.

  Lemma inter_complete c l r : Forall std_entry c -> fills xsd nucid c l r ->
    valid (RInter (flat_map schema_entry c)) l.
  Proof.
    intros F H. induction H; inversion F as [|? ? He Fc]; subst; simpl; auto.
    - constructor.
    - assert (V : valid (build_schema a) [x]) by (eapply schema_complete; eauto).
      destruct d; simpl; apply v_inter with (a := [x]) (b := l); auto;
        try (now apply v_opt_yes); apply (interleave_insert x []).
    - apply v_inter with (a := []) (b := l); auto; [constructor|].
      clear. induction l; constructor; auto.
  Qed.

  Lemma schema_config c l : c <> [] -> Forall std_entry c -> Forall readable c ->
    (valid (schema c) l <-> exists r, config xsd nucid c l r).
  Proof.
    intros N S R. unfold schema. destruct c as [|e c]; [congruence|].
    split; [now apply inter_sound|].
    intros (r & l' & P & F). apply valid_perm with (l := l').
    - apply entries_short.
    - now symmetry.
    - eapply inter_complete; eauto.
  Qed.
End P.
