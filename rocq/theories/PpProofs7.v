(** * Proofs: the whole InfileToDb of a class *)
From Coq Require Import Ascii Sorted.
From Verif Require Import Base PpModel PpSpec PpProofs PpProofs2 PpProofs3 PpProofs4 PpProofs5 PpProofs6.
Open Scope string_scope.
Open Scope list_scope.

(** names of the function's own scope after the variables [dn] *)
Definition own {A} (dn : list string) (F : list (string * A)) : Prop :=
  forall y, In y (map fst F) -> In y ["sub"; "i"; "n"] \/ exists m, In m dn /\ y = tmp_name m.

Fixpoint put (x : string) (c : cell) (s : scope) : scope :=
  match s with
  | [] => []
  | (y, c') :: s => if String.eqb x y then (y, c) :: s else (y, c') :: put x c s
  end.
Lemma put_upd x c s : assoc x s <> None -> upd_scope x c s = Some (put x c s).
Proof.
  induction s as [|[y c'] s IH]; simpl; [tauto|]. destruct (String.eqb x y); auto.
  intro H. now rewrite IH.
Qed.
Lemma put_same x c s : assoc x s <> None -> assoc x (put x c s) = Some c.
Proof.
  induction s as [|[y c'] s IH]; simpl; [tauto|]. destruct (String.eqb x y) eqn:E; simpl; rewrite E; auto.
Qed.
Lemma put_other x z c s : x <> z -> assoc z (put x c s) = assoc z s.
Proof.
  intro N. induction s as [|[y c'] s IH]; simpl; auto.
  destruct (String.eqb_spec x y); simpl.
  - subst y. destruct (String.eqb_spec z x); congruence.
  - destruct (String.eqb z y); auto.
Qed.

Lemma look_pre {A} m (pre : list (list (string * A))) M :
  Forall (fun s => assoc m s = None) pre -> look m (pre ++ [M]) = assoc m M.
Proof.
  induction 1 as [|s pre H _ IH]; simpl.
  - now destruct (assoc m M).
  - now rewrite H.
Qed.
Lemma upd_pre m c pre M : Forall (fun s => assoc m s = None) pre -> assoc m M <> None ->
  upd_env m c (pre ++ [M]) = Some (pre ++ [put m c M]).
Proof.
  intros H N. induction H as [|s pre H _ IH]; simpl.
  - now rewrite put_upd.
  - rewrite upd_none by auto. now rewrite IH.
Qed.

Lemma lift_eq {A B} (r r' : result A) (k : A -> result B) o : r = r' -> lift r' k = o -> lift r k = o.
Proof. now intros ->. Qed.
Lemma obind_eq {A B} (r r' : option A) (k : A -> option B) o : r = r' -> obind r' k = o -> obind r k = o.
Proof. now intros ->. Qed.

Ltac into tac := first [tac tt | eapply lift_eq; [into tac|] | eapply obind_eq; [into tac|]].

Lemma set_chk m t u y (pre : tenv) M : Forall (fun s => assoc m s = None) pre ->
  assoc m M = Some (KV t) -> type_of (pre ++ [M]) y = Some u -> assignable t u = true ->
  chk (SSet m y) (pre ++ [M]) = Some (pre ++ [M]).
Proof.
  intros H1 H2 H3 H4. cbn [chk].
  assert (E : type_of (pre ++ [M]) m = Some t).
  { unfold type_of. replace (look m _) with (Some (KV t)); auto. rewrite <- H2. symmetry.
    now apply (look_pre m pre M). }
  rewrite E. unfold fits. now rewrite H3, H4.
Qed.

Section Run.
  Variable xsd : string -> string -> option pv.
  Variable nucid : string -> option Z.
  Variable lex : prim -> string -> option pv.
  Notation execs := (execs nucid lex).
  Notation exec := (exec nucid lex).
  Notation written := (written xsd nucid).
  Notation fills := (fills xsd nucid).

  Lemma set_run m t w v y pre M : Forall (fun s => assoc m s = None) pre ->
    assoc m M = Some (CV t w) -> value_of (pre ++ [M]) y = Some v -> cvt_to t v = v ->
    exec (SSet m y) (pre ++ [M]) = Ok (pre ++ [put m (CV t v) M]).
  Proof.
    intros H1 H2 H3 H4. cbn [PpModel.exec].
    assert (E : typed (pre ++ [M]) m = Some (t, w)).
    { unfold typed. replace (look m _) with (Some (CV t w)); auto. rewrite <- H2. symmetry.
      now apply (look_pre m pre M). }
    rewrite E. cbn [need fst]. rewrite H3. cbn [need]. rewrite H4. unfold write.
    rewrite upd_pre; [reflexivity|auto|congruence].
  Qed.

  (** ** Where each variable's element is *)
  Inductive found (all : list xml) : ctx -> list xml -> list (string * val) -> Prop :=
  | g_nil : found all [] [] []
  | g_pointer m s c l r : found all c l r -> found all ((m, EPtr s) :: c) l r
  | g_inventory m c l r : found all c l r -> found all ((m, EBuf true) :: c) l r
  | g_internal m a d c l r : found all c l r ->
      found all ((m, EVar a (Some d) true) :: c) l ((m, d) :: r)
  | g_given m a d x v c l r : written a x v -> filter (step_ok (Name (aname a))) all = [x] ->
      found all c l r -> found all ((m, EVar a d false) :: c) (x :: l) ((m, v) :: r)
  | g_absent m a d c l r : filter (step_ok (Name (aname a))) all = [] -> found all c l r ->
      found all ((m, EVar a (Some d) false) :: c) l ((m, d) :: r).

  Lemma step_other n x a v : written a x v -> n <> aname a -> step_ok (Name n) x = false.
  Proof.
    intros W N. apply written_name in W. destruct x; simpl in *; auto.
    apply String.eqb_eq in W. subst. now apply String.eqb_neq.
  Qed.
  Lemma fills_other c l r n : fills c l r -> ~ In n (user_names c) -> filter (step_ok (Name n)) l = [].
  Proof.
    induction 1 as [|m s c l r H IH|m c l r H IH|m a d c l r H IH|m a d x v c l r W H IH|m a d c l r H IH];
      simpl; intro N; auto.
    rewrite (step_other _ _ _ _ W) by (intros ->; tauto). apply IH. tauto.
  Qed.
  Lemma fills_found c l r : fills c l r -> forall pre, NoDup (user_names c) ->
    (forall n, In n (user_names c) -> filter (step_ok (Name n)) pre = []) ->
    found (pre ++ l) c l r.
  Proof.
    induction 1 as [|m s c l r H IH|m c l r H IH|m a d c l r H IH|m a d x v c l r W H IH|m a d c l r H IH];
      simpl; intros pre N D; try (constructor; auto; fail).
    - inversion N as [|? ? N1 N2]; subst. constructor; auto.
      + rewrite filter_app. rewrite D by auto. simpl. rewrite (written_name _ _ _ _ _ W). f_equal.
        eapply fills_other; eauto.
      + replace (pre ++ x :: l) with ((pre ++ [x]) ++ l) by now rewrite <- app_assoc.
        apply IH; auto. intros n Hn. rewrite filter_app, D by auto. simpl.
        rewrite (step_other _ _ _ _ W); auto. intros ->. tauto.
    - inversion N as [|? ? N1 N2]; subst. constructor; auto.
      rewrite filter_app, D by auto. eapply fills_other; eauto.
  Qed.
  Lemma found_perm all all' c l r : (forall s, Permutation (filter (step_ok s) all) (filter (step_ok s) all')) ->
    found all c l r -> found all' c l r.
  Proof.
    intro P. induction 1; constructor; auto.
    - specialize (P (Name (aname a))). rewrite H0 in P. now apply Permutation_length_1_inv in P.
    - specialize (P (Name (aname a))). rewrite H in P. now apply Permutation_nil in P.
  Qed.
  Lemma perm_filter {A} (f : A -> bool) l l' : Permutation l l' -> Permutation (filter f l) (filter f l').
  Proof.
    induction 1; simpl; auto.
    - destruct (f x); auto.
    - destruct (f x), (f y); auto. apply perm_swap.
    - eapply perm_trans; eauto.
  Qed.

  (** ** One variable *)
  Variable L : libraries xsd lex.
  Variables (arch : string) (kids : list xml).
  Let T := XElem arch kids.
  Variable doc : xml.
  Let P : scope := [("tree", CT doc); ("di", CT XOther)].
  Let Pt : tscope := [("tree", KTree); ("di", KTree)].

  Lemma own_none {A} dn (F : list (string * A)) m : own dn F -> ~ In m reserved ->
    (forall m', In m' dn -> m <> tmp_name m') -> assoc m F = None.
  Proof.
    intros O R H. apply assoc_none. intro I. destruct (O m I) as [K|(m' & K & ->)].
    - apply R. unfold reserved. simpl in *. tauto.
    - now apply (H m').
  Qed.
  Lemma params_none m : ~ In m reserved -> assoc m P = None /\ assoc m Pt = None.
  Proof.
    intro R. split; apply assoc_none; simpl; intro H; apply R; unfold reserved; simpl; tauto.
  Qed.
  Lemma reader_none {A} a m (new : list (string * A)) : ~ In m reserved ->
    (forall y, In y (map fst new) -> declared a (val_name m) None 0 y) -> assoc m new = None.
  Proof.
    intros R H. apply assoc_none. intro I. destruct (H m I) as [E|[E|[E|[E|(_ & [E|E])]]]].
    - revert E. apply suffix_neq. discriminate.
    - apply R. subst m. simpl; tauto.
    - apply R. subst m. simpl; tauto.
    - apply R. subst m. cbn; tauto.
    - apply R. subst m. cbn; tauto.
    - apply R. subst m. cbn; tauto.
  Qed.

  Lemma us_val m : us (val_name m) = true.
  Proof. unfold val_name. rewrite us_app. apply orb_true_r. Qed.
  Lemma clear_tmp m t : clear (tmp_name m) t.
  Proof.
    assert (U : us (tmp_name m) = true) by (unfold tmp_name; rewrite us_app; apply orb_true_r).
    destruct t; simpl; auto; try split; intros E; rewrite E in U; discriminate.
  Qed.

  (** the block that reads the element *)
  Lemma read_block m a x v0 w pre M :
    ~ In m reserved -> standard a -> distinct_names a -> no_seq_of_map a -> few_pairs a ->
    the_tree (pre ++ [M]) "sub" = Some T -> filter (step_ok (Name (aname a))) kids = [x] ->
    written a x v0 -> plain a x ->
    Forall (fun s => assoc m s = None) pre -> assoc m M = Some (CV (ty a) w) ->
    exists v, written a x v /\ cvt_to (ty a) v = v /\
      exec (SBlock (reader a (val_name m) None [] 0%nat ++ [SSet m (val_name m)])) (pre ++ [M]) =
      Ok (pre ++ [put m (CV (ty a) v) M]).
  Proof.
    intros R S D N [Fp Fi] Sub Fx W Pl Pn Am.
    destruct (reader_run xsd nucid lex L a (val_name m) None [] 0%nat (pre ++ [M]) T 0 x v0)
      as (new & v & E & A & W' & C & G); auto using us_val.
    { now left. }
    { cbn [List.app]. rewrite find_one. simpl kids_of. now rewrite Fx. }
    exists v. split; auto. split; auto.
    rewrite exec_block, execs_app, E. cbn [lift]. rewrite execs_cons.
    assert (Nm := reader_none a m new R G).
    into ltac:(fun _ => apply (set_run m (ty a) w v (val_name m) (new :: pre) M));
      [auto|exact Am|unfold value_of; cbn [List.app look]; now rewrite A|auto|reflexivity..].
  Qed.
  Lemma chk_read_block m a pre M :
    ~ In m reserved -> standard a -> few_pairs a ->
    is_tree (pre ++ [M]) "sub" = true ->
    Forall (fun s => assoc m s = None) pre -> assoc m M = Some (KV (ty a)) ->
    chk (SBlock (reader a (val_name m) None [] 0%nat ++ [SSet m (val_name m)])) (pre ++ [M]) =
      Some (pre ++ [M]).
  Proof.
    intros R S [Fp Fi] Sub Pn Am.
    destruct (reader_chk a (val_name m) None [] 0%nat (pre ++ [M])) as (new & E & A & G); auto using us_val.
    { now left. }
    rewrite chk_block, chks_app, E. cbn [obind]. rewrite chks_cons.
    assert (Nm := reader_none a m new R G).
    into ltac:(fun _ => apply (set_chk m (ty a) (ty a) (val_name m) (new :: pre) M));
      [auto|exact Am|unfold type_of; cbn [List.app look]; now rewrite A|apply assignable_refl
      |reflexivity..].
  Qed.

  Lemma entry_run m a d internal dn F M x v0 w :
    let e := (m, EVar a d internal) in
    entry_ok e -> (forall m', In m' (m :: dn) -> m <> tmp_name m') ->
    own dn F -> assoc "sub" F = Some (CT T) -> assoc m M = Some (CV (ty a) w) ->
    (if internal then d = Some v0
     else (written a x v0 /\ plain a x /\ filter (step_ok (Name (aname a))) kids = [x]) \/
          (d = Some v0 /\ filter (step_ok (Name (aname a))) kids = [])) ->
    exists code F' v, read_entry e = Some code /\
      execs code (F :: P :: [M]) = Ok (F' :: P :: [put m (CV (ty a) v) M]) /\
      own (m :: dn) F' /\ assoc "sub" F' = Some (CT T) /\
      (v = v0 \/ (internal = false /\ written a x v /\ filter (step_ok (Name (aname a))) kids = [x])).
  Proof.
    intros e H Ne O Sub Am K. unfold e in *. simpl in H. destruct H as (R & I1 & I2 & I3).
    assert (O' : own (m :: dn) F).
    { intros y Hy. destruct (O y Hy) as [|(m' & ? & ->)]; [auto|right; exists m'; simpl; auto]. }
    assert (Nf : assoc m F = None) by (apply (own_none dn); auto; intros; apply Ne; simpl; auto).
    destruct (params_none m R) as [Np _].
    assert (Pn : Forall (fun s => assoc m s = None) [F; P]) by auto.
    assert (Nt : String.eqb m (tmp_name m) = false) by (apply String.eqb_neq, Ne; simpl; auto).
    destruct internal.
    - subst d. destruct (I2 v0 eq_refl) as (H1 & H2 & H3 & H4).
      destruct (val_good nucid lex (ty a) v0 (tmp_name m) H1 H2 H3 (clear_tmp m _)) as (s & E & Rn & _).
      eexists _, ((tmp_name m, CV (ity (ty a)) v0) :: F), v0. split; [|split; [|split; [|split]]].
      + cbn [read_entry snd fst]. rewrite E. reflexivity.
      + rewrite execs_app, Rn. cbn [lift]. rewrite execs_cons.
        into ltac:(fun _ => apply (set_run m (ty a) w v0 (tmp_name m) [(tmp_name m, CV (ity (ty a)) v0) :: F; P] M));
          [(constructor; auto; simpl; now rewrite Nt)
          |(exact Am)
          |(unfold value_of; cbn [List.app look assoc]; now rewrite String.eqb_refl)
          |(now apply has_type_cvt)|reflexivity..].
      + intros y Hy. simpl in Hy. destruct Hy as [<-|Hy]; [right; exists m; simpl; auto|auto].
      + cbn [assoc]. replace (String.eqb "sub" (tmp_name m)) with false; auto. symmetry.
        apply us_neq'; auto. unfold tmp_name. rewrite us_app. apply orb_true_r.
      + now left.
    - destruct (I3 eq_refl) as (S1 & S2 & S3 & S4). specialize (I3 eq_refl).
      assert (Bl : forall pre, Forall (fun s => assoc m s = None) pre ->
                the_tree ((pre ++ [F; P]) ++ [M]) "sub" = Some T ->
                written a x v0 -> plain a x -> filter (step_ok (Name (aname a))) kids = [x] ->
                exists v, written a x v /\
                exec (SBlock (reader a (val_name m) None [] 0%nat ++ [SSet m (val_name m)]))
                     ((pre ++ [F; P]) ++ [M]) = Ok ((pre ++ [F; P]) ++ [put m (CV (ty a) v) M])).
      { intros pre Hp Ht W Pl Fx.
        destruct (read_block m a x v0 w (pre ++ [F; P]) M) as (v & B1 & _ & B2); eauto.
        apply Forall_app. auto. }
      destruct d as [d|].
      + destruct (I2 d eq_refl) as (H1 & H2 & H3 & H4).
        destruct (val_good nucid lex (ty a) d (tmp_name m) H1 H2 H3 (clear_tmp m _)) as (s & E & Rn & _).
        assert (Nm : nmatches T (QPath [Name (aname a)]) =
                     Ok (List.length (filter (step_ok (Name (aname a))) kids))).
        { unfold nmatches, find. now rewrite find_one. }
        destruct K as [(W & Pl & Fx)|(Ed & Fx)].
        * destruct (Bl [[]]) as (v & B1 & B2); auto.
          { unfold the_tree. cbn. now rewrite Sub. }
          eexists _, F, v. split; [|split; [|split; [|split]]]; auto.
          -- cbn [read_entry snd fst]. rewrite E. reflexivity.
          -- rewrite execs_cons, exec_if. unfold the_tree. cbn [look]. rewrite Sub. cbn [need].
             rewrite Nm, Fx. cbn [lift List.length Nat.ltb Nat.leb]. rewrite execs_cons.
             into ltac:(fun _ => exact B2); reflexivity.
        * injection Ed as ->. exists [SIf (QPath [Name (aname a)])
              [SBlock (reader a (val_name m) None [] 0%nat ++ [SSet m (val_name m)])]
              (s ++ [SSet m (tmp_name m)])], F, v0. split; [|split; [|split; [|split]]]; auto.
          -- cbn [read_entry snd fst]. rewrite E. reflexivity.
          -- rewrite execs_cons, exec_if. unfold the_tree. cbn [look]. rewrite Sub. cbn [need].
             rewrite Nm, Fx. cbn [lift List.length Nat.ltb Nat.leb]. rewrite execs_app, Rn.
             cbn [lift]. rewrite execs_cons.
             into ltac:(fun _ => apply (set_run m (ty a) w v0 (tmp_name m) [[(tmp_name m, CV (ity (ty a)) v0)]; F; P] M));
               [(constructor; auto; simpl; now rewrite Nt)
               |(exact Am)
               |(unfold value_of; cbn [List.app look assoc]; now rewrite String.eqb_refl)
               |(now apply has_type_cvt)|reflexivity..].
      + destruct K as [(W & Pl & Fx)|(Ed & _)]; [|discriminate].
        destruct (Bl []) as (v & B1 & B2); auto.
        { unfold the_tree. cbn. now rewrite Sub. }
        eexists _, F, v. split; [|split; [|split; [|split]]]; auto.
        * reflexivity.
        * rewrite execs_cons. into ltac:(fun _ => exact B2); reflexivity.
  Qed.

  Lemma entry_chk m a d internal dn F M :
    let e := (m, EVar a d internal) in
    entry_ok e -> (forall m', In m' (m :: dn) -> m <> tmp_name m') -> ~ In m dn ->
    own dn F -> assoc "sub" F = Some KTree -> assoc m M = Some (KV (ty a)) ->
    exists code F', read_entry e = Some code /\
      chks code (F :: Pt :: [M]) = Some (F' :: Pt :: [M]) /\
      own (m :: dn) F' /\ assoc "sub" F' = Some KTree.
  Proof.
    intros e H Ne Nd O Sub Am. unfold e in *. simpl in H. destruct H as (R & I1 & I2 & I3).
    assert (O' : own (m :: dn) F).
    { intros y Hy. destruct (O y Hy) as [|(m' & ? & ->)]; [auto|right; exists m'; simpl; auto]. }
    assert (Nf : assoc m F = None) by (apply (own_none dn); auto; intros; apply Ne; simpl; auto).
    destruct (params_none m R) as [_ Np].
    assert (Pn : Forall (fun s => assoc m s = None) [F; Pt]) by auto.
    assert (Nt : String.eqb m (tmp_name m) = false) by (apply String.eqb_neq, Ne; simpl; auto).
    destruct internal.
    - destruct d as [v0|]; [|now specialize (I1 eq_refl)].
      destruct (I2 v0 eq_refl) as (H1 & H2 & H3 & H4).
      destruct (val_good nucid lex (ty a) v0 (tmp_name m) H1 H2 H3 (clear_tmp m _)) as (s & E & _ & Cn).
      assert (Ft : assoc (tmp_name m) F = None).
      { apply assoc_none. intro I. destruct (O _ I) as [K|(m' & K & E')].
        - assert (U : us (tmp_name m) = true) by (unfold tmp_name; rewrite us_app; apply orb_true_r).
          simpl in K. destruct K as [K|[K|[K|[]]]]; rewrite <- K in U; discriminate.
        - assert (m = m'); [|congruence]. clear -E'. unfold tmp_name in E'. revert m' E'.
          induction m as [|c m IH]; intros [|c' m'] E'; simpl in E'; auto.
          + injection E' as _ E'. destruct m' as [|? [|? [|? [|? ?]]]]; discriminate.
          + injection E' as _ E'. destruct m as [|? [|? [|? [|? ?]]]]; discriminate.
          + injection E' as -> E'. f_equal. auto. }
      eexists _, ((tmp_name m, KV (ity (ty a))) :: F). split; [|split; [|split]].
      + cbn [read_entry snd fst]. rewrite E. reflexivity.
      + rewrite chks_app, Cn by auto. cbn [obind]. rewrite chks_cons.
        into ltac:(fun _ => apply (set_chk m (ty a) (ity (ty a)) (tmp_name m) [(tmp_name m, KV (ity (ty a))) :: F; Pt] M));
          [(constructor; auto; simpl; now rewrite Nt)
          |(exact Am)
          |(unfold type_of; cbn [List.app look assoc]; now rewrite String.eqb_refl)
          |(eapply ity_assignable; eauto)|reflexivity..].
      + intros y Hy. simpl in Hy. destruct Hy as [<-|Hy]; [right; exists m; simpl; auto|auto].
      + cbn [assoc]. replace (String.eqb "sub" (tmp_name m)) with false; auto. symmetry.
        apply us_neq'; auto. unfold tmp_name. rewrite us_app. apply orb_true_r.
    - destruct (I3 eq_refl) as (S1 & S2 & S3 & S4).
      destruct d as [d|].
      + destruct (I2 d eq_refl) as (H1 & H2 & H3 & H4).
        destruct (val_good nucid lex (ty a) d (tmp_name m) H1 H2 H3 (clear_tmp m _)) as (s & E & _ & Cn).
        eexists _, F. split; [|split; [|split]]; auto.
        * cbn [read_entry snd fst]. rewrite E. reflexivity.
        * assert (B : chks [SBlock (reader a (val_name m) None [] 0%nat ++ [SSet m (val_name m)])]
             ([] :: F :: Pt :: [M]) = Some ([] :: F :: Pt :: [M])).
          { rewrite chks_cons. eapply obind_eq; [apply (chk_read_block m a [[]; F; Pt] M); auto|reflexivity].
            unfold is_tree. cbn [List.app look assoc]. now rewrite Sub. }
          assert (B' : chks (s ++ [SSet m (tmp_name m)]) ([] :: F :: Pt :: [M]) =
             Some ([(tmp_name m, KV (ity (ty a)))] :: F :: Pt :: [M])).
          { rewrite chks_app, Cn by reflexivity. cbn [obind]. rewrite chks_cons.
            into ltac:(fun _ => apply (set_chk m (ty a) (ity (ty a)) (tmp_name m)
                                          [[(tmp_name m, KV (ity (ty a)))]; F; Pt] M));
              [|exact Am| | |reflexivity..].
            - constructor; auto. simpl. now rewrite Nt.
            - unfold type_of. cbn [List.app look assoc]. now rewrite String.eqb_refl.
            - eapply ity_assignable; eauto. }
          rewrite chks_cons, chk_if. unfold is_tree. cbn [look]. rewrite Sub. cbn [when].
          eapply obind_eq.
          { eapply obind_eq; [exact B|]. cbn [obind]. eapply obind_eq; [exact B'|reflexivity]. }
          reflexivity.
      + eexists _, F. split; [|split; [|split]]; auto.
        * reflexivity.
        * rewrite chks_cons.
          eapply obind_eq; [apply (chk_read_block m a [F; Pt] M); auto|reflexivity].
          unfold is_tree. cbn [List.app look assoc]. now rewrite Sub.
  Qed.

  (** ** All variables *)
  Definition vars (c : ctx) : list string := map fst (variables c).

  Lemma class_run c : forall dn F M l r,
    Forall entry_ok c -> NoDup (vars c) ->
    (forall m m', In m (vars c) -> In m' (dn ++ vars c) -> m <> tmp_name m') ->
    own dn F -> assoc "sub" F = Some (CT T) ->
    (forall m a, In (m, a) (variables c) -> exists w, assoc m M = Some (CV (ty a) w)) ->
    (forall m a d x, In (m, EVar a d false) c -> filter (step_ok (Name (aname a))) kids = [x] ->
       plain a x) ->
    found kids c l r ->
    exists code r' F' M', read_code c = Some code /\
      execs code (F :: P :: [M]) = Ok (F' :: P :: [M']) /\ fills c l r' /\
      own (dn ++ vars c) F' /\
      (forall m v, In (m, v) r' -> In m (vars c) /\ exists t, assoc m M' = Some (CV t v)) /\
      (forall m, ~ In m (vars c) -> assoc m M' = assoc m M).
  Proof.
    induction c as [|[m e] c IH]; intros dn F M l r Ok Nd Ne O Sub Mem Pl Fo.
    - inversion Fo; subst. exists [], [], F, M. split; [reflexivity|]. split; [reflexivity|].
      split; [constructor|]. split; [unfold vars; simpl; now rewrite app_nil_r|].
      split; [intros ? ? []|auto].
    - inversion Ok as [|? ? Ok1 Ok2]; subst.
      destruct e as [s|b|a d internal].
      + inversion Fo; subst. edestruct (IH dn F M l r) as (code & r' & F' & M' & E1 & E2 & E3 & E4 & E5 & E6); eauto.
        { intros; eapply Pl; [right|]; eauto. }
        exists code, r', F', M'. split; [cbn [read_code read_entry snd obind]; rewrite E1; reflexivity|].
        split; auto. split; [constructor; auto|]. auto.
      + inversion Fo; subst. edestruct (IH dn F M l r) as (code & r' & F' & M' & E1 & E2 & E3 & E4 & E5 & E6); eauto.
        { intros; eapply Pl; [right|]; eauto. }
        exists code, r', F', M'. split; [cbn [read_code read_entry snd obind]; rewrite E1; reflexivity|].
        split; auto. split; [constructor; auto|]. auto.
      + unfold vars in *. simpl in Nd, Ne, Mem. inversion Nd as [|? ? N1 N2]; subst.
        destruct (Mem m a (or_introl eq_refl)) as (w & Am).
        assert (Ne1 : forall m', In m' (m :: dn) -> m <> tmp_name m').
        { intros m' [<-|K]; apply Ne; auto; apply in_or_app; simpl; auto. }
        assert (K : exists v0 x l2 r2, r = (m, v0) :: r2 /\ found kids c l2 r2 /\
          (if internal then d = Some v0
           else (written a x v0 /\ plain a x /\ filter (step_ok (Name (aname a))) kids = [x]) \/
                (d = Some v0 /\ filter (step_ok (Name (aname a))) kids = [])) /\
          (forall v r', (v = v0 \/ (internal = false /\ written a x v /\
                          filter (step_ok (Name (aname a))) kids = [x])) ->
             fills c l2 r' -> fills ((m, EVar a d internal) :: c) l ((m, v) :: r'))).
        { inversion Fo; subst.
          - exists d0, XOther, l, r0. split; [auto|]. split; [auto|]. split; [auto|].
            intros v r' [->|[? _]]; [constructor; auto|discriminate].
          - exists v, x, l0, r0. split; [auto|]. split; [auto|]. split.
            + left. split; auto. split; auto. eapply Pl; [left; reflexivity|auto].
            + intros v' r' [->|(_ & W & _)]; constructor; auto.
          - exists d0, XOther, l, r0. split; [auto|]. split; [auto|]. split; [auto|].
            intros v r' [->|(_ & _ & K)]; [constructor; auto|congruence]. }
        destruct K as (v0 & x & l2 & r2 & -> & Fo2 & K1 & K2).
        destruct (entry_run m a d internal dn F M x v0 w Ok1 Ne1 O Sub Am K1)
          as (code1 & F1 & v & E1 & E2 & O1 & Sub1 & V).
        destruct (IH (m :: dn) F1 (put m (CV (ty a) v) M) l2 r2) as (code & r' & F' & M' & G1 & G2 & G3 & G4 & G5 & G6); auto.
        { intros m1 m' H1 H2. apply Ne; auto. apply in_or_app. simpl in *.
          destruct H2 as [<-|H2]; [auto|]. apply in_app_or in H2. tauto. }
        { intros m1 a1 H1. destruct (Mem m1 a1 (or_intror H1)) as (w1 & A1). exists w1.
          rewrite put_other; auto. intros ->. apply N1. apply in_map_iff. now exists (m1, a1). }
        { intros; eapply Pl; [right|]; eauto. }
        exists (code1 ++ code), ((m, v) :: r'), F', M'.
        split; [cbn [read_code]; rewrite E1; cbn [obind]; rewrite G1; reflexivity|].
        split; [rewrite execs_app, E2; exact G2|].
        split; [now apply K2|].
        split.
        { intros y Hy. destruct (G4 y Hy) as [|(m' & H1 & ->)]; auto. right. exists m'. split; auto.
          apply in_or_app. simpl in *. destruct H1 as [<-|H1]; [auto|]. apply in_app_or in H1. tauto. }
        split.
        { intros m1 v1 [E|H1].
          - injection E as <- <-. split; [simpl; auto|]. exists (ty a). rewrite G6 by auto.
            apply put_same. congruence.
          - destruct (G5 m1 v1 H1) as [? ?]. split; auto. simpl; auto. }
        intros m1 H1. simpl in H1. rewrite G6 by tauto. apply put_other. tauto.
  Qed.

  Lemma class_chk c : forall dn F M,
    Forall entry_ok c -> NoDup (vars c) -> (forall m, In m dn -> ~ In m (vars c)) ->
    (forall m m', In m (vars c) -> In m' (dn ++ vars c) -> m <> tmp_name m') ->
    own dn F -> assoc "sub" F = Some KTree ->
    (forall m a, In (m, a) (variables c) -> assoc m M = Some (KV (ty a))) ->
    exists code F', read_code c = Some code /\
      chks code (F :: Pt :: [M]) = Some (F' :: Pt :: [M]) /\ own (dn ++ vars c) F'.
  Proof.
    induction c as [|[m e] c IH]; intros dn F M Ok Nd Ds Ne O Sub Mem.
    - exists [], F. split; [reflexivity|]. split; [reflexivity|]. unfold vars; simpl. now rewrite app_nil_r.
    - inversion Ok as [|? ? Ok1 Ok2]; subst.
      destruct e as [s|b|a d internal].
      + edestruct (IH dn F M) as (code & F' & E1 & E2 & E3); eauto.
        exists code, F'. split; [cbn [read_code read_entry snd obind]; rewrite E1; reflexivity|]. auto.
      + edestruct (IH dn F M) as (code & F' & E1 & E2 & E3); eauto.
        exists code, F'. split; [cbn [read_code read_entry snd obind]; rewrite E1; reflexivity|]. auto.
      + unfold vars in *. simpl in Nd, Ne, Mem, Ds. inversion Nd as [|? ? N1 N2]; subst.
        assert (Am := Mem m a (or_introl eq_refl)).
        assert (Ne1 : forall m', In m' (m :: dn) -> m <> tmp_name m').
        { intros m' [<-|K]; apply Ne; auto; apply in_or_app; simpl; auto. }
        assert (Nn : ~ In m dn) by (intro K; apply (Ds m K); auto).
        destruct (entry_chk m a d internal dn F M Ok1 Ne1 Nn O Sub Am)
          as (code1 & F1 & E1 & E2 & O1 & Sub1).
        destruct (IH (m :: dn) F1 M) as (code & F' & G1 & G2 & G3); auto.
        { intros m1 [<-|H1]; auto. intro K. apply (Ds m1 H1). auto. }
        { intros m1 m' H1 H2. apply Ne; auto. apply in_or_app. simpl in *.
          destruct H2 as [<-|H2]; [auto|]. apply in_app_or in H2. tauto. }
        exists (code1 ++ code), F'.
        split; [cbn [read_code]; rewrite E1; cbn [obind]; rewrite G1; reflexivity|].
        split; [rewrite chks_app, E2; exact G2|].
        intros y Hy. destruct (G3 y Hy) as [|(m' & H1 & ->)]; auto. right. exists m'. split; auto.
        apply in_or_app. simpl in *. destruct H1 as [<-|H1]; [auto|]. apply in_app_or in H1. tauto.
  Qed.
End Run.
