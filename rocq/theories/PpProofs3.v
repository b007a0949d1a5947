(** * Proofs: the generated reader reads what the element writes down *)
From Coq Require Import Ascii Sorted DecimalString DecimalNat.
From Verif Require Import Base PpModel PpSpec PpProofs PpProofs2.
Open Scope string_scope.
Open Scope list_scope.

(** ** Names *)
Fixpoint us (s : string) : bool :=
  match s with EmptyString => false | String c s => Ascii.eqb c "_" || us s end.
Lemma us_app a b : us (a ++ b) = us a || us b.
Proof. induction a; simpl; auto. now rewrite IHa, orb_assoc. Qed.
Lemma us_uint u : us (NilEmpty.string_of_uint u) = false.
Proof. induction u; simpl; auto. Qed.
Lemma us_dec n : us (dec n) = false.
Proof. apply us_uint. Qed.
Lemma us_ivar l : us (ivar l) = false.
Proof. simpl. apply us_dec. Qed.
Lemma us_nvar l : us (nvar l) = false.
Proof. simpl. apply us_dec. Qed.
Lemma us_in m : us (in_name m) = true.
Proof. unfold in_name. rewrite us_app. apply orb_true_r. Qed.
Lemma us_neq x y : us x = true -> us y = false -> String.eqb x y = false.
Proof. intros H1 H2. apply String.eqb_neq. intros ->. congruence. Qed.
Lemma us_neq' x y : us x = true -> us y = false -> String.eqb y x = false.
Proof. intros H1 H2. apply String.eqb_neq. intros ->. congruence. Qed.
Lemma app_len a b : String.length (a ++ b) = (String.length a + String.length b)%nat.
Proof. induction a; simpl; auto. Qed.
Lemma suffix_neq m s : s <> "" -> m <> (m ++ s)%string.
Proof.
  intros Hs E. apply (f_equal String.length) in E. rewrite app_len in E.
  destruct s; [congruence|simpl in E; lia].
Qed.

(** ** Environments *)
Lemma assoc_none {A} x (l : list (string * A)) : ~ In x (map fst l) -> assoc x l = None.
Proof.
  induction l as [|[y a] l IH]; simpl; auto. intro H. destruct (String.eqb_spec x y).
  - subst. tauto.
  - apply IH. tauto.
Qed.
Lemma upd_none x c s : assoc x s = None -> upd_scope x c s = None.
Proof.
  induction s as [|[y a] s IH]; simpl; auto. destruct (String.eqb x y); [discriminate|].
  intro H. now rewrite IH.
Qed.

  Lemma has_prim_cvt p w : has_prim p w -> cvt p w = w.
  Proof. destruct p, w; simpl; tauto. Qed.
  Lemma string_app_nil s : (s ++ "")%string = s.
  Proof. induction s; simpl; congruence. Qed.

Section Run.
  Variable xsd : string -> string -> option pv.
  Variable nucid : string -> option Z.
  Variable lex : prim -> string -> option pv.
  Hypothesis L : libraries xsd lex.
  Notation exec := (exec nucid lex).
  Notation execs := (execs nucid lex).
  Notation written := (written xsd nucid).

  Lemma execs_app a b e : execs (a ++ b) e = lift (execs a e) (execs b).
  Proof.
    revert e. induction a as [|s a IH]; intro e; simpl; auto.
    destruct (exec s e); simpl; auto.
  Qed.
  Lemma execs_cons s l e : execs (s :: l) e = lift (exec s e) (execs l).
  Proof. reflexivity. Qed.
  Lemma exec_block b e : exec (SBlock b) e = lift (execs b ([] :: e)) (fun e' => Ok (pop e')).
  Proof. reflexivity. Qed.
  Lemma exec_if q a b e : exec (SIf q a b) e =
    need (the_tree e "sub") (fun t =>
        lift (nmatches t q) (fun n =>
        lift (execs (if Nat.ltb 0 n then a else b) ([] :: e)) (fun e' => Ok (pop e')))).
  Proof. reflexivity. Qed.
  Definition loop (i : string) (body : list stmt) :=
    fix loop (k todo : nat) (e : env) {struct todo} : result env :=
    match todo with
    | O => Ok e
    | S todo =>
        lift (execs body ([] :: [(i, CV (TP PInt) (VP (VI (Z.of_nat k))))] :: e)) (fun e' =>
        loop (S k) todo (pop (pop e')))
    end.
  Lemma exec_for i n body e : exec (SFor i n body) e =
    need (ix_val e (IVar n)) (fun n => loop i body O n e).
  Proof. reflexivity. Qed.

  (** ** Reading one part *)
  Lemma member_run t m code v new sc rest :
    execs code ([] :: ((m, CV t (fresh t)) :: sc) :: rest) =
      Ok (new :: ((m, CV t (fresh t)) :: sc) :: rest) ->
    assoc (in_name m) new = Some (CV t v) -> assoc m new = None -> cvt_to t v = v ->
    execs (member_code t m code) (sc :: rest) = Ok (((m, CV t v) :: sc) :: rest).
  Proof.
    intros H1 H2 H3 H4. unfold member_code. rewrite execs_cons.
    cbn [PpModel.exec lift declv]. rewrite execs_cons, exec_block, execs_app, H1. cbn [lift].
    rewrite execs_cons. cbn [PpModel.exec].
    unfold typed, value_of. cbn [look]. rewrite H2, H3. cbn [assoc]. rewrite String.eqb_refl.
    cbn [need fst]. rewrite H4. unfold write. cbn [upd_env]. rewrite (upd_none _ _ _ H3).
    cbn [upd_scope]. rewrite String.eqb_refl. reflexivity.
  Qed.

  Lemma denotes_prim p nuc dt n s w : standard (AP p nuc dt n) -> denotes xsd nucid p nuc dt s w ->
    (p = PBool -> s = "0" \/ s = "1") -> has_prim p w /\ convert nucid lex p nuc s = Ok w.
  Proof.
    intros [H1 H2] D B. unfold denotes in D. unfold convert. destruct nuc.
    - destruct H2 as [-> _]. destruct D as (z & E & ->). rewrite E. split; simpl; auto.
    - subst dt. destruct p; try tauto; simpl in D.
      + destruct (lib_bool _ _ L _ _ D) as [P Q]. rewrite (Q (B eq_refl)). auto.
      + destruct (lib_num _ _ L PInt s w) as [P Q]; auto. rewrite Q. auto.
      + destruct (lib_num _ _ L PFloat s w) as [P Q]; auto. rewrite Q. auto.
      + destruct (lib_num _ _ L PDouble s w) as [P Q]; auto. rewrite Q. auto.
      + rewrite (lib_string _ _ L) in D. injection D as <-. simpl. auto.
  Qed.
  Lemma written_name a x v : written a x v -> step_ok (Name (aname a)) x = true.
  Proof.
    destruct a; simpl; intros H; decompose [ex and] H; subst; simpl; apply String.eqb_refl.
  Qed.
  Lemma written_elem a x v : written a x v -> is_elem x = true.
  Proof. intro H. apply written_name in H. now destruct x. Qed.

  Lemma filter_steps n l : Forall (fun x => step_ok (Name n) x = true) (elems l) ->
    filter (step_ok (Name n)) l = elems l.
  Proof.
    induction l as [|x l IH]; simpl; auto. unfold elems. simpl.
    destruct x; simpl; auto. intro F. inversion F as [|? ? F1 F2]; subst. simpl in F1.
    rewrite F1. f_equal. now apply IH.
  Qed.
  Lemma filter_elems s l : filter (step_ok s) l = filter (step_ok s) (elems l).
  Proof.
    induction l as [|x l IH]; simpl; auto. destruct x; simpl; auto.
    unfold elems in IH. rewrite IH. reflexivity.
  Qed.
  Lemma flat_single {A} (l : list A) : flat_map (fun x => [x]) l = l.
  Proof. induction l; simpl; congruence. Qed.
  Lemma find_one n x : find_path [Name n] x = filter (step_ok (Name n)) (kids_of x).
  Proof. simpl. apply flat_single. Qed.
  Lemma both_filter a b l x y : both l x y -> aname a <> aname b ->
    step_ok (Name (aname a)) x = true -> step_ok (Name (aname b)) y = true ->
    filter (step_ok (Name (aname a))) l = [x] /\ filter (step_ok (Name (aname b))) l = [y].
  Proof.
    intros B N H1 H2.
    assert (H3 : step_ok (Name (aname a)) y = false).
    { destruct y; simpl in *; auto. apply String.eqb_eq in H2. subst n. now apply String.eqb_neq. }
    assert (H4 : step_ok (Name (aname b)) x = false).
    { destruct x; simpl in *; auto. apply String.eqb_eq in H1. subst n. apply String.eqb_neq. congruence. }
    destruct B as [->| ->]; simpl filter; rewrite ?H1, ?H2, ?H3, ?H4; auto.
  Qed.

  (** ** The names a reader declares *)
  Definition first_of (i : option ix) : string := ("first" ++ ix_text (tree_idx i))%string.
  Definition second_of (i : option ix) : string := ("second" ++ ix_text (tree_idx i))%string.
  Definition declared (a : aty) (x : string) (i : option ix) (lev : nat) (y : string) : Prop :=
    y = x \/ y = "bub" \/ y = "sub" \/ y = nvar (S lev) \/
    (pairs a <> O /\ (y = first_of i \/ y = second_of i)).
  Definition index_ok (i : option ix) : Prop :=
    i = None \/ i = Some (ILit 0) \/ exists l, i = Some (IVar (ivar l)).
  Definition room (i : option ix) : nat := match i with Some (IVar _) => 2 | _ => 1 end.

  Lemma not_declared a m i lev y : us m = false -> (forall s, m <> ("first" ++ s)%string) ->
    (forall s, m <> ("second" ++ s)%string) -> (forall l, m <> nvar l) -> m <> "bub" -> m <> "sub" ->
    declared a (in_name m) i lev y -> m <> y.
  Proof.
    intros H1 H2 H3 H4 H5 H6 [->|[->|[->|[->|(_ & [->| ->])]]]];
      [apply suffix_neq; discriminate|exact H5|exact H6|apply H4|apply H2|apply H3].
  Qed.
  Lemma part_not_declared a i lev y (m : string) : index_ok i -> (pairs a <= room i - 1)%nat ->
    m = first_of i \/ m = second_of i ->
    declared a (in_name m) (Some (ILit 0)) lev y -> m <> y.
  Proof.
    intros I P M [->|[->|[->|[->|(N & E)]]]].
    - apply suffix_neq. discriminate.
    - destruct M as [->| ->]; discriminate.
    - destruct M as [->| ->]; discriminate.
    - destruct M as [->| ->]; discriminate.
    - destruct I as [->|[->|(l & ->)]]; simpl in P; try lia.
      destruct M as [->| ->], E as [->| ->]; unfold first_of, second_of; simpl; discriminate.
  Qed.

  Lemma assoc_declared {A} a x i lev (m : string) (new : list (string * A)) :
    (forall y, In y (map fst new) -> declared a x i lev y) ->
    (forall y, declared a x i lev y -> m <> y) -> assoc m new = None.
  Proof.
    intros H1 H2. apply assoc_none. intro H. now apply (H2 m); [apply H1|].
  Qed.

  Ltac noeq := repeat match goal with
    | |- context [String.eqb ?a ?b] =>
        replace (String.eqb a b) with false by
          (symmetry; first [ reflexivity
                           | apply us_neq; [assumption|first [apply us_nvar|apply us_ivar|reflexivity]]
                           | apply us_neq'; [assumption|first [apply us_nvar|apply us_ivar|reflexivity]]])
    end.

  Lemma enter_run n i path sc rest T k d :
    the_tree (sc :: rest) "sub" = Some T -> ix_val (sc :: rest) (tree_idx i) = Some k ->
    nth_error (find_path (path ++ [Name n]) T) k = Some d ->
    execs [STree "bub" "sub" (QPath (path ++ [Name n])) (tree_idx i); STreeCopy "sub" "bub"]
      (sc :: rest) = Ok ((("sub", CT d) :: ("bub", CT d) :: sc) :: rest).
  Proof.
    intros H1 H2 H3. cbn [PpModel.execs PpModel.exec]. rewrite H1. cbn [need]. rewrite H2. cbn [need].
    unfold sub_tree, find. rewrite H3. reflexivity.
  Qed.

  (** ** The loop over the elements *)
  Definition seqval (c : seqkind) (n : nat) (vs : list val) : val :=
    match c with
    | KVector => VSeq (vs ++ repeat VUndef (n - List.length vs))
    | KList => VSeq vs
    | KSet => VSet (fold_left (fun l x => set_insert x l) vs [])
    end.

  Lemma fold_snoc {A B} (f : A -> B -> A) l x a : fold_left f (l ++ [x]) a = f (fold_left f l a) x.
  Proof. now rewrite fold_left_app. Qed.
  Lemma set_of_fold vs : set_of vs (fold_left (fun l x => set_insert x l) vs []).
  Proof.
    induction vs as [|x vs IH] using rev_ind; [apply set_of_nil|].
    rewrite fold_snoc. now apply set_of_insert.
  Qed.
  Lemma map_of_fold ps : map_of ps (fold_left (fun l p => map_put (fst p) (snd p) l) ps []).
  Proof.
    induction ps as [|[k v] ps IH] using rev_ind; [apply map_of_nil|].
    rewrite fold_snoc. now apply map_of_put.
  Qed.

  Lemma upd_mid {A} (l m : list A) x y : upd (l ++ x :: m) (List.length l) y = l ++ y :: m.
  Proof. induction l; simpl; auto. now rewrite IHl. Qed.

  Lemma put_elem c t x lev k v n vs sc rest :
    us x = true -> cvt_to t v = v -> k = List.length vs -> (k < n)%nat ->
    execs [match c with
           | KVector => SAt x (IVar (ivar lev)) "elem"
           | KSet => SInsert x "elem"
           | KList => SPush x "elem"
           end]
      ([("elem", CV t v)] :: [(ivar lev, CV (TP PInt) (VP (VI (Z.of_nat k))))] ::
         ((x, CV (TC c t) (seqval c n vs)) :: sc) :: rest) =
    Ok ([("elem", CV t v)] :: [(ivar lev, CV (TP PInt) (VP (VI (Z.of_nat k))))] ::
         ((x, CV (TC c t) (seqval c n (vs ++ [v]))) :: sc) :: rest).
  Proof.
    intros X V K N. cbn [PpModel.execs]. destruct c; cbn [PpModel.exec]; unfold ix_val, value_of, typed;
      cbn [look assoc]; noeq; rewrite ?String.eqb_refl; cbn [need look assoc]; noeq;
      rewrite ?String.eqb_refl; cbn [need seqval].
    - rewrite Nat2Z.id, app_length, repeat_length.
      replace (Nat.ltb k (List.length vs + (n - List.length vs))) with true
        by (symmetry; apply Nat.ltb_lt; lia).
      rewrite V. unfold write. cbn [upd_env upd_scope]. noeq. rewrite String.eqb_refl.
      cbn [need lift]. do 5 f_equal. f_equal. f_equal. f_equal.
      replace (n - List.length vs)%nat with (S (n - S k))%nat by lia. cbn [repeat].
      rewrite K, upd_mid, app_length, <- app_assoc. simpl List.length. simpl List.app. f_equal. f_equal. f_equal. lia.
    - rewrite V. unfold write. cbn [upd_env upd_scope]. noeq. rewrite String.eqb_refl.
      cbn [need lift]. now rewrite fold_snoc.
    - rewrite V. unfold write. cbn [upd_env upd_scope]. noeq. rewrite String.eqb_refl. reflexivity.
  Qed.

  (** the statements of one iteration leave the value read in <elem> *)
  Lemma seq_loop (R : xml -> val -> Prop) c t x lev code (todo : list xml) : forall vs n sc rest,
    us x = true -> n = (List.length vs + List.length todo)%nat ->
    (forall k d j acc, nth_error todo j = Some d -> k = (List.length vs + j)%nat ->
       exists v new, R d v /\ cvt_to t v = v /\
         execs code ([] :: [("elem", CV t (fresh t))] ::
                     [(ivar lev, CV (TP PInt) (VP (VI (Z.of_nat k))))] ::
                     ((x, CV (TC c t) acc) :: sc) :: rest) =
           Ok (new :: [("elem", CV t (fresh t))] ::
                     [(ivar lev, CV (TP PInt) (VP (VI (Z.of_nat k))))] ::
                     ((x, CV (TC c t) acc) :: sc) :: rest) /\
         assoc (in_name "elem") new = Some (CV t v) /\ assoc "elem" new = None) ->
    exists ws, Forall2 R todo ws /\
      loop (ivar lev)
        (member_code t "elem" code ++
           [match c with
           | KVector => SAt x (IVar (ivar lev)) "elem"
           | KSet => SInsert x "elem"
           | KList => SPush x "elem"
           end]) (List.length vs) (List.length todo)
        (((x, CV (TC c t) (seqval c n vs)) :: sc) :: rest) =
      Ok (((x, CV (TC c t) (seqval c n (vs ++ ws))) :: sc) :: rest).
  Proof.
    induction todo as [|d todo IH]; intros vs n sc rest X N H.
    - exists []. split; [constructor|]. simpl. now rewrite app_nil_r.
    - destruct (H (List.length vs) d O (seqval c n vs)) as (v & new & Rv & V & E & H1 & H2);
        [reflexivity|lia|].
      destruct (IH (vs ++ [v]) n sc rest) as (ws & F & E'); auto.
      + rewrite app_length. simpl in *. lia.
      + intros k d' j acc Hj Hk. apply (H k d' (S j) acc); auto. rewrite app_length in Hk. simpl in Hk. lia.
      + exists (v :: ws). split; [now constructor|]. cbn [List.length loop].
        rewrite execs_app, (member_run t "elem" code v new [] _ E H1 H2 V). cbn [lift].
        rewrite put_elem; auto; [|simpl in N; lia]. cbn [lift pop tl].
        rewrite app_length in E'. simpl List.length in E'. rewrite Nat.add_1_r in E'. rewrite E'.
        now rewrite <- app_assoc.
  Qed.

  Lemma map_loop (R : xml -> val * val -> Prop) tk tv x lev ck cv (todo : list xml) : forall ps sc rest,
    us x = true ->
    (forall k d j acc, nth_error todo j = Some d -> k = (List.length ps + j)%nat ->
       exists u v new new', R d (u, v) /\ cvt_to tk u = u /\ cvt_to tv v = v /\
         execs ck ([] :: [("key", CV tk (fresh tk))] ::
                     [(ivar lev, CV (TP PInt) (VP (VI (Z.of_nat k))))] ::
                     ((x, CV (TMap tk tv) acc) :: sc) :: rest) =
           Ok (new :: [("key", CV tk (fresh tk))] ::
                     [(ivar lev, CV (TP PInt) (VP (VI (Z.of_nat k))))] ::
                     ((x, CV (TMap tk tv) acc) :: sc) :: rest) /\
         assoc (in_name "key") new = Some (CV tk u) /\ assoc "key" new = None /\
         execs cv ([] :: [("val", CV tv (fresh tv)); ("key", CV tk u)] ::
                     [(ivar lev, CV (TP PInt) (VP (VI (Z.of_nat k))))] ::
                     ((x, CV (TMap tk tv) acc) :: sc) :: rest) =
           Ok (new' :: [("val", CV tv (fresh tv)); ("key", CV tk u)] ::
                     [(ivar lev, CV (TP PInt) (VP (VI (Z.of_nat k))))] ::
                     ((x, CV (TMap tk tv) acc) :: sc) :: rest) /\
         assoc (in_name "val") new' = Some (CV tv v) /\ assoc "val" new' = None) ->
    exists qs, Forall2 R todo qs /\
      loop (ivar lev)
        (member_code tk "key" ck ++ member_code tv "val" cv ++ [SPut x "key" "val"])
        (List.length ps) (List.length todo)
        (((x, CV (TMap tk tv) (VMap (fold_left (fun l p => map_put (fst p) (snd p) l) ps []))) :: sc)
           :: rest) =
      Ok (((x, CV (TMap tk tv)
                (VMap (fold_left (fun l p => map_put (fst p) (snd p) l) (ps ++ qs) []))) :: sc) :: rest).
  Proof.
    induction todo as [|d todo IH]; intros ps sc rest X H.
    - exists []. split; [constructor|]. simpl. now rewrite app_nil_r.
    - destruct (H (List.length ps) d O
        (VMap (fold_left (fun l p => map_put (fst p) (snd p) l) ps [])))
        as (u & v & new & new' & Rv & U & V & E1 & H1 & H2 & E2 & H3 & H4);
        [reflexivity|lia|].
      destruct (IH (ps ++ [(u, v)]) sc rest) as (ws & F & E'); auto.
      + intros k d' j acc Hj Hk. apply (H k d' (S j) acc); auto. rewrite app_length in Hk. simpl in Hk. lia.
      + exists ((u, v) :: ws). split; [now constructor|]. cbn [List.length loop].
        rewrite !execs_app, (member_run tk "key" ck u new [] _ E1 H1 H2 U). cbn [lift].
        rewrite execs_app, (member_run tv "val" cv v new' [("key", CV tk u)] _ E2 H3 H4 V). cbn [lift].
        cbn [PpModel.execs PpModel.exec]. unfold value_of, typed. cbn [look assoc]. noeq.
        rewrite ?String.eqb_refl. cbn [need look assoc]. noeq. rewrite ?String.eqb_refl. cbn [need].
        rewrite U, V. unfold write. cbn [upd_env upd_scope]. noeq. rewrite String.eqb_refl.
        cbn [need lift pop tl].
        rewrite app_length in E'. simpl List.length in E'. rewrite Nat.add_1_r in E'.
        rewrite fold_snoc in E'. simpl fst in E'. simpl snd in E'. etransitivity; [exact E'|].
        now rewrite <- app_assoc.
  Qed.
End Run.
