(** The SQLite backend: one datum, one delivery. *)
From Coq Require Import String Ascii QArith List Bool Arith ZArith Lia.
From Verif Require Import Base SqlModel SqlSpec.
Import ListNotations.
Open Scope list_scope.

Lemma same_name_refl t : same_name t t = true.
Proof. unfold same_name. apply String.eqb_refl. Qed.
Lemma sget_in {A} k (l : list (string * A)) v : sget k l = Some v -> In (k, v) l.
Proof.
  induction l as [|[x u] l IH]; cbn; [discriminate|]. destruct (String.eqb_spec k x) as [->|]; intros H.
  - injection H as ->. auto.
  - auto.
Qed.
Lemma mem_in k l : mem k l = true <-> In k l.
Proof.
  unfold mem. rewrite existsb_exists. split.
  - intros (x & I & E). apply String.eqb_eq in E. now subst.
  - intros I. exists k. split; auto. apply String.eqb_refl.
Qed.

Lemma of_title_nil {X} t (l : list (datum X)) : of_title t l = [] <-> ~ In t (map (dt_title X) l).
Proof.
  unfold of_title. induction l as [|d l IH]; cbn; [tauto|]. destruct (String.eqb_spec t (dt_title X d)) as [->|N].
  - split; [discriminate|]. intros A. destruct A. auto.
  - rewrite IH. split; [intros A [B|B]; [now subst|auto]|tauto].
Qed.

Section Proofs.
Variable X : Type.
Variable plain : string -> bool.
Variable trouble : nat -> option bool.
Variable ser : nat -> X -> string.
Variable deser : nat -> string -> option X.
Variable conv : affinity -> cell -> cell.
Variable as_int : cell -> Z.
Variable as_dbl : cell -> dbl.
Variable as_text : cell -> string.
Notation datum := (datum X).
Notation title := (dt_title X).
Notation vals := (dt_vals X).
Notation Change := (change trouble).
Notation Put := (put X plain trouble ser conv).
Notation PutAll := (put_all X plain trouble ser conv).
Notation Notify := (notify X plain trouble ser conv).
Notation Bind := (bind X ser).
Notation BindAll := (bind_all X ser).

(** ** Statements *)
Lemma change_in f c r c' : Change f c = (r, c') -> forall w, k_txn c = Some w ->
  k_disk c' = k_disk c /\
  (r = Ok tt -> exists w', f w = Ok w' /\ k_txn c' = Some w') /\
  (r = Throw ValueError -> f w = Throw ValueError).
Proof.
  unfold change, stmt. intros H w E.
  destruct (trouble (k_n c)) as [[|]|].
  - inversion H; subst. cbn. repeat split; discriminate.
  - inversion H; subst. cbn. repeat split; discriminate.
  - cbn in H. unfold now in H. cbn in H. rewrite E in H.
    destruct (f w) as [w'|e|] eqn:F; inversion H; subst; cbn; repeat split; try discriminate; eauto.
    intros A. now inversion A.
Qed.

(** ** Bindings *)
Lemma bind_supported t v c : Bind t v = Ok c -> type_of v = Some t.
Proof. destruct t, v; cbn; try discriminate; auto. destruct (Nat.eqb_spec tag tag0) as [->|]; [auto|discriminate]. Qed.
Lemma bind_fits t v c : Bind t v = Ok c -> fits (sql_type t) c = true.
Proof.
  destruct t, v; cbn; try discriminate; intros H; try (injection H as <-; reflexivity).
  - injection H as <-. destruct d; reflexivity.
  - injection H as <-. destruct d; reflexivity.
  - destruct (Nat.eqb tag tag0); [|discriminate]. injection H as <-. reflexivity.
Qed.
Lemma bind_all_types ts : forall vs cs, BindAll ts vs = Ok cs -> length cs = length vs /\
  forall p, In p vs -> type_of (snd p) <> None.
Proof.
  induction ts as [|t ts IH]; intros [|[f v] vs] cs; cbn; try discriminate.
  - intros H. injection H as <-. split; [reflexivity|intros p []].
  - intros H. injection H as <-. split; [reflexivity|intros p []].
  - destruct (Bind t v) as [c|e|] eqn:B; try discriminate. destruct (BindAll ts vs) as [l|e|] eqn:E; try discriminate.
    intros H. injection H as <-. destruct (IH vs l E) as [L A]. cbn. split; [now rewrite L|].
    intros p [<-|I]; [|auto]. cbn. rewrite (bind_supported _ _ _ B). discriminate.
Qed.
Lemma bind_all_row (s : list (string * dbtype)) : forall vs cs, BindAll (map snd s) vs = Ok cs -> length vs = length s ->
  map (fun p => coerce conv (snd (fst p)) (snd p)) (combine (map (fun q => (fst q, sql_type (snd q))) s) cs) = cs.
Proof.
  induction s as [|[f t] s IH]; intros [|[g v] vs] cs; cbn; try discriminate.
  - intros H _. now injection H as <-.
  - destruct (Bind t v) as [c|e|] eqn:B; try discriminate. destruct (BindAll (map snd s) vs) as [l|e|] eqn:E; try discriminate.
    intros H L. injection H as <-. cbn. unfold coerce at 1. rewrite (bind_fits _ _ _ B). f_equal. apply (IH vs); auto.
Qed.

Lemma types_of_shape (d : datum) l : types_of X (vals d) = Some l <->
  map snd (shape d) = map Some l.
Proof.
  unfold shape. destruct d as [t vs]. cbn. revert l. induction vs as [|[f v] vs IH]; intros l; cbn.
  - split; [intros H; now injection H as <-|destruct l; [auto|discriminate]].
  - destruct (type_of v) as [ty|] eqn:T.
    + destruct (types_of X vs) as [l'|] eqn:E.
      * split; [intros H; injection H as <-; cbn; f_equal; now apply IH|].
        destruct l as [|x l]; [discriminate|]. cbn. intros H. injection H as A B. apply IH in B. congruence.
      * split; [discriminate|]. destruct l as [|x l]; [discriminate|]. cbn. intros H. injection H as A B.
        apply IH in B. discriminate.
    + split; [discriminate|]. destruct l; discriminate.
Qed.
Lemma types_of_none (d : datum) : types_of X (vals d) = None -> storableb d = false.
Proof.
  unfold storableb, shape. destruct d as [t vs]. cbn. induction vs as [|[f v] vs IH]; cbn; [discriminate|].
  destruct (type_of v) as [ty|]; [|reflexivity]. destruct (types_of X vs); [discriminate|]. intros _. auto.
Qed.
Lemma storableb_spec (d : datum) : storableb d = true <-> storable d.
Proof.
  unfold storableb, storable. rewrite forallb_forall. split.
  - intros H f I. specialize (H _ I). discriminate.
  - intros H [f [t|]] I; [reflexivity|]. destruct (H f I).
Qed.

(** ** The state *)

(** Titles in use, and the schemas of the well-behaved ones. *)
Variable U : string -> Prop.
Variable sch : string -> option (list (string * dbtype)).
Hypothesis U_apart : forall a b, U a -> U b -> lower a = lower b -> a = b.
Definition ok_datum (d : datum) : Prop :=
  U (title d) /\ forall s, sch (title d) = Some s -> shape d = map (fun q => (fst q, Some (snd q))) s.

Definition ft_of (t : string) (w : db) : list (string * dbtype) :=
  map (fun r => (snd (fst r), snd r)) (filter (fun r => String.eqb t (fst (fst r))) (d_ft w)).
Definition cols_of (s : list (string * dbtype)) := map (fun q => (fst q, sql_type (snd q))) s.
Definition row_for (s : list (string * dbtype)) (d : datum) (row : list cell) : Prop :=
  length (vals d) = length s /\ BindAll (map snd s) (vals d) = Ok row.

(** [ex]: titles of tables that were created and have no rows yet. *)
Record holding (ex : list string) (w : db) (l : list datum) : Prop := mkHolds {
  h_used : forall tb, In tb (d_tabs w) -> U (tb_name tb);
  h_nodup : NoDup (map tb_name (d_tabs w));
  h_titles : forall t, In t (map tb_name (d_tabs w)) <-> In t (map title l ++ ex);
  h_none : forall t s, sch t = Some s -> ~ In t (map title l ++ ex) -> ft_of t w = [];
  h_some : forall t s, sch t = Some s -> In t (map title l ++ ex) -> ft_of t w = s /\
    exists tb, In tb (d_tabs w) /\ tb_name tb = t /\ tb_cols tb = cols_of s /\ Forall2 (row_for s) (of_title t l) (tb_rows tb) }.
Definition holds := holding [].

(** The caches of the backend. *)
Record cached (b : back) : Prop := mkCached {
  c_stmt : forall t s n, sch t = Some s -> sget t (b_stmts b) = Some n -> n = length s /\ sget t (b_schemas b) = Some (map snd s);
  c_schema : forall t s l, sch t = Some s -> sget t (b_schemas b) = Some l -> l = map snd s }.
Definition named (b : back) (w : db) : Prop := forall t, In t (map tb_name (d_tabs w)) -> In t (b_names b).

Lemma find_tab_in w t tb : find_tab t w = Some tb -> In tb (d_tabs w) /\ lower (tb_name tb) = lower t.
Proof.
  intros H. apply find_some in H. destruct H as [I E]. apply String.eqb_eq in E. auto.
Qed.
Lemma find_tab_none w t : find_tab t w = None -> ~ In t (map tb_name (d_tabs w)).
Proof.
  intros H I. apply in_map_iff in I. destruct I as [tb [<- I]].
  pose proof (find_none _ _ H tb I) as A. cbn in A. now rewrite same_name_refl in A.
Qed.
Lemma find_tab_used ex w l t tb : holding ex w l -> U t -> find_tab t w = Some tb -> In tb (d_tabs w) /\ tb_name tb = t.
Proof.
  intros H Ut F. destruct (find_tab_in _ _ _ F) as [I E]. split; auto. apply U_apart; auto. apply (h_used _ _ _ H). auto.
Qed.
Lemma one_of_name ex w l tb tb' : holding ex w l -> In tb (d_tabs w) -> In tb' (d_tabs w) -> tb_name tb = tb_name tb' -> tb = tb'.
Proof.
  intros H. pose proof (h_nodup _ _ _ H) as N. revert N. generalize (d_tabs w) as ts. clear H.
  induction ts as [|x ts IH]; cbn; [intros _ []|].
  intros N. apply NoDup_cons_iff in N. destruct N as [N1 N2]. intros [->|I] [->|I'] E; auto.
  - destruct N1. rewrite E. now apply in_map.
  - destruct N1. rewrite <- E. now apply in_map.
Qed.
Lemma find_tab_there ex w l tb : holding ex w l -> In tb (d_tabs w) -> find_tab (tb_name tb) w = Some tb.
Proof.
  intros H I. destruct (find_tab (tb_name tb) w) as [tb'|] eqn:F.
  - destruct (find_tab_used _ _ _ _ _ H (h_used _ _ _ H _ I) F) as [I' E]. f_equal. eapply one_of_name; eauto.
  - destruct (find_tab_none _ _ F). now apply in_map.
Qed.

Lemma of_title_app t (l l' : list datum) : of_title t (l ++ l') = of_title t l ++ of_title t l'.
Proof. apply filter_app. Qed.

(** Writing a row. *)
Definition add_row (t : string) (row : list cell) (x : table) : table :=
  if same_name t (tb_name x) then mkTab (tb_name x) (tb_cols x) (tb_rows x ++ [row]) else x.
Lemma add_row_names t row ts : map tb_name (map (add_row t row) ts) = map tb_name ts.
Proof. rewrite map_map. apply map_ext. intros x. unfold add_row. now destruct (same_name t (tb_name x)). Qed.
Lemma add_row_in ex t row w l : holding ex w l -> U t -> forall x, In x (d_tabs w) ->
  add_row t row x = if String.eqb t (tb_name x) then mkTab (tb_name x) (tb_cols x) (tb_rows x ++ [row]) else x.
Proof.
  intros H Ut x I. unfold add_row, same_name.
  destruct (String.eqb_spec (lower t) (lower (tb_name x))) as [E|N]; destruct (String.eqb_spec t (tb_name x)) as [E'|N']; auto.
  - destruct N'. apply U_apart; auto. apply (h_used _ _ _ H). auto.
  - destruct N. now rewrite <- E'.
Qed.

(** [holds] after a row of [d] was written to a table that exists already. *)
Lemma holds_insert ex w l d n cells w' : holding ex w l -> ok_datum d -> In (title d) (map title l ++ ex) ->
  (forall t, In t ex -> t = title d) ->
  (forall s, sch (title d) = Some s -> n = length s /\ BindAll (map snd s) (vals d) = Ok cells) ->
  insert_row conv (title d) n cells w = Ok w' -> holds w' (l ++ [d]).
Proof.
  intros H [Ud SH] IN EX B. unfold insert_row.
  destruct (find_tab (title d) w) as [tb|] eqn:F; [|discriminate].
  destruct (Nat.eqb_spec n (length (tb_cols tb))) as [EN|]; [|discriminate].
  set (row := map (fun p => coerce conv (snd (fst p)) (snd p)) _). intros E. injection E as <-.
  destruct (find_tab_used _ _ _ _ _ H Ud F) as [TI TN].
  change (fun x => if same_name (title d) (tb_name x) then mkTab (tb_name x) (tb_cols x) (tb_rows x ++ [row]) else x)
    with (add_row (title d) row).
  assert (SAME : forall t, In t (map title (l ++ [d]) ++ []) <-> In t (map title l ++ ex)).
  { intros t. rewrite app_nil_r, map_app, !in_app_iff. cbn. split.
    - intros [A|[<-|[]]]; auto. now rewrite in_app_iff in IN.
    - intros [A|A]; auto. rewrite (EX _ A). auto. }
  constructor; cbn [d_tabs d_ft].
  - intros x I. apply in_map_iff in I. destruct I as [y [<- I]]. unfold add_row.
    destruct (same_name (title d) (tb_name y)); cbn; now apply (h_used _ _ _ H).
  - rewrite add_row_names. apply (h_nodup _ _ _ H).
  - intros t. rewrite add_row_names, (h_titles _ _ _ H), SAME. reflexivity.
  - intros t s S O. rewrite SAME in O. apply (h_none _ _ _ H t s S O).
  - intros t s S O. rewrite SAME in O.
    destruct (h_some _ _ _ H t s S O) as [FT (x & XI & XN & XC & XR)].
    split; [exact FT|]. exists (add_row (title d) row x). split; [now apply in_map|].
    rewrite (add_row_in ex (title d) row w l H Ud x XI). rewrite of_title_app. cbn.
    rewrite XN. destruct (String.eqb_spec t (title d)) as [E|N].
    + destruct (String.eqb_spec (title d) t) as [_|N]; [|now destruct N]. cbn. split; [reflexivity|]. split; [exact XC|].
      apply Forall2_app; [exact XR|]. constructor; [|constructor].
      rewrite <- E in B, SH. destruct (B s S) as [EL EB].
      assert (x = tb) by (eapply one_of_name; eauto; congruence). subst x.
      assert (LV : length (vals d) = length s).
      { specialize (SH s S). unfold shape in SH. apply (f_equal (@length _)) in SH. rewrite !map_length in SH. exact SH. }
      split; [exact LV|]. rewrite EB. f_equal. unfold row. rewrite XC.
      destruct (bind_all_types _ _ _ EB) as [LC _]. rewrite EL, LC, LV, Nat.sub_diag. cbn [repeat]. rewrite app_nil_r.
      symmetry. unfold cols_of. eapply bind_all_row; eauto.
    + destruct (String.eqb_spec (title d) t) as [E|_]; [congruence|]. rewrite app_nil_r. repeat split; auto.
Qed.

(** FieldTypes rows. *)
Lemma note_fields_spec t : forall vs c r c' w, note_fields X trouble t vs c = (r, c') -> k_txn c = Some w ->
  k_disk c' = k_disk c /\
  match r with
  | Ok _ => k_txn c' = Some (mkDb (d_ft w ++ map (fun p => (t, fst p, match type_of (snd p) with Some ty => ty | None => INT end)) vs) (d_tabs w)) /\
      (forall p, In p vs -> type_of (snd p) <> None)
  | Throw ValueError => (exists more, k_txn c' = Some (mkDb (d_ft w ++ map (fun p => (t, fst p, snd p)) more) (d_tabs w))) /\
      exists p, In p vs /\ type_of (snd p) = None
  | _ => True
  end.
Proof.
  induction vs as [|[f v] vs IH]; intros c r c' w H E; cbn in H.
  - inversion H; subst. split; [reflexivity|]. cbn. rewrite app_nil_r. split; [destruct w; exact E|intros p []].
  - destruct (type_of v) as [ty|] eqn:T.
    + destruct (Change (add_field t f ty) c) as [r1 c1] eqn:C.
      destruct (change_in _ _ _ _ C w E) as (D1 & K1 & V1).
      destruct r1 as [[]|e|].
      * destruct (K1 eq_refl) as (w' & F & E'). unfold add_field in F. injection F as <-.
        destruct (IH c1 r c' _ H E') as [D2 R]. split; [congruence|].
        destruct r as [u|e|]; auto.
        -- cbn [d_ft d_tabs] in R. destruct R as [R1 R2]. cbn [map fst snd]. rewrite T.
           rewrite <- app_assoc in R1. split; [exact R1|]. intros p [<-|I]; [cbn; congruence|auto].
        -- destruct e; auto. destruct R as [[more M] [p [I P]]]. cbn [d_ft d_tabs] in M. rewrite <- app_assoc in M.
           split; [exists ((f, ty) :: more); exact M|]. exists p. split; [right; exact I|exact P].
      * inversion H; subst. split; [exact D1|]. destruct e; auto. specialize (V1 eq_refl). discriminate.
      * inversion H; subst. auto.
    + inversion H; subst. split; [reflexivity|]. cbn [snd].
      split; [exists []; cbn; rewrite app_nil_r; destruct w; exact E|]. exists (f, v). split; [now left|exact T].
Qed.

(** Adding FieldTypes rows of one title leaves the others alone. *)
Lemma ft_of_more t u (more : list (string * dbtype)) w ts :
  ft_of t (mkDb (d_ft w ++ map (fun p => (u, fst p, snd p)) more) ts) = ft_of t w ++ (if String.eqb t u then more else []).
Proof.
  unfold ft_of. cbn. rewrite filter_app, map_app. f_equal.
  induction more as [|[f ty] more IH]; cbn; [now destruct (String.eqb t u)|].
  destruct (String.eqb t u); cbn; [f_equal; exact IH|exact IH].
Qed.

(** A value that cannot be stored makes its title a bad one. *)
Lemma bad_title d : ok_datum d -> storableb d = false -> sch (title d) = None.
Proof.
  intros [_ SH] B. destruct (sch (title d)) as [s|]; [|reflexivity]. specialize (SH s eq_refl).
  unfold storableb in B. rewrite SH in B.
  assert (A : forallb (fun p : string * option dbtype => match snd p with Some _ => true | None => false end)
                (map (fun q => (fst q, Some (snd q))) s) = true).
  { clear. induction s as [|q s IH]; cbn; auto. }
  congruence.
Qed.
Lemma unstorable d p : In p (vals d) -> type_of (snd p) = None -> storableb d = false.
Proof.
  intros I T. destruct (storableb d) eqn:E; [|reflexivity]. apply storableb_spec in E.
  destruct (E (fst p)). unfold shape. apply in_map_iff. exists p. now rewrite T.
Qed.

(** Creating the table of a new title. *)
Lemma create_table_spec d b r b' w l : create_table X trouble d b = (r, b') -> k_txn (b_conn b) = Some w ->
  holds w l -> ok_datum d -> ~ In (title d) (map title l) ->
  k_disk (b_conn b') = k_disk (b_conn b) /\ b_names b' = title d :: b_names b /\ b_stmts b' = b_stmts b /\ b_schemas b' = b_schemas b /\
  match r with
  | Ok _ => (exists w', k_txn (b_conn b') = Some w' /\ holding [title d] w' l) /\ storableb d = true
  | Throw ValueError => (exists w', k_txn (b_conn b') = Some w' /\ holds w' l) /\ storableb d = false
  | _ => True
  end.
Proof.
  intros H E HO OK NI. unfold create_table in H. cbv zeta in H.
  destruct (note_fields X trouble (title d) (vals d) (b_conn b)) as [r1 c1] eqn:N.
  destruct (note_fields_spec _ _ _ _ _ _ N E) as [D1 R1].
  destruct r1 as [u|e|].
  - destruct R1 as [E1 T1].
    destruct (Change (create (title d) (columns X (vals d))) c1) as [r2 c2] eqn:C.
    destruct (change_in _ _ _ _ C _ E1) as (D2 & K2 & V2). inversion H; subst. cbn.
    split; [congruence|]. repeat split; auto.
    destruct r as [[]|e|]; auto.
    + destruct (K2 eq_refl) as (w' & F & E2). split.
      2:{ apply storableb_spec. intros f I. unfold shape in I. apply in_map_iff in I. destruct I as [p [A I]]. apply (T1 p I). congruence. }
      exists w'. split; [exact E2|]. unfold create in F.
      match type of F with context [find_tab ?t ?w] => destruct (find_tab t w) as [tb|] eqn:FT end; [discriminate|].
      destruct (distinct_names (map fst (columns X (vals d)))); [|discriminate]. injection F as <-. cbn [d_ft d_tabs].
      set (more := map (fun p => (fst p, match type_of (snd p) with Some ty => ty | None => INT end)) (vals d)).
      assert (M : map (fun p => (title d, fst p, match type_of (snd p) with Some ty => ty | None => INT end)) (vals d)
                  = map (fun p => (title d, fst p, snd p)) more).
      { unfold more. rewrite map_map. reflexivity. }
      rewrite M.
      constructor; cbn [d_ft d_tabs].
      * intros tb I. apply in_app_iff in I. destruct I as [I|[<-|[]]]; [now apply (h_used _ _ _ HO)|]. apply OK.
      * rewrite map_app. cbn. assert (A := h_nodup _ _ _ HO).
        assert (NB : ~ In (title d) (map tb_name (d_tabs w))) by (rewrite (h_titles _ _ _ HO), app_nil_r; exact NI).
        clear - A NB. induction (map tb_name (d_tabs w)) as [|x xs IH]; cbn; [repeat constructor; auto|].
        apply NoDup_cons_iff in A. destruct A as [A1 A2]. constructor.
        -- rewrite in_app_iff. cbn. intros [I|[I|[]]]; [auto|]. apply NB. left. auto.
        -- apply IH; auto. intros I. apply NB. now right.
      * intros t. rewrite map_app, !in_app_iff, (h_titles _ _ _ HO), app_nil_r. reflexivity.
      * intros t s S O. rewrite in_app_iff in O. rewrite ft_of_more.
        destruct (String.eqb_spec t (title d)) as [->|]; [destruct O; right; cbn; auto|].
        rewrite app_nil_r. apply (h_none _ _ _ HO t s S). rewrite app_nil_r. tauto.
      * intros t s S O. rewrite ft_of_more. destruct (String.eqb_spec t (title d)) as [->|NT].
        -- assert (SH := proj2 OK s S).
           assert (MS : more = s).
           { unfold more. unfold shape in SH. clear - SH T1. revert s SH T1. induction (vals d) as [|[f v] vs IH]; intros [|[g t] s] SH T1; cbn in *; try discriminate; auto.
             injection SH as A B C. rewrite B. f_equal; [congruence|]. apply IH; auto. }
           rewrite (h_none _ _ _ HO _ _ S) by now rewrite app_nil_r. split; [exact MS|].
           exists (mkTab (title d) (columns X (vals d)) []). split; [apply in_app_iff; right; now left|]. cbn.
           split; [reflexivity|]. split.
           ++ rewrite <- MS. unfold columns, cols_of, more. rewrite map_map. apply map_ext_in. intros p I. cbn.
              specialize (T1 p I). destruct (type_of (snd p)); [reflexivity|now destruct T1].
           ++ replace (of_title (title d) l) with (@nil datum) by (symmetry; now apply of_title_nil). constructor.
        -- rewrite app_nil_r. assert (O' : In t (map title l ++ [])).
           { rewrite app_nil_r. apply in_app_iff in O. destruct O as [O|[O|[]]]; [exact O|congruence]. }
           destruct (h_some _ _ _ HO t s S O') as [FT' (x & XI & XR)]. split; [exact FT'|]. exists x. split; [apply in_app_iff; now left|exact XR].
    + destruct e; auto. specialize (V2 eq_refl). unfold create in V2.
      match type of V2 with context [find_tab ?t ?w] => destruct (find_tab t w) end; [discriminate|].
      destruct (distinct_names (map fst (columns X (vals d)))); discriminate.
  - inversion H; subst. cbn. repeat split; auto. destruct e; auto.
    destruct R1 as [[more E1] [p [I T]]]. assert (B := unstorable d p I T). split; [|exact B].
    eexists. split; [exact E1|]. assert (NS := bad_title d OK B).
    constructor; cbn [d_ft d_tabs]; try apply HO.
    + intros t s S O. rewrite ft_of_more. destruct (String.eqb_spec t (title d)) as [->|]; [congruence|].
      rewrite app_nil_r. now apply (h_none _ _ _ HO t s).
    + intros t s S O. rewrite ft_of_more. destruct (String.eqb_spec t (title d)) as [->|]; [congruence|].
      rewrite app_nil_r. now apply (h_some _ _ _ HO t s).
  - inversion H; subst. cbn. repeat split; auto.
Qed.

Ltac four := split; [|split; [|split]].
Ltac five := split; [|split; [|split; [|split]]].
(** One datum. *)
Definition inside (b : back) (l : list datum) : Prop :=
  exists w, k_txn (b_conn b) = Some w /\ holds w l /\ named b w /\ cached b.
Lemma put_spec d b r b' l : Put d b = (r, b') -> inside b l -> ok_datum d ->
  k_disk (b_conn b') = k_disk (b_conn b) /\ incl (b_names b) (b_names b') /\ cached b' /\
  match r with
  | Ok _ => inside b' (l ++ [d]) /\ storableb d = true
  | Throw ValueError => inside b' l /\ storableb d = false
  | _ => True
  end.
Proof.
  intros H (w & E & HO & NM & CA) OK. unfold put in H.
  destruct (vals d) as [|v0 vs0] eqn:EV; [inversion H; subst; four; auto using incl_refl|]. rewrite <- EV in H.
  destruct (plain (title d) && forallb plain (map fst (vals d))); [|inversion H; subst; four; auto using incl_refl].
  set (s1 := if mem (title d) (b_names b) then (Ok tt, b) else create_table X trouble d b) in *.
  assert (P1 : exists r1 b1, s1 = (r1, b1) /\ k_disk (b_conn b1) = k_disk (b_conn b) /\ incl (b_names b) (b_names b1) /\ cached b1 /\
    match r1 with
    | Ok _ => exists w1 ex, k_txn (b_conn b1) = Some w1 /\ holding ex w1 l /\ (forall t, In t ex -> t = title d) /\ named b1 w1 /\ (ex = [] \/ storableb d = true)
    | Throw ValueError => inside b1 l /\ storableb d = false
    | _ => True
    end).
  { unfold s1. destruct (mem (title d) (b_names b)) eqn:ME.
    - exists (Ok tt), b. five; auto using incl_refl. exists w, []. split; [auto|]. split; [auto|]. split; [intros t []|]. auto.
    - assert (NI : ~ In (title d) (map title l)).
      { intros I. assert (A : In (title d) (b_names b)) by (apply NM; apply (h_titles _ _ _ HO); now rewrite app_nil_r).
        apply mem_in in A. congruence. }
      destruct (create_table X trouble d b) as [r1 b1] eqn:C. exists r1, b1.
      destruct (create_table_spec _ _ _ _ _ _ C E HO OK NI) as (D & N & S1 & S2 & R).
      assert (CB : cached b1) by (constructor; rewrite ?S1, ?S2; apply CA).
      split; [reflexivity|]. split; [exact D|]. split; [rewrite N; apply incl_tl, incl_refl|]. split; [exact CB|].
      destruct r1 as [u|e|]; auto.
      + destruct R as [(w1 & E1 & H1) SB]. exists w1, [title d]. split; [exact E1|]. split; [exact H1|]. split; [intros t [<-|[]]; auto|]. split; [|now right].
        intros t I. rewrite N. apply (h_titles _ _ _ H1) in I. apply in_app_iff in I. destruct I as [I|[<-|[]]]; [|now left].
        right. apply NM. apply (h_titles _ _ _ HO). now rewrite app_nil_r.
      + destruct e; auto. destruct R as [(w1 & E1 & H1) B]. split; [|exact B]. exists w1. split; [exact E1|]. split; [exact H1|]. split; [|exact CB].
        intros t I. rewrite N. right. apply NM. apply (h_titles _ _ _ HO). now apply (h_titles _ _ _ H1) in I. }
  destruct P1 as (r1 & b1 & S1E & D1 & I1 & C1 & R1). rewrite S1E in H. clear s1 S1E.
  destruct r1 as [u|e|]; [|inversion H; subst; four; auto|inversion H; subst; four; auto].
  destruct R1 as (w1 & ex & E1 & H1 & EX & N1 & SB).
  set (s2 := match sget (title d) (b_stmts b1) with Some _ => (Ok tt, b1) | None => build_stmt X d b1 end) in *.
  assert (P2 : exists r2 b2, s2 = (r2, b2) /\ b_conn b2 = b_conn b1 /\ b_names b2 = b_names b1 /\ cached b2 /\
    (r2 = Throw ValueError -> storableb d = false)).
  { unfold s2. destruct (sget (title d) (b_stmts b1)) as [n|] eqn:SG.
    - exists (Ok tt), b1. five; auto; discriminate.
    - unfold build_stmt. destruct (types_of X (vals d)) as [tys|] eqn:TY.
      + assert (TS : forall s, sch (title d) = Some s -> tys = map snd s).
        { intros s S. assert (SH := proj2 OK s S). apply types_of_shape in TY. rewrite SH, map_map in TY. cbn in TY.
          clear - TY. revert tys TY. induction s as [|q s IH]; intros [|t ts] TY; cbn in *; try discriminate; auto.
          injection TY as A B. f_equal; [congruence|]. auto. }
        set (b3 := mkBack (b_conn b1) (b_names b1) (b_stmts b1) ((title d, tys) :: b_schemas b1)).
        assert (C3 : cached b3).
        { constructor; cbn.
          - intros t s n S G. destruct (c_stmt _ C1 t s n S G) as [A B]. split; [exact A|].
            destruct (String.eqb_spec t (title d)) as [->|]; [f_equal; apply TS; exact S|exact B].
          - intros t s tys' S G. destruct (String.eqb_spec t (title d)) as [->|]; [injection G as <-; apply TS; exact S|].
            eapply (c_schema _ C1); eauto. }
        destruct (find_tab (title d) (now (b_conn b1))) as [tb|].
        * destruct (Nat.eqb (length tys) (length (tb_cols tb))).
          -- eexists. eexists. split; [reflexivity|]. cbn. four; auto; [|discriminate]. constructor.
             ++ intros t s n S G. cbn in G. destruct (String.eqb_spec t (title d)) as [->|NT].
                ** injection G as <-. rewrite (TS s S), map_length. split; [reflexivity|]. cbn. rewrite String.eqb_refl. reflexivity.
                ** cbn. destruct (String.eqb_spec t (title d)); [contradiction|]. apply (c_stmt _ C1 t s n S G).
             ++ apply (c_schema _ C3).
          -- exists (Throw IOError), b3. five; auto; discriminate.
        * exists (Throw IOError), b3. five; auto; discriminate.
      + exists (Throw ValueError), b1. five; auto. intros _. now apply types_of_none in TY. }
  destruct P2 as (r2 & b2 & S2E & K2 & N2 & C2 & V2). rewrite S2E in H. clear s2 S2E.
  destruct r2 as [u2|e|].
  - unfold write_datum in H.
    destruct (sget (title d) (b_stmts b2)) as [n|] eqn:G1; [|inversion H; subst; rewrite K2, N2; four; auto].
    destruct (sget (title d) (b_schemas b2)) as [tys|] eqn:G2; [|inversion H; subst; rewrite K2, N2; four; auto].
    destruct (BindAll tys (vals d)) as [cells|e|] eqn:B.
    + destruct (Change (insert_row conv (title d) n cells) (b_conn b2)) as [r3 c3] eqn:C.
      rewrite K2 in C. destruct (change_in _ _ _ _ C _ E1) as (D3 & K3 & V3). inversion H; subst. cbn.
      rewrite N2. split; [congruence|]. split; [exact I1|]. split; [constructor; apply C2|].
      destruct r as [[]|e|]; auto.
      * destruct (K3 eq_refl) as (w3 & F & E3).
        assert (HH : holds w3 (l ++ [d])).
        { eapply (holds_insert ex w1 l d n cells w3 H1 OK); eauto.
          - unfold insert_row in F. destruct (find_tab (title d) w1) as [tb|] eqn:FT; [|discriminate].
            destruct (find_tab_used _ _ _ _ _ H1 (proj1 OK) FT) as [TI TN]. rewrite <- TN. apply (h_titles _ _ _ H1). now apply in_map.
          - intros s S. destruct (c_stmt _ C2 _ _ _ S G1) as [A A']. split; [exact A|]. congruence. }
        split.
        -- exists w3. split; [exact E3|]. split; [exact HH|]. split; [|constructor; apply C2].
           intros t I. cbn. rewrite N2. apply N1. apply (h_titles _ _ _ HH) in I. rewrite app_nil_r, map_app, in_app_iff in I.
           apply (h_titles _ _ _ H1). apply in_app_iff. destruct I as [I|[<-|[]]]; [now left|].
           unfold insert_row in F. destruct (find_tab (title d) w1) as [tb|] eqn:FT; [|discriminate].
           destruct (find_tab_used _ _ _ _ _ H1 (proj1 OK) FT) as [TI TN]. apply in_app_iff. rewrite <- TN. apply (h_titles _ _ _ H1). now apply in_map.
        -- apply storableb_spec. intros f I. unfold shape in I. apply in_map_iff in I. destruct I as [p [A I]].
           destruct (bind_all_types _ _ _ B) as [_ T]. apply (T p I). congruence.
      * destruct e; auto. specialize (V3 eq_refl). unfold insert_row in V3. destruct (find_tab (title d) w1); [|discriminate].
        destruct (Nat.eqb n (length (tb_cols t))); discriminate.
    + inversion H; subst. rewrite K2, N2. four; auto.
      destruct e; auto. exfalso. clear - B. revert tys B. induction (vals d) as [|[f v] vs IH]; intros [|t ts]; cbn; try discriminate.
      destruct (Bind t v) as [c|e|] eqn:E; try discriminate.
      * destruct (BindAll ts vs) eqn:E2; try discriminate. intros A. injection A as ->. eauto.
      * intros A. injection A as ->. clear - E. destruct t, v; cbn in E; try discriminate. destruct (Nat.eqb tag tag0); discriminate.
    + inversion H; subst. rewrite K2, N2. four; auto.
  - inversion H; subst. rewrite K2, N2. four; auto. destruct e; auto.
    specialize (V2 eq_refl). destruct SB as [->|SB]; [|congruence].
    split; [|exact V2]. exists w1. rewrite K2. split; [exact E1|]. split; [exact H1|]. split; [|exact C2].
    intros t I. rewrite N2. auto.
  - inversion H; subst. rewrite K2, N2. four; auto.
Qed.
End Proofs.
