(** * ConvProofs1: from JSON to XML. *)
From Verif Require Import Base ConvModel ConvSpec.
Open Scope string_scope.
Open Scope list_scope.

(** ** Induction on JSON values *)
Section Ind.
Variable P : json -> Prop.
Hypothesis Hnull : P JNull.
Hypothesis Hstr : forall s, P (JStr s).
Hypothesis Hpod : forall s, P (JPod s).
Hypothesis Harr : forall l, Forall P l -> P (JArr l).
Hypothesis Hobj : forall ms, Forall (fun m => P (snd m)) ms -> P (JObj ms).
Fixpoint json_ind' (v : json) : P v :=
  match v with
  | JNull => Hnull
  | JStr s => Hstr s
  | JPod s => Hpod s
  | JArr l => Harr l ((fix go l : Forall P l :=
      match l with [] => Forall_nil _ | x :: r => Forall_cons _ (json_ind' x) (go r) end) l)
  | JObj ms => Hobj ms ((fix go ms : Forall (fun m => P (snd m)) ms :=
      match ms with [] => Forall_nil _ | x :: r => Forall_cons _ (json_ind' (snd x)) (go r) end) ms)
  end.
End Ind.

(** ** The loops of [add_json] by name *)
Definition toks_member (indent name : string) (v : json) : list tok :=
  match v with
  | JNull => [TText indent; TEmpty name; TText nl]
  | JArr [] =>
      [TText indent; TOpen name; TText nl] ++
      [TText (shorter (String.append indent "  ")); TEmpty name; TText nl] ++
      [TText indent; TClose name; TText nl]
  | _ =>
      [TText indent; TOpen name] ++ on_line (indent_member v) nl ++
      add_json v name (String.append indent "  ") ++
      on_line (indent_member v) indent ++ [TClose name; TText nl]
  end.
Fixpoint toks_members (indent : string) (ms : list (string * json)) : list tok :=
  match ms with
  | [] => []
  | (name, v) :: r => toks_member indent name v ++ toks_members indent r
  end.
Definition toks_item (parent indent : string) (first last : bool) (v : json) : list tok :=
  match v with
  | JNull => [TText (shorter indent); TEmpty parent; TText nl]
  | _ =>
      let own := is_object v || is_array v in
      (if first then [] else [TText (shorter indent); TOpen parent] ++ on_line own nl) ++
      add_json v parent indent ++
      (if last then [] else on_line own (shorter indent) ++ [TClose parent; TText nl])
  end.
Fixpoint toks_items (parent indent : string) (first : bool) (l : list json) : list tok :=
  match l with
  | [] => []
  | v :: r => toks_item parent indent first (match r with [] => true | _ => false end) v ++
              toks_items parent indent false r
  end.

Lemma add_obj ms parent indent : add_json (JObj ms) parent indent = toks_members indent ms.
Proof.
  induction ms as [|[k v] r IH]; [reflexivity|]. cbn [toks_members]. rewrite <- IH.
  destruct v; reflexivity.
Qed.

Lemma add_arr_gen parent indent l : forall first,
  (fix loop (first : bool) (l : list json) : list tok :=
         match l with
         | [] => []
         | v :: r =>
             match v with
             | JNull => [TText (shorter indent); TEmpty parent; TText nl]
             | _ =>
                 let own := is_object v || is_array v in
                 (if first then [] else [TText (shorter indent); TOpen parent] ++ on_line own nl) ++
                 add_json v parent indent ++
                 (match r with
                  | [] => []
                  | _ :: _ => on_line own (shorter indent) ++ [TClose parent; TText nl]
                  end)
             end ++ loop false r
         end) first l = toks_items parent indent first l.
Proof.
  induction l as [|v r IH]; intro first; [reflexivity|]. cbn [toks_items]. rewrite <- IH.
  destruct v, r; reflexivity.
Qed.

Lemma add_arr l parent indent : add_json (JArr l) parent indent = toks_items parent indent true l.
Proof. rewrite <- add_arr_gen. reflexivity. Qed.

(** ** Blank text *)
Lemma blank_app a b : blank (String.append a b) = blank a && blank b.
Proof. induction a; cbn; [reflexivity|]. rewrite IHa. now rewrite andb_assoc. Qed.

Lemma blank_sub n : forall s, blank s = true -> blank (substring 0 n s) = true.
Proof.
  induction n; intros [|c s] H; cbn; auto. cbn in H. apply andb_true_iff in H. destruct H as [A B].
  rewrite A. cbn. auto.
Qed.

Lemma blank_shorter s : blank s = true -> blank (shorter s) = true.
Proof. intro H. unfold shorter. destruct (String.length s) as [|[|n]]; auto using blank_sub. Qed.

Lemma flush_blank s cur : blank s = true -> flush s cur = cur.
Proof. unfold flush. now intros ->. Qed.

Lemma blank_nl : blank nl = true. Proof. reflexivity. Qed.

(** ** What reading these tokens does, whatever white space came before *)
Definition state : Type := list (string * list xnode) * list xnode.
Definition go (l : list tok) (a b : state) : Prop := forall rest ws, blank ws = true ->
  exists ws', blank ws' = true /\ read (l ++ rest) (fst a) (snd a) ws = read rest (fst b) (snd b) ws'.

Lemma go_nil a : go [] a a.
Proof. intros rest ws W. exists ws. auto. Qed.

Lemma go_app l1 l2 a b c : go l1 a b -> go l2 b c -> go (l1 ++ l2) a c.
Proof.
  intros G1 G2 rest ws W. rewrite <- app_assoc. destruct (G1 (l2 ++ rest) ws W) as (w1 & W1 & E1).
  destruct (G2 rest w1 W1) as (w2 & W2 & E2). exists w2. split; [exact W2|]. now rewrite E1, E2.
Qed.

Lemma go_text s a : blank s = true -> go [TText s] a a.
Proof.
  intros B rest ws W. exists (String.append ws s). split; [now rewrite blank_app, W, B|]. reflexivity.
Qed.

Lemma go_line b s a : blank s = true -> go (on_line b s) a a.
Proof. intro B. destruct b; [now apply go_text|apply go_nil]. Qed.

Lemma go_empty n st cur : go [TEmpty n] (st, cur) (st, XE n [] :: cur).
Proof. intros rest ws W. exists "". split; [reflexivity|]. cbn. now rewrite flush_blank. Qed.

Lemma go_open n st cur : go [TOpen n] (st, cur) ((n, cur) :: st, []).
Proof. intros rest ws W. exists "". split; [reflexivity|]. cbn. now rewrite flush_blank. Qed.

Lemma go_close n st up cur : go [TClose n] ((n, up) :: st, cur) (st, XE n (rev cur) :: up).
Proof.
  intros rest ws W. exists "". split; [reflexivity|]. cbn. now rewrite String.eqb_refl, flush_blank.
Qed.

Lemma go_leaf n s st cur : go [TOpen n; TText s; TClose n] (st, cur) (st, XE n (text_content s) :: cur).
Proof.
  intros rest ws W. exists "". split; [reflexivity|]. cbn. rewrite String.eqb_refl, (flush_blank ws) by exact W.
  unfold flush, text_content. destruct (blank s); reflexivity.
Qed.

Definition trees (name : string) (v : json) : list xnode :=
  match v with
  | JArr l => map (fun x => XE name (content x)) l
  | _ => [XE name (content v)]
  end.

Definition plain_item (x : json) : Prop := clean x /\ is_arr x = false /\ x <> JNull.

Lemma clean_arr l : clean (JArr l) <->
  l <> [] /\ Forall plain_item l /\ (forall x y, In x l -> In y l -> is_obj x = is_obj y).
Proof.
  cbn. split; intros (A & B & C); (split; [exact A|]); (split; [|exact C]); clear A C; induction l as [|x r IH];
    try solve [constructor].
  - constructor; [exact (proj1 B)|apply IH; exact (proj2 B)].
  - inversion B; subst. split; [assumption|]. apply IH. assumption.
Qed.

Lemma clean_obj ms : clean (JObj ms) <-> Forall (fun m => plain_name (fst m) = true /\ clean (snd m)) ms.
Proof.
  cbn. induction ms as [|[k w] r IH]; split; intro H; try solve [constructor].
  - constructor; [exact (proj1 H)|apply IH; exact (proj2 H)].
  - inversion H; subst. split; [assumption|]. now apply IH.
Qed.

(** An element: its tags, and what is between them. *)
Definition element (v : json) : Prop := forall name indent w1 w2 st cur,
  blank indent = true -> blank w1 = true -> blank w2 = true ->
  go ([TOpen name] ++ on_line (is_obj v) w1 ++ add_json v name indent ++ on_line (is_obj v) w2 ++ [TClose name])
    (st, cur) (st, XE name (content v) :: cur).

Lemma items_next name indent v r : plain_item v ->
  toks_items name indent false (v :: r) =
  [TText (shorter indent); TOpen name] ++ on_line (is_obj v) nl ++ toks_items name indent true (v :: r).
Proof.
  intros (_ & A & N). cbn [toks_items]. rewrite !app_assoc. f_equal.
  destruct v; try discriminate; try reflexivity. now contradiction N.
Qed.

Lemma items_first name indent v r : plain_item v ->
  toks_items name indent true (v :: r) =
  add_json v name indent ++
  match r with
  | [] => []
  | _ => on_line (is_obj v) (shorter indent) ++ [TClose name; TText nl] ++ toks_items name indent false r
  end.
Proof.
  intros (_ & A & N). cbn [toks_items].
  destruct r as [|x r].
  - cbn [toks_items]. rewrite !app_nil_r. destruct v; try discriminate; cbn [toks_item app]; rewrite ?app_nil_r; try reflexivity.
    now contradiction N.
  - assert (T : toks_item name indent true false v =
      add_json v name indent ++ on_line (is_obj v) (shorter indent) ++ [TClose name; TText nl]).
    { destruct v; try discriminate; try reflexivity. now contradiction N. }
    rewrite T, <- !app_assoc. reflexivity.
Qed.

Lemma array_go name indent w b : blank indent = true -> blank w = true ->
  forall l, l <> [] -> Forall plain_item l -> Forall element l -> (forall x, In x l -> is_obj x = b) ->
  forall st cur,
  go ([TOpen name] ++ on_line b nl ++ toks_items name indent true l ++ on_line b w ++ [TClose name])
    (st, cur) (st, rev (map (fun x => XE name (content x)) l) ++ cur).
Proof.
  intros B W. induction l as [|v r IH]; intros N P E O st cur; [now contradiction N|].
  inversion P as [|? ? P1 P2]; subst. inversion E as [|? ? E1 E2]; subst.
  assert (Ob : is_obj v = b) by (apply O; left; reflexivity).
  rewrite items_first by exact P1. destruct r as [|v' r].
  - cbn [map rev app]. rewrite app_nil_r. rewrite <- Ob.
    exact (E1 name indent nl w st cur B blank_nl W).
  - assert (P3 : plain_item v') by (inversion P2; assumption).
    rewrite items_next by exact P3. rewrite <- Ob in *. clear Ob b.
    assert (O' : forall y, In y (v' :: r) -> is_obj y = is_obj v) by (intros y Y; apply O; right; exact Y).
    rewrite (O' v') by (left; reflexivity).
    assert (S : go ([TOpen name] ++ on_line (is_obj v) nl ++ add_json v name indent ++
        on_line (is_obj v) (shorter indent) ++ [TClose name]) (st, cur) (st, XE name (content v) :: cur))
      by (apply E1; auto using blank_nl, blank_shorter).
    assert (T : go ([TText nl] ++ [TText (shorter indent)]) (st, XE name (content v) :: cur)
      (st, XE name (content v) :: cur))
      by (eapply go_app; [apply go_text, blank_nl|apply go_text, blank_shorter, B]).
    assert (R := IH ltac:(discriminate) P2 E2 O' st (XE name (content v) :: cur)).
    pose proof (go_app _ _ _ _ _ (go_app _ _ _ _ _ S T) R) as Z.
    cbn [map rev] in Z |- *. rewrite <- !app_assoc in Z |- *. cbn [app] in Z |- *. exact Z.
Qed.

Lemma member_go indent name v : blank indent = true -> clean v ->
  match v with JArr l => Forall element l | _ => element v end ->
  forall st cur, go (toks_member indent name v) (st, cur) (st, rev (trees name v) ++ cur).
Proof.
  intros B C E st cur.
  assert (B2 : blank (String.append indent "  ") = true) by (rewrite blank_app, B; reflexivity).
  assert (G : is_arr v = false -> v <> JNull -> element v ->
    go (toks_member indent name v) (st, cur) (st, XE name (content v) :: cur)).
  { intros A N E'.
    assert (T : toks_member indent name v = [TText indent] ++ ([TOpen name] ++ on_line (is_obj v) nl ++
      add_json v name (String.append indent "  ") ++ on_line (is_obj v) indent ++ [TClose name]) ++ [TText nl]).
    { rewrite <- !app_assoc. destruct v; try reflexivity; try discriminate. now contradiction N. }
    rewrite T. eapply go_app; [apply go_text, B|]. eapply go_app; [apply E'; auto using blank_nl|].
    apply go_text, blank_nl. }
  destruct v as [|s|s|l|ms]; cbn [trees rev map app].
  - change (toks_member indent name JNull) with ([TText indent] ++ [TEmpty name] ++ [TText nl]).
    eapply go_app; [apply go_text, B|]. eapply go_app; [apply go_empty|apply go_text, blank_nl].
  - apply G; auto; discriminate.
  - apply G; auto; discriminate.
  - apply clean_arr in C. destruct C as (N & C & H). destruct l as [|x r]; [now contradiction N|].
    assert (I : indent_member (JArr (x :: r)) = is_obj x).
    { inversion C as [|? ? (_ & A & N') _]; subst. cbn. destruct x; try discriminate; try reflexivity.
      now contradiction N'. }
    assert (T : toks_member indent name (JArr (x :: r)) = [TText indent] ++ ([TOpen name] ++
      on_line (is_obj x) nl ++ toks_items name (String.append indent "  ") true (x :: r) ++
      on_line (is_obj x) indent ++ [TClose name]) ++ [TText nl]).
    { rewrite <- add_arr, <- I, <- !app_assoc. reflexivity. }
    rewrite T. eapply go_app; [apply go_text, B|]. eapply go_app; [|apply go_text, blank_nl].
    apply array_go; auto. intros y Y. apply H; [exact Y|left; reflexivity].
  - apply G; auto; discriminate.
Qed.

Lemma content_obj ms : content (JObj ms) = flat_map (fun m => trees (fst m) (snd m)) ms.
Proof.
  cbn. apply flat_map_ext. intros [k w]. cbn. destruct w; reflexivity.
Qed.

Lemma members_go indent ms : blank indent = true -> clean (JObj ms) ->
  Forall (fun m => match snd m with JArr l => Forall element l | _ => element (snd m) end) ms ->
  forall st cur, go (toks_members indent ms) (st, cur) (st, rev (content (JObj ms)) ++ cur).
Proof.
  intros B C E. rewrite content_obj. apply clean_obj in C.
  induction ms as [|[k w] r IH]; intros st cur; [apply go_nil|].
  inversion C as [|? ? [C1 C2] C3]; subst. inversion E; subst. cbn [toks_members flat_map fst snd].
  rewrite rev_app_distr, <- app_assoc. eapply go_app; [apply member_go; assumption|]. now apply IH.
Qed.

Theorem element_all v : clean v -> match v with JArr l => Forall element l | _ => element v end.
Proof.
  induction v using json_ind'; intro C.
  - intros name indent w1 w2 st cur B W1 W2. cbn. apply (go_app [TOpen name] [TClose name]) with ((name, cur) :: st, []); [apply go_open|apply (go_close name st cur [])].
  - intros name indent w1 w2 st cur B W1 W2. cbn. apply go_leaf.
  - intros name indent w1 w2 st cur B W1 W2. cbn. apply go_leaf.
  - apply clean_arr in C. destruct C as (_ & C & _). rewrite Forall_forall in *. intros x X.
    destruct (C x X) as (C1 & C2 & C3). specialize (H x X C1). destruct x; auto. discriminate.
  - intros name indent w1 w2 st cur B W1 W2. rewrite add_obj. cbn [is_obj].
    eapply go_app; [apply go_open|]. eapply go_app; [now apply go_line|].
    eapply go_app; [apply members_go; [exact B|exact C|]|].
    + apply clean_obj in C. rewrite Forall_forall in *. intros m M. apply H; [exact M|]. now apply C.
    + eapply go_app; [now apply go_line|]. rewrite app_nil_r.
      rewrite <- (rev_involutive (content (JObj ms))) at 2. apply go_close.
Qed.

Lemma element_members ms : clean (JObj ms) ->
  Forall (fun m => match snd m with JArr l => Forall element l | _ => element (snd m) end) ms.
Proof.
  intro C. apply clean_obj in C. rewrite Forall_forall in *. intros m M. apply element_all. now apply C.
Qed.

(** A clean document is written so that what is read is what it says. *)
Theorem json_read ms : clean (JObj ms) -> read (json_to_xml (JObj ms)) [] [] "" = Some (content (JObj ms)).
Proof.
  intro C. unfold json_to_xml. rewrite add_obj.
  destruct (members_go "" ms eq_refl C (element_members ms C) [] [] [] "" eq_refl) as (ws & W & E).
  cbn [fst snd] in E. rewrite app_nil_r in E. rewrite E. cbn [read].
  rewrite flush_blank by exact W. now rewrite app_nil_r, rev_involutive.
Qed.
