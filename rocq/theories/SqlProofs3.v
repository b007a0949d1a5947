(** The SQLite backend: what is read back. *)
From Coq Require Import String Ascii QArith List Bool Arith ZArith Lia.
From Verif Require Import Base SqlModel SqlSpec SqlProofs SqlProofs2.
Import ListNotations.
Open Scope list_scope.

(** ** Strings *)
Lemma cstr_id s : no_nul s -> cstr s = s.
Proof.
  induction s as [|a s IH]; cbn; [auto|]. intros [A B]. destruct (Ascii.eqb_spec a zero); [contradiction|]. now rewrite IH.
Qed.
Lemma cstr_clean s : no_nul (cstr s).
Proof. induction s as [|a s IH]; cbn; [auto|]. destruct (Ascii.eqb_spec a zero); cbn; auto. Qed.
Lemma cstr_split s : cstr s = s \/ exists rest, s = (cstr s ++ String zero rest)%string.
Proof.
  induction s as [|a s IH]; cbn; [auto|]. destruct (Ascii.eqb_spec a zero) as [->|N].
  - right. now exists s.
  - destruct IH as [E|[rest E]]; [left; now rewrite E|right; exists rest; cbn; now rewrite <- E].
Qed.
Lemma substring_all s : substring 0 (String.length s) s = s.
Proof. induction s as [|a s IH]; cbn; [auto|]. now rewrite IH. Qed.

Section Proofs.
Variable X : Type.
Variable plain : string -> bool.
Variable trouble : nat -> option bool.
Variable ser : nat -> X -> string.
Variable deser : nat -> string -> option X.
Variable conv : affinity -> cell -> cell.
Variable as_int : cell -> Z.
Variable as_dbl : cell -> dbl.
Variable as_text : cell -> string.
Notation datum := (datum X).
Notation title := (dt_title X).
Notation vals := (dt_vals X).
Notation Went := (went X plain trouble ser conv).
Notation Col := (col_as_val X deser as_int as_dbl as_text).
Notation Row := (read_row X deser as_int as_dbl as_text).
Notation Query := (query_db X deser as_int as_dbl as_text).
Notation Bind := (bind X ser).
Notation BindAll := (bind_all X ser).

Lemma value_back t v c : Bind t v = Ok c -> sound ser deser v -> exists v', Col t c = Ok v' /\ comes_back ser deser v v'.
Proof.
  destruct t, v; cbn; try discriminate; intros H S.
  - injection H as <-. eexists. split; [reflexivity|constructor].
  - injection H as <-. eexists. split; [reflexivity|]. cbn. destruct b; constructor.
  - injection H as <-. destruct d; cbn; (eexists; split; [reflexivity|]); constructor; discriminate.
  - injection H as <-. destruct d; cbn; (eexists; split; [reflexivity|]); constructor; discriminate.
  - injection H as <-. eexists. split; [reflexivity|constructor].
  - injection H as <-. cbn. rewrite (cstr_id _ (cstr_clean s)). eexists. split; [reflexivity|].
    destruct (cstr_split s) as [E|[rest E]].
    + rewrite E. constructor. rewrite <- E. apply cstr_clean.
    + rewrite E at 1. constructor. apply cstr_clean.
  - injection H as <-. cbn. rewrite S. cbn [Nat.leb].
    eexists. split; [reflexivity|]. rewrite <- S, substring_all. now constructor.
  - destruct (Nat.eqb_spec tag tag0) as [->|]; [|discriminate]. injection H as <-. cbn. destruct S as [S1 S2].
    rewrite (cstr_id _ S1), S2. eexists. split; [reflexivity|]. now constructor.
Qed.

Lemma nth_pre {A} (pre l : list A) i d : nth (length pre + i) (pre ++ l) d = nth i l d.
Proof. rewrite app_nth2 by lia. f_equal. lia. Qed.

Lemma row_back (s : list (string * dbtype)) : forall vs row, BindAll (map snd s) vs = Ok row -> length vs = length s ->
  Forall (fun p => sound ser deser (snd p)) vs ->
  exists out, Row s row = Ok out /\ Forall2 (comes_back ser deser) (map snd vs) out.
Proof.
  intros vs row B L F. unfold read_row.
  assert (G : forall (s : list (string * dbtype)) vs row pre, BindAll (map snd s) vs = Ok row -> length vs = length s -> Forall (fun p => sound ser deser (snd p)) vs ->
     exists out, all_ok (fun p => Col (snd (snd p)) (nth (fst p) (pre ++ row) CNull)) (combine (seq (length pre) (length s)) s) = Ok out
       /\ Forall2 (comes_back ser deser) (map snd vs) out).
  { clear. induction s as [|[f t] s IH]; intros [|[g v] vs] row pre; cbn; try discriminate.
    - intros _ _ _. exists []. split; [reflexivity|constructor].
    - destruct (Bind t v) as [c|e|] eqn:B; try discriminate. destruct (BindAll (map snd s) vs) as [l|e|] eqn:E; try discriminate.
      intros H L F. injection H as <-. apply Forall_cons_iff in F. destruct F as [F1 F2]. cbn in F1.
      destruct (value_back _ _ _ B F1) as (v' & V1 & V2).
      assert (L' : length vs = length s) by lia.
      destruct (IH vs l (pre ++ [c]) E L' F2) as (out & O1 & O2).
      assert (N0 : nth (length pre) (pre ++ c :: l) CNull = c).
      { rewrite <- (Nat.add_0_r (length pre)) at 1. rewrite nth_pre. reflexivity. }
      rewrite N0, V1. rewrite app_length, Nat.add_1_r, <- app_assoc in O1. cbn in O1. rewrite O1.
      exists (v' :: out). split; [reflexivity|]. now constructor. }
  apply (G s vs row [] B L F).
Qed.

(** ** Schemas *)
Definition data_of (h : list (event X)) : list datum := flat_map (fun e => match e with Recorded l _ => l | Reopened => [] end) h.
Lemma data_of_in h d : delivered h d <-> In d (data_of h).
Proof.
  unfold delivered, data_of. rewrite in_flat_map. split.
  - intros (l & r & I & J). exists (Recorded l r). auto.
  - intros (e & I & J). destruct e as [l r|]; [eauto|destruct J].
Qed.
Definition schema_of (d : datum) : list (string * dbtype) :=
  map (fun p => (fst p, match type_of (snd p) with Some ty => ty | None => INT end)) (vals d).
Lemma schema_of_shape d : storable d -> shape d = map (fun q => (fst q, Some (snd q))) (schema_of d).
Proof.
  unfold storable, shape, schema_of. intros H. rewrite map_map. apply map_ext_in. intros [f v] I. cbn.
  destruct (type_of v) eqn:E; [reflexivity|]. destruct (H f). apply in_map_iff. exists (f, v). cbn. rewrite E. auto.
Qed.
Definition schemas (h : list (event X)) (t : string) : list (string * dbtype) :=
  match of_title t (data_of h) with [] => [] | d :: _ => schema_of d end.
Lemma of_title_in t (l : list datum) d : In d (of_title t l) <-> In d l /\ title d = t.
Proof.
  unfold of_title. rewrite filter_In. split; intros [A B]; split; auto.
  - symmetry. now apply String.eqb_eq.
  - apply String.eqb_eq. auto.
Qed.
Lemma schemas_shape h d : steady h (title d) -> delivered h d -> shape d = map (fun q => (fst q, Some (snd q))) (schemas h (title d)).
Proof.
  intros S D. unfold schemas. destruct (of_title (title d) (data_of h)) as [|d0 l] eqn:E.
  - assert (A : In d (of_title (title d) (data_of h))) by (apply of_title_in; split; [now apply data_of_in|reflexivity]).
    rewrite E in A. destruct A.
  - assert (A : In d0 (of_title (title d) (data_of h))) by (rewrite E; now left).
    apply of_title_in in A. destruct A as [A T]. apply data_of_in in A.
    destruct (S d0 A T) as [S1 S2]. rewrite (S2 d D eq_refl). now apply schema_of_shape.
Qed.

Lemma kept_delivered h (d : datum) : In d (kept h) -> delivered h d.
Proof.
  rewrite data_of_in. induction h as [|e h IH]; cbn; [auto|].
  assert (BB : forall l : list datum, In d (before_bad l) -> In d l).
  { induction l as [|x l IHl]; cbn; [auto|]. destruct (storableb x); [|intros []]. intros [<-|I]; auto. }
  destruct e as [l r|]; cbn; [|auto]. rewrite in_app_iff.
  destruct r as [u|e|]; cbn; [rewrite in_app_iff; intros [I|I]; auto| |auto].
  destruct e; cbn; auto. rewrite in_app_iff. intros [I|I]; auto.
Qed.

(** ** The content of a file *)
Definition used (h : list (event X)) (t : string) : Prop := exists d, delivered h d /\ title d = t.
Lemma used_apart h : titles_apart h -> forall a b, used h a -> used h b -> lower a = lower b -> a = b.
Proof. intros H a b (d & D & <-) (d' & D' & <-) E. now apply H. Qed.

Definition one (h : list (event X)) (t x : string) : option (list (string * dbtype)) :=
  if String.eqb x t then Some (schemas h t) else None.
Lemma history_one h b t : Went h b -> titles_apart h -> steady h t -> resting X ser (used h) (one h t) b (kept h).
Proof.
  intros W A S. eapply history; eauto using used_apart. intros d D. split; [exists d; auto|].
  intros s E. unfold one in E. destruct (String.eqb_spec (title d) t) as [T|]; [|discriminate]. injection E as <-.
  rewrite <- T. apply schemas_shape; [now rewrite T|exact D].
Qed.

Theorem content h b t : Went h b -> titles_apart h -> steady h t ->
  (forall d, In d (of_title t (kept h)) -> Forall (fun p => sound ser deser (snd p)) (vals d)) ->
  match of_title t (kept h) with
  | [] => Query t (k_disk (b_conn b)) = Throw ValueError
  | d :: _ => exists types rows, Query t (k_disk (b_conn b)) = Ok (mkQR X (map fst (vals d)) types rows) /\
      map Some types = map snd (shape d) /\
      Forall2 (fun d row => Forall2 (comes_back ser deser) (map snd (vals d)) row) (of_title t (kept h)) rows
  end.
Proof.
  intros W A S F. destruct (history_one h b t W A S) as (HO & NM & CA & FU).
  assert (ST : one h t t = Some (schemas h t)) by (unfold one; now rewrite String.eqb_refl).
  destruct (of_title t (kept h)) as [|d l] eqn:E.
  - assert (N : ~ In t (map title (kept h) ++ [])) by (rewrite app_nil_r; apply of_title_nil; exact E).
    pose proof (h_none _ _ _ _ _ _ _ HO t _ ST N) as FT. unfold query_db, table_info.
    unfold ft_of in FT. rewrite FT. reflexivity.
  - assert (ID : In d (kept h) /\ title d = t) by (apply of_title_in; rewrite E; now left).
    destruct ID as [ID TD].
    assert (I : In t (map title (kept h) ++ [])) by (rewrite app_nil_r, <- TD; now apply in_map).
    destruct (h_some _ _ _ _ _ _ _ HO t _ ST I) as [FT (tb & TI & TN & TC & TR)].
    assert (SH : shape d = map (fun q => (fst q, Some (snd q))) (schemas h t)).
    { rewrite <- TD. apply schemas_shape; [now rewrite TD|now apply kept_delivered]. }
    assert (FU' := proj1 (Forall_forall _ _) FU d ID). cbn in FU'.
    unfold query_db, table_info. unfold ft_of in FT. rewrite FT.
    assert (NE : schemas h t <> []).
    { intros Z. rewrite Z in SH. unfold shape in SH. cbn in SH. apply map_eq_nil in SH. contradiction. }
    assert (M : match schemas h t with [] => Throw ValueError | p :: l0 => Ok (p :: l0) end = Ok (schemas h t)).
    { destruct (schemas h t); [contradiction|reflexivity]. }
    rewrite M.
    assert (TF : find_tab t (k_disk (b_conn b)) = Some tb).
    { rewrite <- TN. eapply (find_tab_there X ser (used h) (one h t)); eauto using used_apart. }
    rewrite TF.
    assert (R : exists rows, all_ok (Row (schemas h t)) (tb_rows tb) = Ok rows /\
      Forall2 (fun d row => Forall2 (comes_back ser deser) (map snd (vals d)) row) (of_title t (kept h)) rows).
    { assert (F' : forall d, In d (of_title t (kept h)) -> Forall (fun p => sound ser deser (snd p)) (vals d)) by (rewrite E; exact F).
      revert F'. clear - TR. induction TR as [|x row xs rows (L & B) TR IH]; intros F; cbn.
      - exists []. split; [reflexivity|constructor].
      - destruct (row_back _ _ _ B L (F x (or_introl eq_refl))) as (out & O1 & O2). rewrite O1.
        destruct IH as (rs & R1 & R2); [intros y I; apply F; now right|]. rewrite R1. exists (out :: rs). split; [reflexivity|]. now constructor. }
    destruct R as (rows & R1 & R2). rewrite R1. exists (map snd (schemas h t)), rows.
    split; [|split].
    + f_equal. f_equal. transitivity (map fst (shape d)).
      * rewrite SH, map_map. reflexivity.
      * unfold shape. rewrite map_map. reflexivity.
    + rewrite SH, !map_map. reflexivity.
    + rewrite <- E. exact R2.
Qed.

Theorem tables_kept h b : Went h b -> titles_apart h ->
  NoDup (map tb_name (d_tabs (k_disk (b_conn b)))) /\
  forall t, In t (map tb_name (d_tabs (k_disk (b_conn b)))) <-> exists d, In d (kept h) /\ title d = t.
Proof.
  intros W A.
  assert (R : resting X ser (used h) (fun _ => None) b (kept h)).
  { eapply history; eauto using used_apart. intros d D. split; [exists d; auto|discriminate]. }
  destruct R as (HO & _). split; [apply (h_nodup _ _ _ _ _ _ _ HO)|]. intros t. rewrite (h_titles _ _ _ _ _ _ _ HO), app_nil_r, in_map_iff.
  split; intros (d & B & C); exists d; auto.
Qed.

(** ** One program's own view, and the state after a failure *)
Notation Notify := (notify X plain trouble ser conv).
Lemma notify_txn l b r b' : Notify l b = (r, b') -> r = Ok tt -> k_txn (b_conn b') = None.
Proof.
  unfold notify. intros H ->. destruct (begin_txn trouble (b_conn b)) as [r0 c0].
  destruct r0; [|inversion H; subst..]. destruct (put_all X plain trouble ser conv l (set_conn b c0)) as [r1 b1].
  assert (E : forall c r c', end_txn trouble c = (r, c') -> r = Ok tt -> k_txn c' = None).
  { intros c r c' E ->. unfold end_txn, stmt in E. destruct (trouble (k_n c)) as [[|]|]; try discriminate. cbn in E.
    destruct (k_txn c); inversion E; subst; reflexivity. }
  destruct r1 as [u1|e|]; [| |inversion H].
  - destruct (end_txn trouble (b_conn b1)) as [r2 c2] eqn:ET. inversion H; subst. cbn. eapply E; eauto.
  - destruct e; try discriminate. destruct (end_txn trouble (b_conn b1)) as [r2 c2] eqn:ET. destruct r2; discriminate.
Qed.
End Proofs.
