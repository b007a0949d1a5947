(** * ConvProofs3: the text written is taken apart into the tags and texts it was made of. *)
From Verif Require Import Base ConvModel ConvSpec ConvProofs1.
Open Scope string_scope.
Open Scope list_scope.

Definition plain_tok (t : tok) : Prop :=
  match t with
  | TText s => plain_text s = true
  | TOpen n | TClose n | TEmpty n => plain_name n = true
  end.

Lemma app_assoc_s a : forall b c, String.append a (String.append b c) = String.append (String.append a b) c.
Proof. induction a; intros; cbn; [reflexivity|]. now rewrite IHa. Qed.
Lemma app_nil_s a : String.append a "" = a.
Proof. induction a; cbn; [reflexivity|]. now rewrite IHa. Qed.

(** Adjacent pieces of text are one. *)
Fixpoint norm (acc : string) (l : list tok) : list tok :=
  match l with
  | [] => text_tok acc
  | TText s :: r => norm (String.append acc s) r
  | t :: r => text_tok acc ++ t :: norm "" r
  end.

Lemma read_text_tok acc r st cur : read (text_tok acc ++ r) st cur "" = read r st cur acc.
Proof. destruct acc; reflexivity. Qed.

Lemma read_norm l : forall acc st cur, read (norm acc l) st cur "" = read l st cur acc.
Proof.
  induction l as [|t r IH]; intros acc st cur.
  - cbn [norm]. rewrite <- (app_nil_r (text_tok acc)), read_text_tok. reflexivity.
  - destruct t; cbn [norm]; rewrite ?read_text_tok; cbn [read]; try apply IH.
    destruct st as [|[m up] st']; [reflexivity|]. destruct (String.eqb m n); [apply IH|reflexivity].
Qed.

Lemma plain_char_text c s : plain_text (String c s) = true ->
  Ascii.eqb c amp = false /\ Ascii.eqb c lt_sign = false /\ plain_text s = true.
Proof.
  unfold plain_text. cbn. intro H. apply andb_true_iff in H. destruct H as [A B].
  apply negb_true_iff in A. apply orb_false_iff in A. destruct A as [A1 A]. apply orb_false_iff in A.
  destruct A as [A2 A]. apply orb_false_iff in A. destruct A as [A3 _]. auto.
Qed.

Lemma lex_text s : forall rest acc, plain_text s = true ->
  lex (String.append s rest) (InText acc) = lex rest (InText (String.append acc s)).
Proof.
  induction s as [|c s IH]; intros rest acc P; [now rewrite app_nil_s|].
  apply plain_char_text in P. destruct P as (A & B & P). cbn [String.append lex]. rewrite A, B.
  rewrite IH by exact P. now rewrite <- app_assoc_s.
Qed.

Definition name_char (c : Ascii.ascii) : Prop :=
  Ascii.eqb c amp = false /\ Ascii.eqb c lt_sign = false /\ Ascii.eqb c gt_sign = false /\ Ascii.eqb c slash = false.

Definition name_chars (s : string) : Prop := Forall name_char (list_ascii_of_string s).

Lemma plain_name_chars s : plain_name s = true -> s <> "" /\ name_chars s.
Proof.
  unfold plain_name. intro H. apply andb_true_iff in H. destruct H as [A B]. split.
  - intros ->. discriminate.
  - unfold name_chars. apply Forall_forall. intros c C. rewrite forallb_forall in B. specialize (B c C).
    apply negb_true_iff in B. cbn in B. apply orb_false_iff in B. destruct B as [B1 B].
    apply orb_false_iff in B. destruct B as [B2 B]. apply orb_false_iff in B. destruct B as [B3 B].
    apply orb_false_iff in B. destruct B as [B4 _]. repeat split; assumption.
Qed.

Lemma lex_tag s : forall rest acc, name_chars s ->
  lex (String.append s rest) (InTag acc) = lex rest (InTag (String.append acc s)).
Proof.
  induction s as [|c s IH]; intros rest acc P; [now rewrite app_nil_s|].
  inversion P as [|? ? (A & B & C & D) P']; subst. cbn [String.append lex]. rewrite A, B, C.
  rewrite IH by exact P'. now rewrite <- app_assoc_s.
Qed.

Lemma lex_gt rest acc : lex (String gt_sign rest) (InTag acc) =
  match lex rest (InText "") with Some l => Some (tag_of acc :: l) | None => None end.
Proof. reflexivity. Qed.

Lemma lex_lt rest acc : lex (String lt_sign rest) (InText acc) =
  match lex rest (InTag "") with Some l => Some (text_tok acc ++ l) | None => None end.
Proof. reflexivity. Qed.

Lemma lex_slash rest acc : lex (String slash rest) (InTag acc) = lex rest (InTag (String.append acc (String slash ""))).
Proof. reflexivity. Qed.

Lemma ends_slash_name s : name_chars s -> ends_slash s = None.
Proof.
  induction s as [|c s IH]; intro P; [reflexivity|]. inversion P as [|? ? (_ & _ & _ & D) P']; subst.
  cbn [ends_slash]. destruct s; [now rewrite D|]. rewrite IH by exact P'. reflexivity.
Qed.

Lemma ends_slash_empty s : ends_slash (String.append s (String slash "")) = Some s.
Proof.
  induction s as [|c s IH]; [reflexivity|]. cbn [String.append ends_slash]. rewrite IH.
  destruct s; reflexivity.
Qed.

Lemma tag_open s : s <> "" -> name_chars s -> tag_of s = TOpen s.
Proof.
  intros N P. unfold tag_of. destruct s as [|c s]; [now contradiction N|].
  pose proof (ends_slash_name _ P) as E. inversion P as [|? ? (_ & _ & _ & D) P']; subst. rewrite D, E. reflexivity.
Qed.

Lemma tag_empty s : s <> "" -> name_chars s -> tag_of (String.append s (String slash "")) = TEmpty s.
Proof.
  intros N P. unfold tag_of. pose proof (ends_slash_empty s) as E.
  destruct s as [|c s]; [now contradiction N|]. inversion P as [|? ? (_ & _ & _ & D) P']; subst.
  cbn [String.append] in *. rewrite D, E. reflexivity.
Qed.

Lemma lex_show l : Forall plain_tok l -> forall acc, lex (show l) (InText acc) = Some (norm acc l).
Proof.
  induction 1 as [|t r P F IH]; intro acc; [reflexivity|].
  change (show (t :: r)) with (String.append (show1 t) (show r)).
  destruct t; cbn [show1 norm]; cbn in P.
  - destruct (plain_name_chars _ P) as [N C].
    change (String.append "<" (String.append n ">")) with (String lt_sign (String.append n ">")).
    cbn [String.append]. rewrite lex_lt, <- app_assoc_s, lex_tag by exact C.
    change (String.append ">" (show r)) with (String gt_sign (show r)). rewrite lex_gt, IH. cbn [String.append].
    now rewrite tag_open.
  - destruct (plain_name_chars _ P) as [N C].
    change (String.append "</" (String.append n ">")) with (String lt_sign (String slash (String.append n ">"))).
    cbn [String.append]. rewrite lex_lt, lex_slash, <- app_assoc_s, lex_tag by exact C.
    change (String.append ">" (show r)) with (String gt_sign (show r)). rewrite lex_gt, IH. reflexivity.
  - destruct (plain_name_chars _ P) as [N C].
    change (String.append "<" (String.append n "/>")) with (String lt_sign (String.append n "/>")).
    cbn [String.append]. rewrite lex_lt, <- app_assoc_s, lex_tag by exact C.
    change (String.append "/>" (show r)) with (String slash (String gt_sign (show r))).
    rewrite lex_slash, lex_gt, IH. cbn [String.append]. now rewrite tag_empty.
  - rewrite lex_text by exact P. apply IH.
Qed.

Theorem parse_show l : Forall plain_tok l -> parse_xml (show l) = read l [] [] "".
Proof. intro P. unfold parse_xml. rewrite lex_show by exact P. apply read_norm. Qed.

(** ** The tokens written for a clean document *)
Lemma blank_plain s : blank s = true -> plain_text s = true.
Proof.
  induction s as [|c s IH]; [reflexivity|]. cbn [blank]. intro H. apply andb_true_iff in H.
  destruct H as [A B]. unfold plain_text. cbn [list_ascii_of_string forallb].
  apply andb_true_iff. split; [|exact (IH B)].
  unfold is_space in A. cbn [existsb] in A |- *.
  repeat rewrite orb_true_iff in A. destruct A as [A|[A|[A|[A|A]]]]; try discriminate;
    apply Ascii.eqb_eq in A; subst c; reflexivity.
Qed.

Lemma plain_line b s : blank s = true -> Forall plain_tok (on_line b s).
Proof. intro H. destruct b; [|constructor]. constructor; [now apply blank_plain|constructor]. Qed.

Ltac plains := repeat (first [apply Forall_nil | apply Forall_cons]); cbn;
  auto using blank_plain, blank_shorter, blank_nl.

Theorem plain_written v : clean v -> forall name indent, plain_name name = true -> blank indent = true ->
  Forall plain_tok (add_json v name indent).
Proof.
  induction v using json_ind'; intros C name indent N B.
  - plains.
  - plains.
  - plains.
  - rewrite add_arr. apply clean_arr in C. destruct C as (_ & C & _). generalize true.
    induction l as [|v r IH]; intro first; [constructor|]. cbn [toks_items].
    inversion H; subst. inversion C as [|? ? (C1 & C2 & C3) C4]; subst.
    apply Forall_app. split; [|now apply IH].
    assert (T : forall last, Forall plain_tok
      ((if first then [] else [TText (shorter indent); TOpen name] ++ on_line (is_object v || is_array v) nl) ++
       add_json v name indent ++
       (if last : bool then [] else on_line (is_object v || is_array v) (shorter indent) ++ [TClose name; TText nl]))).
    { intro last. apply Forall_app. split.
      - destruct first; [constructor|]. apply Forall_app. split; [plains|]. apply plain_line, blank_nl.
      - apply Forall_app. split; [auto|]. destruct last; [constructor|].
        apply Forall_app. split; [apply plain_line; now apply blank_shorter|plains]. }
    destruct v; try exact (T _). plains.
  - rewrite add_obj. apply clean_obj in C.
    assert (B2 : blank (String.append indent "  ") = true) by (rewrite blank_app, B; reflexivity).
    induction ms as [|[k w] r IH]; [constructor|]. cbn [toks_members].
    inversion H; subst. inversion C as [|? ? (C1 & C2) C3]; subst. cbn in *.
    apply Forall_app. split; [|now apply IH].
    assert (T : Forall plain_tok ([TText indent; TOpen k] ++ on_line (indent_member w) nl ++
      add_json w k (String.append indent "  ") ++ on_line (indent_member w) indent ++ [TClose k; TText nl])).
    { apply Forall_app. split; [plains|]. apply Forall_app. split; [apply plain_line, blank_nl|].
      apply Forall_app. split; [auto|]. apply Forall_app. split; [now apply plain_line|plains]. }
    unfold toks_member. destruct w; try exact T; [plains|]. destruct l; [|exact T].
    plains.
Qed.

Theorem written_members ms : clean (JObj ms) -> Forall plain_tok (json_to_xml (JObj ms)).
Proof.
  intro C. unfold json_to_xml. pose proof (plain_written (JObj ms) C "x" "" eq_refl eq_refl) as P.
  rewrite add_obj in *. exact P.
Qed.

(** A clean document, converted and parsed, says what it said. *)
Theorem json_parse ms : clean (JObj ms) ->
  parse_xml (show (json_to_xml (JObj ms))) = Some (content (JObj ms)).
Proof. intro C. rewrite parse_show by now apply written_members. now apply json_read. Qed.
