(** Proofs for C45. *)
From Coq Require Import Ascii.
From Verif Require Import Base SpecModel SpecSpec.
Local Open Scope string_scope.

Lemma chars_app s t : chars (s ++ t) = (chars s ++ chars t)%list.
Proof. induction s as [|c s IH]; cbn; [reflexivity|]. now rewrite IH. Qed.
Lemma chars_inj s : forall t, chars s = chars t -> s = t.
Proof. induction s as [|c s IH]; intros [|d t] H; try discriminate; [reflexivity|]. injection H as -> H. f_equal. auto. Qed.
Lemma colons_app s t : colons (s ++ t) = (colons s + colons t)%nat.
Proof. unfold colons. now rewrite chars_app, count_occ_app. Qed.
Lemma colons_cons c s : colons (String c s) = ((if Ascii.eqb c ":" then 1 else 0) + colons s)%nat.
Proof.
  unfold colons. cbn [chars count_occ]. destruct (ascii_dec c ":") as [->|N]; [reflexivity|].
  destruct (Ascii.eqb_spec c ":"); [contradiction|reflexivity].
Qed.

Lemma split_nonnil s : split_colon s <> [].
Proof.
  destruct s as [|c s]; cbn [split_colon]; [discriminate|].
  destruct (Ascii.eqb c ":"); [discriminate|]. destruct (split_colon s); discriminate.
Qed.
Lemma split_app s t : colons s = 0%nat -> split_colon (s ++ String ":" t) = s :: split_colon t.
Proof.
  induction s as [|c s IH]; intros H.
  - reflexivity.
  - rewrite colons_cons in H. cbn [append split_colon]. destruct (Ascii.eqb c ":"); [discriminate|]. now rewrite IH.
Qed.
Lemma split_plain s : colons s = 0%nat -> split_colon s = [s].
Proof.
  induction s as [|c s IH]; intros H; [reflexivity|]. rewrite colons_cons in H. cbn [split_colon].
  destruct (Ascii.eqb c ":"); [discriminate|]. now rewrite IH.
Qed.
Lemma split_length s : length (split_colon s) = S (colons s).
Proof.
  induction s as [|c s IH]; [reflexivity|]. rewrite colons_cons. cbn [split_colon]. destruct (Ascii.eqb c ":"); cbn [length]; [lia|].
  destruct (split_colon s) as [|h t] eqn:E; [now destruct (split_nonnil s)|]. exact IH.
Qed.
Lemma split_parts s : Forall (fun x => colons x = 0%nat) (split_colon s).
Proof.
  induction s as [|c s IH]; cbn [split_colon]; [repeat constructor|].
  destruct (Ascii.eqb c ":") eqn:C; [constructor; [reflexivity|assumption]|].
  destruct (split_colon s) as [|h t]; [repeat constructor; now rewrite colons_cons, C|].
  inversion IH; subst. constructor; [now rewrite colons_cons, C|assumption].
Qed.
Fixpoint join (l : list string) : string :=
  match l with [] => "" | [x] => x | x :: t => x ++ ":" ++ join t end.
Lemma join_cons c h t : join (String c h :: t) = String c (join (h :: t)).
Proof. destruct t; reflexivity. Qed.
Lemma join_split s : join (split_colon s) = s.
Proof.
  induction s as [|c s IH]; [reflexivity|]. cbn [split_colon]. destruct (Ascii.eqb_spec c ":") as [->|N].
  - cbn [join]. destruct (split_colon s) eqn:E; [now destruct (split_nonnil s)|]. cbn [append]. now rewrite IH.
  - destruct (split_colon s) as [|h t] eqn:E; [now destruct (split_nonnil s)|]. now rewrite join_cons, IH.
Qed.

Lemma parse_str x : plain x -> spec_parse (spec_str x) = Ok (mkSpec (sp_path x) (sp_lib x) (sp_agent x) (sp_agent x)).
Proof.
  intros [A [B C]]. unfold spec_parse, spec_str. change (":" ++ sp_lib x ++ ":" ++ sp_agent x) with (String ":" (sp_lib x ++ String ":" (sp_agent x))).
  now rewrite split_app, split_app, split_plain.
Qed.
Lemma print_parse : forall x, plain x ->
  exists y, spec_parse (spec_str x) = Ok y /\ same_archetype y x /\ sp_alias y = sp_agent x /\ spec_str y = spec_str x.
Proof. intros x P. eexists. split; [apply parse_str; exact P|]. repeat split. Qed.
Lemma parse_print : forall s, 
  (colons s = 2%nat /\ exists x, spec_parse s = Ok x /\ spec_str x = s /\ sp_alias x = sp_agent x /\ plain x) \/
  (colons s <> 2%nat /\ spec_parse s = Throw ValueError).
Proof.
  intros s. pose proof (split_length s) as L. pose proof (join_split s) as J. pose proof (split_parts s) as P. unfold spec_parse.
  destruct (split_colon s) as [|a [|b [|c [|d t]]]]; cbn [length] in L; try (right; split; [lia|reflexivity]).
  left. split; [lia|]. eexists. split; [reflexivity|]. split; [exact J|]. split; [reflexivity|].
  inversion P as [|? ? P1 P2]; subst. inversion P2 as [|? ? P3 P4]; subst. inversion P4; subst. repeat split; assumption.
Qed.
Lemma str_unique : forall x y, plain x -> plain y -> spec_str x = spec_str y -> same_archetype x y.
Proof.
  intros x y X Y H. apply parse_str in X. apply parse_str in Y. rewrite H, Y in X. injection X as A B C. repeat split; auto.
Qed.
Lemma infile_defaults : forall name lib path alias x, spec_infile name lib path alias = Ok x ->
  name = Some (sp_agent x) /\ (alias = None -> sp_alias x = sp_agent x) /\ (lib = None -> sp_lib x = sp_agent x) /\ (path = None -> sp_path x = "").
Proof. intros [n|] lib path alias x H; [|discriminate]. injection H as <-. repeat split; intros ->; reflexivity. Qed.
Lemma new_defaults : forall path lib agent alias, 
  let x := spec_new path lib agent alias in
  sp_path x = path /\ sp_agent x = agent /\ sp_lib x = (if String.eqb lib "" then agent else lib) /\ sp_alias x = alias.
Proof. intros. repeat split. Qed.

(** ** Table names *)
Definition safe_char (c : ascii) : ascii := 
  if Ascii.eqb c "/" || Ascii.eqb c "-" || Ascii.eqb c ":" || Ascii.eqb c "." then "_"%char else c.
Lemma replace_chars a b s : chars (replace_char a b s) = map (fun c => if Ascii.eqb c a then b else c) (chars s).
Proof. induction s as [|c s IH]; cbn; [reflexivity|]. now rewrite IH. Qed.
Lemma sanitize_chars x : chars (sanitize x) = map safe_char (chars (spec_str x)).
Proof.
  unfold sanitize. rewrite !replace_chars, !map_map. apply map_ext. intros c. unfold safe_char.
  destruct (Ascii.eqb c "/") eqn:E1; [reflexivity|]. destruct (Ascii.eqb c "-") eqn:E2; [reflexivity|].
  destruct (Ascii.eqb c ":") eqn:E3; [reflexivity|]. destruct (Ascii.eqb c "."); reflexivity.
Qed.
Lemma safe_cases c : (unsafe c /\ safe_char c = "_"%char) \/ (~ unsafe c /\ safe_char c = c).
Proof.
  unfold safe_char, unsafe. destruct (Ascii.eqb_spec c "/") as [->|N1]; [left; auto|].
  destruct (Ascii.eqb_spec c "-") as [->|N2]; [left; auto|]. destruct (Ascii.eqb_spec c ":") as [->|N3]; [left; auto|].
  destruct (Ascii.eqb_spec c ".") as [->|N4]; [left; auto|]. right. cbn. split; [tauto|reflexivity].
Qed.
Lemma safe_alike c d : safe_char c = safe_char d <-> alike c d.
Proof.
  unfold alike. destruct (safe_cases c) as [[U1 E1]|[U1 E1]], (safe_cases d) as [[U2 E2]|[U2 E2]]; rewrite E1, E2; split; intros H; auto.
  - destruct H as [<-|[_ [H|H]]]; tauto || congruence.
  - destruct H as [->|[[H|H] _]]; tauto || congruence.
  - destruct H as [->|[[H1|H1] [H2|H2]]]; tauto || congruence.
Qed.
Lemma table_names : forall x y, sanitize x = sanitize y <-> Forall2 alike (chars (spec_str x)) (chars (spec_str y)).
Proof.
  intros x y. transitivity (map safe_char (chars (spec_str x)) = map safe_char (chars (spec_str y))).
  - rewrite <- !sanitize_chars. split; [now intros ->|apply chars_inj].
  - generalize (chars (spec_str x)) (chars (spec_str y)). clear. induction l as [|c l IH]; intros [|d m]; cbn [map].
    + split; [constructor|reflexivity].
    + split; intros H; [discriminate|inversion H].
    + split; intros H; [discriminate|inversion H].
    + split; intros H.
      * injection H as H1 H2. constructor; [now apply safe_alike|now apply IH].
      * inversion H; subst. f_equal; [now apply safe_alike|now apply IH].
Qed.
Lemma table_name_safe : forall x c, In c (chars (sanitize x)) -> ~ unsafe c.
Proof.
  intros x c H. rewrite sanitize_chars in H. apply in_map_iff in H as [d [<- _]].
  destruct (safe_cases d) as [[_ ->]|[U ->]]; [|assumption]. unfold unsafe. intuition discriminate.
Qed.
