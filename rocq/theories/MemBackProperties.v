(** * MemBackProperties: C43, the in-memory backend. *)
From Coq Require Import String List ZArith QArith Ascii Bool.
From Verif Require Import Base QueryModel QuerySpec MemBackModel MemBackSpec MemBackProofs1 MemBackProofs2 MemBackProofs3.
Import ListNotations.
Local Open Scope list_scope.

(** Every history can happen: nothing recorded, registered or asked makes the backend fail. *)
Theorem C43_never_fails : forall cmp schema v0 h, plain schema -> typed schema h -> no_shortcut v0 h -> exists m, reaches cmp v0 h m.
Proof. intros cmp schema v0 h P. exact (run_total schema cmp v0 P h). Qed.
Print Assumptions C43_never_fails.

(** A table that has rows answers every sensible query with exactly those rows that meet the conditions, in the order
    recorded, whatever was asked before. *)
Theorem C43_answers : forall cmp schema v0 h m t conds, plain schema -> typed schema h -> no_shortcut v0 h -> reaches cmp v0 h m ->
  contents v0 h t <> [] -> (forall cs, conds = Some cs -> sensible (schema t) cs) ->
  exists out m', mb_query cmp None m t conds = (Ok (Some (mkFrame (schema t) out)), m') /\
    keeps (meets cmp (schema t) (match conds with Some cs => cs | None => [] end)) (contents v0 h t) out.
Proof. exact m_answers. Qed.
Print Assumptions C43_answers.

(** A table with no rows is absent. *)
Theorem C43_absent : forall cmp schema v0 h m t conds, plain schema -> typed schema h -> no_shortcut v0 h -> reaches cmp v0 h m ->
  contents v0 h t = [] -> ~ In t (mb_tables m) /\ mb_query cmp None m t conds = (Ok None, m).
Proof. exact m_absent. Qed.
Print Assumptions C43_absent.

(** The tables listed are those with rows, and all of them are covered by the registry. *)
Theorem C43_tables : forall cmp schema v0 h m t, plain schema -> typed schema h -> no_shortcut v0 h -> reaches cmp v0 h m ->
  (In t (mb_tables m) <-> contents v0 h t <> []) /\ (In t (mb_tables m) -> covers (in_force v0 h) t).
Proof. exact m_tables. Qed.
Print Assumptions C43_tables.

(** A fallback is asked about tables that have no rows here: directly when they are not covered; otherwise the whole
    table is taken over and the conditions are applied here. *)
Theorem C43_fallback : forall cmp schema v0 h m t conds fb, plain schema -> typed schema h -> no_shortcut v0 h -> reaches cmp v0 h m ->
  contents v0 h t = [] ->
  (~ covers (in_force v0 h) t -> mb_query cmp (Some fb) m t conds =
     (match fb t conds with Ok f => Ok (Some f) | Throw _ => Ok None | UB => UB end, m)) /\
  (covers (in_force v0 h) t -> forall f, fb t None = Ok f -> Forall (fun r => List.length r = List.length (fr_fields f)) (fr_rows f) ->
     Forall plain_name (fr_fields f) -> (forall cs, conds = Some cs -> sensible (fr_fields f) cs) ->
     exists out m', mb_query cmp (Some fb) m t conds = (Ok (Some (mkFrame (fr_fields f) out)), m') /\
       keeps (meets cmp (fr_fields f) (match conds with Some cs => cs | None => [] end)) (fr_rows f) out /\
       mb_query cmp None m' t None = (Ok (Some f), m')).
Proof. exact m_fallback. Qed.
Print Assumptions C43_fallback.

(** ** Where it does not hold *)
Definition C43_cmp : py_holds := fun op x y => match make_cond "" op y with Ok c => match cmp_cond x c with Ok b => b | _ => false end | _ => false end.
Definition C43_d (t : string) (a b : Z) : mdatum := mkMDatum t ["x"; "y"]%string [VInt a; VInt b].

(** Data recorded for a table that is already held are filed by field name: whatever the order of their fields (one order
    for the data of the table in one delivery), the new rows show each value under its own field, after the old rows. *)
Theorem C43_fields : forall cmp v0 h m m' data t old fs, reaches cmp v0 h m -> happens cmp m (Recorded data) = Ok m' ->
  mb_query cmp None m t None = (Ok (Some old), m) -> NoDup (fr_fields old) ->
  (forall d, In d data -> md_title d = t -> md_fields d = fs) -> covers (in_force v0 h) t ->
  exists rows, mb_query cmp None m' t None = (Ok (Some (mkFrame (fr_fields old) (fr_rows old ++ rows))), m') /\
    Forall2 (fun d row => forall f v, column (md_fields d) (md_vals d) f v <-> column (fr_fields old) row f v)
      (filter (fun d => String.eqb t (md_title d)) data) rows.
Proof. exact record_columns. Qed.
Print Assumptions C43_fields.

(** Three columns, then a delivery in another order. *)
Definition C43_o1 : mdatum := mkMDatum "A" ["x"; "y"; "z"]%string [VInt 1; VInt 2; VInt 3].
Definition C43_o2 : mdatum := mkMDatum "A" ["z"; "x"; "y"]%string [VInt 6; VInt 4; VInt 5].
Example C43_ex_fields : exists m m', reaches C43_cmp RAll [Recorded [C43_o1]] m /\ mb_notify m [C43_o2; C43_d "B" 0 0] = Ok m' /\
  mb_query C43_cmp None m "A" None = (Ok (Some (mkFrame ["x"; "y"; "z"]%string [[VInt 1; VInt 2; VInt 3]])), m) /\
  fst (mb_query C43_cmp None m' "A" None) =
    Ok (Some (mkFrame ["x"; "y"; "z"]%string [[VInt 1; VInt 2; VInt 3]; [VInt 4; VInt 5; VInt 6]])).
Proof.
  eexists. eexists. split; [eapply run_from_new; reflexivity|]. split; [reflexivity|]. split; reflexivity.
Qed.

(** Within one delivery the fields of the first datum count for all: a datum whose fields come in another order has its
    values under the wrong names. *)
Theorem C43_mixed_order_refuted : exists m d row f v, reaches C43_cmp RAll [Recorded [C43_o1; d]] m /\
  (forall g, In g (md_fields d) <-> In g (md_fields C43_o1)) /\ md_title d = md_title C43_o1 /\
  fst (mb_query C43_cmp None m "A" None) = Ok (Some (mkFrame (md_fields C43_o1) [md_vals C43_o1; row])) /\
  column (md_fields d) (md_vals d) f v /\ ~ column (md_fields C43_o1) row f v.
Proof.
  exists (match mb_notify (mkMB true [] (Some []) [] []) [C43_o1; C43_o2] with Ok m => m | _ => mkMB true [] None [] [] end).
  exists C43_o2, (md_vals C43_o2), "x"%string, (VInt 4).
  split; [eapply run_from_new; reflexivity|]. split; [intros g; cbn; tauto|]. split; [reflexivity|]. split; [reflexivity|]. split.
  - apply column_index. exists 1%nat. split; reflexivity.
  - intros C. apply column_index in C as [i [E N]]. cbn in E. injection E as <-. discriminate N.
Qed.
Print Assumptions C43_mixed_order_refuted.

(** At most 256 compiled conditions are kept, whatever is asked. *)
Theorem C43_code_cache : forall cmp v0 h m, reaches cmp v0 h m -> (length (mb_codes m) <= 256)%nat.
Proof. exact codes_bounded. Qed.
Print Assumptions C43_code_cache.

(** It is not empty after a query with conditions. *)
Example C43_ex_codes : exists m, reaches C43_cmp RAll [Recorded [C43_o1]; Asked "A" (Some [mkMCond "x" "<" (VInt 3)])] m /\
  length (mb_codes m) = 1%nat.
Proof. eexists. split; [eapply run_from_new; reflexivity|reflexivity]. Qed.

(** Restricting a backend that stores everything to some tables keeps the others. *)
Theorem C43_registry_refuted : exists m, reaches C43_cmp RAll [Recorded [C43_d "A" 1 2; C43_d "B" 3 4]; Registry (RSet ["A"%string])] m /\
  In "B"%string (mb_tables m) /\ ~ covers (RSet ["A"%string]) "B" /\
  fst (mb_query C43_cmp None m "B" None) = Ok (Some (mkFrame ["x"; "y"] [[VInt 3; VInt 4]]))%string.
Proof.
  eexists. split; [|split; [|split]].
  - eapply run_from_new; reflexivity.
  - cbn. auto.
  - intros [H|[]]. discriminate.
  - reflexivity.
Qed.
Print Assumptions C43_registry_refuted.

(** An empty list of conditions is an error, not all rows. *)
Theorem C43_empty_conditions_refuted : exists m, reaches C43_cmp RAll [Recorded [C43_d "A" 1 2]] m /\
  fst (mb_query C43_cmp None m "A" (Some [])) = Throw PlainError.
Proof.
  eexists. split; [eapply run_from_new; reflexivity|reflexivity].
Qed.
Print Assumptions C43_empty_conditions_refuted.

(** A column called val1 loses rows: the second condition's value takes the place of the column. *)
Definition C43_val1 : mdatum := mkMDatum "A" ["val1"; "x"]%string [VInt 5; VInt 2].
Definition C43_val1_conds : list mcond := [mkMCond "val1" "==" (VInt 5); mkMCond "x" "==" (VInt 2)].
Theorem C43_column_name_refuted : exists m, reaches C43_cmp RAll [Recorded [C43_val1]] m /\
  meets C43_cmp ["val1"; "x"]%string C43_val1_conds (md_vals C43_val1) /\ contents RAll [Recorded [C43_val1]] "A" = [md_vals C43_val1] /\
  fst (mb_query C43_cmp None m "A" (Some C43_val1_conds)) = Ok (Some (mkFrame ["val1"; "x"] []))%string.
Proof.
  eexists. split; [eapply run_from_new; reflexivity|]. split; [apply row_ok_spec; reflexivity|]. split; reflexivity.
Qed.
Print Assumptions C43_column_name_refuted.

(** A history that meets the hypotheses: two tables, a change of registry, queries that reuse compiled code. *)
Definition C43_schema (t : string) : list string := ["x"; "y"]%string.
Definition C43_h : list event :=
  [Recorded [C43_d "A" 1 2; C43_d "B" 3 4; C43_d "A" 5 6]; Asked "A" (Some [mkMCond "x" "<" (VInt 3)]); Registry (RSet ["A"%string]);
   Recorded [C43_d "B" 7 8; C43_d "A" 2 9]].
Example C43_ex_hyps : plain C43_schema /\ typed C43_schema C43_h /\ no_shortcut (RSet ["A"; "B"]%string) C43_h /\
  contents (RSet ["A"; "B"]%string) C43_h "A" = [[VInt 1; VInt 2]; [VInt 5; VInt 6]; [VInt 2; VInt 9]] /\
  contents (RSet ["A"; "B"]%string) C43_h "B" = [] /\ sensible (C43_schema "A") [mkMCond "x" "<" (VInt 3)].
Proof.
  split; [|split; [|split; [|split; [reflexivity|split; [reflexivity|]]]]].
  - intros t. split.
    + constructor; [intros [H|[]]; discriminate|]. constructor; [intros []|constructor].
    + assert (forall a, ~ In a ["<"; ">"; "="; "!"]%char -> (forall i, String a EmptyString <> val_name i) -> plain_name (String a EmptyString)) as K.
      { intros a H V. split; [discriminate|]. split; [intros c [<-|[]]; exact H|]. split; [discriminate|exact V]. }
      constructor; [|constructor; [|constructor]]; apply K; try (intros H; cbv in H; intuition discriminate); intros i; discriminate.
  - intros data d I D. unfold C43_h in I. cbn [In] in I.
    destruct I as [[= <-]|[I|[I|[[= <-]|[]]]]]; try discriminate; cbn [In] in D; intuition (subst; reflexivity).
  - cbn. split; [discriminate|exact I].
  - split; [discriminate|]. intros c [<-|[]]. cbn. auto.
Qed.
Example C43_ex_run : exists m, reaches C43_cmp (RSet ["A"; "B"]%string) C43_h m /\
  fst (mb_query C43_cmp None m "A" (Some [mkMCond "x" "<" (VInt 3)])) = Ok (Some (mkFrame ["x"; "y"] [[VInt 1; VInt 2]; [VInt 2; VInt 9]]))%string.
Proof.
  destruct C43_ex_hyps as [P [T [N _]]].
  eexists. split; [|].
  - eapply run_from_new; reflexivity.
  - reflexivity.
Qed.
