(** * QueryProperties: C44, conditions and query injectors. *)
From Coq Require Import String List ZArith QArith Bool.
From Verif Require Import Base QueryModel QuerySpec QueryProofs.
Import ListNotations.
Local Open Scope list_scope.

(** Exactly the six documented operators make a condition. *)
Theorem C44_operators : forall f op v,
  (In op ["<"; ">"; "<="; ">="; "=="; "!="]%string ->
     exists c, make_cond f op v = Ok c /\ q_field c = f /\ q_op c = op /\ q_val c = v) /\
  (~ In op ["<"; ">"; "<="; ">="; "=="; "!="]%string -> make_cond f op v = Throw ValueError).
Proof. exact operators. Qed.
Print Assumptions C44_operators.

(** A value passes a list of conditions exactly when it stands in each of the relations their operators name. *)
Theorem C44_conjunction : forall x cs, Forall constructed cs ->
  (cmp_conds x cs = Ok true <-> forall c, In c cs -> compares (q_op c) x (q_val c)) /\
  (Forall (fun c => same_kind x (q_val c)) cs -> exists b, cmp_conds x cs = Ok b).
Proof. exact conjunction. Qed.
Print Assumptions C44_conjunction.

(** SQLite's backend returns all rows, or exactly those that satisfy all the conditions, in order. *)
Theorem C44_sqlite : forall cmp db, well_formed_db db -> faithful cmp (sqlite_back cmp db) (find_table db).
Proof. exact sqlite_faithful. Qed.
Print Assumptions C44_sqlite.

(** A query through any pile of injectors over a faithful backend: the rows of the prefixed table that satisfy what
    was asked and everything injected, in order. *)
Theorem C44_pile : forall cmp b content ls t conds q, faithful cmp b content -> content (real_table ls t) = Some q ->
  not_an_empty_list ls conds -> (forall c, In c (asked conds ++ added ls) -> In (q_field c) (r_fields q)) ->
  exists out, b_query (pile b ls) t conds = Ok (mkQR (r_fields q) (r_types q) out) /\
    keeps (satisfies cmp (r_fields q) (asked conds ++ added ls)) (r_rows q) out.
Proof. exact pile_answer. Qed.
Print Assumptions C44_pile.

(** One more injector only removes rows: those that fail its conditions. *)
Theorem C44_only_restricts : forall cmp b content l ls t conds q, faithful cmp b content ->
  content (real_table ls t) = Some q -> not_an_empty_list ls conds -> l <> [] ->
  (forall c, In c (asked conds ++ l ++ added ls) -> In (q_field c) (r_fields q)) ->
  exists inner outer, b_query (pile b ls) t conds = Ok inner /\ b_query (cond_injector (pile b ls) l) t conds = Ok outer /\
    r_fields outer = r_fields inner /\ r_types outer = r_types inner /\
    keeps (satisfies cmp (r_fields inner) l) (r_rows inner) (r_rows outer).
Proof. exact pile_inner. Qed.
Print Assumptions C44_only_restricts.

(** It makes no difference in which order conditions are injected, or whether they are injected or asked. *)
Theorem C44_order_is_irrelevant : forall cmp b content ls1 ls2 t1 t2 conds1 conds2 q r1 r2, faithful cmp b content ->
  real_table ls1 t1 = real_table ls2 t2 -> content (real_table ls1 t1) = Some q ->
  (forall c, In c (asked conds1 ++ added ls1) <-> In c (asked conds2 ++ added ls2)) ->
  (forall c, In c (asked conds1 ++ added ls1) -> In (q_field c) (r_fields q)) ->
  not_an_empty_list ls1 conds1 -> not_an_empty_list ls2 conds2 ->
  b_query (pile b ls1) t1 conds1 = r1 -> b_query (pile b ls2) t2 conds2 = r2 -> r1 = r2.
Proof. exact pile_order. Qed.
Print Assumptions C44_order_is_irrelevant.

(** Unknown tables and unknown columns are errors. *)
Theorem C44_sqlite_errors : forall cmp db t conds, well_formed_db db ->
  (find_table db t = None -> b_query (sqlite_back cmp db) t conds = Throw ValueError) /\
  (forall q, find_table db t = Some q -> conds = Some [] -> b_query (sqlite_back cmp db) t conds = Throw IOError) /\
  (forall q cs c, find_table db t = Some q -> conds = Some cs -> In c cs -> ~ In (q_field c) (r_fields q) ->
     b_query (sqlite_back cmp db) t conds = Throw IOError).
Proof. exact sqlite_errors. Qed.
Print Assumptions C44_sqlite_errors.

(** Reading a result: a value read is the row's value in that column, and every such value of the right kind is read. *)
Theorem C44_get_val : forall T (cast : anyval -> option T) r f row,
  (forall x, get_val cast r f row = Ok x -> (0 <= row)%Z /\
     exists vs v, nth_error (r_rows r) (Z.to_nat row) = Some vs /\ column (r_fields r) vs f v /\ cast v = Some x) /\
  (forall vs v, (0 <= row)%Z -> nth_error (r_rows r) (Z.to_nat row) = Some vs -> column (r_fields r) vs f v ->
     get_val cast r f row = match cast v with Some x => Ok x | None => Throw CastError end).
Proof. intros T cast r f row. split; [exact (fun x => @get_val_ok T cast r f row x)|exact (fun vs v => @get_val_total T cast r f row vs v)]. Qed.
Print Assumptions C44_get_val.

(** An injector with nothing to inject is not harmless: a query that returns every row fails through it. *)
Definition C44_cmp : sql_holds := fun op x y => match cmp_cond x (mkCond "" "" op y) with Ok b => b | _ => false end.
Definition C44_db : database :=
  [("AgentStateInfo", mkQR ["AgentId"; "Name"] [TInt; TStr] [[VInt 1; VStr "a"]; [VInt 2; VStr "b"]; [VInt 2; VStr "c"]])]%string.
Theorem C44_empty_injection_refuted :
  b_query (sqlite_back C44_cmp C44_db) "AgentStateInfo" None = Ok (snd (hd ("", mkQR [] [] []) C44_db)%string) /\
  b_query (cond_injector (sqlite_back C44_cmp C44_db) []) "AgentStateInfo" None = Throw IOError.
Proof. split; reflexivity. Qed.
Print Assumptions C44_empty_injection_refuted.

(** The prefix is applied to queries only: the columns of a table that can be queried cannot be asked for by the same
    name, and the list of tables shows names that cannot be queried. *)
Theorem C44_prefix_schema_refuted :
  let b := prefix_injector (sqlite_back C44_cmp C44_db) "AgentState" in
  (exists r, b_query b "Info" None = Ok r) /\ b_column_types b "Info" = Throw ValueError /\ b_schema b "Info" = Throw ValueError /\
  In "AgentStateInfo"%string (b_tables b) /\ b_query b "AgentStateInfo" None = Throw ValueError.
Proof. cbn. split; [eexists; reflexivity|]. repeat split. now left. Qed.
Print Assumptions C44_prefix_schema_refuted.

(** The pile used to restore an agent: its id injected, its prefix in front. *)
Definition C44_id2 : cond := mkCond "AgentId" "==" EQ (VInt 2).
Example C44_ex_wf : well_formed_db C44_db.
Proof. intros t q. unfold find_table, C44_db. cbn [find fst snd]. destruct ("AgentStateInfo" =? t)%string; [|discriminate]. intros [= <-]. split; [discriminate|reflexivity]. Qed.
Example C44_ex_pile :
  b_query (pile (sqlite_back C44_cmp C44_db) [Prefixed "AgentState"; OnlyWhere [C44_id2]]) "Info" None =
  Ok (mkQR ["AgentId"; "Name"] [TInt; TStr] [[VInt 2; VStr "b"]; [VInt 2; VStr "c"]])%string.
Proof. reflexivity. Qed.
Example C44_ex_pile_hyps :
  find_table C44_db (real_table [Prefixed "AgentState"; OnlyWhere [C44_id2]] "Info") = Some (snd (hd ("", mkQR [] [] []) C44_db))%string /\
  not_an_empty_list [Prefixed "AgentState"; OnlyWhere [C44_id2]] None /\
  (forall c, In c (asked None ++ added [Prefixed "AgentState"; OnlyWhere [C44_id2]]) -> In (q_field c) ["AgentId"; "Name"])%string.
Proof. split; [reflexivity|]. split; [right; discriminate|]. intros c [<-|[]]. now left. Qed.
Example C44_ex_conjunction : Forall constructed [C44_id2; mkCond "AgentId" "<" LT (VInt 5)] /\
  cmp_conds (VInt 2) [C44_id2; mkCond "AgentId" "<" LT (VInt 5)] = Ok true /\ cmp_conds (VInt 3) [C44_id2] = Ok false.
Proof.
  split; [|split; reflexivity]. constructor; [exists "AgentId"%string, "=="%string, (VInt 2); reflexivity|].
  constructor; [exists "AgentId"%string, "<"%string, (VInt 5); reflexivity|constructor].
Qed.
