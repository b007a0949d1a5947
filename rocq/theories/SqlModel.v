(** The SQLite backend: src/sqlite_back.cc, src/sqlite_back.h, src/sqlite_db.cc. Conditions of queries are in
    QueryModel.v; here a table is read as a whole.

    Simplifications, once for the whole file:
    - a title or field name goes into SQL text as it is: one that is not a plain identifier, or is reserved by SQLite, or
      is the name of the table FieldTypes is undefined behaviour ([plain] tells);
    - of SQLite itself: tables with typed columns, one level of transactions, names compared without regard to case, and
      the storage classes; any executed statement may fail (disk full and the like, [trouble]), and such a failure
      may roll the transaction back, as SQLite documents. A crash leaves what was last committed (with
      synchronous=OFF and the journal in memory, sqlite_back.cc 52-53, this is so for the end of the process between
      statements of a transaction, not for the loss of power);
    - a double is a rational, an infinity or not a number; a float is a double; text is a sequence of bytes;
    - the containers of the type map are one kind of value with a tag for the type; their XML archive is an oracle
      ([ser], [deser]);
    - the constructor's statements do not fail. *)
From Coq Require Import String Ascii QArith List Bool Arith ZArith Lia.
From Verif Require Import Base.
Import ListNotations.
Open Scope list_scope.

Inductive dbl := Fin (q : Q) | Inf (negative : bool) | NaN.

(** What a hold_any holds; [SOther] is any type that is not in the type map. [X] is the content of containers. *)
Inductive sval {X : Type} :=
| SInt (z : Z) | SBool (b : bool) | SDbl (d : dbl) | SFlt (d : dbl) | SBlob (s : string) | SStr (s : string)
| SUuid (s : string) | SObj (tag : nat) (x : X) | SOther.
Arguments sval : clear implicits.
Inductive dbtype := INT | BOOL | DOUBLE | FLOAT | BLOB | STRING | UUID | OBJ (tag : nat).

(** sqlite_back.cc 508-574, Type; an unsupported type throws ValueError. *)
Definition type_of {X} (v : sval X) : option dbtype :=
  match v with
  | SInt _ => Some INT | SBool _ => Some BOOL | SDbl _ => Some DOUBLE | SFlt _ => Some FLOAT
  | SBlob _ => Some BLOB | SStr _ => Some STRING | SUuid _ => Some UUID | SObj k _ => Some (OBJ k)
  | SOther => None
  end.

(** Column affinities and 483-498, SqlType. *)
Inductive affinity := AInteger | AReal | AText | ABlob.
Definition sql_type (t : dbtype) : affinity :=
  match t with
  | INT | BOOL => AInteger
  | DOUBLE | FLOAT => AReal
  | STRING => AText
  | _ => ABlob
  end.

(** Storage classes of SQLite. *)
Inductive cell := CNull | CInt (z : Z) | CReal (d : dbl) | CText (s : string) | CBlob (s : string).

(** A C string ends at the first NUL. *)
Fixpoint cstr (s : string) : string :=
  match s with
  | EmptyString => EmptyString
  | String a rest => if Ascii.eqb a zero then EmptyString else String a (cstr rest)
  end.

(** A name as SQLite compares it. *)
Definition low (a : ascii) : ascii :=
  let n := nat_of_ascii a in if Nat.leb 65 n && Nat.leb n 90 then ascii_of_nat (n + 32) else a.
Fixpoint lower (s : string) : string :=
  match s with EmptyString => EmptyString | String a rest => String (low a) (lower rest) end.
Definition same_name (a b : string) : bool := String.eqb (lower a) (lower b).

Section Sql.
Variable X : Type.
Variable plain : string -> bool.
Variable trouble : nat -> option bool.       (* the n-th statement fails; true: and the transaction is rolled back *)
Variable ser : nat -> X -> string.           (* boost::archive::xml_oarchive *)
Variable deser : nat -> string -> option X.  (* boost::archive::xml_iarchive; None: it throws *)
Variable conv : affinity -> cell -> cell.    (* what SQLite makes of a value of another class than the column's *)
Variable as_int : cell -> Z.                 (* and of a column read as another class *)
Variable as_dbl : cell -> dbl.
Variable as_text : cell -> string.
Notation sv := (sval X).

(** datum.h 30-70: a title and the values with their field names. *)
Record datum := mkDatum { dt_title : string; dt_vals : list (string * sv) }.

(** ** The database *)
Record table := mkTab { tb_name : string; tb_cols : list (string * affinity); tb_rows : list (list cell) }.
(** The table FieldTypes (65-66) and the others. *)
Record db := mkDb { d_ft : list (string * string * dbtype); d_tabs : list table }.
Definition db0 : db := mkDb [] [].
(** A connection: what is committed, the state inside an open transaction, and the count of statements. *)
Record conn := mkConn { k_disk : db; k_txn : option db; k_n : nat }.
Definition now (c : conn) : db := match k_txn c with Some w => w | None => k_disk c end.

Definition find_tab (n : string) (w : db) : option table := find (fun t => same_name n (tb_name t)) (d_tabs w).

(** sqlite_db.cc 139-157 (Execute) and 16-24, 75-80 (Exec, Must): one statement. *)
Definition stmt (f : conn -> result conn) (c : conn) : result unit * conn :=
  let c1 := mkConn (k_disk c) (k_txn c) (S (k_n c)) in
  match trouble (k_n c) with
  | Some true => (Throw IOError, mkConn (k_disk c) None (S (k_n c)))
  | Some false => (Throw IOError, c1)
  | None => match f c1 with Ok c2 => (Ok tt, c2) | Throw e => (Throw e, c1) | UB => (UB, c1) end
  end.
Definition begin_txn : conn -> result unit * conn :=
  stmt (fun c => match k_txn c with None => Ok (mkConn (k_disk c) (Some (k_disk c)) (k_n c)) | Some _ => Throw IOError end).
Definition end_txn : conn -> result unit * conn :=
  stmt (fun c => match k_txn c with Some w => Ok (mkConn w None (k_n c)) | None => Throw IOError end).
(** A change of the data; outside a transaction it is committed at once. *)
Definition change (f : db -> result db) : conn -> result unit * conn :=
  stmt (fun c => match f (now c) with
                 | Ok w => Ok (match k_txn c with Some _ => mkConn (k_disk c) (Some w) (k_n c) | None => mkConn w None (k_n c) end)
                 | Throw e => Throw e
                 | UB => UB
                 end).

(** INSERT INTO FieldTypes. *)
Definition add_field (t f : string) (ty : dbtype) (w : db) : result db := Ok (mkDb (d_ft w ++ [(t, f, ty)]) (d_tabs w)).
(** CREATE TABLE: neither the table nor a column may exist already. *)
Fixpoint distinct_names (l : list string) : bool :=
  match l with [] => true | x :: t => negb (existsb (same_name x) t) && distinct_names t end.
Definition create (t : string) (cols : list (string * affinity)) (w : db) : result db :=
  match find_tab t w with
  | Some _ => Throw IOError
  | None => if distinct_names (map fst cols) then Ok (mkDb (d_ft w) (d_tabs w ++ [mkTab t cols []])) else Throw IOError
  end.
(** The class of a value fits the column. *)
Definition fits (a : affinity) (c : cell) : bool :=
  match a, c with
  | _, CNull => true
  | AInteger, CInt _ | AReal, CReal _ | AText, CText _ | ABlob, CBlob _ => true
  | _, _ => false
  end.
Definition coerce (a : affinity) (c : cell) : cell := if fits a c then c else conv a c.
(** INSERT INTO t VALUES (?, ...) with [n] parameters; parameters that are not bound are NULL. *)
Definition insert_row (t : string) (n : nat) (cells : list cell) (w : db) : result db :=
  match find_tab t w with
  | None => Throw IOError
  | Some tb =>
      if Nat.eqb n (length (tb_cols tb)) then
        let row := map (fun p => coerce (snd (fst p)) (snd p)) (combine (tb_cols tb) (cells ++ repeat CNull (n - length cells))) in
        Ok (mkDb (d_ft w) (map (fun x => if same_name t (tb_name x) then mkTab (tb_name x) (tb_cols x) (tb_rows x ++ [row]) else x) (d_tabs w)))
      else Throw IOError
  end.

(** ** The backend *)

(** sqlite_back.h 75-84: tbl_names_, stmts_ (number of parameters) and schemas_. *)
Record back := mkBack {
  b_conn : conn; b_names : list string; b_stmts : list (string * nat); b_schemas : list (string * list dbtype) }.
Definition set_conn (b : back) c := mkBack c (b_names b) (b_stmts b) (b_schemas b).
Fixpoint sget {A} (k : string) (l : list (string * A)) : option A :=
  match l with [] => None | (x, v) :: t => if String.eqb k x then Some v else sget k t end.
Definition mem (k : string) (l : list string) : bool := existsb (String.eqb k) l.

(** 48-69, the constructor on a database file; [n] counts the statements. *)
Definition open_back (w : db) (n : nat) : back := mkBack (mkConn w None n) (map tb_name (d_tabs w)) [] [].

(** 205-230: the rows of FieldTypes. A value of unsupported type throws before its row is written. *)
Fixpoint note_fields (t : string) (vals : list (string * sv)) (c : conn) : result unit * conn :=
  match vals with
  | [] => (Ok tt, c)
  | (f, v) :: rest =>
      match type_of v with
      | None => (Throw ValueError, c)
      | Some ty => match change (add_field t f ty) c with
                   | (Ok _, c1) => note_fields t rest c1
                   | x => x
                   end
      end
  end.
Definition columns (vals : list (string * sv)) : list (string * affinity) :=
  map (fun p => (fst p, match type_of (snd p) with Some ty => sql_type ty | None => ABlob end)) vals.
(** 205-234, CreateTable. The name is remembered first. *)
Definition create_table (d : datum) (b : back) : result unit * back :=
  let b1 := mkBack (b_conn b) (dt_title d :: b_names b) (b_stmts b) (b_schemas b) in
  match note_fields (dt_title d) (dt_vals d) (b_conn b) with
  | (Ok _, c) => let '(r, c2) := change (create (dt_title d) (columns (dt_vals d))) c in (r, set_conn b1 c2)
  | (r, c) => (r, set_conn b1 c)
  end.

Fixpoint types_of (vals : list (string * sv)) : option (list dbtype) :=
  match vals with
  | [] => Some []
  | (_, v) :: rest => match type_of v, types_of rest with Some t, Some l => Some (t :: l) | _, _ => None end
  end.
(** 188-203, BuildStmt. In stmts_[name] = db_.Prepare(insert) the right side comes first (C++17). *)
Definition build_stmt (d : datum) (b : back) : result unit * back :=
  match types_of (dt_vals d) with
  | None => (Throw ValueError, b)
  | Some l =>
      let b1 := mkBack (b_conn b) (b_names b) (b_stmts b) ((dt_title d, l) :: b_schemas b) in
      match find_tab (dt_title d) (now (b_conn b)) with
      | Some tb =>
          if Nat.eqb (length l) (length (tb_cols tb))
          then (Ok tt, mkBack (b_conn b) (b_names b) ((dt_title d, length l) :: b_stmts b) ((dt_title d, l) :: b_schemas b))
          else (Throw IOError, b1)
      | None => (Throw IOError, b1)
      end
  end.

(** 249-366, Bind: a value of another type than the schema's throws bad_any_cast. SQLite stores NaN as NULL; text is passed
    as a C string. *)
Definition real (d : dbl) : cell := match d with NaN => CNull | _ => CReal d end.
Definition bind (t : dbtype) (v : sv) : result cell :=
  match t, v with
  | INT, SInt z => Ok (CInt z)
  | BOOL, SBool b => Ok (CInt (if b then 1 else 0))
  | DOUBLE, SDbl d => Ok (real d)
  | FLOAT, SFlt d => Ok (real d)
  | BLOB, SBlob s => Ok (CBlob s)
  | STRING, SStr s => Ok (CText (cstr s))
  | UUID, SUuid s => Ok (CBlob s)
  | OBJ k, SObj k' x => if Nat.eqb k k' then Ok (CBlob (ser k x)) else Throw CastError
  | _, _ => Throw CastError
  end.
Fixpoint bind_all (schema : list dbtype) (vals : list (string * sv)) : result (list cell) :=
  match vals with
  | [] => Ok []
  | (_, v) :: rest =>
      match schema with
      | [] => UB                       (* schema[i] past the end *)
      | t :: ts =>
          match bind t v with
          | Ok c => match bind_all ts rest with Ok l => Ok (c :: l) | x => x end
          | Throw e => Throw e
          | UB => UB
          end
      end
  end.
(** 236-247, WriteDatum. *)
Definition write_datum (d : datum) (b : back) : result unit * back :=
  match sget (dt_title d) (b_stmts b), sget (dt_title d) (b_schemas b) with
  | Some n, Some schema =>
      match bind_all schema (dt_vals d) with
      | Ok cells => let '(r, c) := change (insert_row (dt_title d) n cells) (b_conn b) in (r, set_conn b c)
      | Throw e => (Throw e, b)
      | UB => (UB, b)
      end
  | _, _ => (UB, b)
  end.

(** 75-82, one datum of a delivery. One without values, or with a name that is not plain, is undefined. *)
Definition put (d : datum) (b : back) : result unit * back :=
  match dt_vals d with
  | [] => (UB, b)
  | _ =>
    if plain (dt_title d) && forallb plain (map fst (dt_vals d)) then
      let '(r1, b1) := if mem (dt_title d) (b_names b) then (Ok tt, b) else create_table d b in
      match r1 with
      | Ok _ =>
          let '(r2, b2) := match sget (dt_title d) (b_stmts b1) with Some _ => (Ok tt, b1) | None => build_stmt d b1 end in
          match r2 with
          | Ok _ => write_datum d b2
          | r => (r, b2)
          end
      | r => (r, b1)
      end
    else (UB, b)
  end.
Fixpoint put_all (l : list datum) (b : back) : result unit * back :=
  match l with
  | [] => (Ok tt, b)
  | d :: rest => match put d b with (Ok _, b1) => put_all rest b1 | x => x end
  end.
(** 71-90, Notify. *)
Definition notify (l : list datum) (b : back) : result unit * back :=
  match begin_txn (b_conn b) with
  | (Ok _, c) =>
      match put_all l (set_conn b c) with
      | (Ok _, b1) => let '(r, c1) := end_txn (b_conn b1) in (r, set_conn b1 c1)
      | (Throw ValueError, b1) =>
          let '(r, c1) := end_txn (b_conn b1) in
          (match r with Ok _ => Throw ValueError | x => x end, set_conn b1 c1)
      | x => x
      end
  | (r, c) => (r, set_conn b c)
  end.

(** ** Reading *)

(** sqlite_db.cc 35-50, GetInt, GetDouble, GetText (None: a null pointer). *)
Definition get_int (c : cell) : Z := match c with CInt z => z | CNull => 0 | _ => as_int c end.
Definition get_dbl (c : cell) : dbl := match c with CReal d => d | CInt z => Fin (inject_Z z) | CNull => Fin 0 | _ => as_dbl c end.
Definition get_text (c : cell) : option string :=
  match c with CText s | CBlob s => Some s | CNull => None | _ => Some (as_text c) end.
(** 368-481, ColAsVal. *)
Definition col_as_val (t : dbtype) (c : cell) : result sv :=
  match t with
  | INT => Ok (SInt (get_int c))
  | BOOL => Ok (SBool (negb (Z.eqb (get_int c) 0)))
  | DOUBLE => Ok (SDbl (get_dbl c))
  | FLOAT => Ok (SFlt (get_dbl c))
  | STRING => match get_text c with Some s => Ok (SStr (cstr s)) | None => UB end
  | BLOB => match get_text c with Some s => Ok (SBlob s) | None => UB end
  | UUID => match get_text c with
            | Some s => if Nat.leb 16 (String.length s) then Ok (SUuid (substring 0 16 s)) else UB
            | None => UB
            end
  | OBJ k => match get_text c with
             | Some s => match deser k (cstr s) with Some x => Ok (SObj k x) | None => Throw PlainError end
             | None => UB
             end
  end.
Fixpoint all_ok {A B} (f : A -> result B) (l : list A) : result (list B) :=
  match l with
  | [] => Ok []
  | a :: rest => match f a with
                 | Ok x => match all_ok f rest with Ok xs => Ok (x :: xs) | r => r end
                 | Throw e => Throw e
                 | UB => UB
                 end
  end.
(** 166-182, GetTableInfo. *)
Definition table_info (t : string) (w : db) : result (list (string * dbtype)) :=
  match map (fun r => (snd (fst r), snd r)) (filter (fun r => String.eqb t (fst (fst r))) (d_ft w)) with
  | [] => Throw ValueError
  | l => Ok l
  end.
(** 104-138, Query without conditions: the column names, their types and the rows. A column past the end is NULL. *)
Record qresult := mkQR { q_fields : list string; q_types : list dbtype; q_rows : list (list sv) }.
Definition read_row (info : list (string * dbtype)) (row : list cell) : result (list sv) :=
  all_ok (fun p => col_as_val (snd (snd p)) (nth (fst p) row CNull)) (combine (seq 0 (length info)) info).
Definition query_db (t : string) (w : db) : result qresult :=
  match table_info t w with
  | Ok info =>
      match find_tab t w with
      | Some tb => match all_ok (read_row info) (tb_rows tb) with
                   | Ok rows => Ok (mkQR (map fst info) (map snd info) rows)
                   | Throw e => Throw e
                   | UB => UB
                   end
      | None => Throw IOError
      end
  | Throw e => Throw e
  | UB => UB
  end.
Definition query (t : string) (b : back) : result qresult := query_db t (now (b_conn b)).
(** 148-160, Tables (FieldTypes itself is left out). *)
Definition tables (b : back) : list string := map tb_name (d_tabs (now (b_conn b))).
End Sql.
