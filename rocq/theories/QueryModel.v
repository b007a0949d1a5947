(** * QueryModel: conditions, query results, injectors (src/query_backend.h) and the queries of the SQLite backend
    (src/sqlite_back.cc).

    A hold_any value is one of four kinds here: int, double, string and bool; a cast to another kind throws. *)
From Coq Require Import String List ZArith QArith Ascii Bool.
From Verif Require Import Base.
Import ListNotations.
Local Open Scope string_scope.

Inductive anyval := VInt (z : Z) | VDbl (q : Q) | VStr (s : string) | VBool (b : bool).
Inductive dbtype := TInt | TDbl | TStr | TBool.

(** query_backend.h 371-379, CmpOpCode. *)
Inductive opcode := LT | GT | LE | GE | EQ | NE.

(** 382-418, Cond: the constructor works the operator code out from the text. *)
Record cond := mkCond { q_field : string; q_op : string; q_opcode : opcode; q_val : anyval }.
Definition make_cond (field op : string) (val : anyval) : result cond :=
  if op =? "<" then Ok (mkCond field op LT val)
  else if op =? ">" then Ok (mkCond field op GT val)
  else if op =? "<=" then Ok (mkCond field op LE val)
  else if op =? ">=" then Ok (mkCond field op GE val)
  else if op =? "==" then Ok (mkCond field op EQ val)
  else if op =? "!=" then Ok (mkCond field op NE val)
  else Throw ValueError.

(** 420-434, QueryRow and QueryResult. *)
Record qresult := mkQR { r_fields : list string; r_types : list dbtype; r_rows : list (list anyval) }.

(** The index of the first field of that name: the loop at 462-468. *)
Fixpoint field_index (fields : list string) (field : string) : option nat :=
  match fields with
  | [] => None
  | f :: fs => if f =? field then Some 0%nat else match field_index fs field with Some i => Some (S i) | None => None end
  end.

(** 453-474, QueryResult::GetVal with the cast left to the caller: T is given by [cast].  A negative row is compared
    as a huge unsigned number at 457.  A row shorter than the fields is read out of bounds. *)
Definition get_val {T} (cast : anyval -> option T) (r : qresult) (field : string) (row : Z) : result T :=
  match r_rows r with
  | [] => Throw StateError
  | _ =>
      if (row <? 0)%Z || (Z.of_nat (List.length (r_rows r)) <=? row)%Z then Throw KeyError
      else match field_index (r_fields r) field with
           | None => Throw KeyError
           | Some i =>
               match nth_error (r_rows r) (Z.to_nat row) with
               | Some vs => match nth_error vs i with
                            | Some v => match cast v with Some x => Ok x | None => Throw CastError end
                            | None => UB end
               | None => UB
               end
           end
  end.

(** ** CmpCond and CmpConds, 584-628 *)

(** The built-in comparisons of the four kinds of value. *)
Definition sltb (a b : string) : bool := match String.compare a b with Lt => true | _ => false end.
Definition seqb (a b : string) : bool := String.eqb a b.
Definition bltb (a b : bool) : bool := negb a && b.
Definition cmp_with {T} (ltb eqb : T -> T -> bool) (op : opcode) (x y : T) : bool :=
  match op with
  | LT => ltb x y
  | GT => ltb y x
  | LE => negb (ltb y x)
  | GE => negb (ltb x y)
  | EQ => eqb x y
  | NE => negb (eqb x y)
  end.
(** CmpCond<T>: [x] is of kind T, the condition's value is cast to T. *)
Definition cmp_cond (x : anyval) (c : cond) : result bool :=
  match x, q_val c with
  | VInt a, VInt b => Ok (cmp_with Z.ltb Z.eqb (q_opcode c) a b)
  | VDbl a, VDbl b => Ok (cmp_with Qltb Qeqb (q_opcode c) a b)
  | VStr a, VStr b => Ok (cmp_with sltb seqb (q_opcode c) a b)
  | VBool a, VBool b => Ok (cmp_with bltb Bool.eqb (q_opcode c) a b)
  | _, _ => Throw CastError
  end.
(** CmpConds<T>: stops at the first condition that does not hold. *)
Fixpoint cmp_conds (x : anyval) (cs : list cond) : result bool :=
  match cs with
  | [] => Ok true
  | c :: cs => match cmp_cond x c with
               | Ok true => cmp_conds x cs
               | Ok false => Ok false
               | Throw e => Throw e
               | UB => UB end
  end.

(** ** Backends and injectors *)

(** 490-510, QueryableBackend.  [None] as conditions is the NULL pointer. *)
Record backend := mkBackend {
  b_query : string -> option (list cond) -> result qresult;
  b_column_types : string -> result (list (string * dbtype));
  b_schema : string -> result (list (string * dbtype));
  b_tables : list string
}.

(** 520-554, CondInjector. *)
Definition cond_injector (b : backend) (to_inject : list cond) : backend :=
  mkBackend
    (fun table conds => match conds with
                        | None => b_query b table (Some to_inject)
                        | Some c => b_query b table (Some (List.app c to_inject)) end)
    (b_column_types b) (b_schema b) (b_tables b).

(** 560-586, PrefixInjector. *)
Definition prefix_injector (b : backend) (prefix : string) : backend :=
  mkBackend (fun table conds => b_query b (prefix ++ table) conds) (b_column_types b) (b_schema b) (b_tables b).

(** ** SqliteBack *)

(** A database: its tables with their recorded columns and rows. *)
Definition database := list (string * qresult).
Definition find_table (db : database) (t : string) : option qresult :=
  match find (fun p => fst p =? t) db with Some p => Some (snd p) | None => None end.

(** sqlite_back.cc 164-182, GetTableInfo: the columns as recorded in FieldTypes; none at all is an error. *)
Definition get_table_info (db : database) (t : string) : result (list (string * dbtype)) :=
  match find_table db t with
  | None => Throw ValueError
  | Some q => match combine (r_fields q) (r_types q) with [] => Throw ValueError | l => Ok l end
  end.

(** How SQLite itself compares a stored value with a bound one is left open. *)
Definition sql_holds := opcode -> anyval -> anyval -> bool.

(** One row against the WHERE clause; an unknown column makes the statement invalid. *)
Fixpoint where_row (cmp : sql_holds) (fields : list string) (cs : list cond) (row : list anyval) : bool :=
  match cs with
  | [] => true
  | c :: cs =>
      match field_index fields (q_field c) with
      | Some i => match nth_error row i with
                  | Some v => cmp (q_opcode c) v (q_val c) && where_row cmp fields cs row
                  | None => false end
      | None => false
      end
  end.

(** 106-137, SqliteBack::Query.  The statement text "WHERE ;" of an empty condition list, and one naming an unknown
    column, are rejected when prepared (sqlite_db.cc 133-155); otherwise SQLite returns the rows of the table that
    satisfy the clause, in order of insertion.  Column names are matched exactly, where SQLite ignores case. *)
Definition sqlite_query (cmp : sql_holds) (db : database) (table : string) (conds : option (list cond)) : result qresult :=
  match get_table_info db table with
  | Ok info =>
      match find_table db table with
      | None => Throw ValueError
      | Some q =>
          let fields := List.map fst info in
          let types := List.map snd info in
          match conds with
          | None => Ok (mkQR fields types (r_rows q))
          | Some [] => Throw IOError
          | Some cs =>
              if forallb (fun c => match field_index (r_fields q) (q_field c) with Some _ => true | None => false end) cs
              then Ok (mkQR fields types (filter (where_row cmp (r_fields q) cs) (r_rows q)))
              else Throw IOError
          end
      end
  | Throw e => Throw e
  | UB => UB
  end.
(** 92-104 Schema, 139-145 ColumnTypes, 147-160 Tables (FieldTypes itself is not listed). *)
Definition sqlite_back (cmp : sql_holds) (db : database) : backend :=
  mkBackend (sqlite_query cmp db) (get_table_info db) (get_table_info db)
    (filter (fun t => negb (t =? "FieldTypes")) (List.map fst db)).
