(** * QuerySpec: what conditions and queries should mean, for C44. *)
From Coq Require Import String List ZArith QArith Ascii Bool.
From Verif Require Import Base QueryModel.
Import ListNotations.

(** Dictionary order on strings, byte by byte. *)
Inductive sless : string -> string -> Prop :=
| sl_empty : forall c s, sless EmptyString (String c s)
| sl_head : forall a b s t, (nat_of_ascii a < nat_of_ascii b)%nat -> sless (String a s) (String b t)
| sl_tail : forall a s t, sless s t -> sless (String a s) (String a t).

Definition vless (x y : anyval) : Prop :=
  match x, y with
  | VInt a, VInt b => (a < b)%Z
  | VDbl a, VDbl b => (a < b)%Q
  | VStr a, VStr b => sless a b
  | VBool a, VBool b => a = false /\ b = true
  | _, _ => False
  end.
Definition vequal (x y : anyval) : Prop :=
  match x, y with
  | VInt a, VInt b => a = b
  | VDbl a, VDbl b => (a == b)%Q
  | VStr a, VStr b => a = b
  | VBool a, VBool b => a = b
  | _, _ => False
  end.
Definition same_kind (x y : anyval) : Prop :=
  match x, y with
  | VInt _, VInt _ | VDbl _, VDbl _ | VStr _, VStr _ | VBool _, VBool _ => True
  | _, _ => False
  end.

(** The relation an operator text stands for. *)
Definition compares (op : string) (x y : anyval) : Prop :=
  if String.eqb op "<" then vless x y
  else if String.eqb op ">" then vless y x
  else if String.eqb op "<=" then vless x y \/ vequal x y
  else if String.eqb op ">=" then vless y x \/ vequal x y
  else if String.eqb op "==" then vequal x y
  else if String.eqb op "!=" then same_kind x y /\ ~ vequal x y
  else False.

(** [out] keeps, in order, exactly the rows with property [P]. *)
Inductive keeps {A} (P : A -> Prop) : list A -> list A -> Prop :=
| k_nil : keeps P [] []
| k_in : forall r rows out, P r -> keeps P rows out -> keeps P (r :: rows) (r :: out)
| k_out : forall r rows out, ~ P r -> keeps P rows out -> keeps P (r :: rows) out.

(** The value a row has in a named column: the first column of that name. *)
Definition column (fields : list string) (row : list anyval) (f : string) (v : anyval) : Prop :=
  exists i, nth_error fields i = Some f /\ (forall j, (j < i)%nat -> nth_error fields j <> Some f) /\ nth_error row i = Some v.

(** A row satisfies all conditions, the database deciding how single values compare. *)
Definition satisfies (cmp : sql_holds) (fields : list string) (cs : list cond) (row : list anyval) : Prop :=
  forall c, In c cs -> exists v, column fields row (q_field c) v /\ cmp (q_opcode c) v (q_val c) = true.

(** A backend that answers queries on its tables faithfully: all rows when no conditions are given, and the rows that
    satisfy a (non-empty) list of conditions on existing columns. *)
Definition faithful (cmp : sql_holds) (b : backend) (content : string -> option qresult) : Prop :=
  forall t q, content t = Some q ->
    b_query b t None = Ok q /\
    forall cs, cs <> [] -> (forall c, In c cs -> In (q_field c) (r_fields q)) ->
      exists out, b_query b t (Some cs) = Ok (mkQR (r_fields q) (r_types q) out) /\
        keeps (satisfies cmp (r_fields q) cs) (r_rows q) out.

(** A pile of injectors, the outermost first. *)
Inductive layer := OnlyWhere (cs : list cond) | Prefixed (p : string).
Fixpoint pile (b : backend) (ls : list layer) : backend :=
  match ls with
  | [] => b
  | OnlyWhere cs :: ls => cond_injector (pile b ls) cs
  | Prefixed p :: ls => prefix_injector (pile b ls) p
  end.
(** The table a query through the pile is about, and the conditions it adds. *)
Fixpoint real_table (ls : list layer) (t : string) : string :=
  match ls with
  | [] => t
  | OnlyWhere _ :: ls => real_table ls t
  | Prefixed p :: ls => real_table ls (String.append p t)
  end.
Fixpoint added (ls : list layer) : list cond :=
  match ls with
  | [] => []
  | OnlyWhere cs :: ls => cs ++ added ls
  | Prefixed _ :: ls => added ls
  end.
Definition restricts (l : layer) : Prop := match l with OnlyWhere _ => True | Prefixed _ => False end.
Definition asked (conds : option (list cond)) : list cond := match conds with Some cs => cs | None => [] end.

(** A database whose tables have columns with a type each. *)
Definition well_formed_db (db : database) : Prop :=
  forall t q, find_table db t = Some q -> r_fields q <> [] /\ List.length (r_types q) = List.length (r_fields q).

(** Any conditions at all, or none intended: excludes only a list that is given but, with all that is added, empty. *)
Definition not_an_empty_list (ls : list layer) (conds : option (list cond)) : Prop :=
  (conds = None /\ ~ Exists restricts ls) \/ asked conds ++ added ls <> [].

(** A condition as its constructor makes it. *)
Definition constructed (c : cond) : Prop := exists f op v, make_cond f op v = Ok c.
