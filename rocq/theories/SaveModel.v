(** * SaveModel: the methods the preprocessor generates to copy, save and restore an agent (cli/cycpp.py): Clone,
    InitFrom(copy), InitFrom(backend), Snapshot, SnapshotInv and InitInv, with the C++ statements they consist of
    executed over an agent's members.

    Modelled as follows.
    - A class is the ordered dictionary context[class]['vars']: member names with their annotations, in the order of
      declaration, where an entry that is not a mapping is an alias pointer.
    - Annotations that replace generated code by code of the user, shapes, and the calls of the base classes'
      InitFrom (C31, C32 have Agent's own members) are left out.
    - An expression naming a variable of the method ([m], [b], [qr], [di], [invs], [inv]) does not mean the member of
      that name; such code is [UB] here.  So is code for a ResMap, which has no meaning in C++ (see the spec).
    - A member is a value, a ResBuf (BufModel) or a TotalInvTracker, which refers to buffers of the same object.
    - Recorded values come back as they were recorded (C43, C55 are about the backends). *)
From Coq Require Import String.
From Verif Require Import Base CompModel PackageModel ResourceModel BufModel TrackerModel.
Open Scope Q_scope.

(** ** Annotations *)

(** The canonical type of a variable.  The bare names of BUFFERS without template arguments other than
    TotalInvTracker are not types of a C++ variable. *)
Inductive vtype :=
| TyPlain (t : string)                  (* anything but an inventory *)
| TyBuf (T : elem)                      (* ('cyclus::toolkit::ResBuf', T) *)
| TyMap (key : string) (T : elem)       (* ('cyclus::toolkit::ResMap', key, T) *)
| TyTrk.                                (* 'cyclus::toolkit::TotalInvTracker' *)

(** cli/cycpp.py 99-106: [t in BUFFERS].  A ResMap with its arguments is not in the set. *)
Definition in_buffers (t : vtype) : bool := match t with TyBuf _ | TyTrk => true | _ => false end.
(** 1120-1121, 1925: [key in BUFFERS] where key is the type or the name of the template. *)
Definition key_in_buffers (t : vtype) : bool := match t with TyPlain _ => false | _ => true end.

(** The annotation 'capacity': C++ text, a number or a variable. *)
Inductive capexp := CapNum (q : Q) | CapVar (x : string).
Record info := mkInfo { i_type : vtype; i_cap : option capexp }.
Inductive entry := Var (i : info) | AliasOf (x : string).
Definition vars := list (string * entry).

(** ** Generated statements *)
Inductive stmt :=
| SCopy (x : string)                    (* x = m->x; *)
| SCapFrom (x : string)                 (* x.capacity(m->x.capacity()); *)
| SCapRead (x : string)                 (* x.capacity(); *)
| SGet (x : string)                     (* x = qr.GetVal<T>("x"); *)
| SCapSet (x : string) (e : capexp)     (* x.capacity(e); *)
| SAddVal (x : string)                  (* ->AddVal("x", x) *)
| SPopPush (x : string)                 (* invs["x"] = x.PopNRes(x.count()); x.Push(invs["x"]); *)
| SPush (x : string)                    (* x.Push(inv["x"]); *)
| SEmpty                                (* ; *)
| SMap (x : string).                    (* a statement about a ResMap *)

(** The members of a class that are variables, in order. *)
Definition each (f : string -> info -> list stmt) (c : vars) : list stmt :=
  flat_map (fun e => match snd e with Var i => f (fst e) i | AliasOf _ => [] end) c.

(** InitFromCopyFilter.impl, 1041-1077 and res_impl 1079-1083. *)
Definition gen_copy (c : vars) : list stmt :=
  each (fun x i => if in_buffers (i_type i) then [] else [SCopy x]) c ++
  each (fun x i =>
    if in_buffers (i_type i) then
      match i_type i with TyBuf _ => [SCapFrom x] | TyTrk => [SCapRead x] | TyMap _ _ => [SMap x] | TyPlain _ => [] end
    else []) c.

(** 1122-1124: the capacity of a buffer without the annotation. *)
Definition default_cap : capexp := CapNum (inject_Z (10 ^ 300)).
Definition cap_of (i : info) : capexp := match i_cap i with Some e => e | None => default_cap end.

(** InitFromDbFilter.impl, 1097-1142 and res_impl 1144-1149. *)
Definition gen_db (c : vars) : list stmt :=
  each (fun x i => if key_in_buffers (i_type i) then [] else [SGet x]) c ++
  each (fun x i =>
    if key_in_buffers (i_type i) then
      match i_type i with
      | TyBuf _ => [SCapSet x (cap_of i)] | TyTrk => [SCapRead x] | TyMap _ _ => [SMap x] | TyPlain _ => []
      end
    else []) c.

(** SnapshotFilter.impl, 1869-1897 and res_exprs 1899-1903: no expression for a ResBuf or a tracker.  A ResMap is
    recorded as it stands. *)
Definition gen_snapshot (c : vars) : list stmt :=
  each (fun x i =>
    if in_buffers (i_type i) then
      match i_type i with TyBuf _ | TyTrk => [] | TyMap _ _ => [SMap x] | TyPlain _ => [] end
    else match i_type i with TyMap _ _ => [SMap x] | _ => [SAddVal x] end) c.

(** SnapshotInvFilter.impl, 1914-1947 and res_impl 1949-1955. *)
Definition gen_snapshotinv (c : vars) : list stmt :=
  each (fun x i =>
    if in_buffers (i_type i) || key_in_buffers (i_type i) then
      match i_type i with TyBuf _ => [SPopPush x] | TyMap _ _ => [SMap x] | TyTrk => [SEmpty] | TyPlain _ => [] end
    else []) c.

(** InitInvFilter.impl, 1969-1997 and res_impl 1999-2003. *)
Definition gen_initinv (c : vars) : list stmt :=
  each (fun x i =>
    if in_buffers (i_type i) then
      match i_type i with TyBuf _ => [SPush x] | TyMap _ _ => [SMap x] | TyTrk => [SEmpty] | TyPlain _ => [] end
    else []) c.

(** ** Agents *)
Inductive val := VNum (q : Q) | VText (s : string) | VMany (l : list val).
(** A tracker has its own limit and the names of the buffers it watches (total_inv_tracker.h 139-142). *)
Inductive member := MVal (v : val) | MBuf (T : elem) (b : buf) | MTrk (max : Q) (watched : list string).
Definition object := list (string * member).

Fixpoint find {A} (x : string) (l : list (string * A)) : option A :=
  match l with [] => None | (k, a) :: rest => if String.eqb k x then Some a else find x rest end.
(** Assignment to the member [x]. *)
Fixpoint assign {A} (x : string) (a : A) (l : list (string * A)) : list (string * A) :=
  match l with
  | [] => []
  | (k, b) :: rest => if String.eqb k x then (k, a) :: rest else (k, b) :: assign x a rest
  end.

(** The name of a member in a method whose own variables are [locals]. *)
Definition member_of (locals : list string) (x : string) (o : object) : option member :=
  if existsb (String.eqb x) locals then None else find x o.

(** total_inv_tracker.h 86-93: the loop over the watched buffers, for its effect: the result is not used. *)
Fixpoint watch (l : list string) (o : object) : result unit :=
  match l with
  | [] => Ok tt
  | x :: rest => match find x o with Some (MBuf _ _) => watch rest o | _ => UB end
  end.
(** 80-82 with 112-118: capacity() throws if no buffer is watched. *)
Definition cap_read (locals : list string) (x : string) (o : object) : result unit :=
  match member_of locals x o with
  | Some (MTrk _ []) => Throw ValueError
  | Some (MTrk _ l) => watch l o
  | _ => UB
  end.

Section WithEnv.
Variable E : env.

(** [x.capacity(cap)] for a buffer; the resources are not touched (BufModel's [buf_capacity] in any world). *)
Definition cap_write (locals : list string) (x : string) (cap : option Q) (o : object) : result object :=
  match member_of locals x o with
  | Some (MBuf T b) =>
      match buf_capacity E cap (world0, b) with
      | (Ok _, (_, b')) => Ok (assign x (MBuf T b') o)
      | (Throw e, _) => Throw e
      | (UB, _) => UB
      end
  | _ => UB
  end.

Definition step_all {S} (f : stmt -> S -> result S) : list stmt -> S -> result S :=
  fix go ss s := match ss with
                 | [] => Ok s
                 | a :: rest => match f a s with Ok s' => go rest s' | Throw e => Throw e | UB => UB end
                 end.

(** The body of InitFrom(C* m), executed on the object [o]. *)
Definition copy_stmt (m : object) (a : stmt) (o : object) : result object :=
  let locals := ["m"%string] in
  match a with
  | SCopy x =>
      match member_of locals x o, find x m with
      | Some (MVal _), Some (MVal v) => Ok (assign x (MVal v) o)
      | _, _ => UB
      end
  | SCapFrom x => match find x m with Some (MBuf _ b) => cap_write locals x (b_cap b) o | _ => UB end
  | SCapRead x => match cap_read locals x o with Ok _ => Ok o | Throw e => Throw e | UB => UB end
  | _ => UB
  end.
Definition init_from_copy (c : vars) (m o : object) : result object := step_all (copy_stmt m) (gen_copy c) o.

(** CloneFilter.impl, 1022-1028: [fresh] is what the constructor made. *)
Definition clone (c : vars) (fresh self : object) : result object := init_from_copy c self fresh.

(** src/query_backend.h 455-477: GetVal<T>(field) on the rows of the query, for row 0.  The cast is to the type the
    variable had when it was recorded. *)
Definition row := list (string * val).
Definition get_val (rows : list row) (x : string) : result val :=
  match rows with
  | [] => Throw StateError
  | r :: _ => match find x r with Some v => Ok v | None => Throw KeyError end
  end.

(** The capacity expression inside the method. *)
Definition eval_cap (locals : list string) (e : capexp) (o : object) : result Q :=
  match e with
  | CapNum q => Ok q
  | CapVar y => match member_of locals y o with Some (MVal (VNum q)) => Ok q | _ => UB end
  end.

(** The body of InitFrom(QueryableBackend* b) after the query of "Info" gave [rows]. *)
Definition db_stmt (rows : list row) (a : stmt) (o : object) : result object :=
  let locals := ["b"%string; "qr"%string] in
  match a with
  | SGet x =>
      match member_of locals x o with
      | Some (MVal _) =>
          match get_val rows x with Ok v => Ok (assign x (MVal v) o) | Throw e => Throw e | UB => UB end
      | _ => UB
      end
  | SCapSet x e =>
      match eval_cap locals e o with Ok q => cap_write locals x (Some q) o | Throw e => Throw e | UB => UB end
  | SCapRead x => match cap_read locals x o with Ok _ => Ok o | Throw e => Throw e | UB => UB end
  | _ => UB
  end.
Definition init_from_db (c : vars) (rows : list row) (o : object) : result object :=
  step_all (db_stmt rows) (gen_db c) o.

(** Snapshot(DbInit di): the row that is recorded in "Info". *)
Definition snap_stmt (o : object) (a : stmt) (r : row) : result row :=
  match a with
  | SAddVal x => match member_of ["di"%string] x o with Some (MVal v) => Ok (r ++ [(x, v)]) | _ => UB end
  | _ => UB
  end.
Definition snapshot (c : vars) (o : object) : result row := step_all (snap_stmt o) (gen_snapshot c) [].

(** ** Inventories *)
Definition invs := list (string * list nat).
(** std::map::operator[] for reading and for assignment. *)
Definition inv_at (x : string) (i : invs) : list nat := match find x i with Some l => l | None => [] end.
Definition inv_put (x : string) (l : list nat) (i : invs) : invs :=
  match find x i with Some _ => assign x l i | None => i ++ [(x, l)] end.

(** A method that may throw half way: what it did to the resources and to the object stays. *)
Definition GM (A : Type) := world * object -> result A * (world * object).
(** A call on the buffer [x]. *)
Definition on_buf {A} (locals : list string) (x : string) (f : elem -> BM A) : GM A := fun s =>
  match member_of locals x (snd s) with
  | Some (MBuf T b) =>
      let '(r, (w, b')) := f T (fst s, b) in (r, (w, assign x (MBuf T b') (snd s)))
  | _ => (UB, s)
  end.

(** SnapshotInv(). *)
Fixpoint run_snapshotinv (ss : list stmt) (i : invs) : GM invs := fun s =>
  match ss with
  | [] => (Ok i, s)
  | SPopPush x :: rest =>
      match on_buf ["invs"%string] x (fun _ => b <~ bget;; buf_pop_n (count b)) s with
      | (Ok l, s1) =>
          let i := inv_put x l i in
          match on_buf ["invs"%string] x (fun T => buf_push_vector E T (inv_at x i)) s1 with
          | (Ok _, s2) => run_snapshotinv rest i s2
          | (Throw e, s2) => (Throw e, s2)
          | (UB, s2) => (UB, s2)
          end
      | (Throw e, s1) => (Throw e, s1)
      | (UB, s1) => (UB, s1)
      end
  | SEmpty :: rest => run_snapshotinv rest i s
  | _ :: _ => (UB, s)
  end.
Definition snapshot_inv (c : vars) : GM invs := run_snapshotinv (gen_snapshotinv c) [].

(** InitInv(Inventories& inv). *)
Fixpoint run_initinv (i : invs) (ss : list stmt) : GM unit := fun s =>
  match ss with
  | [] => (Ok tt, s)
  | SPush x :: rest =>
      match on_buf ["inv"%string] x (fun T => buf_push_vector E T (inv_at x i)) s with
      | (Ok _, s1) => run_initinv i rest s1
      | (Throw e, s1) => (Throw e, s1)
      | (UB, s1) => (UB, s1)
      end
  | SEmpty :: rest => run_initinv i rest s
  | _ :: _ => (UB, s)
  end.
Definition init_inv (c : vars) (i : invs) : GM unit := run_initinv i (gen_initinv c).
End WithEnv.
