(** * The preprocessor: how an agent's state variables are read from the input file

    cli/cycpp.py generates, for every agent class, the schema of its input (SchemaFilter) and the
    C++ function that reads the input (InfileToDbFilter).  Both are modelled as data: [rng] is the
    generated schema, [stmt] the generated C++.  The C++ is then checked ([chk], what the compiler
    requires of it) and run ([exec]) against the input tree of src/infile_tree.cc.  Names of local
    variables are kept as the generator spells them, so that one variable can hide another.

    Not modelled: the statement splitting of pass 1 and 2, code supplied by the user
    (<infiletodb read/write>, <derived_init>, <schema>), parent classes' own InfileToDb, shapes. *)
From Coq Require Import Ascii DecimalString DecimalNat.
From Verif Require Import Base.
Open Scope string_scope.
Open Scope list_scope.

(** ** Types (cycpp.py 90-112 PRIMITIVES and templates) *)
Inductive prim := PBool | PInt | PFloat | PDouble | PString | PBlob | PUuid.
Inductive seqkind := KVector | KSet | KList.
Inductive ctype :=
| TP (p : prim)
| TC (c : seqkind) (t : ctype)
| TPair (a b : ctype)
| TMap (k v : ctype).

Definition prim_eqb (a b : prim) : bool :=
  match a, b with
  | PBool, PBool | PInt, PInt | PFloat, PFloat | PDouble, PDouble | PString, PString
  | PBlob, PBlob | PUuid, PUuid => true
  | _, _ => false
  end.
Definition seqkind_eqb (a b : seqkind) : bool :=
  match a, b with KVector, KVector | KSet, KSet | KList, KList => true | _, _ => false end.
Fixpoint ctype_eqb (a b : ctype) : bool :=
  match a, b with
  | TP p, TP q => prim_eqb p q
  | TC c t, TC d u => seqkind_eqb c d && ctype_eqb t u
  | TPair a1 a2, TPair b1 b2 => ctype_eqb a1 b1 && ctype_eqb a2 b2
  | TMap a1 a2, TMap b1 b2 => ctype_eqb a1 b1 && ctype_eqb a2 b2
  | _, _ => false
  end.

(** ** Annotations: a Python string, None or list *)
Inductive ann := ANone | AStr (s : string) | AList (l : list ann).

(** A type together with the names its parts have in the input (the canonical alias), whether a
    number is written as a nuclide, and the schema data type of each leaf. *)
Inductive aty :=
| AP (p : prim) (nuc : bool) (dt : string) (n : string)
| AC (c : seqkind) (n : string) (a : aty)
| APair (n : string) (a b : aty)
| AMap (n item : string) (k v : aty).

Fixpoint ty (a : aty) : ctype :=
  match a with
  | AP p _ _ _ => TP p
  | AC c _ a => TC c (ty a)
  | APair _ a b => TPair (ty a) (ty b)
  | AMap _ _ k v => TMap (ty k) (ty v)
  end.
Definition aname (a : aty) : string :=
  match a with AP _ _ _ n | AC _ n _ | APair n _ _ | AMap n _ _ _ => n end.

(** ** SchemaFilter._type (cycpp.py 1692-1705) *)
Definition alltypes : list string :=
  ["anyType"; "anySimpleType"; "string"; "boolean"; "decimal"; "float"; "double"; "duration";
   "dateTime"; "time"; "date"; "gYearMonth"; "gYear"; "gMonthDay"; "gDay"; "gMonth"; "hexBinary";
   "base64Binary"; "anyURI"; "QName"; "NOTATION"; "normalizedString"; "token"; "language";
   "NMTOKEN"; "NMTOKENS"; "Name"; "NCName"; "ID"; "IDREF"; "IDREFS"; "ENTITY"; "ENTITIES";
   "integer"; "nonPositiveInteger"; "negativeInteger"; "long"; "int"; "short"; "byte";
   "nonNegativeInteger"; "unsignedLong"; "unsignedInt"; "unsignedShort"; "unsignedByte";
   "positiveInteger"].
(** 1667-1676, the C++ part of default_types *)
Definition default_type (p : prim) : string :=
  match p with
  | PBool => "boolean" | PString => "string" | PInt => "int" | PFloat => "float"
  | PDouble => "double" | PBlob => "string" | PUuid => "token"
  end.
(** 1677-1690: the interface types whose schema type is that of the C++ type *)
Definition ui_types : list string :=
  ["commodity"; "incommodity"; "outcommodity"; "range"; "combobox"; "facility"; "prototype";
   "recipe"; "inrecipe"; "outrecipe"; "package"; "inpackage"; "outpackage"; "transportunit";
   "intransportunit"; "outtransportunit"; "none"; ""].
Definition mem (s : string) (l : list string) : bool := existsb (String.eqb s) l.

(** 1692-1705; [None] is the TypeError, also raised for a list (not hashable). *)
Definition schema_type (p : prim) (given : ann) : option string :=
  match given with
  | ANone => Some (default_type p)
  | AStr g =>
      if mem g alltypes then Some g
      else if String.eqb g "nuclide" then Some "string"
      else if mem g ui_types then Some (default_type p)
      else None
  | AList _ => None
  end.

(** ** _canonize_ann (cycpp.py 538-569) with _default_aliases, prepare_type (138-152) *)
Definition anth (l : list ann) (i : nat) : ann := nth i l ANone.
(** 546-551: the annotation of a templated type widened to one entry per part *)
Definition widen (u : ann) : list ann :=
  match u with ANone => [] | AStr s => [AStr s] | AList l => l end.
(** [x or name] *)
Definition orname (u : ann) (name : string) : option string :=
  match u with
  | ANone => Some name
  | AStr s => Some (if String.eqb s "" then name else s)
  | AList [] => Some name
  | AList _ => None
  end.
(** schematype or uitype (1717): an empty string or list counts as absent *)
Definition orann (u v : ann) : ann :=
  match u with ANone | AStr "" | AList [] => v | _ => u end.

Definition obind {A B} (o : option A) (f : A -> option B) : option B :=
  match o with Some a => f a | None => None end.

(** canonize_alias (579-583) for the names; [ui] and [st] are the uitype and schematype
    annotations, taken apart the way prepare_type does it.  [None]: the generator stops with an
    error, or produces text that is not a name. *)
Fixpoint canonize (t : ctype) (name : string) (al ui st : ann) : option aty :=
  match t with
  | TP p =>
      obind (orname al name) (fun n =>
      obind (schema_type p (orann st ui)) (fun d =>
      Some (AP p (match ui with AStr u => String.eqb u "nuclide" | _ => false end) d n)))
  | TC c t =>
      obind (orname (anth (widen al) 0) name) (fun n =>
      obind (canonize t "val" (anth (widen al) 1) (anth (widen ui) 1) (anth (widen st) 1))
      (fun a => Some (AC c n a)))
  | TPair a b =>
      obind (orname (anth (widen al) 0) name) (fun n =>
      obind (canonize a "first" (anth (widen al) 1) (anth (widen ui) 1) (anth (widen st) 1))
      (fun a' =>
      obind (canonize b "second" (anth (widen al) 2) (anth (widen ui) 2) (anth (widen st) 2))
      (fun b' => Some (APair n a' b'))))
  | TMap k v =>
      let h := widen (anth (widen al) 0) in
      obind (orname (anth h 0) name) (fun n =>
      obind (orname (anth h 1) "item") (fun item =>
      obind (canonize k "key" (anth (widen al) 1) (anth (widen ui) 1) (anth (widen st) 1))
      (fun k' =>
      obind (canonize v "val" (anth (widen al) 2) (anth (widen ui) 2) (anth (widen st) 2))
      (fun v' => Some (AMap n item k' v')))))
  end.

(** ** The generated schema (SchemaFilter) *)
Inductive rng :=
| RElem (n : string) (r : rng)
| RData (d : string)
| ROneOrMore (r : rng)
| RInter (l : list rng)
| ROpt (r : rng)
| RText.

(** _buildschema (1707-1776).  With a canonical alias every name is present, so the branches that
    supply 'list', 'map', 'item', ... are never taken. *)
Fixpoint build_schema (a : aty) : rng :=
  match a with
  | AP _ _ d n => RElem n (RData d)
  | AC _ n a => RElem n (ROneOrMore (build_schema a))
  | APair n a b => RElem n (RInter [build_schema a; build_schema b])
  | AMap n item k v =>
      RElem n (ROneOrMore (RElem item (RInter [build_schema k; build_schema v])))
  end.

(** ** Values *)
Inductive pv := VB (b : bool) | VI (z : Z) | VD (q : Q) | VS (s : string) | VU (s : string).
(** Sets and maps are listed in increasing order. *)
Inductive val :=
| VUndef
| VP (p : pv)
| VSeq (l : list val)
| VSet (l : list val)
| VPair (a b : val)
| VMap (l : list (val * val)).

(** operator< of the C++ types, as a three-way comparison *)
Definition bool_cmp (a b : bool) : comparison :=
  match a, b with false, true => Lt | true, false => Gt | _, _ => Eq end.
Definition pv_cmp (a b : pv) : comparison :=
  match a, b with
  | VB x, VB y => bool_cmp x y
  | VI x, VI y => Z.compare x y
  | VD x, VD y => Qcompare x y
  | VS x, VS y => String.compare x y
  | VU x, VU y => String.compare x y
  | VB _, _ => Lt | _, VB _ => Gt
  | VI _, _ => Lt | _, VI _ => Gt
  | VD _, _ => Lt | _, VD _ => Gt
  | VS _, _ => Lt | _, VS _ => Gt
  end.
Definition then_cmp (c d : comparison) : comparison := match c with Eq => d | _ => c end.
Fixpoint val_cmp (a b : val) {struct a} : comparison :=
  let lst := fix lst (l m : list val) {struct l} : comparison :=
    match l, m with
    | [], [] => Eq
    | [], _ :: _ => Lt
    | _ :: _, [] => Gt
    | x :: l, y :: m => then_cmp (val_cmp x y) (lst l m)
    end in
  let prs := fix prs (l m : list (val * val)) {struct l} : comparison :=
    match l, m with
    | [], [] => Eq
    | [], _ :: _ => Lt
    | _ :: _, [] => Gt
    | (x, x') :: l, (y, y') :: m =>
        then_cmp (then_cmp (val_cmp x y) (val_cmp x' y')) (prs l m)
    end in
  match a, b with
  | VUndef, VUndef => Eq
  | VP x, VP y => pv_cmp x y
  | VSeq l, VSeq m => lst l m
  | VSet l, VSet m => lst l m
  | VPair x x', VPair y y' => then_cmp (val_cmp x y) (val_cmp x' y')
  | VMap l, VMap m => prs l m
  | VUndef, _ => Lt | _, VUndef => Gt
  | VP _, _ => Lt | _, VP _ => Gt
  | VSeq _, _ => Lt | _, VSeq _ => Gt
  | VSet _, _ => Lt | _, VSet _ => Gt
  | VPair _ _, _ => Lt | _, VPair _ _ => Gt
  end.

(** std::set::insert; std::map::operator[] followed by assignment *)
Fixpoint set_insert (x : val) (l : list val) : list val :=
  match l with
  | [] => [x]
  | y :: l' =>
      match val_cmp x y with
      | Lt => x :: l
      | Eq => l
      | Gt => y :: set_insert x l'
      end
  end.
Fixpoint map_put (k v : val) (l : list (val * val)) : list (val * val) :=
  match l with
  | [] => [(k, v)]
  | (k', v') :: l' =>
      match val_cmp k k' with
      | Lt => (k, v) :: l
      | Eq => (k', v) :: l'
      | Gt => (k', v') :: map_put k v l'
      end
  end.

(** ** Input trees (src/infile_tree.cc) *)
Inductive xml :=
| XElem (n : string) (kids : list xml)
| XText (s : string)
| XOther.   (* a comment, processing instruction or CDATA section *)

(** XPath queries as the generated code writes them: child steps by name, or [*].  [QJunk] is a
    query string that is not an XPath expression. *)
Inductive step := Name (n : string) | Star.
Inductive query := QPath (l : list step) | QJunk.

Definition kids_of (x : xml) : list xml := match x with XElem _ k => k | _ => [] end.
Definition step_ok (s : step) (x : xml) : bool :=
  match x with
  | XElem n _ => match s with Name m => String.eqb m n | Star => true end
  | _ => false
  end.
(** xmlpp::Node::find: the matching elements in document order *)
Fixpoint find_path (l : list step) (x : xml) : list xml :=
  match l with
  | [] => [x]
  | s :: l => flat_map (find_path l) (filter (step_ok s) (kids_of x))
  end.
Definition find (x : xml) (q : query) : result (list xml) :=
  match q with QPath l => Ok (find_path l x) | QJunk => Throw PlainError end.

(** InfileTree::NMatches (55-57) *)
Definition nmatches (x : xml) (q : query) : result nat :=
  match find x q with Ok l => Ok (List.length l) | Throw e => Throw e | UB => UB end.

(** InfileTree::GetString (60-93) *)
Definition get_string (x : xml) (q : query) (i : nat) : result string :=
  match find x q with
  | Ok [] => Throw KeyError
  | Ok l =>
      match nth_error l i with
      | None => Throw ValueError
      | Some e =>
          match kids_of e with
          | [XText s] => Ok s
          | [_] => Throw CastError
          | _ => Throw ValueError
          end
      end
  | Throw e => Throw e
  | UB => UB
  end.

(** InfileTree::SubTree / GetEngineFromQuery (119-143) *)
Definition sub_tree (x : xml) (q : query) (i : nat) : result xml :=
  match find x q with
  | Ok l => match nth_error l i with Some e => Ok e | None => Throw ValueError end
  | Throw e => Throw e
  | UB => UB
  end.

(** boost::trim *)
Definition is_space (c : ascii) : bool :=
  let n := nat_of_ascii c in Nat.eqb n 32 || (Nat.leb 9 n && Nat.leb n 13).
Fixpoint ltrim (s : string) : string :=
  match s with
  | EmptyString => EmptyString
  | String c s' => if is_space c then ltrim s' else s
  end.
Fixpoint rtrim (s : string) : string :=
  match s with
  | EmptyString => EmptyString
  | String c s' =>
      match rtrim s' with
      | EmptyString => if is_space c then EmptyString else String c EmptyString
      | r => String c r
      end
  end.
Definition trim (s : string) : string := rtrim (ltrim s).

(** ** The generated C++ *)
Inductive ix := IVar (x : string) | ILit (n : nat).
Inductive stmt :=
| STree (x y : string) (q : query) (i : ix)   (* InfileTree* x = y->SubTree("q", i); *)
| STreeCopy (x y : string)                    (* InfileTree* x = y; *)
| SCount (x : string) (q : query)             (* int x = sub->NMatches("q"); *)
| SDecl (t : ctype) (x : string)              (* T x; *)
| SQuery (p : prim) (x : string) (nuc : bool) (q : query) (i : option ix)
    (* T x = Query<T>(sub, "q", i);  or  T x = pyne::nucname::id(Query<std::string>(...)); *)
| SInit (p : prim) (x : string) (v : pv)      (* T x = literal; *)
| SResize (x : string) (n : ix)               (* x.resize(n); *)
| SFor (i n : string) (body : list stmt)      (* for (int i = 0; i < n; ++i) { body } *)
| SBlock (body : list stmt)                   (* { body } *)
| SSet (x y : string)                         (* x = y; *)
| SAt (x : string) (i : ix) (y : string)      (* x[i] = y; *)
| SPut (x k v : string)                       (* x[k] = v; *)
| SInsert (x y : string)                      (* x.insert(y); *)
| SPush (x y : string)                        (* x.push_back(y); *)
| SMake (t : ctype) (x a b : string)          (* T x(a, b); *)
| SFst (x y : string)                         (* x.first = y; *)
| SSnd (x y : string)                         (* x.second = y; *)
| SIf (q : query) (a b : list stmt).          (* if (sub->NMatches("q") > 0) { a } else { b } *)

Definition dec (n : nat) : string := NilEmpty.string_of_uint (Nat.to_uint n).
Definition ivar (lev : nat) : string := ("i" ++ dec lev)%string.
Definition nvar (lev : nat) : string := ("n" ++ dec lev)%string.
(** the text of an index, used in the names first0, secondi1, ... (1500-1502) *)
Definition ix_text (i : ix) : string := match i with IVar x => x | ILit n => dec n end.
(** [idx or '0'] *)
Definition tree_idx (i : option ix) : ix := match i with Some i => i | None => ILit 0 end.

(** read_vector 1393-1399 (also read_set, read_list): [val] is the alias of the element if that is
    a string and its first entry otherwise.  For a map the first entry is the list
    [name, item], whose Python text is not an XPath expression. *)
Definition elem_query (a : aty) : query :=
  match a with AMap _ _ _ _ => QJunk | _ => QPath [Name (aname a)] end.

Definition in_name (x : string) : string := (x ++ "_in")%string.

(** read_member (1366-1381) around the code of the reader *)
Definition member_code (t : ctype) (m : string) (code : list stmt) : list stmt :=
  [SDecl t m; SBlock (code ++ [SSet m (in_name m)])].

(** read_primitive (1383-1387), read_vector (1389-1422), read_set (1424-1454), read_list
    (1456-1486), read_pair (1488-1508), read_map (1510-1545); [lev] is _idx_lev before the call,
    [path] the steps of the path argument. *)
Fixpoint reader (a : aty) (x : string) (idx : option ix) (path : list step) (lev : nat)
  : list stmt :=
  let enter n :=
    [STree "bub" "sub" (QPath (path ++ [Name n])) (tree_idx idx); STreeCopy "sub" "bub"] in
  match a with
  | AP p nuc _ n => [SQuery p x nuc (QPath (path ++ [Name n])) idx]
  | AC c n a' =>
      let lev := S lev in
      enter n ++
      [SCount (nvar lev) (elem_query a'); SDecl (ty a) x] ++
      (match c with KVector => [SResize x (IVar (nvar lev))] | _ => [] end) ++
      [SFor (ivar lev) (nvar lev)
         (member_code (ty a') "elem" (reader a' (in_name "elem") (Some (IVar (ivar lev))) [] lev)
          ++ [match c with
              | KVector => SAt x (IVar (ivar lev)) "elem"
              | KSet => SInsert x "elem"
              | KList => SPush x "elem"
              end])]
  | APair n a1 a2 =>
      let first := ("first" ++ ix_text (tree_idx idx))%string in
      let second := ("second" ++ ix_text (tree_idx idx))%string in
      enter n ++
      member_code (ty a1) first (reader a1 (in_name first) (Some (ILit 0)) [] lev) ++
      member_code (ty a2) second (reader a2 (in_name second) (Some (ILit 0)) [] lev) ++
      [SMake (ty a) x first second]
  | AMap n item k v =>
      let lev := S lev in
      enter n ++
      [SCount (nvar lev) (QPath [Name item]); SDecl (ty a) x;
       SFor (ivar lev) (nvar lev)
         (member_code (ty k) "key"
            (reader k (in_name "key") (Some (IVar (ivar lev))) [Name item] lev) ++
          member_code (ty v) "val"
            (reader v (in_name "val") (Some (IVar (ivar lev))) [Name item] lev) ++
          [SPut x "key" "val"])]
  end.

(** ** Default values: _val (1205-1365).  A nuclide default is given by its number; the elements of
    a set or map are taken in increasing order (Python's order is not modelled).  [None]: the generator fails or the default does not have
    the shape of the type. *)
Definition init_prim (p : prim) : prim := match p with PFloat => PDouble | _ => p end.

Fixpoint val_code (t : ctype) (d : val) (x : string) {struct d} : option (list stmt) :=
  let elems := fix elems (t : ctype) (c : seqkind) (i : nat) (l : list val) {struct l}
                 : option (list stmt) :=
    match l with
    | [] => Some []
    | v :: l =>
        obind (val_code t v "elem") (fun s =>
        obind (elems t c (S i) l) (fun r =>
        Some (SBlock (s ++ [match c with
                            | KVector => SAt x (ILit i) "elem"
                            | KSet => SInsert x "elem"
                            | KList => SPush x "elem"
                            end]) :: r)))
    end in
  let items := fix items (tk tv : ctype) (l : list (val * val)) {struct l} : option (list stmt) :=
    match l with
    | [] => Some []
    | (k, v) :: l =>
        obind (val_code tk k "key") (fun sk =>
        obind (val_code tv v "val") (fun sv =>
        obind (items tk tv l) (fun r =>
        Some (SBlock (sk ++ sv ++ [SPut x "key" "val"]) :: r))))
    end in
  match t, d with
  | TP p, VP v => Some [SInit (init_prim p) x v]
  | TC KVector t', VSeq l =>
      obind (elems t' KVector O l) (fun s =>
      Some [SDecl t x; SResize x (ILit (List.length l)); SBlock s])
  | TC KList t', VSeq l => obind (elems t' KList O l) (fun s => Some [SDecl t x; SBlock s])
  | TC KSet t', VSet l => obind (elems t' KSet O l) (fun s => Some [SDecl t x; SBlock s])
  | TPair a b, VPair u v =>
      obind (val_code a u "first") (fun s1 =>
      obind (val_code b v "second") (fun s2 =>
      Some [SDecl t x; SBlock (s1 ++ s2 ++ [SFst x "first"; SSnd x "second"])]))
  | TMap k v, VMap l => obind (items k v l) (fun s => Some [SDecl t x; SBlock s])
  | _, _ => None
  end.

(** ** The state variables of a class (pass 2) *)
Inductive entry :=
| EPtr (s : string)                                        (* alias -> name of the variable *)
| EBuf (listed : bool)                                     (* an inventory *)
| EVar (a : aty) (default : option val) (internal : bool).
Definition ctx := list (string * entry).

(** Python's OrderedDict: an existing key keeps its place. *)
Fixpoint od_set (k : string) (e : entry) (c : ctx) : ctx :=
  match c with
  | [] => [(k, e)]
  | (k', e') :: c => if String.eqb k k' then (k', e) :: c else (k', e') :: od_set k e c
  end.

(** alias = alias[0] until it is a string (505-507) *)
Fixpoint head_string (u : ann) : option string :=
  match u with
  | ANone => None
  | AStr s => Some s
  | AList (x :: _) => head_string x
  | AList [] => None
  end.

(** VarDeclarationFilter.transform_pass2 (489-518) for a variable that is not an inventory;
    [al] is [Some] when the annotation has an alias.  The alias pointer is written after the
    variable itself. *)
Definition declare (c : ctx) (vname : string) (t : ctype) (al : option ann) (ui st : ann)
    (default : option val) (internal : bool) : option ctx :=
  obind (canonize t vname (match al with Some u => u | None => ANone end) ui st) (fun a =>
  match al with
  | None => Some (od_set vname (EVar a default internal) c)
  | Some u =>
      obind (head_string u) (fun h =>
      Some (od_set h (EPtr vname) (od_set vname (EVar a default internal) c)))
  end).

(** one state variable of the source, with its annotations *)
Record decl := {
  d_name : string; d_type : ctype; d_alias : option ann; d_ui : ann; d_st : ann;
  d_default : option val; d_internal : bool
}.
(** all declarations of a class, in order *)
Fixpoint declare_all (l : list decl) (c : ctx) : option ctx :=
  match l with
  | [] => Some c
  | d :: l =>
      obind (declare c (d_name d) (d_type d) (d_alias d) (d_ui d) (d_st d) (d_default d) (d_internal d))
        (declare_all l)
  end.
(** ** The generated schema of a class: xml_from_ctx (1778-1817) *)
Definition schema_entry (e : string * entry) : list rng :=
  match snd e with
  | EPtr _ | EBuf _ => []
  | EVar a d internal =>
      if internal then []
      else match d with
           | Some _ => [ROpt (build_schema a)]
           | None => [build_schema a]
           end
  end.
Definition schema (c : ctx) : rng :=
  match c with [] => RText | _ => RInter (flat_map schema_entry c) end.

(** ** The generated InfileToDb: impl (1547-1640) *)
Definition val_name (m : string) : string := (m ++ "_val")%string.
Definition tmp_name (m : string) : string := (m ++ "_tmp")%string.

Definition read_entry (e : string * entry) : option (list stmt) :=
  let m := fst e in
  match snd e with
  | EPtr _ | EBuf _ => Some []
  | EVar a (Some d) true =>
      obind (val_code (ty a) d (tmp_name m)) (fun s => Some (s ++ [SSet m (tmp_name m)]))
  | EVar _ None true => None     (* RuntimeError *)
  | EVar a (Some d) false =>
      obind (val_code (ty a) d (tmp_name m)) (fun s =>
      Some [SIf (QPath [Name (aname a)])
              [SBlock (reader a (val_name m) None [] O ++ [SSet m (val_name m)])]
              (s ++ [SSet m (tmp_name m)])])
  | EVar a None false =>
      Some [SBlock (reader a (val_name m) None [] O ++ [SSet m (val_name m)])]
  end.

Fixpoint read_code (c : ctx) : option (list stmt) :=
  match c with
  | [] => Some []
  | e :: c => obind (read_entry e) (fun s => obind (read_code c) (fun r => Some (s ++ r)))
  end.

(** 1561-1563 and the body *)
Definition infile_code (c : ctx) : option (list stmt) :=
  obind (read_code c) (fun s =>
  Some (STree "sub" "tree" (QPath [Name "config"; Star]) (ILit 0) ::
        SDecl (TP PInt) "i" :: SDecl (TP PInt) "n" :: s)).

(** 1623-1640: the columns of the row written to table Info *)
Definition columns (c : ctx) : list string :=
  flat_map (fun e => match snd e with
                     | EPtr _ | EBuf true => []
                     | EBuf false | EVar _ _ _ => [fst e]
                     end) c.

(** ** What the compiler requires *)
Inductive kind := KTree | KV (t : ctype).
Definition tscope := list (string * kind).
Definition tenv := list tscope.

Fixpoint assoc {A} (x : string) (l : list (string * A)) : option A :=
  match l with [] => None | (y, a) :: l => if String.eqb x y then Some a else assoc x l end.
Fixpoint look {A} (x : string) (e : list (list (string * A))) : option A :=
  match e with
  | [] => None
  | s :: e => match assoc x s with Some a => Some a | None => look x e end
  end.
(** a declaration in the innermost scope; a second one of the same name is an error *)
Definition tdecl (x : string) (k : kind) (e : tenv) : option tenv :=
  match e with
  | s :: e => match assoc x s with Some _ => None | None => Some (((x, k) :: s) :: e) end
  | [] => None
  end.

Definition arith (t : ctype) : bool :=
  match t with TP PBool | TP PInt | TP PFloat | TP PDouble => true | _ => false end.
(** [x = y] for x of type t and y of type u *)
Definition assignable (t u : ctype) : bool := ctype_eqb t u || (arith t && arith u).
(** Query<T> exists for T: there is no conversion of text to cyclus::Blob (blob.h) *)
Definition queryable (p : prim) (nuc : bool) : bool :=
  if nuc then arith (TP p) else match p with PBlob => false | _ => true end.
(** a string default stands unescaped between quotes *)
Fixpoint no_escape (s : string) : bool :=
  match s with
  | EmptyString => true
  | String c s =>
      let n := nat_of_ascii c in
      negb (Nat.eqb n 34 || Nat.eqb n 92 || Nat.eqb n 10) && no_escape s
  end.
Definition literal_ok (p : prim) (v : pv) : bool :=
  match v with
  | VB _ | VI _ | VD _ => arith (TP p)
  | VS s => match p with PString | PBlob => no_escape s | _ => false end
  | VU _ => match p with PUuid => true | _ => false end
  end.

Definition is_tree (e : tenv) (x : string) : bool :=
  match look x e with Some KTree => true | _ => false end.
Definition type_of (e : tenv) (x : string) : option ctype :=
  match look x e with Some (KV t) => Some t | _ => None end.
Definition ix_ok (e : tenv) (i : ix) : bool :=
  match i with
  | ILit _ => true
  | IVar x => match type_of e x with Some (TP PInt) => true | _ => false end
  end.
Definition oix_ok (e : tenv) (i : option ix) : bool :=
  match i with None => true | Some i => ix_ok e i end.
Definition when {A} (b : bool) (o : option A) : option A := if b then o else None.
Definition fits (e : tenv) (t : ctype) (y : string) : bool :=
  match type_of e y with Some u => assignable t u | None => false end.

Fixpoint chk (s : stmt) (e : tenv) {struct s} : option tenv :=
  let seq := fix seq (l : list stmt) (e : tenv) {struct l} : option tenv :=
    match l with [] => Some e | s :: l => obind (chk s e) (seq l) end in
  match s with
  | STree x y _ i => when (is_tree e y && ix_ok e i) (tdecl x KTree e)
  | STreeCopy x y => when (is_tree e y) (tdecl x KTree e)
  | SCount x _ => when (is_tree e "sub") (tdecl x (KV (TP PInt)) e)
  | SDecl t x => tdecl x (KV t) e
  | SQuery p x nuc _ i =>
      when (queryable p nuc && is_tree e "sub" && oix_ok e i) (tdecl x (KV (TP p)) e)
  | SInit p x v => when (literal_ok p v) (tdecl x (KV (TP p)) e)
  | SResize x n =>
      match type_of e x with Some (TC KVector _) => when (ix_ok e n) (Some e) | _ => None end
  | SFor i n body =>
      when (ix_ok e (IVar n))
        (obind (seq body ([] :: [(i, KV (TP PInt))] :: e)) (fun _ => Some e))
  | SBlock body => obind (seq body ([] :: e)) (fun _ => Some e)
  | SSet x y => match type_of e x with Some t => when (fits e t y) (Some e) | None => None end
  | SAt x i y =>
      match type_of e x with
      | Some (TC KVector t) => when (ix_ok e i && fits e t y) (Some e)
      | _ => None
      end
  | SPut x k v =>
      match type_of e x with
      | Some (TMap tk tv) => when (fits e tk k && fits e tv v) (Some e)
      | _ => None
      end
  | SInsert x y =>
      match type_of e x with Some (TC KSet t) => when (fits e t y) (Some e) | _ => None end
  | SPush x y =>
      match type_of e x with Some (TC KList t) => when (fits e t y) (Some e) | _ => None end
  | SMake t x a b =>
      match t with
      | TPair ta tb => when (fits e ta a && fits e tb b) (tdecl x (KV t) e)
      | _ => None
      end
  | SFst x y => match type_of e x with Some (TPair t _) => when (fits e t y) (Some e) | _ => None end
  | SSnd x y => match type_of e x with Some (TPair _ t) => when (fits e t y) (Some e) | _ => None end
  | SIf _ a b =>
      when (is_tree e "sub")
        (obind (seq a ([] :: e)) (fun _ => obind (seq b ([] :: e)) (fun _ => Some e)))
  end.
Fixpoint chks (l : list stmt) (e : tenv) : option tenv :=
  match l with [] => Some e | s :: l => obind (chk s e) (chks l) end.

(** ** Running it *)
Inductive cell := CT (x : xml) | CV (t : ctype) (v : val).
Definition scope := list (string * cell).
Definition env := list scope.

Fixpoint upd_scope (x : string) (c : cell) (s : scope) : option scope :=
  match s with
  | [] => None
  | (y, c') :: s =>
      if String.eqb x y then Some ((y, c) :: s)
      else match upd_scope x c s with Some s => Some ((y, c') :: s) | None => None end
  end.
Fixpoint upd_env (x : string) (c : cell) (e : env) : option env :=
  match e with
  | [] => None
  | s :: e =>
      match upd_scope x c s with
      | Some s => Some (s :: e)
      | None => match upd_env x c e with Some e => Some (s :: e) | None => None end
      end
  end.
Definition declv (x : string) (c : cell) (e : env) : env :=
  match e with s :: e => ((x, c) :: s) :: e | [] => [] end.
Definition pop (e : env) : env := tl e.

(** conversion between the arithmetic types; a double is cut to an int *)
Definition qtrunc (q : Q) : Z := Z.quot (Qnum q) (Zpos (Qden q)).
Definition cvt (p : prim) (v : pv) : pv :=
  match p, v with
  | PInt, VD q => VI (qtrunc q)
  | PInt, VB b => VI (if b then 1 else 0)
  | (PFloat | PDouble), VI z => VD (inject_Z z)
  | (PFloat | PDouble), VB b => VD (if b then 1 else 0)
  | PBool, VI z => VB (negb (Z.eqb z 0))
  | PBool, VD q => VB (negb (Qeq_bool q 0))
  | _, _ => v
  end.
Definition cvt_to (t : ctype) (v : val) : val :=
  match t, v with TP p, VP v => VP (cvt p v) | _, _ => v end.

(** the value of a fresh variable *)
Definition fresh (t : ctype) : val :=
  match t with
  | TP _ => VUndef
  | TC KSet _ => VSet []
  | TC _ _ => VSeq []
  | TPair _ _ => VPair VUndef VUndef
  | TMap _ _ => VMap []
  end.

Definition lift {A B} (r : result A) (f : A -> result B) : result B :=
  match r with Ok a => f a | Throw e => Throw e | UB => UB end.
Definition need {A B} (o : option A) (f : A -> result B) : result B :=
  match o with Some a => f a | None => UB end.

Definition the_tree (e : env) (x : string) : option xml :=
  match look x e with Some (CT t) => Some t | _ => None end.
Definition value_of (e : env) (x : string) : option val :=
  match look x e with Some (CV _ v) => Some v | _ => None end.
Definition typed (e : env) (x : string) : option (ctype * val) :=
  match look x e with Some (CV t v) => Some (t, v) | _ => None end.
Definition ix_val (e : env) (i : ix) : option nat :=
  match i with
  | ILit n => Some n
  | IVar x => match value_of e x with Some (VP (VI z)) => Some (Z.to_nat z) | _ => None end
  end.
Definition write (x : string) (t : ctype) (v : val) (e : env) : result env :=
  need (upd_env x (CV t v) e) Ok.

Section Run.
  (** pyne::nucname::id and boost::lexical_cast: outside code *)
  Variable nucid : string -> option Z.
  Variable lex : prim -> string -> option pv.

  (** cyclus::Query<T> (infile_tree.h 79-112) and the nuclide form (cycpp.py 1357-1362) *)
  Definition convert (p : prim) (nuc : bool) (s : string) : result pv :=
    if nuc then match nucid s with Some z => Ok (cvt p (VI z)) | None => Throw ValueError end
    else match p with
         | PString => Ok (VS s)
         | PInt | PFloat | PDouble =>
             match lex p (trim s) with Some v => Ok v | None => Throw PlainError end
         | _ => match lex p s with Some v => Ok v | None => Throw PlainError end
         end.

  Fixpoint exec (s : stmt) (e : env) {struct s} : result env :=
    let seq := fix seq (l : list stmt) (e : env) {struct l} : result env :=
      match l with [] => Ok e | s :: l => lift (exec s e) (seq l) end in
    match s with
    | STree x y q i =>
        need (the_tree e y) (fun t => need (ix_val e i) (fun k =>
        lift (sub_tree t q k) (fun u => Ok (declv x (CT u) e))))
    | STreeCopy x y => need (the_tree e y) (fun t => Ok (declv x (CT t) e))
    | SCount x q =>
        need (the_tree e "sub") (fun t =>
        lift (nmatches t q) (fun n => Ok (declv x (CV (TP PInt) (VP (VI (Z.of_nat n)))) e)))
    | SDecl t x => Ok (declv x (CV t (fresh t)) e)
    | SQuery p x nuc q i =>
        need (the_tree e "sub") (fun t => need (ix_val e (tree_idx i)) (fun k =>
        lift (get_string t q k) (fun s =>
        lift (convert p nuc s) (fun v => Ok (declv x (CV (TP p) (VP v)) e)))))
    | SInit p x v => Ok (declv x (CV (TP p) (VP (cvt p v))) e)
    | SResize x n =>
        need (ix_val e n) (fun n =>
        match typed e x with
        | Some (t, VSeq l) => write x t (VSeq (firstn n l ++ repeat VUndef (n - List.length l))) e
        | _ => UB
        end)
    | SFor i n body =>
        need (ix_val e (IVar n)) (fun n =>
        (fix loop (k : nat) (todo : nat) (e : env) {struct todo} : result env :=
           match todo with
           | O => Ok e
           | S todo =>
               lift (seq body ([] :: [(i, CV (TP PInt) (VP (VI (Z.of_nat k))))] :: e)) (fun e' =>
               loop (S k) todo (pop (pop e')))
           end) O n e)
    | SBlock body => lift (seq body ([] :: e)) (fun e' => Ok (pop e'))
    | SSet x y =>
        need (typed e x) (fun tv => need (value_of e y) (fun v =>
        write x (fst tv) (cvt_to (fst tv) v) e))
    | SAt x i y =>
        need (ix_val e i) (fun i => need (value_of e y) (fun v =>
        match typed e x with
        | Some (TC c t, VSeq l) =>
            if Nat.ltb i (List.length l) then write x (TC c t) (VSeq (upd l i (cvt_to t v))) e
            else UB
        | _ => UB
        end))
    | SPut x k v =>
        need (value_of e k) (fun k => need (value_of e v) (fun v =>
        match typed e x with
        | Some (TMap tk tv, VMap l) =>
            write x (TMap tk tv) (VMap (map_put (cvt_to tk k) (cvt_to tv v) l)) e
        | _ => UB
        end))
    | SInsert x y =>
        need (value_of e y) (fun v =>
        match typed e x with
        | Some (TC c t, VSet l) => write x (TC c t) (VSet (set_insert (cvt_to t v) l)) e
        | _ => UB
        end)
    | SPush x y =>
        need (value_of e y) (fun v =>
        match typed e x with
        | Some (TC c t, VSeq l) => write x (TC c t) (VSeq (l ++ [cvt_to t v])) e
        | _ => UB
        end)
    | SMake t x a b =>
        need (value_of e a) (fun a => need (value_of e b) (fun b =>
        match t with
        | TPair ta tb => Ok (declv x (CV t (VPair (cvt_to ta a) (cvt_to tb b))) e)
        | _ => UB
        end))
    | SFst x y =>
        need (value_of e y) (fun v =>
        match typed e x with
        | Some (TPair ta tb, VPair _ b) => write x (TPair ta tb) (VPair (cvt_to ta v) b) e
        | _ => UB
        end)
    | SSnd x y =>
        need (value_of e y) (fun v =>
        match typed e x with
        | Some (TPair ta tb, VPair a _) => write x (TPair ta tb) (VPair a (cvt_to tb v)) e
        | _ => UB
        end)
    | SIf q a b =>
        need (the_tree e "sub") (fun t =>
        lift (nmatches t q) (fun n =>
        lift (seq (if Nat.ltb 0 n then a else b) ([] :: e)) (fun e' => Ok (pop e'))))
    end.
  Fixpoint execs (l : list stmt) (e : env) : result env :=
    match l with [] => Ok e | s :: l => lift (exec s e) (execs l) end.

  (** ** The whole of InfileToDb *)
  (** the class members, then the parameters (the handle <di> stands for a second object that is
      not a value), then the body of the function *)
  Definition member_types (c : ctx) : tscope :=
    flat_map (fun e => match snd e with EVar a _ _ => [(fst e, KV (ty a))] | _ => [] end) c.
  Definition members (c : ctx) : scope :=
    flat_map (fun e => match snd e with EVar a _ _ => [(fst e, CV (ty a) (fresh (ty a)))]
                                   | _ => [] end) c.
  Definition compiles (c : ctx) : bool :=
    match infile_code c with
    | Some code =>
        match chks code ([] :: [("tree", KTree); ("di", KTree)] :: [member_types c]) with
        | Some e => forallb (fun m => match type_of e m with Some _ => true | None => false end)
                      (columns c)
        | None => false
        end
    | None => false
    end.

  (** The row written: for every column the value the name has at the end of the function. *)
  Definition infile_to_db (c : ctx) (tree : xml) : result (list (string * val)) :=
    match infile_code c with
    | Some code =>
        lift (execs code ([] :: [("tree", CT tree); ("di", CT XOther)] :: [members c])) (fun e =>
        (fix row (l : list string) : result (list (string * val)) :=
           match l with
           | [] => Ok []
           | m :: l => need (value_of e m) (fun v => lift (row l) (fun r => Ok ((m, v) :: r)))
           end) (columns c))
    | None => UB
    end.
End Run.
