(** * What it means for an input to give a state variable its value

    Independent of the generated reader: what a RELAX NG schema accepts ([valid]) and which value
    an element of the input writes down ([written]). *)
From Coq Require Import Ascii Sorted.
From Verif Require Import Base PpModel.
Open Scope string_scope.
Open Scope list_scope.

(** ** Content of an element *)
Definition is_elem (x : xml) : bool := match x with XElem _ _ => true | _ => false end.
Definition elems (l : list xml) : list xml := filter is_elem l.
Fixpoint text (l : list xml) : string :=
  match l with [] => "" | XText s :: l => (s ++ text l)%string | _ :: l => text l end.
Definition xml_space (c : ascii) : bool :=
  let n := nat_of_ascii c in Nat.eqb n 32 || Nat.eqb n 9 || Nat.eqb n 10 || Nat.eqb n 13.
Fixpoint blank (s : string) : bool :=
  match s with EmptyString => true | String c s => xml_space c && blank s end.
(** only elements, apart from comments and white space *)
Definition no_text (l : list xml) : Prop := forall s, In (XText s) l -> blank s = true.
(** only text, apart from comments *)
Definition no_elems (l : list xml) : Prop := elems l = [].

(** ** RELAX NG, for the patterns the generator uses (oasis RELAX NG specification, section 6) *)
Inductive interleave {A} : list A -> list A -> list A -> Prop :=
| il_nil : interleave [] [] []
| il_left x a b l : interleave a b l -> interleave (x :: a) b (x :: l)
| il_right x a b l : interleave a b l -> interleave a (x :: b) (x :: l).

Section Valid.
  (** the data type library: the value a text stands for, if it is a text of that type *)
  Variable xsd : string -> string -> option pv.

  (** [valid r l]: the sequence of elements [l] matches the pattern [r] *)
  Inductive valid : rng -> list xml -> Prop :=
  | v_data n d kids v :
      no_elems kids -> xsd d (text kids) = Some v -> valid (RElem n (RData d)) [XElem n kids]
  | v_elem n r kids :
      no_text kids -> valid r (elems kids) -> valid (RElem n r) [XElem n kids]
  | v_one r l : valid r l -> valid (ROneOrMore r) l
  | v_more r l m : valid r l -> valid (ROneOrMore r) m -> valid (ROneOrMore r) (l ++ m)
  | v_inter_nil : valid (RInter []) []
  | v_inter r rs a b l : valid r a -> valid (RInter rs) b -> interleave a b l ->
      valid (RInter (r :: rs)) l
  | v_opt_no r : valid (ROpt r) []
  | v_opt_yes r l : valid r l -> valid (ROpt r) l
  | v_text : valid RText [].
End Valid.

(** ** Which value an element writes down *)
(** a std::set holding the values [vs]; strictly increasing, the same elements up to the order's
    equivalence *)
Definition set_of (vs l : list val) : Prop :=
  Sorted (fun a b => val_cmp a b = Lt) l /\
  (forall y, In y l -> In y vs) /\
  (forall x, In x vs -> exists y, In y l /\ val_cmp x y = Eq).
(** a std::map holding the pairs [ps], a later pair replacing an earlier one of the same key *)
Definition map_of (ps l : list (val * val)) : Prop :=
  Sorted (fun a b => val_cmp (fst a) (fst b) = Lt) l /\
  (forall k v, In (k, v) l ->
     exists k' before after, ps = before ++ (k', v) :: after /\
       val_cmp k' k = Eq /\
       Forall (fun p => val_cmp (fst p) k <> Eq) after) /\
  (forall k v, In (k, v) ps -> exists k' v', In (k', v') l /\ val_cmp k k' = Eq).

Section Written.
  Variable xsd : string -> string -> option pv.
  Variable nucid : string -> option Z.

  Definition denotes (p : prim) (nuc : bool) (dt s : string) (v : pv) : Prop :=
    if nuc then exists z, nucid s = Some z /\ v = VI z else xsd dt s = Some v.

  (** [x] and [y] in either order *)
  Definition both (l : list xml) (x y : xml) : Prop := l = [x; y] \/ l = [y; x].

  Fixpoint written (a : aty) (x : xml) (v : val) : Prop :=
    match a with
    | AP p nuc dt n =>
        exists kids w, x = XElem n kids /\ no_elems kids /\ denotes p nuc dt (text kids) w /\
          v = VP w
    | AC c n a =>
        exists kids vs, x = XElem n kids /\ no_text kids /\ elems kids <> [] /\
          Forall2 (written a) (elems kids) vs /\
          match c with
          | KVector | KList => v = VSeq vs
          | KSet => exists l, v = VSet l /\ set_of vs l
          end
    | APair n a b =>
        exists kids x1 x2 v1 v2, x = XElem n kids /\ no_text kids /\ both (elems kids) x1 x2 /\
          written a x1 v1 /\ written b x2 v2 /\ v = VPair v1 v2
    | AMap n item ka va =>
        exists kids ps l, x = XElem n kids /\ no_text kids /\ elems kids <> [] /\
          Forall2 (fun it (p : val * val) =>
            exists kids' xk xv, it = XElem item kids' /\ no_text kids' /\
              both (elems kids') xk xv /\ written ka xk (fst p) /\ written va xv (snd p))
            (elems kids) ps /\
          v = VMap l /\ map_of ps l
    end.

  (** ** A whole configuration: the elements given for the variables, in the order of their
      declaration, and the values the variables get *)
  Inductive fills : ctx -> list xml -> list (string * val) -> Prop :=
  | f_nil : fills [] [] []
  | f_pointer m s c l r : fills c l r -> fills ((m, EPtr s) :: c) l r
  | f_inventory m c l r : fills c l r -> fills ((m, EBuf true) :: c) l r
  | f_internal m a d c l r : fills c l r -> fills ((m, EVar a (Some d) true) :: c) l ((m, d) :: r)
  | f_given m a d x v c l r : written a x v -> fills c l r ->
      fills ((m, EVar a d false) :: c) (x :: l) ((m, v) :: r)
  | f_absent m a d c l r : fills c l r -> fills ((m, EVar a (Some d) false) :: c) l ((m, d) :: r).

  (** the elements may come in any order *)
  Definition config (c : ctx) (l : list xml) (r : list (string * val)) : Prop :=
    exists l', Permutation l l' /\ fills c l' r.
End Written.

(** ** The external libraries *)
Definition has_prim (p : prim) (v : pv) : Prop :=
  match p, v with
  | PBool, VB _ | PInt, VI _ | PFloat, VD _ | PDouble, VD _ | PString, VS _ => True
  | _, _ => False
  end.

(** libxml2's data types and boost::lexical_cast give the same numbers: what the schema calls an
    int, a float or a double is, without surrounding white space, a number for lexical_cast. *)
Record libraries (xsd : string -> string -> option pv) (lex : prim -> string -> option pv) := {
  lib_num : forall p s v, p = PInt \/ p = PFloat \/ p = PDouble ->
    xsd (default_type p) s = Some v -> has_prim p v /\ lex p (trim s) = Some v;
  lib_string : forall s, xsd "string" s = Some (VS s);
  lib_bool : forall s v, xsd "boolean" s = Some v -> has_prim PBool v /\
    (s = "0" \/ s = "1" -> lex PBool s = Some v)
}.

(** ** Conditions on the declarations *)
(** leaves: the generator's own schema types; nuclides are ints; no Blob, no uuid *)
Fixpoint standard (a : aty) : Prop :=
  match a with
  | AP p nuc dt _ =>
      match p with PBlob | PUuid => False | _ => True end /\
      if nuc then p = PInt /\ dt = "string" else dt = default_type p
  | AC _ _ a => standard a
  | APair _ a b => standard a /\ standard b
  | AMap _ _ k v => standard k /\ standard v
  end.
(** the two parts of a pair, and a map's key and value, have different names *)
Fixpoint distinct_names (a : aty) : Prop :=
  match a with
  | AP _ _ _ _ => True
  | AC _ _ a => distinct_names a
  | APair _ a b => aname a <> aname b /\ distinct_names a /\ distinct_names b
  | AMap _ _ k v => aname k <> aname v /\ distinct_names k /\ distinct_names v
  end.
Definition is_map (a : aty) : Prop := match a with AMap _ _ _ _ => True | _ => False end.
(** no vector, set or list of maps *)
Fixpoint no_seq_of_map (a : aty) : Prop :=
  match a with
  | AP _ _ _ _ => True
  | AC _ _ a => ~ is_map a /\ no_seq_of_map a
  | APair _ a b => no_seq_of_map a /\ no_seq_of_map b
  | AMap _ _ k v => no_seq_of_map k /\ no_seq_of_map v
  end.
(** [pairs a]: how many pairs are directly inside one another at the top of [a] *)
Fixpoint pairs (a : aty) : nat :=
  match a with APair _ a b => S (Nat.max (pairs a) (pairs b)) | _ => O end.
(** inside a container, no pair of pairs of pairs *)
Fixpoint pairs_inside (a : aty) : Prop :=
  match a with
  | AP _ _ _ _ => True
  | AC _ _ a => (pairs a <= 2)%nat /\ pairs_inside a
  | APair _ a b => pairs_inside a /\ pairs_inside b
  | AMap _ _ k v =>
      (pairs k <= 2)%nat /\ (pairs v <= 2)%nat /\ pairs_inside k /\ pairs_inside v
  end.
(** ... and outside of containers, no pair of pairs *)
Definition few_pairs (a : aty) : Prop := (pairs a <= 1)%nat /\ pairs_inside a.
Fixpoint no_nuclides (a : aty) : Prop :=
  match a with
  | AP _ nuc _ _ => nuc = false
  | AC _ _ a => no_nuclides a
  | APair _ a b => no_nuclides a /\ no_nuclides b
  | AMap _ _ k v => no_nuclides k /\ no_nuclides v
  end.

(** ** Conditions on a document: every value is a single text node (no comment beside it, and not
    empty), booleans are written 0 or 1 *)
Fixpoint plain (a : aty) (x : xml) : Prop :=
  match a with
  | AP p nuc _ _ =>
      exists s, kids_of x = [XText s] /\ (p = PBool -> s = "0" \/ s = "1")
  | AC _ _ a => Forall (plain a) (elems (kids_of x))
  | APair _ a b =>
      Forall (fun y => (step_ok (Name (aname a)) y = true -> plain a y) /\
                       (step_ok (Name (aname b)) y = true -> plain b y)) (elems (kids_of x))
  | AMap _ _ k v =>
      Forall (fun it => Forall (fun y => (step_ok (Name (aname k)) y = true -> plain k y) /\
                                          (step_ok (Name (aname v)) y = true -> plain v y))
                               (elems (kids_of it))) (elems (kids_of x))
  end.

(** ** Default values *)
(** [d] is a value of type [t]; sets and maps in increasing order *)
Fixpoint has_type (t : ctype) (d : val) {struct t} : Prop :=
  match t, d with
  | TP p, VP v => has_prim p v
  | TC KSet t, VSet l =>
      Forall (has_type t) l /\ StronglySorted (fun a b => val_cmp b a = Gt) l
  | TC KVector t, VSeq l | TC KList t, VSeq l => Forall (has_type t) l
  | TPair a b, VPair x y => has_type a x /\ has_type b y
  | TMap k v, VMap l =>
      Forall (fun p => has_type k (fst p) /\ has_type v (snd p)) l /\
      StronglySorted (fun a b => val_cmp (fst b) (fst a) = Gt) l
  | _, _ => False
  end.
(** texts of a default that need no escaping *)
Fixpoint strings_ok (d : val) : Prop :=
  match d with
  | VP (VS s) => no_escape s = true
  | VSeq l | VSet l => (fix all l := match l with [] => True | x :: l => strings_ok x /\ all l end) l
  | VPair a b => strings_ok a /\ strings_ok b
  | VMap l =>
      (fix all l := match l with
                    | [] => True
                    | p :: l => strings_ok (fst p) /\ strings_ok (snd p) /\ all l
                    end) l
  | _ => True
  end.
Definition is_seq (t : ctype) : bool := match t with TC _ _ => true | _ => false end.
Definition is_tmap (t : ctype) : bool := match t with TMap _ _ => true | _ => false end.
Definition is_pair (t : ctype) : bool := match t with TPair _ _ => true | _ => false end.
(** no sequence directly inside a sequence, no map in a map, no pair in a pair *)
Fixpoint unnested (t : ctype) : Prop :=
  match t with
  | TP _ => True
  | TC _ t => is_seq t = false /\ unnested t
  | TPair a b => is_pair a = false /\ is_pair b = false /\ unnested a /\ unnested b
  | TMap k v => is_tmap k = false /\ is_tmap v = false /\ unnested k /\ unnested v
  end.

(** ** The conditions on a class *)
Definition reserved : list string :=
  ["tree"; "di"; "sub"; "bub"; "i"; "n"; "n1"; "first0"; "second0"].
Definition variables (c : ctx) : list (string * aty) :=
  flat_map (fun e => match snd e with EVar a _ _ => [(fst e, a)] | _ => [] end) c.
Definition user_names (c : ctx) : list string :=
  flat_map (fun e => match snd e with EVar a _ false => [aname a] | _ => [] end) c.

Definition entry_ok (e : string * entry) : Prop :=
  match snd e with
  | EPtr _ => True
  | EBuf listed => listed = true
  | EVar a d internal =>
      ~ In (fst e) reserved /\
      (internal = true -> d <> None) /\
      (forall v, d = Some v -> has_type (ty a) v /\ strings_ok v /\ unnested (ty a) /\
                 standard a) /\
      (internal = false ->
         standard a /\ distinct_names a /\ no_seq_of_map a /\ few_pairs a)
  end.
Definition class_ok (c : ctx) : Prop :=
  Forall entry_ok c /\
  NoDup (map fst (variables c)) /\
  NoDup (user_names c) /\
  (forall m m', In m (map fst (variables c)) -> In m' (map fst (variables c)) ->
     m <> (m' ++ "_tmp")%string).

(** the elements given are plain for the variables they name *)
Definition plain_config (c : ctx) (l : list xml) : Prop :=
  forall m a d x, In (m, EVar a d false) c -> In x l -> step_ok (Name (aname a)) x = true ->
    plain a x.

(** the document handed to the agent: prototype / config / archetype / variables *)
Definition document (proto arch : string) (before before' kids : list xml) : xml :=
  XElem proto (before ++ [XElem "config" (before' ++ [XElem arch kids])]).
Definition alone (before before' : list xml) : Prop :=
  filter (step_ok (Name "config")) before = [] /\ elems before' = [].

(** ** Names *)
(** the names used when the user gives none *)
Fixpoint default_names (t : ctype) (name : string) : aty :=
  match t with
  | TP p => AP p false (default_type p) name
  | TC c t => AC c name (default_names t "val")
  | TPair a b => APair name (default_names a "first") (default_names b "second")
  | TMap k v => AMap name "item" (default_names k "key") (default_names v "val")
  end.
(** the alias and uitype annotations a user writes to give the names and nuclides of [a] *)
Fixpoint alias_of (a : aty) : ann :=
  match a with
  | AP _ _ _ n => AStr n
  | AC _ n a => AList [AStr n; alias_of a]
  | APair n a b => AList [AStr n; alias_of a; alias_of b]
  | AMap n item k v => AList [AList [AStr n; AStr item]; alias_of k; alias_of v]
  end.
Fixpoint nuclides_of (a : aty) : ann :=
  match a with
  | AP _ nuc _ _ => if nuc then AStr "nuclide" else ANone
  | AC _ _ a => AList [ANone; nuclides_of a]
  | APair _ a b | AMap _ _ a b => AList [ANone; nuclides_of a; nuclides_of b]
  end.
Fixpoint named (a : aty) : Prop :=
  match a with
  | AP _ _ _ n => n <> ""
  | AC _ n a => n <> "" /\ named a
  | APair n a b => n <> "" /\ named a /\ named b
  | AMap n item k v => n <> "" /\ item <> "" /\ named k /\ named v
  end.
(** the name an alias annotation gives the variable itself *)
Definition head_of (d : decl) : option string := obind (d_alias d) head_string.

