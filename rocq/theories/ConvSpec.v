(** * ConvSpec: when two input files say the same. *)
From Coq Require Import Sorting.Sorted.
From Verif Require Import Base ConvModel.
Open Scope string_scope.
Open Scope list_scope.

(** The child elements of that name, in order. *)
Definition has_name (m : string) (x : xnode) : bool :=
  match x with XE n _ => String.eqb m n | _ => false end.
Definition named (m : string) (l : list xnode) : list xnode := filter (has_name m) l.

(** Two elements say the same: the same text, or the same child elements of each name in the same
    order.  The order of elements of different names, which no reader of input files looks at, may
    differ, and so may comments and white space. *)
Inductive same : xnode -> xnode -> Prop :=
| same_text n t : same (XE n [XT t]) (XE n [XT t])
| same_empty n : same (XE n []) (XE n [])
| same_node n k k' : elems k <> [] -> elems k' = k' ->
    (forall m, Forall2 same (named m k) (named m k')) -> same (XE n k) (XE n k').

Definition has_elems (x : xnode) : bool := match x with XE _ k => existsb is_elem k | _ => false end.

(** Text and names without markup in them: no less-than or greater-than sign, no ampersand; names
    have no slash either and are not empty. *)
Definition plain_text (s : string) : bool :=
  forallb (fun c => negb (existsb (Ascii.eqb c) [lt_sign; gt_sign; amp])) (list_ascii_of_string s).
Definition plain_name (s : string) : bool :=
  negb (String.eqb s "") &&
  forallb (fun c => negb (existsb (Ascii.eqb c) [lt_sign; gt_sign; amp; slash])) (list_ascii_of_string s).

(** Input files as they are written: an element has nothing in it, one piece of text, or elements;
    an element with nothing in it is the only one of its name there; and of the elements of one name
    all have elements in them or none. *)
Inductive tidy : xnode -> Prop :=
| tidy_empty n : plain_name n = true -> tidy (XE n [])
| tidy_text n t : plain_name n = true -> blank t = false -> plain_text t = true -> tidy (XE n [XT t])
| tidy_node n k : plain_name n = true -> elems k <> [] -> (forall x, In x (elems k) -> tidy x) ->
    (forall m, In (XE m []) k -> named m k = [XE m []]) ->
    (forall m x y, In x (named m k) -> In y (named m k) -> has_elems x = has_elems y) -> tidy (XE n k).

Definition is_obj (v : json) : bool := match v with JObj _ => true | _ => false end.
Definition is_arr (v : json) : bool := match v with JArr _ => true | _ => false end.

(** What a JSON value says, as the content of an element; a member whose value is an array is a
    repeated element. *)
Definition text_content (s : string) : list xnode := if blank s then [] else [XT s].
Fixpoint content (v : json) : list xnode :=
  match v with
  | JObj ms =>
      flat_map (fun m : string * json => let (k, w) := m in
        match w with
        | JArr l => map (fun x : json => XE k (content x)) l
        | _ => [XE k (content w)]
        end) ms
  | JStr s | JPod s => text_content s
  | _ => []
  end.

(** Names and texts have no markup in them; arrays are not empty, have no null and no array in them,
    and objects only together with objects. *)
Fixpoint clean (v : json) : Prop :=
  match v with
  | JArr l => l <> [] /\
      (fix all (l : list json) : Prop :=
         match l with
         | [] => True
         | x :: r => (clean x /\ is_arr x = false /\ x <> JNull) /\ all r
         end) l /\
      (forall x y, In x l -> In y l -> is_obj x = is_obj y)
  | JObj ms =>
      (fix all (ms : list (string * json)) : Prop :=
         match ms with
         | [] => True
         | (k, w) :: r => (plain_name k = true /\ clean w) /\ all r
         end) ms
  | JStr s | JPod s => plain_text s = true
  | JNull => True
  end.

(** The values of the member of that name: of a single one, or of an array. *)
Definition items (v : option json) : list json :=
  match v with
  | None => []
  | Some (JArr l) => l
  | Some w => [w]
  end.

(** The members of an object are in increasing order of their names. *)
Definition before (a b : string * json) : Prop := String.compare (fst a) (fst b) = Lt.
Definition ordered (ms : list (string * json)) : Prop := StronglySorted before ms.

(** The elements at the end of a path of names; the text of an element that has just text. *)
Definition kids_of (x : xnode) : list xnode := match x with XE _ k => k | _ => [] end.
Fixpoint at_path (p : list string) (x : xnode) : list xnode :=
  match p with
  | [] => [x]
  | m :: r => flat_map (at_path r) (named m (kids_of x))
  end.
Definition text_of (x : xnode) : option string :=
  match kids_of x with [XT t] => Some t | _ => None end.
