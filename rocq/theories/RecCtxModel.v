(** * RecCtxModel: the relations of commodities, recipes and resources an agent keeps.

    Models src/toolkit/commodity_recipe_context.h and .cc.  Sets and maps are lists in increasing
    order ([std::set], [std::map]); a resource is its object id. *)
From Verif Require Import Base.
Open Scope string_scope.
Open Scope list_scope.

(** ** [std::map] and [std::set] *)
Section Maps.
Context {K V : Type} (cmp : K -> K -> comparison).

Fixpoint get (k : K) (m : list (K * V)) : option V :=
  match m with
  | [] => None
  | (j, v) :: r => match cmp k j with Eq => Some v | _ => get k r end
  end.

(** [m[k] = v] *)
Fixpoint put (k : K) (v : V) (m : list (K * V)) : list (K * V) :=
  match m with
  | [] => [(k, v)]
  | (j, w) :: r =>
      match cmp k j with
      | Lt => (k, v) :: m
      | Eq => (j, v) :: r
      | Gt => (j, w) :: put k v r
      end
  end.

(** [m.erase(k)] *)
Definition del (k : K) (m : list (K * V)) : list (K * V) :=
  filter (fun x => match cmp k (fst x) with Eq => false | _ => true end) m.

(** [s.insert(k)] *)
Fixpoint add (k : K) (s : list K) : list K :=
  match s with
  | [] => [k]
  | j :: r => match cmp k j with Lt => k :: s | Eq => s | Gt => j :: add k r end
  end.
End Maps.

(** ** The context (commodity_recipe_context.h 96-102) *)
Record ctx := {
  ins : list string;                   (* in_commods_ *)
  outs : list string;                  (* out_commods_ *)
  omap : list (string * string);       (* out_commod_map_ *)
  irec : list (string * string);       (* in_recipes_ *)
  orec : list (string * string);       (* out_recipes_ *)
  rmap : list (Z * string)             (* rsrc_commod_map_ *)
}.
Definition empty : ctx := {| ins := []; outs := []; omap := []; irec := []; orec := []; rmap := [] |}.

Definition sput := @put string string String.compare.
Definition rput := @put Z string Z.compare.

(** [m[k]] as an expression: the value, an empty string put there if there is none. *)
Definition look {K} (cmp : K -> K -> comparison) (k : K) (m : list (K * string))
    : string * list (K * string) :=
  match get cmp k m with
  | Some v => (v, m)
  | None => ("", put cmp k "" m)
  end.

(** AddInCommod, commodity_recipe_context.cc 9-18. *)
Definition add_in (ic ir oc ort : string) (s : ctx) : ctx :=
  {| ins := add String.compare ic (ins s); outs := add String.compare oc (outs s);
     omap := sput ic oc (omap s); irec := sput ic ir (irec s); orec := sput ic ort (orec s);
     rmap := rmap s |}.

Definition with_rmap (m : list (Z * string)) (s : ctx) : ctx :=
  {| ins := ins s; outs := outs s; omap := omap s; irec := irec s; orec := orec s; rmap := m |}.
Definition with_irec (m : list (string * string)) (s : ctx) : ctx :=
  {| ins := ins s; outs := outs s; omap := omap s; irec := m; orec := orec s; rmap := rmap s |}.
Definition with_omap (m : list (string * string)) (s : ctx) : ctx :=
  {| ins := ins s; outs := outs s; omap := m; irec := irec s; orec := orec s; rmap := rmap s |}.
Definition with_orec (m : list (string * string)) (s : ctx) : ctx :=
  {| ins := ins s; outs := outs s; omap := omap s; irec := irec s; orec := m; rmap := rmap s |}.

(** The calls an agent makes: the changes (commodity_recipe_context.cc 9-39) and the questions
    (commodity_recipe_context.h 52-71), each question inserting into the map it asks. *)
Inductive op :=
| AddInCommod (in_commod in_recipe out_commod out_recipe : string)
| AddRsrc (commod : string) (id : Z)
| UpdateRsrc (commod : string) (id : Z)
| RemoveRsrc (id : Z)
| UpdateInRec (in_commod recipe : string)
| AskOutCommod (in_commod : string)
| AskInRecipe (in_commod : string)
| AskOutRecipe (in_commod : string)
| AskCommod (id : Z).

Definition step (s : ctx) (o : op) : ctx * option string :=
  match o with
  | AddInCommod ic ir oc ort => (add_in ic ir oc ort s, None)
  | AddRsrc c id => (with_rmap (rput id c (rmap s)) s, None)
  | UpdateRsrc c id => (with_rmap (rput id c (rmap s)) s, None)
  | RemoveRsrc id => (with_rmap (del Z.compare id (rmap s)) s, None)
  | UpdateInRec ic r => (with_irec (sput ic r (irec s)) s, None)
  | AskOutCommod ic => let (a, m) := look String.compare ic (omap s) in (with_omap m s, Some a)
  | AskInRecipe ic => let (a, m) := look String.compare ic (irec s) in (with_irec m s, Some a)
  | AskOutRecipe ic => let (a, m) := look String.compare ic (orec s) in (with_orec m s, Some a)
  | AskCommod id => let (a, m) := look Z.compare id (rmap s) in (with_rmap m s, Some a)
  end.

Definition run (h : list op) (s : ctx) : ctx := fold_left (fun s o => fst (step s o)) h s.
Definition answer (s : ctx) (o : op) : option string := snd (step s o).

(** operator==, commodity_recipe_context.h 73-80, with map_compare (cyc_std.h 20-24): the sets are
    compared by their sizes only. *)
Definition pairs_eqb {K} (eqb : K -> K -> bool) :=
  fix go (a b : list (K * string)) : bool :=
    match a, b with
    | [], [] => true
    | (k, v) :: a', (j, w) :: b' => eqb k j && String.eqb v w && go a' b'
    | _, _ => false
    end.
Definition ctx_eqb (a b : ctx) : bool :=
  Nat.eqb (length (ins a)) (length (ins b)) && Nat.eqb (length (outs a)) (length (outs b)) &&
  pairs_eqb String.eqb (omap a) (omap b) && pairs_eqb String.eqb (irec a) (irec b) &&
  pairs_eqb String.eqb (orec a) (orec b) && pairs_eqb Z.eqb (rmap a) (rmap b).

(** ** The database *)
Record fuel := { f_in : string; f_inrec : string; f_out : string; f_outrec : string }.

(** Snapshot, commodity_recipe_context.cc 79-98; the questions it asks of the maps are as above. *)
Fixpoint inout_rows (cs : list string) (s : ctx) : ctx * list fuel :=
  match cs with
  | [] => (s, [])
  | c :: r =>
      let (ir, m1) := look String.compare c (irec s) in
      let (oc, m2) := look String.compare c (omap s) in
      let (ort, m3) := look String.compare c (orec s) in
      let (s', rows) := inout_rows r (with_irec m1 (with_omap m2 (with_orec m3 s))) in
      (s', {| f_in := c; f_inrec := ir; f_out := oc; f_outrec := ort |} :: rows)
  end.
Definition snapshot (s : ctx) : ctx * (list fuel * list (Z * string)) :=
  let (s', rows) := inout_rows (ins s) s in (s', (rows, rmap s')).

(** InfileToDb, commodity_recipe_context.cc 45-56: one row for each [fuel] element.  The element is
    the four texts it has in it. *)
Definition infile_to_db (fuels : list fuel) : list fuel := fuels.

(** A table exists when something was recorded in it, by this agent or ([others]) by another one of
    its class. *)
Definition table {A} (others : bool) (rows : list A) : option (list A) :=
  match rows with [] => if others then Some [] else None | _ => Some rows end.

(** InitFrom, commodity_recipe_context.cc 58-77: a missing first table is the error of the backend's
    Query, a missing second one is accepted. *)
Definition init_from (inout : option (list fuel)) (res : option (list (Z * string))) (s : ctx) : result ctx :=
  match inout with
  | None => Throw ValueError
  | Some rows =>
      let s1 := fold_left (fun s f => add_in (f_in f) (f_inrec f) (f_out f) (f_outrec f) s) rows s in
      match res with
      | None => Ok s1
      | Some rs => Ok (with_rmap (fold_left (fun m x => rput (fst x) (snd x) m) rs (rmap s1)) s1)
      end
  end.
