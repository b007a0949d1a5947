(** * MemBackSpec: what the in-memory backend should hold and answer, for C43. *)
From Coq Require Import String List ZArith QArith Ascii Bool.
From Verif Require Import Base QueryModel QuerySpec MemBackModel.
Import ListNotations.

(** What can happen to a backend (without a fallback), and the state it leads to.  Whether a query succeeds does not
    matter to what follows. *)
Inductive event := Recorded (data : list mdatum) | Registry (v : reg_val) | Asked (t : string) (conds : option (list mcond)).
Definition happens (cmp : py_holds) (m : memback) (e : event) : result memback :=
  match e with
  | Recorded data => mb_notify m data
  | Registry v => mb_set_registry m v
  | Asked t conds => Ok (snd (mb_query cmp None m t conds))
  end.
Inductive reaches (cmp : py_holds) (v0 : reg_val) : list event -> memback -> Prop :=
| re_new : forall m, mb_new v0 = Ok m -> reaches cmp v0 [] m
| re_step : forall h m e m', reaches cmp v0 h m -> happens cmp m e = Ok m' -> reaches cmp v0 (h ++ [e]) m'.

(** The registry in force after a history, and whether it covers a table. *)
Definition in_force (v0 : reg_val) (h : list event) : reg_val :=
  fold_left (fun v e => match e with Registry w => w | _ => v end) h v0.
Definition covers (v : reg_val) (t : string) : Prop :=
  match v with RAll => True | RNone => False | RSet l => In t l end.
Definition coversb (v : reg_val) (t : string) : bool :=
  match v with RAll => true | RNone => false | RSet l => existsb (String.eqb t) l end.

(** The rows a table should have: those recorded while it was covered, since it was last dropped from the registry. *)
Definition rows_for (t : string) (data : list mdatum) : list (list anyval) :=
  map md_vals (filter (fun d => String.eqb t (md_title d)) data).
Definition contents_step (t : string) (s : reg_val * list (list anyval)) (e : event) : reg_val * list (list anyval) :=
  let (v, rows) := s in
  match e with
  | Recorded data => (v, if coversb v t then rows ++ rows_for t data else rows)
  | Registry w => (w, if coversb w t then rows else [])
  | Asked _ _ => (v, rows)
  end.
Definition contents (v0 : reg_val) (h : list event) (t : string) : list (list anyval) :=
  snd (fold_left (contents_step t) h (v0, [])).

(** Every datum of a table has the columns the table is known by, one value each. *)
Definition typed (schema : string -> list string) (h : list event) : Prop :=
  forall data d, In (Recorded data) h -> In d data ->
    md_fields d = schema (md_title d) /\ List.length (md_vals d) = List.length (md_fields d).
(** Column names that cannot be confused with anything: no repetition, no operator characters, not a name the
    evaluation of queries uses itself. *)
Definition plain_name (f : string) : Prop :=
  f <> EmptyString /\ (forall c, In c (list_ascii_of_string f) -> ~ In c ["<"; ">"; "="; "!"]%char) /\
  f <> "__builtins__"%string /\ forall i, f <> val_name i.
Definition plain (schema : string -> list string) : Prop := forall t, NoDup (schema t) /\ Forall plain_name (schema t).

(** The registry never goes straight from everything to a set of names. *)
Fixpoint no_shortcut (v0 : reg_val) (h : list event) : Prop :=
  match h with
  | [] => True
  | Registry w :: h => (v0 = RAll -> match w with RSet _ => False | _ => True end) /\ no_shortcut w h
  | _ :: h => no_shortcut v0 h
  end.

(** A row satisfies all conditions. *)
Definition meets (cmp : py_holds) (fields : list string) (cs : list mcond) (row : list anyval) : Prop :=
  forall c, In c cs -> exists v, column fields row (mc_field c) v /\ cmp (mc_op c) v (mc_val c) = true.
(** Conditions that make sense for a table. *)
Definition sensible (fields : list string) (cs : list mcond) : Prop :=
  cs <> [] /\ forall c, In c cs -> In (mc_field c) fields /\ In (mc_op c) ["=="; "!="; "<"; "<="; ">"; ">="]%string.
