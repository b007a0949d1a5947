(** What is promised about the SQLite backend, independent of how it works. *)
From Coq Require Import String Ascii QArith List Bool Arith ZArith Lia.
From Verif Require Import Base SqlModel.
Import ListNotations.
Open Scope list_scope.

(** Names and types of the values of a datum; a datum all of whose values can be stored. *)
Definition shape {X} (d : datum X) : list (string * option dbtype) := map (fun p => (fst p, type_of (snd p))) (dt_vals X d).
Definition storable {X} (d : datum X) : Prop := forall f, ~ In (f, None) (shape d).
Definition storableb {X} (d : datum X) : bool :=
  forallb (fun p => match snd p with Some _ => true | None => false end) (shape d).
(** The data before the first one that cannot be stored. *)
Fixpoint before_bad {X} (l : list (datum X)) : list (datum X) :=
  match l with [] => [] | d :: rest => if storableb d then d :: before_bad rest else [] end.

(** What happens to a database file: data are handed to the backend, with the outcome of the call; or the program ends, in
    whatever way, and another one opens the file. *)
Inductive event {X} := Recorded (l : list (datum X)) (r : result unit) | Reopened.
Arguments event : clear implicits.

(** What a history (latest event first) leaves in the file: everything of a delivery that was accepted, and of one that
    was refused with ValueError what came before the datum that cannot be stored. *)
Fixpoint kept {X} (h : list (event X)) : list (datum X) :=
  match h with
  | [] => []
  | Recorded l (Ok _) :: rest => kept rest ++ l
  | Recorded l (Throw ValueError) :: rest => kept rest ++ before_bad l
  | _ :: rest => kept rest
  end.
Definition of_title {X} (t : string) (l : list (datum X)) : list (datum X) := filter (fun d => String.eqb t (dt_title X d)) l.

Definition delivered {X} (h : list (event X)) (d : datum X) : Prop := exists l r, In (Recorded l r) h /\ In d l.
(** No two titles differ only in upper and lower case. *)
Definition titles_apart {X} (h : list (event X)) : Prop :=
  forall d d', delivered h d -> delivered h d' -> lower (dt_title X d) = lower (dt_title X d') -> dt_title X d = dt_title X d'.
(** All data of title [t] that were ever handed over list the same fields with the same types, all of which can be stored. *)
Definition steady {X} (h : list (event X)) (t : string) : Prop :=
  forall d, delivered h d -> dt_title X d = t -> storable d /\ forall d', delivered h d' -> dt_title X d' = t -> shape d' = shape d.

(** What a stored value comes back as. *)
Fixpoint no_nul (s : string) : Prop := match s with EmptyString => True | String a r => a <> zero /\ no_nul r end.
Inductive comes_back {X} (ser : nat -> X -> string) (deser : nat -> string -> option X) : sval X -> sval X -> Prop :=
| cb_int z : comes_back ser deser (SInt z) (SInt z)
| cb_bool b : comes_back ser deser (SBool b) (SBool b)
| cb_dbl d : d <> NaN -> comes_back ser deser (SDbl d) (SDbl d)
| cb_nan : comes_back ser deser (SDbl NaN) (SDbl (Fin 0))
| cb_flt d : d <> NaN -> comes_back ser deser (SFlt d) (SFlt d)
| cb_fnan : comes_back ser deser (SFlt NaN) (SFlt (Fin 0))
| cb_blob s : comes_back ser deser (SBlob s) (SBlob s)
| cb_str s : no_nul s -> comes_back ser deser (SStr s) (SStr s)
| cb_cut s rest : no_nul s -> comes_back ser deser (SStr (s ++ String zero rest)) (SStr s)
| cb_uuid s : String.length s = 16%nat -> comes_back ser deser (SUuid s) (SUuid s)
| cb_obj k x : no_nul (ser k x) -> deser k (ser k x) = Some x -> comes_back ser deser (SObj k x) (SObj k x).
(** Values of which the backend promises more than the class: a uuid has 16 bytes, the archive of a container can be read. *)
Definition sound {X} (ser : nat -> X -> string) (deser : nat -> string -> option X) (v : sval X) : Prop :=
  match v with
  | SUuid s => String.length s = 16%nat
  | SObj k x => no_nul (ser k x) /\ deser k (ser k x) = Some x
  | _ => True
  end.
(** Values that come back as they were: also no NaN, and no NUL character in a text. *)
Definition clean {X} (ser : nat -> X -> string) (deser : nat -> string -> option X) (v : sval X) : Prop :=
  sound ser deser v /\ match v with SDbl d | SFlt d => d <> NaN | SStr s => no_nul s | _ => True end.

Section Histories.
Variable X : Type.
Variable plain : string -> bool.
Variable trouble : nat -> option bool.
Variable ser : nat -> X -> string.
Variable conv : affinity -> cell -> cell.
(** Histories from an empty file. *)
Inductive went : list (event X) -> back -> Prop :=
| went_new n : went [] (open_back db0 n)
| went_put h b l r b' : went h b -> notify X plain trouble ser conv l b = (r, b') -> r <> UB -> went (Recorded l r :: h) b'
| went_open h b n : went h b -> went (Reopened :: h) (open_back (k_disk (b_conn b)) n).
End Histories.
