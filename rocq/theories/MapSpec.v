(** * Specification vocabulary for ResMap. *)
From Verif Require Import Base CompModel CompSpec PackageModel ResourceModel ResourceSpec MapModel.
Open Scope Q_scope.

(** Since the quantity was last computed, the map has been opened for change: an element was assigned or
    looked up with operator[], an iterator was taken, an element popped, or the content replaced. *)
Definition opens (o : mop) (res : result unit) (before : bool) : bool :=
  match o with
  | MQuantity | MEraseIt _ | MEraseKey _ | MEraseRange _ _ => false
  | MSetObjIds _ | MIndex _ | MAssign _ _ | MBegin | MClear | MSetValues _ => true
  | MPop _ => match res with Ok _ => true | _ => before end
  | MObjIds | MValues | MOther _ => before
  end.
Definition opened (tr : list (mop * result unit)) : bool := fold_left (fun b p => opens (fst p) (snd p) b) tr true.

(** Other code may change the quantity of a contained resource only while the map is open. *)
Definition mfair (tr : list (mop * result unit)) (o : mop) (s s' : world * rmap) : Prop :=
  match o with
  | MOther _ => opened tr = true \/
      forall i, In (Some i) (map_values (snd s)) -> qty_of (fst s') i = qty_of (fst s) i
  | _ => True
  end.

Inductive mhist (E : env) (s0 : world * rmap) : list (mop * result unit) -> world * rmap -> Prop :=
| mh_start : mhist E s0 [] s0
| mh_step tr s o res s' :
    mhist E s0 tr s -> mstep E o s = (res, s') -> res <> UB -> mfair tr o s s' -> mhist E s0 (tr ++ [(o, res)]) s'.
