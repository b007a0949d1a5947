(** What backends should receive. *)
From Coq Require Import String List ZArith Bool Arith.
From Verif Require Import Base RecorderModel.
Import ListNotations.
Local Open Scope nat_scope.

Section Spec.
Context {V : Type}.
(** The data a backend received, in order. *)
Definition received (b : nat) (l : list (@bcall V)) : list datum :=
  flat_map (fun c => match c with BNotify b' x => if Nat.eqb b' b then x else [] | BFlush _ => [] end) l.
(** The data recorded by a program: each Put, with the simulation id in front if it is injected at that time. *)
Fixpoint recorded (id : V) (inj : bool) (l : list rop) : list datum :=
  match l with
  | [] => []
  | OPut t vs :: r => mkDatum t (if inj then ("SimId"%string, id, []) :: vs else vs) :: recorded id inj r
  | OInject x :: r => recorded id x r
  | _ :: r => recorded id inj r
  end.
Fixpoint injecting (inj : bool) (l : list (@rop V)) : bool :=
  match l with [] => inj | OInject x :: r => injecting x r | _ :: r => injecting inj r end.
(** Nothing fails, nothing is closed. *)
Definition no_failure (bad : nat -> list (@bcall V) -> @bcall V -> bool) : Prop := forall b l c, bad b l c = false.
Definition stays_open (l : list (@rop V)) : Prop := ~ In OClose l.
(** Backend [b] is registered, once. *)
Definition registered_once (b : nat) (r : @recorder V) : Prop := count_occ Nat.eq_dec (backs r) b = 1.
End Spec.
