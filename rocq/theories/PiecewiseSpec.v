(** * PiecewiseSpec: what a piecewise function built from a history of calls should be, for C47. *)
From Coq Require Import Reals List.
From Verif Require Import PiecewiseModel.
Import ListNotations.
Local Open Scope R_scope.

(** The calls that are in order: each starts after every earlier one that was itself in order.  Newest first. *)
Inductive in_order : list call -> list call -> Prop :=
| io_nil : in_order [] []
| io_keep : forall past kept c, in_order past kept -> Forall (fun k => c_start k < c_start c) kept ->
    in_order (past ++ [c]) (c :: kept)
| io_drop : forall past kept c, in_order past kept -> ~ Forall (fun k => c_start k < c_start c) kept ->
    in_order (past ++ [c]) kept.

(** The curve drawn by pieces (newest first): each piece takes over from its start on; one that is requested
    continuous is shifted so as to start where the curve was. *)
Fixpoint curve (pieces : list call) (x : R) : R :=
  match pieces with
  | [] => 0
  | c :: older =>
      if Rlt_dec x (c_start c) then curve older x
      else if c_continuous c then curve older (c_start c) + (c_fun c (x - c_start c) - c_fun c 0)
      else c_fun c (x - c_start c)
  end.

(** [c] is the piece in force at [x]. *)
Definition in_force (pieces : list call) (c : call) (x : R) : Prop :=
  In c pieces /\ c_start c <= x /\ forall c', In c' pieces -> c_start c' <= x -> c_start c' <= c_start c.
