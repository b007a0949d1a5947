(** Vocabulary for whole exchanges solved with the optimisation solver (C52). *)
From Coq Require Import String QArith List Bool Arith ZArith Lia.
From Verif Require Import Base GreedyModel GreedySpec ExchangeModel ExchangeSpec ProgModel ProgSpec ProgSolveModel.
Import ListNotations.
Open Scope Q_scope.

(** The external solver does its job on the program made for the exchange [m]: what it returns is a
    [good] solution (feasible, or optimal). *)
Definition solved (good : lp -> (nat -> Q) -> Prop) (fd : Q -> Q -> Q) (mgr : nat -> Z) (eps : Q) (excl : bool)
    (solver : lp -> nat -> Q) (m : market) : Prop :=
  forall m1 g t g2 p, translate fd mgr m = Ok (m1, (g, t)) -> prog_made fd eps excl g = Ok (g2, p) ->
    good p (solver p).

(** Whether a trade is all or nothing. *)
Definition excl_trade (m : market) (t : trade) : bool :=
  rq_excl (req_at m (td_req t)) || bd_excl (bid_at m (td_bid t)).

(** What the bids that satisfy [P] use of a constraint, per unit each. *)
Definition all_use (m : market) (c : constraint) (P : nat -> bool) : Q :=
  qsum (map (use m c) (filter P (all_bids m))).
(** The bids that answer requests of portfolio [k], and the bids of bid portfolio [k]. *)
Definition bids_for (m : market) (k b : nat) : bool := Nat.eqb (rq_port (req_at m (bd_req (bid_at m b)))) k.
Definition bids_from (m : market) (k b : nat) : bool := Nat.eqb (bd_port (bid_at m b)) k.
