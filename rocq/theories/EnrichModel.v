(** * EnrichModel: src/toolkit/enrichment.cc.

    doubles are Coq's real numbers here (the value function needs logarithms); a result that is not finite
    (an infinity or NaN) is [None]. *)
From Coq Require Import Reals.
From Verif Require Import Base.
Local Open Scope R_scope.

(** enrichment.cc 15-33, class Assays. *)
Record assays := mkAssays { a_feed : R; a_product : R; a_tails : R }.

(** Division of doubles. *)
Definition fdiv (x y : R) : option R := if Req_EM_T y 0 then None else Some (x / y).

(** 85-91, FeedQty. *)
Definition feed_qty (q : R) (a : assays) : option R :=
  match fdiv (a_product a - a_tails a) (a_feed a - a_tails a) with Some f => Some (q * f) | None => None end.
(** 94-100, TailsQty. *)
Definition tails_qty (q : R) (a : assays) : option R :=
  match fdiv (a_product a - a_feed a) (a_feed a - a_tails a) with Some f => Some (q * f) | None => None end.

(** 103-119, ValueFunc: 1 / 0 and its logarithm are infinite. *)
Definition value_func (frac : R) : result (option R) :=
  if Rlt_dec frac 0 then Throw ValueError
  else if Rge_dec frac 1 then Throw ValueError
  else match fdiv 1 frac with
       | Some x => Ok (Some ((1 - 2 * frac) * ln (x - 1)))
       | None => Ok None
       end.

(** 122-130, SwuRequired. *)
Definition swu_required (q : R) (a : assays) : result (option R) :=
  let feed := feed_qty q a in
  let tails := tails_qty q a in
  match value_func (a_product a), value_func (a_tails a), value_func (a_feed a) with
  | Ok vp, Ok vt, Ok vf =>
      match feed, tails, vp, vt, vf with
      | Some feed, Some tails, Some vp, Some vt, Some vf => Ok (Some (q * vp + tails * vt - feed * vf))
      | _, _, _, _, _ => Ok None
      end
  | Throw e, _, _ | _, Throw e, _ | _, _, Throw e => Throw e
  | _, _, _ => UB
  end.
