(** One resource exchange from start to end: src/exchange_manager.h 35-68
    (ExchangeManager::Execute), src/resource_exchange.h 61-176 (ResourceExchange) and
    src/trader_management.h 12-47 (the dispatch to the traders' methods).

    Simplifications, once for the whole file:
    - traders are numbers whose order is the order of their addresses, agents too; the
      bodies of the traders' and agents' methods are arbitrary functions on an arbitrary
      state [S] (the rest of the simulation) that may throw;
    - what a trader does to requests, bids and portfolios while it answers is the list of
      constructions it returns along with the portfolios themselves; a trader that names
      an object that does not exist, or that changes the exchange context itself (the map
      of requests is handed to it by reference, trader_management.h 31-47), is [UB];
    - the chain of parents of a trader's manager does not change during the exchange; it is
      the argument [ancestors];
    - the tables of CYCLUS_DEBUG_DRE (exchange_manager.h 43-44, 71-117) and logging are
      not modelled, and the solver is the greedy one of [solve_exchange]. *)
From Coq Require Import String QArith List Bool Arith ZArith Lia.
From Verif Require Import Base GreedyModel ExchangeModel TradeModel.
Import ListNotations.
Open Scope Q_scope.

(** Constructions of requests and bids (not of the exchange context), on existing
    objects. *)
Definition building (o : xop) : bool :=
  match o with XCtxR _ | XCtxB _ | XAdjust _ => false | _ => true end.
Definition existing (m : market) (o : xop) : bool :=
  match o with
  | XAddRequest p _ _ _ _ _ | XRCons p _ _ _ | XCtxR p => Nat.ltb p (length (m_rports m))
  | XMutual p rs => Nat.ltb p (length (m_rports m)) &&
      forallb (fun r => existsb (Nat.eqb r) (rp_reqs (rp_at m p))) rs
  | XAddBid p r _ _ _ _ _ => Nat.ltb p (length (m_bports m)) && Nat.ltb r (length (m_reqs m))
  | XBCons p _ _ _ | XCtxB p => Nat.ltb p (length (m_bports m))
  | _ => true
  end.
Fixpoint construct (m : market) (ops : list xop) : option market :=
  match ops with
  | [] => Some m
  | o :: rest => if building o && existing m o then construct (xstep m o) rest else None
  end.

Section Dre.
Variable S : Type.
Variable mgr : nat -> Z.               (* trader->manager()->id() *)
Variable ancestors : nat -> list nat.  (* manager()->parent(), its parent, and so on *)
(** t->GetMatlRequests() or GetProductRequests(), trader_management.h 13-29. *)
Variable get_requests : nat -> market -> S -> result (list xop * list nat) * S.
(** t->GetMatlBids(commod_requests) or GetProductBids, trader_management.h 31-47. *)
Variable get_bids : nat -> market -> S -> result (list xop * list nat) * S.
(** t->AdjustMatlPrefs(prefs) and agent->AdjustMatlPrefs(prefs) (or the product ones),
    resource_exchange.h 21-34: the table as the method leaves it. *)
Variable adjust_trader : nat -> prefmap -> S -> result prefmap * S.
Variable adjust_agent : nat -> prefmap -> S -> result prefmap * S.

(** What the outside sees, in order: who is called, the map of requests by commodity that is
    handed to a bidder or the table handed to an adjusting method, and the portfolios a
    trader returns. *)
Inductive call :=
| VRequests (t : nat) (reply : list nat)
| VBids (t : nat) (shown : list (string * list nat)) (reply : list nat)
| VAdjustT (t : nat) (prefs : prefmap)
| VAdjustA (a : nat) (prefs : prefmap)
| VTrade (e : event trade).

(** trader_compare, resource_exchange.h 155-165, and std::set::insert with it. *)
Definition tlt (a b : nat) : bool :=
  if Z.eqb (mgr a) (mgr b) then Nat.ltb a b else Z.ltb (mgr a) (mgr b).
Fixpoint tins (t : nat) (l : list nat) : list nat :=
  match l with
  | [] => [t]
  | u :: rest => if tlt t u then t :: l else if tlt u t then u :: tins t rest else l
  end.
(** InitTraders, resource_exchange.h 114-122; [traders] is ctx->traders(), context.h
    186. (The set is read again only if it was empty, and then nothing was called.) *)
Definition init_traders (traders : list nat) : list nat :=
  fold_left (fun acc t => tins t acc) traders [].

(** AddRequests_, resource_exchange.h 124-131. A std::set of portfolios has no duplicates
    and is visited in address order, that is, in any order. *)
Definition add_requests (t : nat) (m : market) (s : S) : result market * (list call * S) :=
  match get_requests t m s with
  | (Ok (ops, ps), s1) =>
      match construct m ops with
      | Some m1 =>
          if forallb (fun p => Nat.ltb p (length (m_rports m1))) ps
          then (Ok (fold_left ctx_add_rport (nodup Nat.eq_dec ps) m1), ([VRequests t (nodup Nat.eq_dec ps)], s1))
          else (UB, ([VRequests t []], s1))
      | None => (UB, ([VRequests t []], s1))
      end
  | (Throw e, s1) => (Throw e, ([VRequests t []], s1))
  | (UB, s1) => (UB, ([VRequests t []], s1))
  end.
(** AddBids_, resource_exchange.h 133-141. *)
Definition add_bids (t : nat) (m : market) (s : S) : result market * (list call * S) :=
  match get_bids t m s with
  | (Ok (ops, ps), s1) =>
      match construct m ops with
      | Some m1 =>
          if forallb (fun p => Nat.ltb p (length (m_bports m1))) ps
          then (Ok (fold_left ctx_add_bport (nodup Nat.eq_dec ps) m1), ([VBids t (x_commod m) (nodup Nat.eq_dec ps)], s1))
          else (UB, ([VBids t (x_commod m) []], s1))
      | None => (UB, ([VBids t (x_commod m) []], s1))
      end
  | (Throw e, s1) => (Throw e, ([VBids t (x_commod m) []], s1))
  | (UB, s1) => (UB, ([VBids t (x_commod m) []], s1))
  end.

(** std::for_each over a set of traders: stops at the first exception. *)
Fixpoint for_each (f : nat -> market -> S -> result market * (list call * S)) (l : list nat)
    (m : market) (s : S) : result market * (list call * S) :=
  match l with
  | [] => (Ok m, ([], s))
  | t :: rest =>
      match f t m s with
      | (Ok m1, (ev, s1)) =>
          let '(r, (ev2, s2)) := for_each f rest m1 s1 in (r, (ev ++ ev2, s2))
      | x => x
      end
  end.

(** AddAllRequests and AddAllBids, resource_exchange.h 75-94. *)
Definition add_all_requests (traders : list nat) (m : market) (s : S) :=
  for_each add_requests (init_traders traders) m s.
Definition add_all_bids (traders : list nat) (m : market) (s : S) :=
  for_each add_bids (init_traders traders) m s.

(** AdjustPrefs_, resource_exchange.h 143-153: the trader, then the parents of its manager. *)
Fixpoint adjust_up (l : list nat) (prefs : prefmap) (s : S) : result prefmap * (list call * S) :=
  match l with
  | [] => (Ok prefs, ([], s))
  | a :: rest =>
      match adjust_agent a prefs s with
      | (Ok prefs1, s1) =>
          let '(r, (ev, s2)) := adjust_up rest prefs1 s1 in (r, (VAdjustA a prefs :: ev, s2))
      | (Throw e, s1) => (Throw e, ([VAdjustA a prefs], s1))
      | (UB, s1) => (UB, ([VAdjustA a prefs], s1))
      end
  end.
Definition adjust_prefs (t : nat) (m : market) (s : S) : result market * (list call * S) :=
  let prefs := orempty (nfind t (x_prefs m)) in
  match adjust_trader t prefs s with
  | (Ok prefs1, s1) =>
      match adjust_up (ancestors t) prefs1 s1 with
      | (Ok prefs2, (ev, s2)) =>
          (Ok (set_xprefs m (nupd t (fun _ => prefs2) (x_prefs m))), (VAdjustT t prefs :: ev, s2))
      | (Throw e, (ev, s2)) => (Throw e, (VAdjustT t prefs :: ev, s2))
      | (UB, (ev, s2)) => (UB, (VAdjustT t prefs :: ev, s2))
      end
  | (Throw e, s1) => (Throw e, ([VAdjustT t prefs], s1))
  | (UB, s1) => (UB, ([VAdjustT t prefs], s1))
  end.
(** AdjustAll, resource_exchange.h 97-107: the requesters of the context, a
    std::set<Trader*> in address order. *)
Definition adjust_everyone (m : market) (s : S) := for_each adjust_prefs (x_requesters m) m s.

(** The three collecting steps of Execute, exchange_manager.h 37-40. *)
Definition collect (traders : list nat) (s : S) : result market * (list call * S) :=
  match add_all_requests traders market0 s with
  | (Ok m1, (ev1, s1)) =>
      match add_all_bids traders m1 s1 with
      | (Ok m2, (ev2, s2)) =>
          let '(r, (ev3, s3)) := adjust_everyone m2 s2 in (r, (ev1 ++ ev2 ++ ev3, s3))
      | (r, (ev2, s2)) => (r, (ev1 ++ ev2, s2))
      end
  | x => x
  end.

(** A trade as TradeExecutor reads it, trade_executor.h 122-126. *)
Definition bidder_of (m : market) (t : trade) : nat := bd_trader (bid_at m (td_bid t)).
Definition requester_of (m : market) (t : trade) : nat := rq_trader (req_at m (td_req t)).
Definition commod_of (m : market) (t : trade) : string := rq_commod (req_at m (td_req t)).

Variable fd : Q -> Q -> Q.             (* boost::math::float_distance *)
Variable eps_solver : Q.               (* cyclus::eps() *)
Variable weights_of : option weights.  (* the solver's preconditioner *)
Variable ask : market -> nat -> list trade -> S -> result (list (trade * nat)) * S.
Variable accept : market -> nat -> list (trade * nat) -> S -> result unit * S.
Variable qty_of : S -> nat -> Q.
Variable sid_of : S -> nat -> Z.
Variable time : Z.
Variable eps_rsrc : Q.

(** ExchangeManager::Execute, exchange_manager.h 35-68. [id] is the next transaction id. *)
Definition execute_exchange (traders : list nat) (s : S) (id : Z)
  : result unit * (list call * (S * Z)) :=
  match collect traders s with
  | (Ok m, (ev, s1)) =>
      match x_bbr m with
      | [] => (Ok tt, (ev, (s1, id)))            (* exchng.Empty() *)
      | _ =>
          match solve_exchange fd mgr eps_solver weights_of m with
          | Ok ts =>
              let '(r, (ev2, (s2, id2))) :=
                execute trade (bidder_of m) (requester_of m) (commod_of m) S (ask m) (accept m)
                  qty_of sid_of mgr time eps_rsrc ts s1 id in
              (r, (ev ++ map VTrade ev2, (s2, id2)))
          | Throw e => (Throw e, (ev, (s1, id)))
          | UB => (UB, (ev, (s1, id)))
          end
      end
  | (Throw e, (ev, s1)) => (Throw e, (ev, (s1, id)))
  | (UB, (ev, s1)) => (UB, (ev, (s1, id)))
  end.
End Dre.
