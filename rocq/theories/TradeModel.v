(** Trade execution: src/trade_executor.h 26-168 (TradeExecutionContext, ExecuteTrades,
    RecordTrades, GroupTradesBySupplier, GetTradeResponses, SendTradeResources).

    Simplifications: traders are numbers whose order is the order of their addresses; the bodies of
    Trader::GetMatlTrades/GetProductTrades and AcceptMatlTrades/AcceptProductTrades are arbitrary
    functions on an arbitrary state (the rest of the simulation), which may throw. A resource is a
    reference whose quantity and state id are read from that state when the trade is recorded.
    A trade is any value with a bidder, a requester and a commodity. *)
From Coq Require Import String QArith List Bool Arith ZArith Lia.
From Verif Require Import Base GreedyModel ExchangeModel.
Import ListNotations.
Open Scope Q_scope.

Section Exec.
Variable T : Type.                 (* Trade<T> *)
Variable bidder requester : T -> nat.   (* trade.bid->bidder(), trade.request->requester() *)
Variable commod : T -> string.     (* trade.request->commodity() *)
Variable S : Type.                 (* everything else *)
Definition response := (T * nat)%type.   (* std::pair<Trade<T>, T::Ptr> *)
(** supplier->GetMatlTrades(trades, responses) *)
Variable ask : nat -> list T -> S -> result (list response) * S.
(** requester->AcceptMatlTrades(responses) *)
Variable accept : nat -> list response -> S -> result unit * S.
Variable qty_of : S -> nat -> Q.   (* rsrc->quantity() *)
Variable sid_of : S -> nat -> Z.   (* rsrc->state_id() *)
Variable agent : nat -> Z.         (* trader->manager()->id() *)
Variable time : Z.                 (* ctx->time() *)
Variable eps_rsrc : Q.

(** A row of the Transactions table, trade_executor.h 94-101. *)
Record row := mkRow {
  tx_id : Z; tx_sender : Z; tx_receiver : Z; tx_rsrc : Z; tx_commod : string; tx_time : Z }.

(** What the outside sees, in order. *)
Inductive event :=
| EAsk (s : nat) (ts : list T)
| ERecord (r : row)
| EAccept (r : nat) (rs : list response).

(** TradeExecutionContext, trade_executor.h 26-40. *)
Record xctx := mkXctx {
  x_suppliers : list nat; x_reqs : list nat;
  x_by_sup : list (nat * list T);
  x_by_req : list (nat * list response);
  x_all : list ((nat * nat) * list response) }.
Definition xctx0 := mkXctx [] [] [] [] [].

(** GroupTradesBySupplier, trade_executor.h 120-129. *)
Definition group_one (c : xctx) (t : T) : xctx :=
  mkXctx (sins (bidder t) (x_suppliers c)) (sins (requester t) (x_reqs c))
         (nupd (bidder t) (opush t) (x_by_sup c)) (x_by_req c) (x_all c).
Definition group_trades (ts : list T) : xctx := fold_left group_one ts xctx0.

(** The inner loop of GetTradeResponses, trade_executor.h 144-155. *)
Definition store_one (sup : nat) (c : xctx) (r : response) : xctx :=
  let q := requester (fst r) in
  mkXctx (x_suppliers c) (x_reqs c) (x_by_sup c)
         (nupd q (opush r) (x_by_req c)) (mupd keyb (sup, q) (opush r) (x_all c)).

(** GetTradeResponses, trade_executor.h 133-157: the events and the state at the point where it
    stops. *)
Fixpoint get_responses (sups : list nat) (c : xctx) (s : S) : result xctx * (list event * S) :=
  match sups with
  | [] => (Ok c, ([], s))
  | p :: rest =>
      let ts := orempty (nfind p (x_by_sup c)) in
      match ask p ts s with
      | (Ok rs, s1) =>
          let '(r, (ev, s2)) := get_responses rest (fold_left (store_one p) rs c) s1 in
          (r, (EAsk p ts :: ev, s2))
      | (Throw e, s1) => (Throw e, ([EAsk p ts], s1))
      | (UB, s1) => (UB, ([EAsk p ts], s1))
      end
  end.

(** RecordTrades, trade_executor.h 77-106: the map of all trades is visited in the order of
    its keys; NextTransactionID() is taken for recorded rows only. *)
Definition klt (k l : nat * nat) : bool :=
  Nat.ltb (fst k) (fst l) || (Nat.eqb (fst k) (fst l) && Nat.ltb (snd k) (snd l)).
Definition all_sorted (c : xctx) : list ((nat * nat) * list response) :=
  stable_sort (fun x y => klt (fst x) (fst y)) (x_all c).
Fixpoint record_list (k : nat * nat) (rs : list response) (s : S) (id : Z) : list row * Z :=
  match rs with
  | [] => ([], id)
  | (t, x) :: rest =>
      if Qltb eps_rsrc (qty_of s x) then
        let '(rows, id') := record_list k rest s (id + 1) in
        (mkRow id (agent (fst k)) (agent (snd k)) (sid_of s x) (commod t) time :: rows, id')
      else record_list k rest s id
  end.
Fixpoint record_all (l : list ((nat * nat) * list response)) (s : S) (id : Z) : list row * Z :=
  match l with
  | [] => ([], id)
  | (k, rs) :: rest =>
      let '(rows, id1) := record_list k rs s id in
      let '(rows2, id2) := record_all rest s id1 in
      (rows ++ rows2, id2)
  end.

(** SendTradeResources, trade_executor.h 160-168. *)
Fixpoint send (reqs : list nat) (c : xctx) (s : S) : result unit * (list event * S) :=
  match reqs with
  | [] => (Ok tt, ([], s))
  | q :: rest =>
      let rs := orempty (nfind q (x_by_req c)) in
      match accept q rs s with
      | (Ok _, s1) =>
          let '(r, (ev, s2)) := send rest c s1 in (r, (EAccept q rs :: ev, s2))
      | (Throw e, s1) => (Throw e, ([EAccept q rs], s1))
      | (UB, s1) => (UB, ([EAccept q rs], s1))
      end
  end.

(** ExecuteTrades(ctx) with a context, trade_executor.h 64-71. [id] is the next
    transaction id (context.h NextTransactionID: trans_id_++). *)
Definition execute (ts : list T) (s : S) (id : Z) : result unit * (list event * (S * Z)) :=
  let c := group_trades ts in
  match get_responses (x_suppliers c) c s with
  | (Ok c1, (ev, s1)) =>
      let '(rows, id1) := record_all (all_sorted c1) s1 id in
      let '(r, (ev2, s2)) := send (x_reqs c1) c1 s1 in
      (r, (ev ++ map ERecord rows ++ ev2, (s2, id1)))
  | (Throw e, (ev, s1)) => (Throw e, (ev, (s1, id)))
  | (UB, (ev, s1)) => (UB, (ev, (s1, id)))
  end.
End Exec.
