(** Vocabulary for a whole resource exchange, independent of how it is collected. *)
From Coq Require Import String QArith List Bool Arith ZArith Lia Sorted.
From Verif Require Import Base GreedyModel ExchangeModel ExchangeSpec TradeModel TradeSpec DreModel.
Import ListNotations.
Open Scope Q_scope.

(** Traders take turns by the id of the agent that manages them and, for traders of the
    same agent, by address; each has one turn. *)
Definition turn (mgr : nat -> Z) (a b : nat) : Prop :=
  (mgr a < mgr b)%Z \/ (mgr a = mgr b /\ (a < b)%nat).
Definition in_turn (mgr : nat -> Z) (traders l : list nat) : Prop :=
  StronglySorted (turn mgr) l /\ (forall t, In t l <-> In t traders).

(** Whose method is called. *)
Inductive who :=
| WRequests (t : nat) | WBids (t : nat) | WPrefs (t : nat) | WParent (a : nat) | WTrade.
Definition callee (c : call) : who :=
  match c with
  | VRequests t _ => WRequests t
  | VBids t _ _ => WBids t
  | VAdjustT t _ => WPrefs t
  | VAdjustA a _ => WParent a
  | VTrade _ => WTrade
  end.
Definition about_prefs (w : who) : Prop :=
  match w with WPrefs _ | WParent _ => True | _ => False end.

(** The requests for a commodity, in the order in which they were posted, and those of them a
    bidder is shown. *)
Definition posted (m : market) (c : string) : list nat :=
  filter (fun r => String.eqb (rq_commod (req_at m r)) c) (all_reqs m).
Definition shown_for (table : list (string * list nat)) (c : string) : list nat :=
  match mfind String.eqb c table with Some l => l | None => [] end.

(** The portfolios returned, in order. *)
Definition request_replies (ev : list call) : list nat :=
  flat_map (fun c => match c with VRequests _ l => l | _ => [] end) ev.
Definition bid_replies (ev : list call) : list nat :=
  flat_map (fun c => match c with VBids _ _ l => l | _ => [] end) ev.

(** A requester minds its own business if it only makes, fills and returns portfolios of its own,
    made in that call ([n] is the number of portfolios that existed before). *)
Definition own_request (t n : nat) (o : xop) : Prop :=
  match o with
  | XNewRPort => True
  | XAddRequest p _ tr _ _ _ => (n <= p)%nat /\ tr = t
  | XMutual p _ | XRCons p _ _ _ => (n <= p)%nat
  | _ => False
  end.
Definition fair_requester {S} (get : nat -> market -> S -> result (list xop * list nat) * S) : Prop :=
  forall t m s ops ps s1, get t m s = (Ok (ops, ps), s1) ->
    Forall (own_request t (length (m_rports m))) ops /\
    Forall (fun p => (length (m_rports m) <= p)%nat) ps.
(** A bidder, likewise, and its bids answer requests it was shown. *)
Definition own_bid (t n : nat) (table : list (string * list nat)) (o : xop) : Prop :=
  match o with
  | XNewBPort => True
  | XAddBid p r _ tr _ _ _ => (n <= p)%nat /\ tr = t /\ exists c, In r (shown_for table c)
  | XBCons p _ _ _ => (n <= p)%nat
  | _ => False
  end.
Definition fair_bidder {S} (get : nat -> market -> S -> result (list xop * list nat) * S) : Prop :=
  forall t m s ops ps s1, get t m s = (Ok (ops, ps), s1) ->
    Forall (own_bid t (length (m_bports m)) (x_commod m)) ops /\
    Forall (fun p => (length (m_bports m) <= p)%nat) ps.

(** A table of preferences handed from one method to the next. *)
Inductive handed_on {S} : list (prefmap -> S -> result prefmap * S) -> prefmap -> S -> prefmap -> S -> Prop :=
| handed_nil p s : handed_on [] p s p s
| handed_cons f fs p s p1 s1 p2 s2 :
    f p s = (Ok p1, s1) -> handed_on fs p1 s1 p2 s2 -> handed_on (f :: fs) p s p2 s2.
(** The preference for bid [b] to request [r] in a table, if there is one. *)
Definition in_table (pm : prefmap) (r b : nat) : option Q :=
  match nfind r pm with Some l => nfind b l | None => None end.

(** The tables of the requesters [ts], before and after, each handed through its own chain of methods, one
    requester after the other. *)
Inductive adjusted {S} (chain : nat -> list (prefmap -> S -> result prefmap * S)) (before after : nat -> prefmap)
  : list nat -> S -> S -> Prop :=
| adjusted_nil s : adjusted chain before after [] s s
| adjusted_cons t ts s s1 s2 :
    handed_on (chain t) (before t) s (after t) s1 -> adjusted chain before after ts s1 s2 ->
    adjusted chain before after (t :: ts) s s2.

(** Suppliers that answer every trade they are given, in order, each with a resource that has the agreed
    quantity when all have answered. *)
Definition honest {S} (bidder : trade -> nat) (ask : nat -> list trade -> S -> result (list (trade * nat)) * S)
    (qty_of : S -> nat -> Q) (ts : list trade) (s : S) : Prop :=
  (forall p s0 rs s1, ask p (of_bidder bidder p ts) s0 = (Ok rs, s1) -> map fst rs = of_bidder bidder p ts) /\
  (forall sups rss s1, lists_once bidder ts sups -> asked bidder ask ts sups s rss s1 ->
     forall r, In r (concat rss) -> qty_of s1 (snd r) == td_amt (fst r)).
