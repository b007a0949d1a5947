(** Vocabulary for trade execution, independent of its containers. *)
From Coq Require Import String QArith List Bool Arith ZArith Lia Sorted Permutation.
From Verif Require Import Base GreedyModel ExchangeModel TradeModel.
Import ListNotations.
Open Scope Q_scope.

(** [l] lists, once each and in increasing order, the values of [f] on [ts]. *)
Definition lists_once {A} (f : A -> nat) (ts : list A) (l : list nat) : Prop :=
  StronglySorted lt l /\ forall x, In x l <-> exists t, In t ts /\ f t = x.

(** The trades of one supplier, in order; the responses for one requester, in order. *)
Definition of_bidder {T} (bidder : T -> nat) (s : nat) (ts : list T) : list T :=
  filter (fun t => Nat.eqb (bidder t) s) ts.
Definition of_requester {T} (requester : T -> nat) (q : nat) (rs : list (T * nat)) : list (T * nat) :=
  filter (fun r => Nat.eqb (requester (fst r)) q) rs.

(** A run of questions: each supplier is asked, in turn, about its own trades, in the state the
    previous one left; [rss] are the answers. *)
Inductive asked {T S} (bidder : T -> nat) (ask : nat -> list T -> S -> result (list (T * nat)) * S) (ts : list T)
  : list nat -> S -> list (list (T * nat)) -> S -> Prop :=
| asked_nil s : asked bidder ask ts [] s [] s
| asked_cons p ps s rs s1 rss s2 :
    ask p (of_bidder bidder p ts) s = (Ok rs, s1) ->
    asked bidder ask ts ps s1 rss s2 ->
    asked bidder ask ts (p :: ps) s (rs :: rss) s2.

(** The rows for a list of (supplier, response): one per resource that is more than
    negligible. Ids are given later. *)
Definition row_data (r : row) := (tx_sender r, tx_receiver r, tx_rsrc r, tx_commod r, tx_time r).

(** Who answered what: each answer paired with the supplier that gave it, in order. *)
Definition answers {T} (ps : list nat) (rss : list (list (T * nat))) : list (nat * (T * nat)) :=
  flat_map (fun x => map (pair (fst x)) (snd x)) (combine ps rss).

(** The content of the Transactions row for the answer [x] of supplier [fst x]: the supplier's
    agent, the agent of the requester of the trade, the resource handed over, the requested commodity and the time. *)
Definition row_for {T S} (requester : T -> nat) (commod : T -> string) (sid_of : S -> nat -> Z)
    (agent : nat -> Z) (time : Z) (s : S) (x : nat * (T * nat)) :=
  (agent (fst x), agent (requester (fst (snd x))), sid_of s (snd (snd x)), commod (fst (snd x)), time).
(** More than a negligible quantity is handed over. *)
Definition sizable {T S} (qty_of : S -> nat -> Q) (eps : Q) (s : S) (x : nat * (T * nat)) : bool :=
  Qltb eps (qty_of s (snd (snd x))).

(** [id], [id + 1], ... ([n] of them). *)
Definition numbered (id : Z) (n : nat) : list Z := map (fun i => (id + Z.of_nat i)%Z) (seq 0 n).

(** A run of deliveries, in the state the previous one left. *)
Inductive delivered {T S} (requester : T -> nat) (accept : nat -> list (T * nat) -> S -> result unit * S) (rs : list (T * nat))
  : list nat -> S -> S -> Prop :=
| delivered_nil s : delivered requester accept rs [] s s
| delivered_cons q qs s s1 s2 :
    accept q (of_requester requester q rs) s = (Ok tt, s1) ->
    delivered requester accept rs qs s1 s2 ->
    delivered requester accept rs (q :: qs) s s2.
