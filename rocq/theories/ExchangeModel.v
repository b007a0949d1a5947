(** Requests, bids, portfolios and capacity constraints (src/request.h, bid.h,
    request_portfolio.h, bid_portfolio.h, capacity_constraint.h), the exchange context
    (exchange_context.h), preference adjustment (resource_exchange.h 97-106, 145-153)
    and the translation to and from an exchange graph (exchange_translator.h).

    Simplifications, once for the whole file:
    - doubles are exact rationals; the only NaN that is represented is the
      "no preference" default of a bid ([None], bid.h); preferences set by
      adjustment code are numbers;
    - requests, bids and portfolios are indices into heaps; traders are numbers whose
      order is the order of their addresses; resources are an address and a quantity
      that does not change during an exchange;
    - a std::map that is only used through lookups is an association list in insertion
      order; where a std::map is iterated the list is sorted by key first;
    - std::map::at on a missing key throws std::out_of_range ([PlainError]);
    - std::set<Bid*> iterates in address order and std::set<CapacityConstraint>
      iterates in an order that depends on ids assigned by copies, so the insertion
      position in either is an argument [pos] of the operation (any position);
    - cost functions and packages of requests and bids are not modelled, logging
      neither; a converter written by a user is a total function. *)
From Coq Require Import String QArith List Bool Arith ZArith Lia.
From Verif Require Import Base GreedyModel.
Import ListNotations.
Open Scope Q_scope.

(** ** std::map *)
Section Maps.
Context {K V : Type} (eqb : K -> K -> bool).
Fixpoint mfind (k : K) (m : list (K * V)) : option V :=
  match m with
  | [] => None
  | (k', v) :: t => if eqb k k' then Some v else mfind k t
  end.
(** m[k] = f(m[k]), where [f None] is the value of a new entry. *)
Fixpoint mupd (k : K) (f : option V -> V) (m : list (K * V)) : list (K * V) :=
  match m with
  | [] => [(k, f None)]
  | (k', v) :: t => if eqb k k' then (k', f (Some v)) :: t else (k', v) :: mupd k f t
  end.
End Maps.
Definition nfind {V} := @mfind nat V Nat.eqb.
Definition nupd {V} := @mupd nat V Nat.eqb.
(** std::set<...*>::insert, ascending. *)
Fixpoint sins (x : nat) (l : list nat) : list nat :=
  match l with
  | [] => [x]
  | y :: t => if Nat.ltb x y then x :: l else if Nat.eqb x y then l else y :: sins x t
  end.
Definition opush {A} (x : A) (o : option (list A)) : list A :=
  match o with Some l => l ++ [x] | None => [x] end.
Fixpoint insert_at {A} (pos : nat) (x : A) (l : list A) : list A :=
  match pos, l with
  | O, _ => x :: l
  | _, [] => [x]
  | S p, y :: t => y :: insert_at p x t
  end.

(** ** Requests, bids, constraints, portfolios *)

(** A resource as the exchange sees it: its address and quantity(). *)
Record rsrc := mkRsrc { rs_id : nat; rs_qty : Q }.

(** exchange_translation_context.h 12-23. *)
Record tctx := mkTctx {
  r2n : list (nat * nat); n2r : list (nat * nat);
  b2n : list (nat * nat); n2b : list (nat * nat) }.
Definition tctx0 := mkTctx [] [] [] [].

(** Converters: capacity_constraint.h 42-57 TrivialConverter, request_portfolio.h
    32-49 QtyCoeffConverter, or a user's subclass of Converter (15-37), which sees the
    offer, the arc and the translation context. *)
Inductive converter :=
| CTrivial
| CQty (coeffs : list (nat * Q))
| CUser (f : rsrc -> nat * nat -> tctx -> Q).

Definition convert (c : converter) (o : rsrc) (k : nat * nat) (t : tctx) : result Q :=
  match c with
  | CTrivial => Ok (rs_qty o)
  | CQty coeffs =>
      match nfind (fst k) (n2r t) with
      | None => Throw PlainError
      | Some r => match nfind r coeffs with
                  | None => Throw PlainError
                  | Some x => Ok (rs_qty o * x)
                  end
      end
  | CUser f => Ok (f o k t)
  end.

(** capacity_constraint.h 64-116. *)
Record constraint := mkC { cc_cap : Q; cc_conv : converter }.
(** Its constructors, 67-83. *)
Definition cc_new (cap : Q) (cv : converter) : result constraint :=
  if Qleb cap 0 then Throw ValueError else Ok (mkC cap cv).

(** request.h 29-180. *)
Record request := mkReq {
  rq_target : rsrc; rq_trader : nat; rq_commod : string; rq_pref : Q; rq_excl : bool;
  rq_port : nat }.
(** request_portfolio.h 83-238. *)
Record rport := mkRP {
  rp_trader : option nat; rp_reqs : list nat; rp_coeffs : list (nat * Q);
  rp_cons : list constraint; rp_qty : Q }.
(** bid.h 20-180; [bd_pref = None] is NaN. *)
Record bid := mkBid {
  bd_req : nat; bd_offer : rsrc; bd_trader : nat; bd_port : nat; bd_excl : bool;
  bd_pref : option Q }.
(** bid_portfolio.h 33-148. *)
Record bport := mkBP { bp_trader : option nat; bp_bids : list nat; bp_cons : list constraint }.

(** exchange_context.h 20-23 PrefMap. *)
Definition prefmap := list (nat * list (nat * Q)).

(** Everything that exists in one exchange: the heaps and the ExchangeContext
    (exchange_context.h 50-121). *)
Record market := mkM {
  m_reqs : list request; m_rports : list rport; m_bids : list bid; m_bports : list bport;
  x_rports : list nat;                      (* requests *)
  x_bports : list nat;                      (* bids *)
  x_requesters : list nat; x_bidders : list nat;
  x_commod : list (string * list nat);      (* commod_requests *)
  x_bbr : list (nat * list nat);            (* bids_by_request *)
  x_prefs : list (nat * prefmap) }.         (* trader_prefs *)
Definition market0 := mkM [] [] [] [] [] [] [] [] [] [] [].

Definition req0 := mkReq (mkRsrc 0 0) 0 EmptyString 0 false 0.
Definition bid0 := mkBid 0 (mkRsrc 0 0) 0 0 false None.
Definition rport0 := mkRP None [] [] [] 0.
Definition bport0 := mkBP None [] [].
Definition req_at (m : market) (i : nat) : request := nth i (m_reqs m) req0.
Definition bid_at (m : market) (i : nat) : bid := nth i (m_bids m) bid0.
Definition rp_at (m : market) (i : nat) : rport := nth i (m_rports m) rport0.
Definition bp_at (m : market) (i : nat) : bport := nth i (m_bports m) bport0.

Definition set_reqs (m : market) v := mkM v (m_rports m) (m_bids m) (m_bports m)
  (x_rports m) (x_bports m) (x_requesters m) (x_bidders m) (x_commod m) (x_bbr m) (x_prefs m).
Definition set_rports (m : market) v := mkM (m_reqs m) v (m_bids m) (m_bports m)
  (x_rports m) (x_bports m) (x_requesters m) (x_bidders m) (x_commod m) (x_bbr m) (x_prefs m).
Definition set_bids (m : market) v := mkM (m_reqs m) (m_rports m) v (m_bports m)
  (x_rports m) (x_bports m) (x_requesters m) (x_bidders m) (x_commod m) (x_bbr m) (x_prefs m).
Definition set_bports (m : market) v := mkM (m_reqs m) (m_rports m) (m_bids m) v
  (x_rports m) (x_bports m) (x_requesters m) (x_bidders m) (x_commod m) (x_bbr m) (x_prefs m).
Definition set_xprefs (m : market) v := mkM (m_reqs m) (m_rports m) (m_bids m) (m_bports m)
  (x_rports m) (x_bports m) (x_requesters m) (x_bidders m) (x_commod m) (x_bbr m) v.

(** VerifyRequester_, request_portfolio.h 214-221, and VerifyResponder_,
    bid_portfolio.h 124-131: the first trader is remembered, another one is a KeyError. *)
Definition verify (own : option nat) (t : nat) : result (option nat) :=
  match own with
  | None => Ok (Some t)
  | Some t' => if Nat.eqb t t' then Ok (Some t') else Throw KeyError
  end.

(** RequestPortfolio::AddRequest, request_portfolio.h 116-127. The Request object is
    created before the check, so it stays (outside the portfolio) when that throws. *)
Definition add_request (m : market) (p : nat) (target : rsrc) (trader : nat)
    (commod : string) (pref : Q) (excl : bool) : result nat * market :=
  let r := length (m_reqs m) in
  let m1 := set_reqs m (m_reqs m ++ [mkReq target trader commod pref excl p]) in
  let rp := rp_at m p in
  match verify (rp_trader rp) trader with
  | Ok own =>
      (Ok r, set_rports m1 (upd (m_rports m1) p
         (mkRP own (rp_reqs rp ++ [r]) (nupd r (fun _ => 1) (rp_coeffs rp))
               (rp_cons rp) (rp_qty rp + rs_qty target))))
  | Throw e => (Throw e, m1)
  | UB => (UB, m1)
  end.

(** RequestPortfolio::AddMutualReqs, request_portfolio.h 150-162. For an empty list or
    an average of zero the code divides 0 by 0 and stores NaN quantities and
    coefficients; that is outside this model's numbers and marked [UB]. *)
Definition avg_qty (m : market) (rs : list nat) : Q :=
  qsum (map (fun r => rs_qty (rq_target (req_at m r))) rs) / inject_Z (Z.of_nat (length rs)).
Definition add_mutual (m : market) (p : nat) (rs : list nat) : result unit * market :=
  match rs with
  | [] => (UB, m)
  | _ =>
      let avg := avg_qty m rs in
      if Qeqb avg 0 then (UB, m) else
      let rp := rp_at m p in
      let rp1 := fold_left (fun acc r =>
          let q := rs_qty (rq_target (req_at m r)) in
          mkRP (rp_trader acc) (rp_reqs acc) (nupd r (fun _ => q / avg) (rp_coeffs acc))
               (rp_cons acc) (rp_qty acc - q)) rs rp in
      (Ok tt, set_rports m (upd (m_rports m) p
         (mkRP (rp_trader rp1) (rp_reqs rp1) (rp_coeffs rp1) (rp_cons rp1) (rp_qty rp1 + avg))))
  end.

(** RequestPortfolio::AddConstraint, request_portfolio.h 167-169, on a constraint made
    by its public constructor. Ids are unique, so the insertion always takes place. *)
Definition add_rcons (m : market) (p : nat) (cap : Q) (cv : converter) (pos : nat)
  : result unit * market :=
  match cc_new cap cv with
  | Ok c =>
      let rp := rp_at m p in
      (Ok tt, set_rports m (upd (m_rports m) p
         (mkRP (rp_trader rp) (rp_reqs rp) (rp_coeffs rp) (insert_at pos c (rp_cons rp))
               (rp_qty rp))))
  | Throw e => (Throw e, m)
  | UB => (UB, m)
  end.

(** BidPortfolio::AddBid, bid_portfolio.h 56-71. The bid object exists, and the bidder is
    remembered, even if the offered quantity is rejected. *)
Definition add_bid (m : market) (p r : nat) (offer : rsrc) (trader : nat) (excl : bool)
    (pref : option Q) (pos : nat) : result nat * market :=
  let b := length (m_bids m) in
  let m1 := set_bids m (m_bids m ++ [mkBid r offer trader p excl pref]) in
  let bp := bp_at m p in
  match verify (bp_trader bp) trader with
  | Ok own =>
      if Qltb 0 (rs_qty offer) then
        (Ok b, set_bports m1 (upd (m_bports m1) p
           (mkBP own (insert_at pos b (bp_bids bp)) (bp_cons bp))))
      else (Throw ValueError,
            set_bports m1 (upd (m_bports m1) p (mkBP own (bp_bids bp) (bp_cons bp))))
  | Throw e => (Throw e, m1)
  | UB => (UB, m1)
  end.

(** BidPortfolio::AddConstraint, bid_portfolio.h 87-89. *)
Definition add_bcons (m : market) (p : nat) (cap : Q) (cv : converter) (pos : nat)
  : result unit * market :=
  match cc_new cap cv with
  | Ok c =>
      let bp := bp_at m p in
      (Ok tt, set_bports m (upd (m_bports m) p
         (mkBP (bp_trader bp) (bp_bids bp) (insert_at pos c (bp_cons bp)))))
  | Throw e => (Throw e, m)
  | UB => (UB, m)
  end.

(** ** The exchange context *)

(** ExchangeContext::AddRequest, exchange_context.h 65-69. *)
Definition ctx_add_request (m : market) (r : nat) : market :=
  let q := req_at m r in
  mkM (m_reqs m) (m_rports m) (m_bids m) (m_bports m) (x_rports m) (x_bports m)
      (sins (rq_trader q) (x_requesters m)) (x_bidders m)
      (mupd String.eqb (rq_commod q) (opush r) (x_commod m)) (x_bbr m) (x_prefs m).

(** ExchangeContext::AddRequestPortfolio, exchange_context.h 53-62. *)
Definition ctx_add_rport (m : market) (p : nat) : market :=
  fold_left ctx_add_request (rp_reqs (rp_at m p))
    (mkM (m_reqs m) (m_rports m) (m_bids m) (m_bports m) (x_rports m ++ [p]) (x_bports m)
         (x_requesters m) (x_bidders m) (x_commod m) (x_bbr m) (x_prefs m)).

(** The preference a new bid starts with, exchange_context.h 92-94. *)
Definition default_pref (m : market) (b : nat) : Q :=
  match bd_pref (bid_at m b) with
  | Some p => p
  | None => rq_pref (req_at m (bd_req (bid_at m b)))
  end.

(** ExchangeContext::AddBid, exchange_context.h 86-95: std::map::insert keeps an
    existing entry. *)
Definition keep {V} (v : V) (o : option V) : V := match o with Some x => x | None => v end.
Definition orempty {A} (o : option (list A)) : list A :=
  match o with Some l => l | None => [] end.
Definition ctx_add_bid (m : market) (b : nat) : market :=
  let bd := bid_at m b in
  let r := bd_req bd in
  mkM (m_reqs m) (m_rports m) (m_bids m) (m_bports m) (x_rports m) (x_bports m)
      (x_requesters m) (sins (bd_trader bd) (x_bidders m)) (x_commod m)
      (nupd r (opush b) (x_bbr m))
      (nupd (rq_trader (req_at m r))
         (fun o => nupd r (fun o' => nupd b (keep (default_pref m b)) (orempty o')) (orempty o))
         (x_prefs m)).

(** ExchangeContext::AddBidPortfolio, exchange_context.h 72-81. *)
Definition ctx_add_bport (m : market) (p : nat) : market :=
  fold_left ctx_add_bid (bp_bids (bp_at m p))
    (mkM (m_reqs m) (m_rports m) (m_bids m) (m_bports m) (x_rports m) (x_bports m ++ [p])
         (x_requesters m) (x_bidders m) (x_commod m) (x_bbr m) (x_prefs m)).

(** ResourceExchange::AdjustAll and AdjustPrefs_, resource_exchange.h 97-106, 145-153:
    for each requester, [adj] is the list of the adjustment methods of the trader, its
    manager's parent, grandparent, and so on, in this order. *)
Definition adjust_all (m : market) (adj : nat -> list (prefmap -> prefmap)) : market :=
  set_xprefs m
    (fold_left (fun xp t => nupd t (fun o => fold_left (fun pm f => f pm) (adj t) (orempty o)) xp)
               (x_requesters m) (x_prefs m)).

(** ** What can be done to an exchange before it is translated *)
Inductive xop :=
| XNewRPort
| XAddRequest (p : nat) (target : rsrc) (trader : nat) (commod : string) (pref : Q) (excl : bool)
| XMutual (p : nat) (rs : list nat)
| XRCons (p : nat) (cap : Q) (cv : converter) (pos : nat)
| XNewBPort
| XAddBid (p r : nat) (offer : rsrc) (trader : nat) (excl : bool) (pref : option Q) (pos : nat)
| XBCons (p : nat) (cap : Q) (cv : converter) (pos : nat)
| XCtxR (p : nat)
| XCtxB (p : nat)
| XAdjust (adj : nat -> list (prefmap -> prefmap)).

Definition xstep (m : market) (o : xop) : market :=
  match o with
  | XNewRPort => set_rports m (m_rports m ++ [rport0])
  | XAddRequest p t tr c pf ex => snd (add_request m p t tr c pf ex)
  | XMutual p rs => snd (add_mutual m p rs)
  | XRCons p c cv pos => snd (add_rcons m p c cv pos)
  | XNewBPort => set_bports m (m_bports m ++ [bport0])
  | XAddBid p r o tr ex pf pos => snd (add_bid m p r o tr ex pf pos)
  | XBCons p c cv pos => snd (add_bcons m p c cv pos)
  | XCtxR p => ctx_add_rport m p
  | XCtxB p => ctx_add_bport m p
  | XAdjust adj => adjust_all m adj
  end.
(** The arguments are existing objects (a caller has pointers to them). *)
Definition xvalid (m : market) (o : xop) : Prop :=
  match o with
  | XAddRequest p _ _ _ _ _ | XRCons p _ _ _ | XCtxR p => (p < length (m_rports m))%nat
  | XMutual p rs => (p < length (m_rports m))%nat /\
      Forall (fun r => In r (rp_reqs (rp_at m p))) rs   (* "already registered", h 147-149 *)
  | XAddBid p r _ _ _ _ _ => (p < length (m_bports m))%nat /\ (r < length (m_reqs m))%nat
  | XBCons p _ _ _ | XCtxB p => (p < length (m_bports m))%nat
  | _ => True
  end.
Inductive xreach : market -> Prop :=
| xreach0 : xreach market0
| xreachS m o : xreach m -> xvalid m o -> xreach (xstep m o).

(** ** Translation *)
Section Translate.
Variable fd : Q -> Q -> Q.     (* boost::math::float_distance *)
Variable mgr : nat -> Z.       (* trader->manager()->id() *)

(** exchange_translator.h 132-146 AddRequest, AddBid. *)
Definition t_add_req (t : tctx) (r n : nat) : tctx :=
  mkTctx (nupd r (fun _ => n) (r2n t)) (nupd n (fun _ => r) (n2r t)) (b2n t) (n2b t).
Definition t_add_bid (t : tctx) (b n : nat) : tctx :=
  mkTctx (r2n t) (n2r t) (nupd b (fun _ => n) (b2n t)) (nupd n (fun _ => b) (n2b t)).

(** The graph under construction and the translation context. *)
Definition tst := (graph * tctx)%type.
Definition graph0 := mkGraph [] [] [] [] [] [].

(** TranslateRequestPortfolio, exchange_translator.h 150-183, with
    RequestGroup::AddExchangeNode, exchange_graph.cc 102-107. [G] is the group's
    index: it is stored once its nodes are made. *)
Definition t_req_node (m : market) (G : nat) (st : tst * (list nat * list (list nat))) (r : nat)
  : tst * (list nat * list (list nat)) :=
  let '((g, t), (ns, exs)) := st in
  let q := req_at m r in
  let n := length (gr_nodes g) in
  ((mkGraph (gr_nodes g ++ [mkNode (Some G) (rs_qty (rq_target q)) (rq_excl q) (rq_commod q)
                                   (mgr (rq_trader q)) [] []])
            (gr_groups g) (gr_req g) (gr_sup g) (gr_arcs g) (gr_matches g),
    t_add_req t r n),
   (ns ++ [n], if rq_excl q then exs ++ [[n]] else exs)).
Definition t_rport (m : market) (st : tst) (p : nat) : tst :=
  let rp := rp_at m p in
  let G := length (gr_groups (fst st)) in
  let '((g, t), (ns, exs)) := fold_left (t_req_node m G) (rp_reqs rp) (st, ([], [])) in
  (mkGraph (gr_nodes g)
     (gr_groups g ++ [mkGroup (rp_qty rp) ns (map (fun c => Some (cc_cap c)) (rp_cons rp)) exs])
     (gr_req g ++ [G]) (gr_sup g) (gr_arcs g) (gr_matches g), t).

(** The first loop of Translate, exchange_translator.h 47-57: the mass constraint gets
    the largest id so far and goes last. *)
Fixpoint t_rports (ps : list nat) (m : market) (st : tst) : result (market * tst) :=
  match ps with
  | [] => Ok (m, st)
  | p :: rest =>
      let rp := rp_at m p in
      match cc_new (rp_qty rp) (CQty (rp_coeffs rp)) with
      | Ok c =>
          let m1 := set_rports m (upd (m_rports m) p
                (mkRP (rp_trader rp) (rp_reqs rp) (rp_coeffs rp) (rp_cons rp ++ [c])
                      (rp_qty rp))) in
          t_rports rest m1 (t_rport m1 st p)
      | Throw e => Throw e
      | UB => UB
      end
  end.

(** TranslateBidPortfolio, exchange_translator.h 186-230. *)
Definition t_bid_node (m : market) (G : nat) (st : tst * (list nat * list (nat * list nat))) (b : nat)
  : tst * (list nat * list (nat * list nat)) :=
  let '((g, t), (ns, exs)) := st in
  let d := bid_at m b in
  let n := length (gr_nodes g) in
  ((mkGraph (gr_nodes g ++ [mkNode (Some G) (rs_qty (bd_offer d)) (bd_excl d)
                                   (rq_commod (req_at m (bd_req d))) (mgr (bd_trader d)) [] []])
            (gr_groups g) (gr_req g) (gr_sup g) (gr_arcs g) (gr_matches g),
    t_add_bid t b n),
   (ns ++ [n], if bd_excl d then nupd (rs_id (bd_offer d)) (opush n) exs else exs)).
Definition t_bport (m : market) (st : tst) (p : nat) : tst :=
  let bp := bp_at m p in
  let G := length (gr_groups (fst st)) in
  let '((g, t), (ns, exs)) := fold_left (t_bid_node m G) (bp_bids bp) (st, ([], [])) in
  (mkGraph (gr_nodes g)
     (gr_groups g ++ [mkGroup 0 ns (map (fun c => Some (cc_cap c)) (bp_cons bp))
        (map snd (stable_sort (fun x y => Nat.ltb (fst x) (fst y)) exs))])
     (gr_req g) (gr_sup g ++ [G]) (gr_arcs g) (gr_matches g), t).

(** TranslateCapacities, exchange_translator.h 278-293: the converted value of each
    constraint divided by the offered quantity. (For a zero quantity the code stores a
    NaN or an infinity; bids of zero quantity are rejected by AddBid.) *)
Fixpoint unit_caps (cs : list constraint) (o : rsrc) (k : nat * nat) (t : tctx)
  : result (list Q) :=
  match cs with
  | [] => Ok []
  | c :: rest =>
      match convert (cc_conv c) o k t with
      | Ok x =>
          if Qeqb (rs_qty o) 0 then UB else
          match unit_caps rest o k t with
          | Ok l => Ok (x / rs_qty o :: l)
          | Throw e => Throw e
          | UB => UB
          end
      | Throw e => Throw e
      | UB => UB
      end
  end.
(** n->unit_capacities[a].push_back(x), one after the other. *)
Definition push_caps (k : nat * nat) (l : list Q) (n : node) : node :=
  mkNode (n_group n) (n_qty n) (n_excl n) (n_commod n) (n_agent n) (n_prefs n)
    (fold_left (fun m x => mupd keyb k (opush x) m) l (n_ucaps n)).
(** unode->prefs[a] = pref. *)
Definition set_pref (k : nat * nat) (p : Q) (n : node) : node :=
  mkNode (n_group n) (n_qty n) (n_excl n) (n_commod n) (n_agent n)
    (mupd keyb k (fun _ => p) (n_prefs n)) (n_ucaps n).
Definition on_node (g : graph) (i : nat) (f : node -> node) : graph :=
  mkGraph (match nth_error (gr_nodes g) i with
           | Some n => upd (gr_nodes g) i (f n) | None => gr_nodes g end)
          (gr_groups g) (gr_req g) (gr_sup g) (gr_arcs g) (gr_matches g).

(** The preference read by AddArc, exchange_translator.h 82-83:
    trader_prefs.at(requester)[req][bid]. *)
Definition read_pref (m : market) (b : nat) : result Q :=
  let r := bd_req (bid_at m b) in
  match nfind (rq_trader (req_at m r)) (x_prefs m) with
  | None => Throw PlainError
  | Some pm => Ok (match nfind b (orempty (nfind r pm)) with Some p => p | None => 0 end)
  end.

(** AddArc and TranslateArc, exchange_translator.h 81-107, 240-259. *)
Definition t_arc (m : market) (st : tst) (b : nat) : result tst :=
  let '(g, t) := st in
  let d := bid_at m b in
  let r := bd_req d in
  match read_pref m b with
  | Throw e => Throw e
  | UB => UB
  | Ok pref =>
      if Qltb pref 0 then Ok st
      else if Qeqb pref 0 then Throw ValueError
      else
        match nfind r (r2n t), nfind b (b2n t) with
        | Some u, Some v =>
            let a := arc_new fd u v (node_at g u) (node_at g v) in
            let k := (u, v) in
            match unit_caps (bp_cons (bp_at m (bd_port d))) (bd_offer d) k t with
            | Ok vc =>
                match unit_caps (rp_cons (rp_at m (rq_port (req_at m r)))) (bd_offer d) k t with
                | Ok uc =>
                    let g1 := on_node g v (push_caps k vc) in
                    let g2 := on_node g1 u (push_caps k uc) in
                    let g3 := on_node g2 u (set_pref k pref) in
                    Ok (mkGraph (gr_nodes g3) (gr_groups g3) (gr_req g3) (gr_sup g3)
                                (gr_arcs g3 ++ [a]) (gr_matches g3), t)
                | Throw e => Throw e
                | UB => UB
                end
            | Throw e => Throw e
            | UB => UB
            end
        | _, _ => Throw PlainError
        end
  end.
Fixpoint t_arcs (m : market) (bs : list nat) (st : tst) : result tst :=
  match bs with
  | [] => Ok st
  | b :: rest =>
      match t_arc m st b with
      | Ok st' => t_arcs m rest st'
      | Throw e => Throw e
      | UB => UB
      end
  end.

(** The second loop of Translate, exchange_translator.h 60-75. *)
Fixpoint t_bports (m : market) (ps : list nat) (st : tst) : result tst :=
  match ps with
  | [] => Ok st
  | p :: rest =>
      match t_arcs m (bp_bids (bp_at m p)) (t_bport m st p) with
      | Ok st' => t_bports m rest st'
      | Throw e => Throw e
      | UB => UB
      end
  end.

(** ExchangeTranslator::Translate, exchange_translator.h 43-78. The market is returned
    too: the portfolios have gained their mass constraints. *)
Definition translate (m : market) : result (market * tst) :=
  match t_rports (x_rports m) m (graph0, tctx0) with
  | Ok (m1, st) =>
      match t_bports m1 (x_bports m1) st with
      | Ok st' => Ok (m1, st')
      | Throw e => Throw e
      | UB => UB
      end
  | Throw e => Throw e
  | UB => UB
  end.

(** trade.h 15-30 (price is never set by the kernel). *)
Record trade := mkTrade { td_req : nat; td_bid : nat; td_amt : Q }.

(** BackTranslateMatch, exchange_translator.h 262-274, and BackTranslateSolution,
    110-118. *)
Definition back_match (t : tctx) (mt : arc * Q) : result trade :=
  match nfind (a_u (fst mt)) (n2r t), nfind (a_v (fst mt)) (n2b t) with
  | Some r, Some b => Ok (mkTrade r b (snd mt))
  | _, _ => Throw PlainError
  end.
Fixpoint back_all (t : tctx) (ms : list (arc * Q)) : result (list trade) :=
  match ms with
  | [] => Ok []
  | x :: rest =>
      match back_match t x with
      | Ok y => match back_all t rest with
                | Ok l => Ok (y :: l) | Throw e => Throw e | UB => UB end
      | Throw e => Throw e
      | UB => UB
      end
  end.

(** ExchangeManager::Execute up to the trades, exchange_manager.h 36-62 (the collected
    exchange is [m]; [w] are the weights of the solver's preconditioner). *)
Definition solve_exchange (eps : Q) (w : option weights) (m : market) : result (list trade) :=
  match x_bbr m with
  | [] => Ok []              (* exchng.Empty() *)
  | _ =>
      match translate m with
      | Ok (_, (g, t)) =>
          match solve fd eps w g with
          | Ok g' => back_all t (gr_matches g')
          | Throw e => Throw e
          | UB => UB
          end
      | Throw e => Throw e
      | UB => UB
      end
  end.
End Translate.
