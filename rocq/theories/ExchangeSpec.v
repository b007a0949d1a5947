(** Independent vocabulary for the exchange properties: which requests and bids take
    part, what preference a bid has, what one offer uses of a constraint, and what it
    means that a graph represents an exchange. *)
From Coq Require Import String QArith List Bool Arith ZArith Lia.
From Verif Require Import Base GreedyModel GreedySpec ExchangeModel.
Import ListNotations.
Open Scope Q_scope.

(** The requests and the bids of an exchange, portfolio by portfolio. *)
Definition all_reqs (m : market) : list nat := flat_map (fun p => rp_reqs (rp_at m p)) (x_rports m).
Definition all_bids (m : market) : list nat := flat_map (fun p => bp_bids (bp_at m p)) (x_bports m).

(** Every portfolio was added to the exchange once, and every bid answers a request
    that is part of the exchange. *)
Record registered (m : market) : Prop := mkRegd {
  rg_r : NoDup (x_rports m);
  rg_b : NoDup (x_bports m);
  rg_ans : forall b, In b (all_bids m) -> In (bd_req (bid_at m b)) (all_reqs m) }.

(** The requester's table has an entry for the requester of the bid's request, and the
    preference stored for the bid (0 if there is none). *)
Definition has_prefs (m : market) (b : nat) : Prop :=
  exists pm, nfind (rq_trader (req_at m (bd_req (bid_at m b)))) (x_prefs m) = Some pm.
Definition pref_for (m : market) (b : nat) : Q :=
  match nfind (rq_trader (req_at m (bd_req (bid_at m b)))) (x_prefs m) with
  | None => 0
  | Some pm => match nfind b (orempty (nfind (bd_req (bid_at m b)) pm)) with
               | Some p => p | None => 0 end
  end.
Definition liked (m : market) (b : nat) : bool := Qltb 0 (pref_for m b).

(** The constraints in force for a request portfolio: its own and the one on its
    (weighted) quantity, exchange_translator.h 51-53. *)
Definition mass_cons (rp : rport) : constraint := mkC (rp_qty rp) (CQty (rp_coeffs rp)).
Definition req_cons (m : market) (p : nat) : list constraint :=
  rp_cons (rp_at m p) ++ [mass_cons (rp_at m p)].

(** What a converter is shown of the final translation context: all requests, and at
    least the bid in question. *)
Definition shown (t' t : tctx) (b : nat) : Prop :=
  r2n t' = r2n t /\ n2r t' = n2r t /\ nfind b (b2n t') = nfind b (b2n t) /\
  (forall n, nfind n (n2b t') = Some b <-> nfind n (n2b t) = Some b).

(** Quantity of each constraint used per unit of the offer. *)
Definition per_unit (cs : list constraint) (o : rsrc) (k : nat * nat) (t : tctx) (l : list Q) : Prop :=
  Forall2 (fun c x => exists y, convert (cc_conv c) o k t = Ok y /\ x = y / rs_qty o) cs l.

Definition node_is (n : node) (G : nat) (q : Q) (ex : bool) (c : string) (ag : Z) : Prop :=
  n_group n = Some G /\ n_qty n = q /\ n_excl n = ex /\ n_commod n = c /\ n_agent n = ag.

(** The graph [g] and the maps [t] represent the exchange [m]. *)
Record represents (fd : Q -> Q -> Q) (mgr : nat -> Z) (m : market) (g : graph) (t : tctx) : Prop := mkRepr {
  (* one node per request and one per bid, and no other *)
  rp_nodes : map Some (seq 0 (length (gr_nodes g)))
             = map (fun r => nfind r (r2n t)) (all_reqs m) ++ map (fun b => nfind b (b2n t)) (all_bids m);
  (* the maps back are the inverse *)
  rp_back_r : forall r n, nfind r (r2n t) = Some n <-> nfind n (n2r t) = Some r;
  rp_back_b : forall b n, nfind b (b2n t) = Some n <-> nfind n (n2b t) = Some b;
  (* one group per portfolio, with its nodes, its quantity and its constraints *)
  rp_greq : gr_req g = seq 0 (length (x_rports m));
  rp_gsup : gr_sup g = seq (length (x_rports m)) (length (x_bports m));
  rp_ngr : length (gr_groups g) = (length (x_rports m) + length (x_bports m))%nat;
  rp_rgroup : forall i p, nth_error (x_rports m) i = Some p ->
    g_qty (group_at g i) = rp_qty (rp_at m p) /\
    map Some (g_nodes (group_at g i)) = map (fun r => nfind r (r2n t)) (rp_reqs (rp_at m p)) /\
    g_caps (group_at g i) = map (fun c => Some (cc_cap c)) (req_cons m p);
  rp_bgroup : forall i p, nth_error (x_bports m) i = Some p ->
    let G := (length (x_rports m) + i)%nat in
    map Some (g_nodes (group_at g G)) = map (fun b => nfind b (b2n t)) (bp_bids (bp_at m p)) /\
    g_caps (group_at g G) = map (fun c => Some (cc_cap c)) (bp_cons (bp_at m p));
  (* the nodes carry the data of the request or bid *)
  rp_rnode : forall i p r n, nth_error (x_rports m) i = Some p -> In r (rp_reqs (rp_at m p)) ->
    nfind r (r2n t) = Some n ->
    node_is (node_at g n) i (rs_qty (rq_target (req_at m r))) (rq_excl (req_at m r))
            (rq_commod (req_at m r)) (mgr (rq_trader (req_at m r)));
  rp_bnode : forall i p b n, nth_error (x_bports m) i = Some p -> In b (bp_bids (bp_at m p)) ->
    nfind b (b2n t) = Some n ->
    node_is (node_at g n) (length (x_rports m) + i) (rs_qty (bd_offer (bid_at m b)))
            (bd_excl (bid_at m b)) (rq_commod (req_at m (bd_req (bid_at m b))))
            (mgr (bd_trader (bid_at m b)));
  (* one arc per bid of positive preference, from its request to it, and no other *)
  rp_arcs : Forall2 (fun b a => nfind (bd_req (bid_at m b)) (r2n t) = Some (a_u a) /\
                                nfind b (b2n t) = Some (a_v a) /\
                                a = arc_new fd (a_u a) (a_v a) (unode g a) (vnode g a))
                    (filter (liked m) (all_bids m)) (gr_arcs g);
  (* the requesting node knows the preference of each of its arcs and of nothing else *)
  rp_prefs : forall r n, In r (all_reqs m) -> nfind r (r2n t) = Some n ->
    map (fun x => (Some (snd (fst x)), snd x)) (n_prefs (node_at g n))
    = map (fun b => (nfind b (b2n t), pref_for m b))
        (filter (fun b => Nat.eqb (bd_req (bid_at m b)) r) (filter (liked m) (all_bids m)));
  rp_prefkeys : forall n k v, In (k, v) (n_prefs (node_at g n)) -> fst k = n;
  (* unit capacities: what one unit of the offer uses of each constraint of the two
     portfolios *)
  rp_units : forall b a, In b (all_bids m) -> In a (gr_arcs g) -> nfind b (b2n t) = Some (a_v a) ->
    exists t', shown t' t b /\
      per_unit (bp_cons (bp_at m (bd_port (bid_at m b)))) (bd_offer (bid_at m b)) (akey a) t'
               (ucaps_of (vnode g a) a) /\
      per_unit (req_cons m (rq_port (req_at m (bd_req (bid_at m b))))) (bd_offer (bid_at m b))
               (akey a) t' (ucaps_of (unode g a) a);
  rp_nomatch : gr_matches g = [] }.

(** The sets of nodes of which at most one may be served: each exclusive request on its own, and
    all the exclusive bids of a portfolio that offer the same object. *)
Definition represents_excl (m : market) (g : graph) (t : tctx) : Prop :=
  (forall i p, nth_error (x_rports m) i = Some p ->
     map (map Some) (g_excl (group_at g i))
     = map (fun r => [nfind r (r2n t)]) (filter (fun r => rq_excl (req_at m r)) (rp_reqs (rp_at m p)))) /\
  (forall i p, nth_error (x_bports m) i = Some p -> exists os, NoDup os /\
     (forall o, In o os <-> exists b, In b (bp_bids (bp_at m p)) /\ bd_excl (bid_at m b) = true /\
                                     rs_id (bd_offer (bid_at m b)) = o) /\
     map (map Some) (g_excl (group_at g (length (x_rports m) + i)%nat))
     = map (fun o => map (fun b => nfind b (b2n t))
                       (filter (fun b => bd_excl (bid_at m b) && Nat.eqb (rs_id (bd_offer (bid_at m b))) o)
                               (bp_bids (bp_at m p)))) os).

(** An exchange all of whose portfolios ask for something, all of whose bids have a
    preference other than zero, and whose quantity converters (request_portfolio.h
    32-49) know the requests they are applied to. *)
Definition convertible (cs : list constraint) (rs : list nat) : Prop :=
  forall c coeffs r, In c cs -> cc_conv c = CQty coeffs -> In r rs -> nfind r coeffs <> None.
Definition asking (m : market) : Prop := forall p, In p (x_rports m) -> 0 < rp_qty (rp_at m p).
Definition rated (m : market) : Prop := forall b, In b (all_bids m) -> has_prefs m b.
Definition all_convertible (m : market) : Prop :=
  (forall p, In p (x_rports m) -> convertible (rp_cons (rp_at m p)) (all_reqs m)) /\
  (forall p, In p (x_bports m) -> convertible (bp_cons (bp_at m p)) (all_reqs m)).

(** What one unit of the bid's offer uses of a constraint, for converters that look at
    the offer only (user converters) or at the request it answers (request_portfolio.h
    32-49). *)
Definition offer_only (c : constraint) : Prop :=
  match cc_conv c with CUser f => forall o k t k' t', f o k t = f o k' t' | _ => True end.
Definition use (m : market) (c : constraint) (b : nat) : Q :=
  match cc_conv c with
  | CTrivial => 1
  | CQty coeffs => match nfind (bd_req (bid_at m b)) coeffs with Some x => x | None => 0 end
  | CUser f => f (bd_offer (bid_at m b)) (0%nat, 0%nat) tctx0 / rs_qty (bd_offer (bid_at m b))
  end.
(** Requested quantities are not negative and every offer uses some of each constraint of
    its own portfolio and of the portfolio of the request it answers. *)
Record usable (m : market) : Prop := mkUsable {
  us_target : forall r, In r (all_reqs m) -> 0 <= rs_qty (rq_target (req_at m r));
  us_r : forall b c, In b (all_bids m) ->
    In c (req_cons m (rq_port (req_at m (bd_req (bid_at m b))))) -> offer_only c /\ 0 < use m c b;
  us_b : forall b c, In b (all_bids m) ->
    In c (bp_cons (bp_at m (bd_port (bid_at m b)))) -> offer_only c /\ 0 < use m c b }.

(** Amount traded, and amount of a constraint used, by those trades that satisfy [P]. *)
Definition traded (P : trade -> bool) (ts : list trade) : Q := qsum (map td_amt (filter P ts)).
Definition used (m : market) (c : constraint) (P : trade -> bool) (ts : list trade) : Q :=
  qsum (map (fun t => td_amt t * use m c (td_bid t)) (filter P ts)).
Definition for_request (r : nat) (t : trade) : bool := Nat.eqb (td_req t) r.
Definition from_bid (b : nat) (t : trade) : bool := Nat.eqb (td_bid t) b.
Definition for_rport (m : market) (p : nat) (t : trade) : bool := Nat.eqb (rq_port (req_at m (td_req t))) p.
Definition from_bport (m : market) (p : nat) (t : trade) : bool := Nat.eqb (bd_port (bid_at m (td_bid t))) p.

(** Operations other than preference adjustment, and sequences of them. *)
Definition no_adjust (o : xop) : Prop := match o with XAdjust _ => False | _ => True end.
Inductive xsteps : market -> market -> Prop :=
| xsteps0 m : xsteps m m
| xstepsS m o m' : no_adjust o -> xvalid m o -> xsteps (xstep m o) m' -> xsteps m m'.
(** The bid's own preference if it has one, else that of the request it answers. *)
Definition stated_pref (m : market) (b : nat) : Q :=
  match bd_pref (bid_at m b) with Some p => p | None => rq_pref (req_at m (bd_req (bid_at m b))) end.
(** The table of preferences of a requester (empty if there is none). *)
Definition prefs_of (m : market) (t : nat) : prefmap := orempty (nfind t (x_prefs m)).

(** The weight the documentation of RequestPortfolio (request_portfolio.h 76-83) gives a
    request [r] of a mutual set [rs]: average quantity over the request's quantity, so
    that a full order of any one of them meets the demand. *)
Definition mean (m : market) (rs : list nat) : Q :=
  qsum (map (fun r => rs_qty (rq_target (req_at m r))) rs) / inject_Z (Z.of_nat (length rs)).
Definition documented_weight (m : market) (rs : list nat) (r : nat) : Q :=
  mean m rs / rs_qty (rq_target (req_at m r)).
Definition documented_total (m : market) (rs : list nat) (P : trade -> bool) (ts : list trade) : Q :=
  qsum (map (fun t => td_amt t * documented_weight m rs (td_req t)) (filter P ts)).
