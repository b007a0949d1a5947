(** Theorems on whole resource exchanges, as driven by ExchangeManager::Execute. The vocabulary is in
    DreSpec.v (and ExchangeSpec.v, TradeSpec.v). *)
From Coq Require Import String QArith List Bool Arith ZArith Lia Sorted Permutation.
From Verif Require Import Base GreedyModel GreedySpec GreedyExamples ExchangeModel ExchangeSpec TradeModel TradeSpec
  DreModel DreSpec DreProofs4 DreProofs5 DreExamples.
Import ListNotations.
Open Scope Q_scope.

(** ** C54 *)
(** Whatever the traders do, also if a method throws: first every trader is asked once for requests, then every trader
    once for bids, in the same order, then preferences are adjusted, and only then anything is
    traded. An exception in an earlier step leaves the later steps undone. *)
Theorem C54_phases : forall S mgr ancestors get_requests get_bids adjust_trader adjust_agent fd eps w ask accept
    qty_of sid_of time eps_rsrc traders (s : S) id r ev s2 id2,
  execute_exchange S mgr ancestors get_requests get_bids adjust_trader adjust_agent fd eps w ask accept
    qty_of sid_of time eps_rsrc traders s id = (r, (ev, (s2, id2))) ->
  exists l adj calls later tr, in_turn mgr traders l /\ Forall about_prefs adj /\
    map WRequests l ++ map WBids l ++ adj = map callee calls ++ later /\
    ev = calls ++ map VTrade tr /\
    (r = Ok tt -> later = []) /\ (later <> [] -> tr = [] /\ id2 = id).
Proof. exact phases. Qed.
Print Assumptions C54_phases.
Example C54_phases_example : in_turn wMgr wTraders [1; 2; 0]%nat /\ wExec wTraders [] 40%Z = (Ok tt, (wRun, ([4; 320 # 40], 42%Z))).
Proof. exact (conj wTurns wM_run). Qed.
Example C54_phases_throw_example : fst (execute_exchange wS wMgr wAnc wGetR wThrow wAdjT wAdjA fdx (1 # 1000) None wAsk
    wAccept wQty wSid 6 (1 # 1000) wTraders [] 40%Z) = Throw StateError.
Proof. now rewrite wM_run_throw. Qed.

(** What is collected: every bidder is shown every request of the exchange, under its
    commodity and in the order in which the requests were returned, the exchange holds exactly the portfolios the traders
    returned, and each request and bid is that of the trader that returned it. *)
Theorem C54_collected : forall S mgr ancestors get_requests get_bids adjust_trader adjust_agent traders (s : S) m ev s3,
  fair_requester get_requests -> fair_bidder get_bids ->
  collect S mgr ancestors get_requests get_bids adjust_trader adjust_agent traders s = (Ok m, (ev, s3)) ->
  exists l table er eb ea,
    in_turn mgr traders l /\ ev = er ++ eb ++ ea /\
    map callee er = map WRequests l /\
    Forall2 (fun t c => exists ps, c = VBids t table ps) l eb /\
    map callee ea = flat_map (fun t => WPrefs t :: map WParent (ancestors t)) (x_requesters m) /\
    (forall c, shown_for table c = posted m c) /\
    x_rports m = request_replies ev /\ x_bports m = bid_replies ev /\
    (forall t ps p r, In (VRequests t ps) ev -> In p ps -> In r (rp_reqs (rp_at m p)) -> rq_trader (req_at m r) = t) /\
    (forall t sh ps p b, In (VBids t sh ps) ev -> In p ps -> In b (bp_bids (bp_at m p)) -> bd_trader (bid_at m b) = t) /\
    StronglySorted lt (x_requesters m) /\
    (forall t, In t (x_requesters m) <-> exists r, In r (all_reqs m) /\ rq_trader (req_at m r) = t).
Proof. exact collected. Qed.
Print Assumptions C54_collected.
Example C54_collected_example : fair_requester wGetR /\ fair_bidder wGetB /\ wCollect wTraders [] = (Ok wM, (wEv, [])) /\
  posted wM "fuel" = [0; 1]%nat /\ x_requesters wM = [0; 2]%nat.
Proof. split; [exact wGetR_fair|]. split; [exact wGetB_fair|]. split; [exact wM_collected|]. split; vm_compute; reflexivity. Qed.

(** Preferences: the table a requester is handed lists every bid to its requests with the preference stated by
    the bid, or else by the request; then the trader and, one after the other, all agents above its manager each get
    the table as the previous one left it; what the last one leaves is the preference the solver uses. *)
Theorem C54_preferences : forall S mgr ancestors get_requests get_bids adjust_trader adjust_agent traders (s : S) m ev s3,
  fair_requester get_requests -> fair_bidder get_bids ->
  collect S mgr ancestors get_requests get_bids adjust_trader adjust_agent traders s = (Ok m, (ev, s3)) ->
  exists before after s2,
    (forall b, In b (all_bids m) ->
       in_table (before (rq_trader (req_at m (bd_req (bid_at m b))))) (bd_req (bid_at m b)) b = Some (stated_pref m b)) /\
    (forall t p, In (VAdjustT t p) ev -> p = before t) /\
    adjusted (fun t => adjust_trader t :: map adjust_agent (ancestors t)) before after (x_requesters m) s2 s3 /\
    (forall b, In b (all_bids m) -> pref_for m b =
       match in_table (after (rq_trader (req_at m (bd_req (bid_at m b))))) (bd_req (bid_at m b)) b with Some p => p | None => 0 end).
Proof. exact preferences. Qed.
Print Assumptions C54_preferences.
Example C54_preferences_example : map (stated_pref wM) [0; 1]%nat = [2; 1] /\ map (pref_for wM) [0; 1]%nat = [2; 3].
Proof. split; vm_compute; reflexivity. Qed.

(** If nobody changes preferences, the solver uses those that bids and requests state. *)
Theorem C54_unadjusted : forall S mgr ancestors get_requests get_bids adjust_trader adjust_agent traders (s : S) m ev s3,
  fair_requester get_requests -> fair_bidder get_bids ->
  collect S mgr ancestors get_requests get_bids adjust_trader adjust_agent traders s = (Ok m, (ev, s3)) ->
  (forall t p s p' s', adjust_trader t p s = (Ok p', s') -> p' = p) ->
  (forall a p s p' s', adjust_agent a p s = (Ok p', s') -> p' = p) ->
  forall b, In b (all_bids m) -> pref_for m b = stated_pref m b.
Proof. exact nobody_adjusts. Qed.
Print Assumptions C54_unadjusted.
Example C54_unadjusted_example : exists m ev,
  collect wS wMgr wAnc wGetR wGetB wAdjT wAdjT wTraders [] = (Ok m, (ev, [])) /\ all_bids m = [1; 0]%nat /\
  map (pref_for m) [0; 1]%nat = [2; 1].
Proof. eexists. eexists. split; [vm_compute; reflexivity|]. split; vm_compute; reflexivity. Qed.

(** Nothing offered, nothing done: no trader is asked for resources, no transaction id is used up. *)
Theorem C54_no_bids : forall S mgr ancestors get_requests get_bids adjust_trader adjust_agent fd eps w ask accept
    qty_of sid_of time eps_rsrc traders (s : S) id m evc s1,
  fair_requester get_requests -> fair_bidder get_bids ->
  collect S mgr ancestors get_requests get_bids adjust_trader adjust_agent traders s = (Ok m, (evc, s1)) ->
  bid_replies evc = [] \/ all_bids m = [] ->
  execute_exchange S mgr ancestors get_requests get_bids adjust_trader adjust_agent fd eps w ask accept
    qty_of sid_of time eps_rsrc traders s id = (Ok tt, (evc, (s1, id))).
Proof. exact nothing_bid. Qed.
Print Assumptions C54_no_bids.
Example C54_no_bids_example : exists m ev, wCollect [0; 2]%nat [] = (Ok m, (ev, [])) /\ bid_replies ev = [] /\
  all_reqs m = [0; 1]%nat /\ wExec [0; 2]%nat [] 40%Z = (Ok tt, (ev, ([], 40%Z))).
Proof. exact wM_run_nobids. Qed.

(** The whole exchange with suppliers that hand over what was agreed: every trade answers a bid that was returned, is of a
    preference above zero and of more than negligible size; no request gets and no bid gives more than it says; each trade
    is recorded once, with the agents, the commodity and a fresh transaction id; each is delivered once,
    to the trader that requested it and in the agreed quantity; and nothing else happens. *)
Theorem C54_deals : forall S mgr ancestors get_requests get_bids adjust_trader adjust_agent fd eps w ask accept
    qty_of sid_of time eps_rsrc tol traders (s : S) id m evc s1 ev s2 id2,
  fd_ok fd tol -> tol <= eps -> eps_rsrc <= eps ->
  fair_requester get_requests -> fair_bidder get_bids ->
  collect S mgr ancestors get_requests get_bids adjust_trader adjust_agent traders s = (Ok m, (evc, s1)) -> usable m ->
  (forall ts, solve_exchange fd mgr eps w m = Ok ts -> honest (bidder_of m) (ask m) qty_of ts s1) ->
  execute_exchange S mgr ancestors get_requests get_bids adjust_trader adjust_agent fd eps w ask accept
    qty_of sid_of time eps_rsrc traders s id = (Ok tt, (ev, (s2, id2))) ->
  exists ts asks rows accepts sa,
    ev = evc ++ map VTrade (asks ++ map (ERecord trade) rows ++ map (fun x => EAccept trade (fst x) (snd x)) accepts) /\
    (forall t, In t ts -> In (td_bid t) (all_bids m) /\ td_req t = bd_req (bid_at m (td_bid t)) /\
       0 < pref_for m (td_bid t) /\ eps < td_amt t) /\
    (forall r, In r (all_reqs m) -> traded (for_request r) ts <= rs_qty (rq_target (req_at m r)) + tol) /\
    (forall b, In b (all_bids m) -> traded (from_bid b) ts <= rs_qty (bd_offer (bid_at m b)) + tol) /\
    Permutation (map (fun r => (tx_sender r, tx_receiver r, tx_commod r)) rows)
      (map (fun t => (mgr (bd_trader (bid_at m (td_bid t))), mgr (rq_trader (req_at m (td_req t))), rq_commod (req_at m (td_req t)))) ts) /\
    map tx_id rows = numbered id (length ts) /\
    Permutation (flat_map (fun x => map fst (snd x)) accepts) ts /\
    (forall q rs r, In (q, rs) accepts -> In r rs ->
       rq_trader (req_at m (td_req (fst r))) = q /\ qty_of sa (snd r) == td_amt (fst r)).
Proof. exact deals. Qed.
Print Assumptions C54_deals.
Example C54_deals_example : fd_ok fdx 0 /\ usable wM /\
  (forall ts, honest (bidder_of wM) (wAsk wM) wQty ts []) /\
  solve_exchange fdx wMgr (1 # 1000) None wM = Ok wDeals /\
  wCollect wTraders [] = (Ok wM, (wEv, [])) /\
  wExec wTraders [] 40%Z = (Ok tt, (wRun, ([4; 320 # 40], 42%Z))).
Proof.
  exact (conj fdx_ok (conj wM_usable (conj (fun ts => wAsk_honest _ _ ts []) (conj wM_deals (conj wM_collected wM_run))))).
Qed.

(** Traders are asked in the order of the ids of their agents so that runs can be repeated (comment at
    resource_exchange.h 167-170), but their preferences are adjusted in another order: that of addresses. *)
Theorem C54_adjust_order_refuted : exists mgr ancestors get_requests get_bids adjust_trader adjust_agent traders (s : list Q)
    m ev s3 l,
  fair_requester get_requests /\ fair_bidder get_bids /\
  collect (list Q) mgr ancestors get_requests get_bids adjust_trader adjust_agent traders s = (Ok m, (ev, s3)) /\
  in_turn mgr traders l /\
  flat_map (fun c => match c with VAdjustT t _ => [t] | _ => [] end) ev <>
    filter (fun t => existsb (Nat.eqb t) (x_requesters m)) l.
Proof.
  exact (ex_intro _ wMgr (ex_intro _ wAnc (ex_intro _ wGetR (ex_intro _ wGetB (ex_intro _ wAdjT (ex_intro _ wAdjA
    (ex_intro _ wTraders (ex_intro _ [] (ex_intro _ wM (ex_intro _ wEv (ex_intro _ [] (ex_intro _ [1; 2; 0]%nat wM_order)))))))))))).
Qed.
Print Assumptions C54_adjust_order_refuted.
