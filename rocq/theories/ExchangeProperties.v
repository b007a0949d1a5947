(** C23, C24, C48, C49: from requests and bids to trades. *)
From Coq Require Import String QArith List Bool Arith ZArith Lia Lqa.
From Verif Require Import Base GreedyModel GreedySpec GreedyExamples ExchangeModel ExchangeSpec
  ExchangeProofs1 ExchangeProofs4 ExchangeProofs5 ExchangeProofs6 ExchangeProofs7 ExchangeProofs8 ExchangeProofs9 ExchangeExamples.
Import ListNotations.
Open Scope Q_scope.

(** *** C23: translation loses nothing *)

(** If an exchange built through the public API is translated, the graph and the maps
    represent it ([represents], ExchangeSpec.v): one node per request and per bid,
    one group per portfolio with its quantity and constraints, one arc per bid of
    positive preference, preferences and unit capacities as stated. *)
Theorem C23_translation : forall (fd : Q -> Q -> Q) (mgr : nat -> Z) (m m1 : market) (g : graph) (t : tctx),
  xreach m -> registered m -> translate fd mgr m = Ok (m1, (g, t)) ->
  represents fd mgr m g t.
Proof. exact (fun fd mgr m m1 g t XR REG => translate_represents fd mgr m (xreach_inv m XR) REG m1 g t). Qed.
Print Assumptions C23_translation.

(** When translation succeeds, and when it throws. *)
Theorem C23_outcome : forall (fd : Q -> Q -> Q) (mgr : nat -> Z) (m : market),
  xreach m -> registered m -> all_convertible m -> rated m ->
  (asking m /\ (forall b, In b (all_bids m) -> ~ pref_for m b == 0) ->
     exists m1 g t, translate fd mgr m = Ok (m1, (g, t))) /\
  (~ asking m \/ (exists b, In b (all_bids m) /\ pref_for m b == 0) ->
     translate fd mgr m = Throw ValueError).
Proof. exact (fun fd mgr m XR REG => translate_outcome fd mgr m (xreach_inv m XR) REG). Qed.
Print Assumptions C23_outcome.

(** Each match is turned into the trade of exactly its request, its bid and its amount. *)
Theorem C23_back : forall (fd : Q -> Q -> Q) (mgr : nat -> Z) (m m1 : market) (g : graph) (t : tctx) (a : arc) (q : Q),
  xreach m -> registered m -> translate fd mgr m = Ok (m1, (g, t)) -> In a (gr_arcs g) ->
  exists b, In b (all_bids m) /\
    nfind (bd_req (bid_at m b)) (r2n t) = Some (a_u a) /\ nfind b (b2n t) = Some (a_v a) /\
    back_match t (a, q) = Ok (mkTrade (bd_req (bid_at m b)) b q).
Proof. exact (fun fd mgr m m1 g t a q XR REG T =>
  back_repr fd mgr m g t a q (translate_represents fd mgr m (xreach_inv m XR) REG m1 g t T)). Qed.
Print Assumptions C23_back.

(** The exclusive sets of the groups are those of the exchange: each exclusive request, and the exclusive bids
    of a portfolio that offer the same object. *)
Theorem C23_exclusive_sets : forall (fd : Q -> Q -> Q) (mgr : nat -> Z) (m m1 : market) (g : graph) (t : tctx),
  xreach m -> registered m -> translate fd mgr m = Ok (m1, (g, t)) -> represents_excl m g t.
Proof. exact (fun fd mgr m m1 g t XR REG => translate_excl fd mgr m (xreach_inv m XR) REG m1 g t). Qed.
Print Assumptions C23_exclusive_sets.

(** The example exchange (ExchangeExamples.exM: two request portfolios, one of mutual requests, two
    bid portfolios, three constraints, one unwanted bid) meets all these hypotheses. *)
Example C23_ex : xreach exM /\ registered exM /\ all_convertible exM /\ rated exM /\ asking exM /\
  (forall b, In b (all_bids exM) -> ~ pref_for exM b == 0) /\
  match translate fdx exM_mgr exM with
  | Ok (_, (g, _)) => length (gr_nodes g) = 7%nat /\ length (gr_arcs g) = 3%nat /\
                      g_excl (group_at g 0) = [] /\ g_excl (group_at g 1) = [[2%nat]] | _ => False end.
Proof.
  split; [exact exM_reach|]. split; [exact exM_registered|]. split; [exact exM_convertible|].
  split; [exact exM_rated|]. split; [exact exM_asking|]. split; [exact exM_prefs|].
  vm_compute. repeat split; reflexivity.
Qed.

(** *** C24: mutual requests *)

(** Declaring requests as mutual replaces their quantities by the mean and gives each the
    weight quantity / mean. *)
Theorem C24_effect : forall (m : market) (p : nat) (rs : list nat),
  (p < length (m_rports m))%nat -> rs <> [] -> ~ mean m rs == 0 ->
  let m' := snd (add_mutual m p rs) in
  fst (add_mutual m p rs) = Ok tt /\
  rp_qty (rp_at m' p) == rp_qty (rp_at m p) - qsum (map (fun r => rs_qty (rq_target (req_at m r))) rs) + mean m rs /\
  (forall r, In r rs -> nfind r (rp_coeffs (rp_at m' p)) = Some (rs_qty (rq_target (req_at m r)) / mean m rs)) /\
  (forall r, ~ In r rs -> nfind r (rp_coeffs (rp_at m' p)) = nfind r (rp_coeffs (rp_at m p))) /\
  rp_reqs (rp_at m' p) = rp_reqs (rp_at m p) /\ rp_cons (rp_at m' p) = rp_cons (rp_at m p).
Proof. exact mutual_effect. Qed.
Print Assumptions C24_effect.

(** What is traded for a portfolio never exceeds its quantity, unweighted. *)
Theorem C24_total_partial : forall (fd : Q -> Q -> Q) (mgr : nat -> Z) (eps tol : Q) (w : option weights)
    (m : market) (ts : list trade),
  fd_ok fd tol -> tol <= eps -> xreach m -> registered m -> usable m ->
  solve_exchange fd mgr eps w m = Ok ts ->
  forall p, In p (x_rports m) -> 0 <= rp_qty (rp_at m p) ->
    traded (for_rport m p) ts <= rp_qty (rp_at m p) + tol.
Proof. exact w_rport. Qed.
Print Assumptions C24_total_partial.

(** Nor does it exceed the quantity when weighted by the code's weights, if the portfolio has no other
    constraint ([U] bounds the weights; it matters only for a non-zero comparison
    tolerance). *)
Theorem C24_weighted_partial : forall (fd : Q -> Q -> Q) (mgr : nat -> Z) (eps tol : Q) (w : option weights)
    (m : market) (ts : list trade),
  fd_ok fd tol -> tol <= eps -> xreach m -> registered m -> usable m ->
  solve_exchange fd mgr eps w m = Ok ts ->
  forall p U, In p (x_rports m) -> 0 <= rp_qty (rp_at m p) -> rp_cons (rp_at m p) = [] -> 0 <= U ->
    (forall r x, In r (rp_reqs (rp_at m p)) -> nfind r (rp_coeffs (rp_at m p)) = Some x -> x <= U) ->
    used m (mass_cons (rp_at m p)) (for_rport m p) ts <= rp_qty (rp_at m p) + tol * U.
Proof. exact w_mass. Qed.
Print Assumptions C24_weighted_partial.

(** With the documented weights the bound holds when all quantities are the same. *)
Theorem C24_equal_partial : forall (fd : Q -> Q -> Q) (mgr : nat -> Z) (eps tol : Q) (w : option weights)
    (m : market) (ts : list trade),
  fd_ok fd tol -> tol <= eps -> xreach m -> registered m -> usable m ->
  solve_exchange fd mgr eps w m = Ok ts ->
  forall p q, In p (x_rports m) -> 0 <= rp_qty (rp_at m p) -> 0 < q ->
    (forall r, In r (rp_reqs (rp_at m p)) -> rs_qty (rq_target (req_at m r)) == q) ->
    documented_total m (rp_reqs (rp_at m p)) (for_rport m p) ts <= rp_qty (rp_at m p) + tol.
Proof. exact w_equal. Qed.
Print Assumptions C24_equal_partial.

Example C24_ex : fd_ok fdx 0 /\ xreach exM /\ registered exM /\ usable exM /\
  solve_exchange fdx exM_mgr (1 # 1000) None exM = Ok exTrades /\
  In 0%nat (x_rports exM) /\ rp_cons (rp_at exM 0) = [] /\ rp_qty (rp_at exM 0) == 15 # 2 /\
  traded (for_rport exM 0) exTrades == 15 # 2.
Proof.
  split; [exact fdx_ok|]. split; [exact exM_reach|]. split; [exact exM_registered|]. split; [exact exM_usable|].
  split; [exact exM_solve|]. split; [vm_compute; auto|]. split; [vm_compute; reflexivity|].
  split; vm_compute; reflexivity.
Qed.

(** With the documented weights it fails: the weights of the code are the inverse of the
    documented ones. After a full order of one of two mutual requests (5 of 5) more is
    delivered for the other. *)
Theorem C24_documented_weights_refuted : exists fd mgr eps m ts p rs,
  fd_ok fd 0 /\ xreach m /\ registered m /\ usable m /\ rp_cons (rp_at m p) = [] /\
  In p (x_rports m) /\ rp_reqs (rp_at m p) = rs /\ rp_qty (rp_at m p) == mean m rs /\
  solve_exchange fd mgr eps None m = Ok ts /\
  rp_qty (rp_at m p) < documented_total m rs (for_rport m p) ts /\
  exists r, In r rs /\ traded (for_request r) ts == rs_qty (rq_target (req_at m r)) /\
            traded (for_request r) ts < traded (for_rport m p) ts.
Proof. exact documented_refuted_proof. Qed.
Print Assumptions C24_documented_weights_refuted.

(** And a request of 10 that is offered 10 gets 5.625, because it counts for more than it
    is. *)
Theorem C24_full_order_refuted : exists m ts r, xreach m /\
  solve_exchange fdx exM_mgr (1 # 1000) None m = Ok ts /\
  rp_reqs (rp_at m 0) = [0%nat; r] /\ all_bids m = [0%nat] /\ bd_req (bid_at m 0) = r /\
  rs_qty (bd_offer (bid_at m 0)) == 10 /\ rs_qty (rq_target (req_at m r)) == 10 /\
  traded (for_request r) ts == 45 # 8.
Proof. exact under_refuted_proof. Qed.
Print Assumptions C24_full_order_refuted.

(** *** C48: preferences *)

(** Until someone adjusts it, the preference of a bid that was added to the exchange is
    its own or else that of its request, whatever else is added. *)
Theorem C48_initial_preference : forall (m m' : market) (p : nat),
  xsteps market0 m -> (p < length (m_bports m))%nat -> xsteps (xstep m (XCtxB p)) m' ->
  forall b, In b (bp_bids (bp_at m p)) ->
    has_prefs m' b /\ pref_for m' b = stated_pref m' b /\ stated_pref m' b = stated_pref m b.
Proof. exact (fun m m' p => default_preferences m p m'). Qed.
Print Assumptions C48_initial_preference.

Example C48_ex : xsteps market0 exM0 /\ exM1 = xstep exM0 (XCtxB 0) /\ xsteps exM1 exM /\
  bp_bids (bp_at exM0 0) = [0%nat; 2%nat; 1%nat] /\
  pref_for exM 0 == 3 /\ pref_for exM 2 == 7 /\ pref_for exM 1 == 2.
Proof.
  split; [exact exM0_steps|]. split; [unfold exM1; reflexivity|]. split; [exact exM_steps|].
  split; [vm_compute; reflexivity|]. split; [vm_compute; reflexivity|]. split; vm_compute; reflexivity.
Qed.

(** Adjustment applies to the table of each requester, once, its adjustment methods in
    order, and to no other table. *)
Theorem C48_adjustment : forall (m : market) (adj : nat -> list (prefmap -> prefmap)) (t : nat), xreach m ->
  prefs_of (adjust_all m adj) t =
  if existsb (Nat.eqb t) (x_requesters m) then fold_left (fun pm f => f pm) (adj t) (prefs_of m t)
  else prefs_of m t.
Proof. exact adjusted. Qed.
Print Assumptions C48_adjustment.

Example C48_ex2 : xreach exM /\ x_requesters exM = [0%nat; 1%nat] /\ length (prefs_of exM 0) = 2%nat.
Proof. split; [exact exM_reach|]. split; vm_compute; reflexivity. Qed.

(** *** C49: trades stay within what was asked, offered and constrained *)

(** Every trade answers a bid of the exchange, for the bid's own request, which the requester
    wants, and is larger than eps. *)
Theorem C49_trades_are_real : forall (fd : Q -> Q -> Q) (mgr : nat -> Z) (eps tol : Q) (w : option weights)
    (m : market) (ts : list trade),
  fd_ok fd tol -> tol <= eps -> xreach m -> registered m -> usable m ->
  solve_exchange fd mgr eps w m = Ok ts ->
  forall t, In t ts -> In (td_bid t) (all_bids m) /\ td_req t = bd_req (bid_at m (td_bid t)) /\
    0 < pref_for m (td_bid t) /\ eps < td_amt t.
Proof. exact w_real. Qed.
Print Assumptions C49_trades_are_real.

(** No request gets more than its target, no bid gives more than its offer. *)
Theorem C49_request_and_bid : forall (fd : Q -> Q -> Q) (mgr : nat -> Z) (eps tol : Q) (w : option weights)
    (m : market) (ts : list trade),
  fd_ok fd tol -> tol <= eps -> xreach m -> registered m -> usable m ->
  solve_exchange fd mgr eps w m = Ok ts ->
  (forall r, In r (all_reqs m) -> traded (for_request r) ts <= rs_qty (rq_target (req_at m r)) + tol) /\
  (forall b, In b (all_bids m) -> traded (from_bid b) ts <= rs_qty (bd_offer (bid_at m b)) + tol).
Proof. exact (fun fd mgr eps tol w m ts FD TE XR REG US SE =>
  conj (w_request fd mgr eps tol w m ts FD TE XR REG US SE) (w_bid fd mgr eps tol w m ts FD TE XR REG US SE)). Qed.
Print Assumptions C49_request_and_bid.

(** Every constraint of every bid portfolio holds, as its converter measures it. *)
Theorem C49_bid_constraints : forall (fd : Q -> Q -> Q) (mgr : nat -> Z) (eps tol : Q) (w : option weights)
    (m : market) (ts : list trade),
  fd_ok fd tol -> tol <= eps -> xreach m -> registered m -> usable m ->
  solve_exchange fd mgr eps w m = Ok ts ->
  forall p c U, In p (x_bports m) -> In c (bp_cons (bp_at m p)) -> 0 <= U ->
    (forall b, In b (bp_bids (bp_at m p)) -> use m c b <= U) ->
    used m c (from_bport m p) ts <= cc_cap c + tol * U.
Proof. exact w_bport. Qed.
Print Assumptions C49_bid_constraints.

(** In the example 11.5 of the supplier's limit of 12, and 23 of the limit of 100, are used. *)
Example C49_ex : solve_exchange fdx exM_mgr (1 # 1000) None exM = Ok exTrades /\ length exTrades = 3%nat /\
  usable exM /\
  match bp_cons (bp_at exM 0) with
  | [c1; c2] => used exM c1 (from_bport exM 0) exTrades == 23 /\ used exM c2 (from_bport exM 0) exTrades == 23 # 2 /\
                cc_cap c2 == 12
  | _ => False end.
Proof.
  split; [exact exM_solve|]. split; [vm_compute; reflexivity|]. split; [exact exM_usable|].
  vm_compute. repeat split; reflexivity.
Qed.

(** Nothing is left untraded that could have been: a bid that the requester wants, when neither it nor its
    request is exclusive, could not give any further quantity above eps that the request, its
    portfolio, the offer, every constraint of the bid portfolio and some constraint of the request
    portfolio would allow. *)
Theorem C49_nothing_left : forall (fd : Q -> Q -> Q) (mgr : nat -> Z) (eps tol : Q) (w : option weights)
    (m : market) (ts : list trade),
  fd_ok fd tol -> tol <= eps -> xreach m -> registered m -> usable m ->
  solve_exchange fd mgr eps w m = Ok ts -> x_bbr m <> [] ->
  forall b, In b (all_bids m) -> 0 < pref_for m b -> bd_excl (bid_at m b) = false ->
  rq_excl (req_at m (bd_req (bid_at m b))) = false ->
  let r := bd_req (bid_at m b) in let p := rq_port (req_at m r) in let bp := bd_port (bid_at m b) in
  forall q, eps < q ->
    traded (for_rport m p) ts + q <= rp_qty (rp_at m p) ->
    traded (for_request r) ts + q <= rs_qty (rq_target (req_at m r)) ->
    traded (from_bid b) ts + q <= rs_qty (bd_offer (bid_at m b)) ->
    (forall c, In c (bp_cons (bp_at m bp)) -> used m c (from_bport m bp) ts + q * use m c b <= cc_cap c) ->
    ~ exists c, In c (req_cons m p) /\ used m c (for_rport m p) ts + q * use m c b <= cc_cap c.
Proof. exact w_left. Qed.
Print Assumptions C49_nothing_left.
(** The 10 of B are only partly sold, because the portfolio has all it asked for. *)
Example C49_nothing_left_ex : solve_exchange fdx exM_mgr (1 # 1000) None exM = Ok exTrades /\ x_bbr exM <> [] /\
  In 1%nat (all_bids exM) /\ 0 < pref_for exM 1 /\ bd_excl (bid_at exM 1) = false /\
  rq_excl (req_at exM (bd_req (bid_at exM 1))) = false /\
  traded (from_bid 1) exTrades + 1 <= rs_qty (bd_offer (bid_at exM 1)) /\
  traded (for_rport exM (rq_port (req_at exM (bd_req (bid_at exM 1))))) exTrades == rp_qty (rp_at exM 0).
Proof.
  split; [exact exM_solve|]. split; [vm_compute; discriminate|]. split; [rewrite exM_bids; cbn; auto|].
  split; [vm_compute; reflexivity|]. split; [vm_compute; reflexivity|]. split; [vm_compute; reflexivity|].
  split; [vm_compute; discriminate|vm_compute; reflexivity].
Qed.
