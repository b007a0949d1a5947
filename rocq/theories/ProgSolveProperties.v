(** C52, end to end: the trades of an exchange whose solver is the optimisation solver. [solver] stands for the external
    solver; [solved feasible] says that what it returns for the program made for this exchange is a solution of it,
    [solved optimal] that it is a cheapest one. *)
From Coq Require Import String QArith List Bool Arith ZArith Lia Lqa.
From Verif Require Import Base GreedyModel GreedySpec GreedyExamples ExchangeModel ExchangeSpec ExchangeExamples
  ProgModel ProgSpec ProgSolveModel ProgSolveSpec ProgProofs7 ProgSolveExamples.
Import ListNotations.
Open Scope Q_scope.

(** With exclusive orders on, the exchange goes through whatever the solver returns, if the requests and bids are
    as C23_outcome wants them. *)
Theorem C52_exchange_outcome : forall (fd : Q -> Q -> Q) (mgr : nat -> Z) (eps tol : Q) (solver : lp -> nat -> Q) (m : market),
  fd_ok fd tol -> tol <= eps -> xreach m -> registered m -> usable m ->
  all_convertible m -> rated m -> asking m -> (forall b, In b (all_bids m) -> ~ pref_for m b == 0) ->
  exists ts, prog_exchange fd mgr eps true solver m = Ok ts.
Proof. exact e_outcome. Qed.
Print Assumptions C52_exchange_outcome.

(** Every trade is that of a bid of the exchange for the request it answers, on a positive preference and above
    the tolerance, and no bid is traded twice. *)
Theorem C52_exchange_trades : forall (fd : Q -> Q -> Q) (mgr : nat -> Z) (eps : Q) (excl : bool) (solver : lp -> nat -> Q)
    (m : market) (ts : list trade),
  xreach m -> registered m -> usable m -> prog_exchange fd mgr eps excl solver m = Ok ts ->
  NoDup (map td_bid ts) /\ forall tr, In tr ts ->
  In (td_bid tr) (all_bids m) /\ td_req tr = bd_req (bid_at m (td_bid tr)) /\
  0 < pref_for m (td_bid tr) /\ eps < td_amt tr.
Proof. exact e_trades. Qed.
Print Assumptions C52_exchange_trades.

(** A divisible trade is at most what its request asks for; an exclusive request gets exactly what it asks
    for, an exclusive bid gives exactly what it offers. *)
Theorem C52_exchange_amounts : forall (fd : Q -> Q -> Q) (mgr : nat -> Z) (eps : Q) (excl : bool) (solver : lp -> nat -> Q)
    (m : market) (ts : list trade),
  0 <= eps -> xreach m -> registered m -> usable m -> prog_exchange fd mgr eps excl solver m = Ok ts ->
  solved feasible fd mgr eps excl solver m ->
  forall tr, In tr ts ->
  (excl && excl_trade m tr = false -> td_amt tr <= rs_qty (rq_target (req_at m (td_req tr)))) /\
  (excl = true -> rq_excl (req_at m (td_req tr)) = true -> td_amt tr == rs_qty (rq_target (req_at m (td_req tr)))) /\
  (excl = true -> rq_excl (req_at m (td_req tr)) = false -> bd_excl (bid_at m (td_bid tr)) = true ->
     td_amt tr == rs_qty (bd_offer (bid_at m (td_bid tr)))).
Proof. exact e_amounts. Qed.
Print Assumptions C52_exchange_amounts.

(** Every constraint of every bid portfolio holds, with no tolerance. *)
Theorem C52_exchange_supply : forall (fd : Q -> Q -> Q) (mgr : nat -> Z) (eps : Q) (excl : bool) (solver : lp -> nat -> Q)
    (m : market) (ts : list trade),
  xreach m -> registered m -> usable m -> prog_exchange fd mgr eps excl solver m = Ok ts ->
  solved feasible fd mgr eps excl solver m ->
  forall p c, In p (x_bports m) -> In c (bp_cons (bp_at m p)) -> used m c (from_bport m p) ts <= cc_cap c.
Proof. exact e_supply. Qed.
Print Assumptions C52_exchange_supply.

(** An exclusive request is served by one bid; of the exclusive bids of a portfolio that offer the same object, one
    is traded. *)
Theorem C52_exchange_exclusive : forall (fd : Q -> Q -> Q) (mgr : nat -> Z) (eps : Q) (excl : bool) (solver : lp -> nat -> Q)
    (m : market) (ts : list trade),
  0 <= eps -> xreach m -> registered m -> usable m -> prog_exchange fd mgr eps excl solver m = Ok ts ->
  solved feasible fd mgr eps excl solver m ->
  forall t1 t2, excl = true -> In t1 ts -> In t2 ts ->
  (td_req t1 = td_req t2 /\ rq_excl (req_at m (td_req t1)) = true) \/
  (bd_port (bid_at m (td_bid t1)) = bd_port (bid_at m (td_bid t2)) /\
   rs_id (bd_offer (bid_at m (td_bid t1))) = rs_id (bd_offer (bid_at m (td_bid t2))) /\
   bd_excl (bid_at m (td_bid t1)) = true /\ bd_excl (bid_at m (td_bid t2)) = true) ->
  t1 = t2.
Proof. exact e_exclusive. Qed.
Print Assumptions C52_exchange_exclusive.

(** The example exchange, with a solver that returns 5, 1 (the exclusive order of 4), 2.5: the hypotheses hold, three
    trades result and 11.5 of the limit of 12 are used. *)
Example C52_exchange_ex : fd_ok fdx 0 /\ 0 <= 1 # 1000 /\ xreach exM /\ registered exM /\ usable exM /\
  all_convertible exM /\ rated exM /\ asking exM /\ (forall b, In b (all_bids exM) -> ~ pref_for exM b == 0) /\
  solved feasible fdx exM_mgr (1 # 1000) true exSol exM /\
  prog_exchange fdx exM_mgr (1 # 1000) true exSol exM = Ok exProg /\ length exProg = 3%nat /\
  match bp_cons (bp_at exM 0) with
  | [c1; c2] => used exM c2 (from_bport exM 0) exProg == 23 # 2 /\ cc_cap c2 == 12 | _ => False end.
Proof.
  split; [exact fdx_ok|]. split; [discriminate|]. split; [exact exM_reach|]. split; [exact exM_registered|].
  split; [exact exM_usable|]. split; [exact exM_convertible|]. split; [exact exM_rated|]. split; [exact exM_asking|].
  split; [exact exM_prefs|]. split; [exact exSol_feasible|]. split; [exact exProg_ok|]. split; [reflexivity|].
  vm_compute. split; reflexivity.
Qed.

(** Without exclusive orders a cheapest solution leaves every request portfolio within one of its constraints. *)
Theorem C52_exchange_demand : forall (fd : Q -> Q -> Q) (mgr : nat -> Z) (eps : Q) (solver : lp -> nat -> Q)
    (m : market) (ts : list trade),
  0 <= eps -> xreach m -> registered m -> usable m -> prog_exchange fd mgr eps false solver m = Ok ts ->
  solved optimal fd mgr eps false solver m ->
  forall p, In p (x_rports m) -> 0 <= rp_qty (rp_at m p) ->
  exists c, In c (req_cons m p) /\ used m c (for_rport m p) ts <= cc_cap c.
Proof. exact e_demand. Qed.
Print Assumptions C52_exchange_demand.

(** No avoidable shortage: if a liked bid could have traded more (its request is not filled, and every constraint of
    its portfolio has room), then its request portfolio is satisfied. What may be lost is what the solver drops below
    the tolerance: [eps] per bid. *)
Theorem C52_exchange_no_shortage : forall (fd : Q -> Q -> Q) (mgr : nat -> Z) (eps : Q) (solver : lp -> nat -> Q)
    (m : market) (ts : list trade),
  0 <= eps -> xreach m -> registered m -> usable m -> prog_exchange fd mgr eps false solver m = Ok ts ->
  solved optimal fd mgr eps false solver m ->
  forall b c, x_bbr m <> [] -> In b (all_bids m) -> 0 < pref_for m b ->
  traded (from_bid b) ts + eps < rs_qty (rq_target (req_at m (bd_req (bid_at m b)))) ->
  (forall c', In c' (bp_cons (bp_at m (bd_port (bid_at m b)))) ->
     used m c' (from_bport m (bd_port (bid_at m b))) ts + eps * all_use m c' (bids_from m (bd_port (bid_at m b))) < cc_cap c') ->
  let p := rq_port (req_at m (bd_req (bid_at m b))) in
  (forall c', In c' (req_cons m p) -> 1 <= use m c' b) ->
  In c (req_cons m p) -> cc_cap c <= inject_Z (10 ^ 15) ->
  cc_cap c <= used m c (for_rport m p) ts + eps * all_use m c (bids_for m p).
Proof. exact e_shortage. Qed.
Print Assumptions C52_exchange_no_shortage.

(** The example with the cheapest solution: the bid of 10 of B trades 5.625 and could trade more, and trader 0's weighted
    demand of 7.5 is met. *)
Example C52_exchange_ex_opt : solved optimal fdx exM_mgr (1 # 1000) false exSol2 exM /\
  prog_exchange fdx exM_mgr (1 # 1000) false exSol2 exM = Ok exProg2 /\ x_bbr exM <> [] /\ In 1%nat (all_bids exM) /\
  0 < pref_for exM 1 /\ traded (from_bid 1) exProg2 + (1 # 1000) < rs_qty (rq_target (req_at exM (bd_req (bid_at exM 1)))) /\
  match bp_cons (bp_at exM 0) with
  | [c1; c2] => used exM c1 (from_bport exM 0) exProg2 + (1 # 1000) * all_use exM c1 (bids_from exM 0) < cc_cap c1 /\
                used exM c2 (from_bport exM 0) exProg2 + (1 # 1000) * all_use exM c2 (bids_from exM 0) < cc_cap c2
  | _ => False end /\
  match req_cons exM 0 with
  | [c] => 1 <= use exM c 1 /\ cc_cap c == 15 # 2 /\ used exM c (for_rport exM 0) exProg2 == 15 # 2
  | _ => False end.
Proof.
  split; [exact exSol2_optimal|]. split; [exact exProg2_ok|]. split; [vm_compute; discriminate|].
  split; [rewrite exM_bids; simpl; auto|]. split; [vm_compute; reflexivity|]. split; [vm_compute; reflexivity|].
  split; vm_compute; repeat split; try reflexivity; discriminate.
Qed.
