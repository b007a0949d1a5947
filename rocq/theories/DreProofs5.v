(** A whole exchange: its phases, what is traded and what is delivered. *)
From Coq Require Import String QArith List Bool Arith ZArith Lia Sorted Permutation Lqa.
From Verif Require Import Base GreedyModel GreedySpec ExchangeModel ExchangeSpec ExchangeProofs1 ExchangeProofs2
  ExchangeProperties TradeModel TradeSpec TradeProofs TradeProperties DreModel DreSpec DreProofs1 DreProofs2 DreProofs3 DreProofs4.
Import ListNotations.
Open Scope Q_scope.

Section Whole.
Variable S : Type.
Variable mgr : nat -> Z.
Variable ancestors : nat -> list nat.
Variable get_requests get_bids : nat -> market -> S -> result (list xop * list nat) * S.
Variable adjust_trader adjust_agent : nat -> prefmap -> S -> result prefmap * S.
Variable fd : Q -> Q -> Q.
Variable eps : Q.
Variable w : option weights.
Variable ask : market -> nat -> list trade -> S -> result (list (trade * nat)) * S.
Variable accept : market -> nat -> list (trade * nat) -> S -> result unit * S.
Variable qty_of : S -> nat -> Q.
Variable sid_of : S -> nat -> Z.
Variable time : Z.
Variable eps_rsrc : Q.
Notation Collect := (collect S mgr ancestors get_requests get_bids adjust_trader adjust_agent).
Notation Exec := (execute_exchange S mgr ancestors get_requests get_bids adjust_trader adjust_agent fd eps w ask accept qty_of sid_of time eps_rsrc).

Lemma phases traders s id r ev s2 id2 : Exec traders s id = (r, (ev, (s2, id2))) ->
  exists l adj calls later tr, in_turn mgr traders l /\ Forall about_prefs adj /\
    map WRequests l ++ map WBids l ++ adj = map callee calls ++ later /\
    ev = calls ++ map VTrade tr /\
    (r = Ok tt -> later = []) /\ (later <> [] -> tr = [] /\ id2 = id).
Proof.
  unfold execute_exchange. intros H. destruct (Collect traders s) as [rc [evc s1]] eqn:E.
  destruct (collect_calls _ _ _ _ _ _ _ _ _ _ _ _ E) as [l [adj [later [T [A [C L]]]]]].
  destruct rc as [m|e|].
  - assert (L0 : later = []) by (apply L; eauto). subst later.
    assert (X : exists tr, ev = evc ++ map VTrade tr).
    { destruct (x_bbr m).
      - inversion H; subst. exists []. cbn. now rewrite app_nil_r.
      - destruct (solve_exchange fd mgr eps w m) as [ts|e|].
        + destruct (execute _ _ _ _ _ _ _ _ _ _ _ _ ts s1 id) as [r2 [ev2 [s3 id3]]]. inversion H; subst. eauto.
        + inversion H; subst. exists []. cbn. now rewrite app_nil_r.
        + inversion H; subst. exists []. cbn. now rewrite app_nil_r. }
    destruct X as [tr ->]. exists l, adj, evc, [], tr. repeat (split; [assumption || reflexivity || (intros; reflexivity)|]).
    intros N. now elim N.
  - inversion H; subst. exists l, adj, ev, later, []. cbn. rewrite app_nil_r.
    repeat (split; [assumption || reflexivity || discriminate|]). auto.
  - inversion H; subst. exists l, adj, ev, later, []. cbn. rewrite app_nil_r.
    repeat (split; [assumption || reflexivity || discriminate|]). auto.
Qed.

Lemma pref_in_table m b : pref_for m b =
  match in_table (prefs_of m (rq_trader (req_at m (bd_req (bid_at m b))))) (bd_req (bid_at m b)) b with Some p => p | None => 0 end.
Proof.
  unfold pref_for, in_table, prefs_of. destruct (nfind _ (x_prefs m)) as [pm|]; cbn [orempty]; auto.
  destruct (nfind _ pm); auto.
Qed.
Lemma handed_same (fs : list (prefmap -> S -> result prefmap * S)) p s p' s' : handed_on fs p s p' s' ->
  (forall f p s p' s', In f fs -> f p s = (Ok p', s') -> p' = p) -> p' = p.
Proof.
  induction 1 as [|f fs p s p1 s1 p2 s2 E H IH]; intros K; auto.
  assert (p1 = p) by (apply (K f p s p1 s1); auto; now left). subst p1. apply IH. intros; eapply K; eauto. now right.
Qed.
Lemma adjusted_same ch b a l s s' : adjusted (S := S) ch b a l s s' ->
  (forall t f p s p' s', In f (ch t) -> f p s = (Ok p', s') -> p' = p) -> forall t, In t l -> a t = b t.
Proof.
  induction 1 as [|t ts s s1 s2 H A IH]; intros K x [].
  - subst x. apply (handed_same _ _ _ _ _ H). intros; eapply K; eauto.
  - now apply IH.
Qed.

Lemma nobody_adjusts traders s m ev s3 :
  fair_requester get_requests -> fair_bidder get_bids -> Collect traders s = (Ok m, (ev, s3)) ->
  (forall t p s p' s', adjust_trader t p s = (Ok p', s') -> p' = p) ->
  (forall a p s p' s', adjust_agent a p s = (Ok p', s') -> p' = p) ->
  forall b, In b (all_bids m) -> pref_for m b = stated_pref m b.
Proof.
  intros FR FB H KT KA b I.
  destruct (collection _ _ _ _ _ _ _ _ _ _ _ _ FR FB H) as
    [l [table [er [eb [ea [before [s2 (_ & _ & _ & _ & _ & _ & _ & _ & _ & _ & _ & RQ & _ & _ & RG & BF & AD & _ & _)]]]]]]].
  rewrite pref_in_table. rewrite (adjusted_same _ _ _ _ _ _ AD).
  - now rewrite (BF _ I).
  - intros t f p s0 p' s' [<-|J]; [apply KT|]. apply in_map_iff in J as [a [<- _]]. apply KA.
  - apply RQ. exists (bd_req (bid_at m b)). split; auto. now apply (rg_ans _ RG).
Qed.

Lemma nothing_bid traders s id m evc s1 : fair_requester get_requests -> fair_bidder get_bids ->
  Collect traders s = (Ok m, (evc, s1)) ->
  bid_replies evc = [] \/ all_bids m = [] ->
  Exec traders s id = (Ok tt, (evc, (s1, id))).
Proof.
  intros FR FB H N.
  destruct (collection _ _ _ _ _ _ _ _ _ _ _ _ FR FB H) as
    [l [table [er [eb [ea [before [s2 (_ & _ & _ & _ & _ & _ & _ & XB & _ & _ & _ & _ & BB & _)]]]]]]].
  unfold execute_exchange. rewrite H. replace (x_bbr m) with (@nil (nat * list nat)); auto.
  symmetry. apply BB. destruct N as [N|N]; auto. unfold all_bids. rewrite XB, N. reflexivity.
Qed.

Lemma deals tol traders s id m evc s1 ev s2 id2 :
  fd_ok fd tol -> tol <= eps -> eps_rsrc <= eps ->
  fair_requester get_requests -> fair_bidder get_bids ->
  Collect traders s = (Ok m, (evc, s1)) -> usable m ->
  (forall ts, solve_exchange fd mgr eps w m = Ok ts -> honest (bidder_of m) (ask m) qty_of ts s1) ->
  Exec traders s id = (Ok tt, (ev, (s2, id2))) ->
  exists ts asks rows accepts sa,
    ev = evc ++ map VTrade (asks ++ map (ERecord trade) rows ++ map (fun x => EAccept trade (fst x) (snd x)) accepts) /\
    (forall t, In t ts -> In (td_bid t) (all_bids m) /\ td_req t = bd_req (bid_at m (td_bid t)) /\
       0 < pref_for m (td_bid t) /\ eps < td_amt t) /\
    (forall r, In r (all_reqs m) -> traded (for_request r) ts <= rs_qty (rq_target (req_at m r)) + tol) /\
    (forall b, In b (all_bids m) -> traded (from_bid b) ts <= rs_qty (bd_offer (bid_at m b)) + tol) /\
    Permutation (map (fun r => (tx_sender r, tx_receiver r, tx_commod r)) rows)
      (map (fun t => (mgr (bd_trader (bid_at m (td_bid t))), mgr (rq_trader (req_at m (td_req t))), rq_commod (req_at m (td_req t)))) ts) /\
    map tx_id rows = numbered id (length ts) /\
    Permutation (flat_map (fun x => map fst (snd x)) accepts) ts /\
    (forall q rs r, In (q, rs) accepts -> In r rs ->
       rq_trader (req_at m (td_req (fst r))) = q /\ qty_of sa (snd r) == td_amt (fst r)).
Proof.
  intros FD TE RE FR FB H US HO X.
  destruct (collection _ _ _ _ _ _ _ _ _ _ _ _ FR FB H) as
    [l [table [er [eb [ea [before [s0 (_ & _ & _ & _ & _ & _ & _ & XB & _ & _ & _ & _ & BB & XR & RG & _)]]]]]]].
  unfold execute_exchange in X. rewrite H in X. destruct (x_bbr m) as [|bb0 bbs] eqn:EB.
  - inversion X; subst. exists [], [], [], [], s2. cbn. rewrite app_nil_r.
    assert (AB : all_bids m = []) by now apply BB.
    split; [reflexivity|]. split; [intros t []|].
    split. { intros r I. unfold traded. cbn. assert (A := us_target _ US r I). destruct FD as [FD0 _]. lra. }
    split; [rewrite AB; intros b []|]. split; [constructor|]. split; [reflexivity|]. split; [constructor|]. intros q rs r [].
  - destruct (solve_exchange fd mgr eps w m) as [ts|e|] eqn:SE; try discriminate.
    destruct (execute _ _ _ _ _ _ _ _ _ _ _ _ ts s1 id) as [r2 [ev2 [s3 id3]]] eqn:EX.
    inversion X; subst r2 ev s3 id3; clear X.
    destruct (HO ts eq_refl) as [HO1 HO2].
    assert (Real := C49_trades_are_real fd mgr eps tol w m ts FD TE XR RG US SE).
    destruct (C49_request_and_bid fd mgr eps tol w m ts FD TE XR RG US SE) as [Q1 Q2].
    assert (BIG : forall sups rss s1', lists_once (bidder_of m) ts sups -> asked (bidder_of m) (ask m) ts sups s1 rss s1' ->
       forall r, In r (concat rss) -> eps_rsrc < qty_of s1' (snd r)).
    { intros sups rss sx LO AS r Ir. rewrite (HO2 _ _ _ LO AS r Ir).
      assert (It : In (fst r) ts).
      { assert (M : exists p s0 rs s0', ask m p (of_bidder (bidder_of m) p ts) s0 = (Ok rs, s0') /\ In r rs).
        { clear -AS Ir. induction AS as [|p ps s rs s1 rss s2 A AS IH]; [destruct Ir|].
          cbn in Ir. apply in_app_or in Ir as [Ir|Ir]; [exists p, s, rs, s1; auto|auto]. }
        destruct M as [p [sy [rs [sz [M1 M2]]]]]. apply (in_map fst) in M2. rewrite (HO1 _ _ _ _ M1) in M2.
        unfold of_bidder in M2. apply filter_In in M2. apply M2. }
      destruct (Real _ It) as [_ [_ [_ G]]]. lra. }
    destruct (C25_each_trade_once trade S (bidder_of m) (requester_of m) (commod_of m) (ask m) (accept m) qty_of sid_of mgr time
      eps_rsrc ts s1 id ev2 s2 id2 HO1 BIG EX) as
      [asks [rows [accepts [E1 [P1 [N1 [P2 [RQ [sups [rss [sa [LO [AS [EA IN]]]]]]]]]]]]]].
    exists ts, asks, rows, accepts, sa. split; [now rewrite E1|]. split; [exact Real|]. split; [exact Q1|]. split; [exact Q2|].
    split; [exact P1|]. split; [exact N1|]. split; [exact P2|].
    intros q rs r I1 I2. split; [exact (RQ _ _ _ I1 I2)|]. apply (HO2 _ _ _ LO AS). eapply IN; eauto.
Qed.

Lemma collected traders s m ev s3 :
  fair_requester get_requests -> fair_bidder get_bids -> Collect traders s = (Ok m, (ev, s3)) ->
  exists l table er eb ea,
    in_turn mgr traders l /\ ev = er ++ eb ++ ea /\
    map callee er = map WRequests l /\
    Forall2 (fun t c => exists ps, c = VBids t table ps) l eb /\
    map callee ea = flat_map (fun t => WPrefs t :: map WParent (ancestors t)) (x_requesters m) /\
    (forall c, shown_for table c = posted m c) /\
    x_rports m = request_replies ev /\ x_bports m = bid_replies ev /\
    (forall t ps p r, In (VRequests t ps) ev -> In p ps -> In r (rp_reqs (rp_at m p)) -> rq_trader (req_at m r) = t) /\
    (forall t sh ps p b, In (VBids t sh ps) ev -> In p ps -> In b (bp_bids (bp_at m p)) -> bd_trader (bid_at m b) = t) /\
    StronglySorted lt (x_requesters m) /\
    (forall t, In t (x_requesters m) <-> exists r, In r (all_reqs m) /\ rq_trader (req_at m r) = t).
Proof.
  intros FR FB H.
  destruct (collection _ _ _ _ _ _ _ _ _ _ _ _ FR FB H) as
    (l & table & er & eb & ea & before & s2 & A1 & A2 & A3 & A4 & A5 & A6 & A7 & A8 & A9 & A10 & A11 & A12 & _).
  exists l, table, er, eb, ea. exact (conj A1 (conj A2 (conj A3 (conj A4 (conj A5 (conj A6 (conj A7 (conj A8 (conj A9 (conj A10 (conj A11 A12))))))))))).
Qed.
Lemma preferences traders s m ev s3 :
  fair_requester get_requests -> fair_bidder get_bids -> Collect traders s = (Ok m, (ev, s3)) ->
  exists before after s2,
    (forall b, In b (all_bids m) ->
       in_table (before (rq_trader (req_at m (bd_req (bid_at m b))))) (bd_req (bid_at m b)) b = Some (stated_pref m b)) /\
    (forall t p, In (VAdjustT t p) ev -> p = before t) /\
    adjusted (fun t => adjust_trader t :: map adjust_agent (ancestors t)) before after (x_requesters m) s2 s3 /\
    (forall b, In b (all_bids m) -> pref_for m b =
       match in_table (after (rq_trader (req_at m (bd_req (bid_at m b))))) (bd_req (bid_at m b)) b with Some p => p | None => 0 end).
Proof.
  intros FR FB H.
  destruct (collection _ _ _ _ _ _ _ _ _ _ _ _ FR FB H) as
    (l & table & er & eb & ea & before & s2 & A1 & A2 & A3 & A4 & A5 & A6 & A7 & A8 & A9 & A10 & A11 & A12 & A13 & A14 & A15 & A16 & A17 & A18 & A19).
  exists before, (prefs_of m), s2. split; [exact A16|]. split; [exact A18|]. split; [exact A17|].
  intros b _. apply pref_in_table.
Qed.
End Whole.
