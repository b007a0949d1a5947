(** A concrete market that meets the hypotheses of the theorems on whole exchanges. *)
From Coq Require Import String QArith List Bool Arith ZArith Lia Lqa Sorted Permutation.
From Verif Require Import Base GreedyModel GreedySpec GreedyExamples ExchangeModel ExchangeSpec
  TradeModel TradeSpec DreModel DreSpec.
Import ListNotations.
Open Scope Q_scope.

(** Traders 0 and 2 request 10 and 4 of "fuel"; trader 1 offers what is asked, up to 12 in total. Trader 0 is
    managed by agent 7 whose parent, agent 9, triples preferences; trader 1 by agent 3 and
    trader 2 by agent 5, which have no parents. The state is the list of the resources handed out. *)
Definition wS := list Q.
Definition wMgr (t : nat) : Z := match t with 0%nat => 7 | 1%nat => 3 | _ => 5 end%Z.
Definition wAnc (t : nat) : list nat := match t with 0%nat => [9%nat] | _ => [] end.
Definition wRequest (t : nat) (q pref : Q) (m : market) : list xop * list nat :=
  let n := length (m_rports m) in
  ([XNewRPort; XAddRequest n (mkRsrc t q) t "fuel" pref false], [n]).
Definition wGetR (t : nat) (m : market) (s : wS) : result (list xop * list nat) * wS :=
  match t with
  | 0%nat => (Ok (wRequest 0 10 1 m), s)
  | 2%nat => (Ok (wRequest 2 4 2 m), s)
  | _ => (Ok ([], []), s)
  end.
Definition wGetB (t : nat) (m : market) (s : wS) : result (list xop * list nat) * wS :=
  match t with
  | 1%nat =>
      let n := length (m_bports m) in
      (Ok (XNewBPort ::
           map (fun r => XAddBid n r (mkRsrc 1 (rs_qty (rq_target (req_at m r)))) 1 false None 0)
             (shown_for (x_commod m) "fuel") ++ [XBCons n 12 CTrivial 0], [n]), s)
  | _ => (Ok ([], []), s)
  end.
Definition wAdjT (t : nat) (p : prefmap) (s : wS) : result prefmap * wS := (Ok p, s).
Definition wAdjA (a : nat) (p : prefmap) (s : wS) : result prefmap * wS :=
  (Ok (map (fun rl => (fst rl, map (fun bq => (fst bq, 3 * snd bq)) (snd rl))) p), s).
Definition wAsk (m : market) (p : nat) (ts : list trade) (s : wS) : result (list (trade * nat)) * wS :=
  (Ok (combine ts (seq (length s) (length ts))), s ++ map td_amt ts).
Definition wAccept (m : market) (q : nat) (rs : list (trade * nat)) (s : wS) : result unit * wS := (Ok tt, s).
Definition wQty (s : wS) (x : nat) : Q := nth x s 0.
Definition wSid (s : wS) (x : nat) : Z := Z.of_nat x.
Definition wTraders : list nat := [0; 1; 2]%nat.

Lemma wGetR_fair : fair_requester wGetR.
Proof.
  intros t m s ops ps s1 H.
  destruct t as [|[|[|t]]]; cbn in H; inversion H; subst; cbn; repeat constructor.
Qed.
Lemma wGetB_fair : fair_bidder wGetB.
Proof.
  intros t m s ops ps s1 H.
  destruct t as [|[|t]]; cbn in H; inversion H; subst; try (split; constructor; fail).
  split; [|repeat constructor].
  constructor; [exact I|]. apply Forall_app. split; [|repeat constructor].
  apply Forall_forall. intros o I. apply in_map_iff in I. destruct I as [r [<- I]].
  cbn. repeat split; auto. exists "fuel"%string. exact I.
Qed.

(** Suppliers that append what they were asked for. *)
Lemma combine_fst {A B} (l : list A) : forall (l' : list B), length l' = length l -> map fst (combine l l') = l.
Proof. induction l as [|a l IH]; intros [|b l'] H; cbn in *; try discriminate; auto. f_equal. apply IH. lia. Qed.
Lemma asked_grows bidder m ts sups s rss s1 : asked bidder (wAsk m) ts sups s rss s1 ->
  exists more, s1 = s ++ more.
Proof.
  induction 1 as [s|p ps s rs s1 rss s2 H _ [more IH]]; [exists []; now rewrite app_nil_r|].
  inversion H; subst. exists (map td_amt (of_bidder bidder p ts) ++ more). now rewrite app_assoc.
Qed.
Lemma combine_seq_in (ts : list trade) : forall n t x, In (t, x) (combine ts (seq n (length ts))) ->
  (n <= x < n + length ts)%nat /\ nth_error ts (x - n) = Some t.
Proof.
  induction ts as [|t0 ts IH]; intros n t x; cbn; [intros []|].
  intros [E|I].
  - inversion E; subst. rewrite Nat.sub_diag. split; [lia|reflexivity].
  - apply IH in I. destruct I as [A B]. split; [lia|].
    replace (x - n)%nat with (S (x - S n))%nat by lia. exact B.
Qed.
Lemma wAsk_honest bidder m ts s : honest bidder (wAsk m) wQty ts s.
Proof.
  split.
  - intros p s0 rs s1 H. inversion H; subst. apply combine_fst. now rewrite seq_length.
  - intros sups rss s1 _ A. revert A.
    induction 1 as [s|p ps s rs s1 rss s2 H A IH]; intros r I; [destruct I|].
    cbn in I. apply in_app_iff in I. destruct I as [I|I]; [|now apply IH].
    destruct (asked_grows _ _ _ _ _ _ _ A) as [more ->]. inversion H; subst.
    destruct r as [t x]. apply combine_seq_in in I. destruct I as [B C]. cbn [fst snd].
    assert (L : length (map td_amt (of_bidder bidder p ts)) = length (of_bidder bidder p ts)) by apply map_length.
    unfold wQty. rewrite <- app_assoc, app_nth2 by lia. rewrite app_nth1 by lia.
    rewrite (nth_error_nth _ _ 0 (map_nth_error td_amt _ _ C)). reflexivity.
Qed.

(** The collected market and the whole run. *)
Notation wCollect := (collect wS wMgr wAnc wGetR wGetB wAdjT wAdjA).
Notation wExec := (execute_exchange wS wMgr wAnc wGetR wGetB wAdjT wAdjA fdx (1 # 1000) None wAsk wAccept wQty wSid 6 (1 # 1000)).
Definition wM : market := Eval vm_compute in match fst (wCollect wTraders []) with Ok m => m | _ => market0 end.
Definition wEv : list call := Eval vm_compute in fst (snd (wCollect wTraders [])).
Lemma wM_collected : wCollect wTraders [] = (Ok wM, (wEv, [])).
Proof. vm_compute. reflexivity. Qed.
Lemma wM_bids : all_bids wM = [1; 0]%nat.
Proof. vm_compute. reflexivity. Qed.
Lemma wM_reqs : all_reqs wM = [0; 1]%nat.
Proof. vm_compute. reflexivity. Qed.
Lemma wM_usable : usable wM.
Proof.
  constructor.
  - intros r. rewrite wM_reqs. intros [<-|[<-|[]]]; vm_compute; discriminate.
  - intros b c. rewrite wM_bids. intros [<-|[<-|[]]] IC; cbn in IC;
      destruct IC as [<-|[]]; (split; [exact I|vm_compute; reflexivity]).
  - intros b c. rewrite wM_bids. intros [<-|[<-|[]]] IC; cbn in IC;
      destruct IC as [<-|[]]; (split; [exact I|vm_compute; reflexivity]).
Qed.
Definition wDeals : list trade := [mkTrade 0 0 4; mkTrade 1 1 (320 # 40)].
Lemma wM_deals : solve_exchange fdx wMgr (1 # 1000) None wM = Ok wDeals.
Proof. vm_compute. reflexivity. Qed.
Definition wRun : list call := wEv ++ map VTrade
  [ EAsk trade 1 wDeals;
    ERecord trade (mkRow 40 3 7 1 "fuel" 6); ERecord trade (mkRow 41 3 5 0 "fuel" 6);
    EAccept trade 0 [(mkTrade 1 1 (320 # 40), 1%nat)]; EAccept trade 2 [(mkTrade 0 0 4, 0%nat)] ].
Lemma wM_run : wExec wTraders [] 40%Z = (Ok tt, (wRun, ([4; 320 # 40], 42%Z))).
Proof. vm_compute. reflexivity. Qed.
(** The same market without the supplier. *)
Lemma wM_run_nobids : exists m ev, wCollect [0; 2]%nat [] = (Ok m, (ev, [])) /\ bid_replies ev = [] /\
  all_reqs m = [0; 1]%nat /\ wExec [0; 2]%nat [] 40%Z = (Ok tt, (ev, ([], 40%Z))).
Proof. eexists. eexists. split; [vm_compute; reflexivity|]. repeat split; vm_compute; reflexivity. Qed.
(** A supplier whose method throws while the bids are collected. *)
Definition wThrow (t : nat) (m : market) (s : wS) : result (list xop * list nat) * wS :=
  match t with 2%nat => (Throw StateError, s) | _ => wGetB t m s end.
Lemma wM_run_throw : execute_exchange wS wMgr wAnc wGetR wThrow wAdjT wAdjA fdx (1 # 1000) None wAsk wAccept wQty wSid
    6 (1 # 1000) wTraders [] 40%Z =
  (Throw StateError, (firstn 4 wEv ++ [VBids 2 [("fuel"%string, [0; 1]%nat)] []], ([], 40%Z))).
Proof. vm_compute. reflexivity. Qed.
Lemma wTurns : in_turn wMgr wTraders [1; 2; 0]%nat.
Proof. split; [repeat constructor; unfold turn; cbn; lia|]. intros t. cbn. intuition. Qed.
Lemma wM_order : fair_requester wGetR /\ fair_bidder wGetB /\ wCollect wTraders [] = (Ok wM, (wEv, [])) /\
  in_turn wMgr wTraders [1; 2; 0]%nat /\
  flat_map (fun c => match c with VAdjustT t _ => [t] | _ => [] end) wEv <>
    filter (fun t => existsb (Nat.eqb t) (x_requesters wM)) [1; 2; 0]%nat.
Proof.
  split; [exact wGetR_fair|]. split; [exact wGetB_fair|]. split; [exact wM_collected|]. split; [exact wTurns|].
  vm_compute. discriminate.
Qed.
