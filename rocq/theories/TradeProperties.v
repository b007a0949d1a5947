(** C25: executed trades are exactly the solved trades. *)
From Coq Require Import String QArith List Bool Arith ZArith Lia Sorted Permutation.
From Verif Require Import Base GreedyModel ExchangeModel TradeModel TradeSpec TradeProofs.
Import ListNotations.
Open Scope Q_scope.

(** A complete execution: one question per supplier with exactly its trades, then one row per
    non-negligible resource handed out, with consecutive new ids, the real parties, the
    resource's state and the commodity; then one delivery per requester with exactly the
    answers for its requests, in the order given. *)
Theorem C25_execution : forall (T S : Type) (bidder requester : T -> nat) (commod : T -> string)
    (ask : nat -> list T -> S -> result (list (T * nat)) * S)
    (accept : nat -> list (T * nat) -> S -> result unit * S)
    (qty_of : S -> nat -> Q) (sid_of : S -> nat -> Z) (agent : nat -> Z) (time : Z) (eps : Q)
    ts s id ev s2 id2,
  execute T bidder requester commod S ask accept qty_of sid_of agent time eps ts s id = (Ok tt, (ev, (s2, id2))) ->
  exists sups reqs rss s1 rows,
    lists_once bidder ts sups /\ lists_once requester ts reqs /\
    asked bidder ask ts sups s rss s1 /\
    delivered requester accept (concat rss) reqs s1 s2 /\
    ev = map (fun p => EAsk T p (of_bidder bidder p ts)) sups ++ map (ERecord T) rows ++
         map (fun q => EAccept T q (of_requester requester q (concat rss))) reqs /\
    Permutation (map row_data rows)
      (map (row_for requester commod sid_of agent time s1) (filter (sizable qty_of eps s1) (answers sups rss))) /\
    map tx_id rows = numbered id (length rows) /\ id2 = (id + Z.of_nat (length rows))%Z.
Proof. intros until id2. apply execution. Qed.

(** When every supplier answers each of its trades once, with a resource that is sizable when all have
    answered: each trade yields exactly one row with its own supplier, requester and commodity, and is
    delivered exactly once, to its requester; what is delivered are the resources the suppliers answered with. *)
Theorem C25_each_trade_once : forall (T S : Type) (bidder requester : T -> nat) (commod : T -> string)
    (ask : nat -> list T -> S -> result (list (T * nat)) * S)
    (accept : nat -> list (T * nat) -> S -> result unit * S)
    (qty_of : S -> nat -> Q) (sid_of : S -> nat -> Z) (agent : nat -> Z) (time : Z) (eps : Q)
    ts s id ev s2 id2,
  (forall p s0 rs s0', ask p (of_bidder bidder p ts) s0 = (Ok rs, s0') -> map fst rs = of_bidder bidder p ts) ->
  (forall sups rss s1, lists_once bidder ts sups -> asked bidder ask ts sups s rss s1 ->
     forall r, In r (concat rss) -> eps < qty_of s1 (snd r)) ->
  execute T bidder requester commod S ask accept qty_of sid_of agent time eps ts s id = (Ok tt, (ev, (s2, id2))) ->
  exists asks rows accepts,
    ev = asks ++ map (ERecord T) rows ++ map (fun x => EAccept T (fst x) (snd x)) accepts /\
    Permutation (map (fun r => (tx_sender r, tx_receiver r, tx_commod r)) rows)
                (map (fun t => (agent (bidder t), agent (requester t), commod t)) ts) /\
    map tx_id rows = numbered id (length ts) /\
    Permutation (flat_map (fun x => map fst (snd x)) accepts) ts /\
    (forall q rs r, In (q, rs) accepts -> In r rs -> requester (fst r) = q) /\
    exists sups rss s1, lists_once bidder ts sups /\ asked bidder ask ts sups s rss s1 /\
      asks = map (fun p => EAsk T p (of_bidder bidder p ts)) sups /\
      (forall q rs r, In (q, rs) accepts -> In r rs -> In r (concat rss)).
Proof. intros until id2. apply faithful. Qed.

(** An execution that stops: either a supplier failed, and then nothing has been recorded or
    delivered; or a requester failed, and then every row has been recorded although the requesters
    after it got nothing. *)
Theorem C25_failure : forall (T S : Type) (bidder requester : T -> nat) (commod : T -> string)
    (ask : nat -> list T -> S -> result (list (T * nat)) * S)
    (accept : nat -> list (T * nat) -> S -> result unit * S)
    (qty_of : S -> nat -> Q) (sid_of : S -> nat -> Z) (agent : nat -> Z) (time : Z) (eps : Q)
    ts s id r ev s2 id2,
  execute T bidder requester commod S ask accept qty_of sid_of agent time eps ts s id = (r, (ev, (s2, id2))) ->
  r <> Ok tt ->
  exists sups reqs, lists_once bidder ts sups /\ lists_once requester ts reqs /\
  ((exists before p after, sups = before ++ p :: after /\ id2 = id /\
      ev = map (fun p => EAsk T p (of_bidder bidder p ts)) (before ++ [p])) \/
   (exists rss s1 rows before q after, reqs = before ++ q :: after /\
      asked bidder ask ts sups s rss s1 /\
      Permutation (map row_data rows)
        (map (row_for requester commod sid_of agent time s1) (filter (sizable qty_of eps s1) (answers sups rss))) /\
      ev = map (fun p => EAsk T p (of_bidder bidder p ts)) sups ++ map (ERecord T) rows ++
           map (fun q => EAccept T q (of_requester requester q (concat rss))) (before ++ [q]))).
Proof. intros until id2. apply execution_stops. Qed.

(** ** A concrete market day: trades are (bidder, requester, commodity); resource number n holds n+1 units.
    The state counts the resources handed out. *)
Definition tr := (nat * nat * string)%type.
Definition tb (t : tr) := fst (fst t).
Definition tq (t : tr) := snd (fst t).
Definition tc (t : tr) := snd t.
Definition fair_ask (p : nat) (ts : list tr) (n : nat) : result (list (tr * nat)) * nat :=
  (Ok (combine ts (seq n (length ts))), (n + length ts)%nat).
Definition any_accept (q : nat) (rs : list (tr * nat)) (n : nat) : result unit * nat := (Ok tt, n).
Definition ex_trades : list tr :=
  [((5, 1), "fuel"); ((3, 1), "fuel"); ((5, 2), "waste"); ((5, 1), "waste")]%string%nat.

Definition run_ex ask :=
  execute tr tb tq tc nat ask any_accept (fun _ n => inject_Z (Z.of_nat n) + 1) (fun _ n => (100 + Z.of_nat n)%Z)
     (fun a => (10 * Z.of_nat a)%Z) 7 (1 # 1000) ex_trades 0%nat 40.

Example C25_example : run_ex fair_ask =
  (Ok tt,
   ([EAsk tr 3 [((3, 1), "fuel")];
     EAsk tr 5 [((5, 1), "fuel"); ((5, 2), "waste"); ((5, 1), "waste")];
     ERecord tr (mkRow 40 30 10 100 "fuel" 7);
     ERecord tr (mkRow 41 50 10 101 "fuel" 7);
     ERecord tr (mkRow 42 50 10 103 "waste" 7);
     ERecord tr (mkRow 43 50 20 102 "waste" 7);
     EAccept tr 1 [(((3, 1), "fuel"), 0); (((5, 1), "fuel"), 1); (((5, 1), "waste"), 3)];
     EAccept tr 2 [(((5, 2), "waste"), 2)]],
    (4, 44%Z)))%string%nat.
Proof. vm_compute. reflexivity. Qed.

Example C25_example_fair : forall p s0 rs s0',
  fair_ask p (of_bidder tb p ex_trades) s0 = (Ok rs, s0') -> map fst rs = of_bidder tb p ex_trades.
Proof.
  intros p s0 rs s0' H. unfold fair_ask in H. assert (rs = combine (of_bidder tb p ex_trades) (seq s0 (length (of_bidder tb p ex_trades)))) as -> by congruence.
  generalize (of_bidder tb p ex_trades), s0.
  clear. intros l. induction l as [|a l IH]; intros n; simpl; [reflexivity|]. now rewrite IH.
Qed.

Example C25_example_sizable : forall n : nat, 1 # 1000 < inject_Z (Z.of_nat n) + 1.
Proof.
  intros n. apply Qlt_le_trans with (0 + 1); [reflexivity|]. apply Qplus_le_l. change 0 with (inject_Z 0).
  rewrite <- Zle_Qle. lia.
Qed.

(** ** What the kernel does not check: a supplier's answers need not be about its trades. A response for a
    requester that has no trade is recorded as a transaction but never handed over, so the material
    disappears from the simulation while the database says the requester received it. *)
Definition stray_ask (p : nat) (ts : list tr) (n : nat) : result (list (tr * nat)) * nat :=
  (Ok [(((p, 9), "fuel"), n)]%nat%string, Datatypes.S n).
Definition delivers {T} (x : nat) (e : event T) : bool :=
  match e with EAccept _ _ rs => existsb (fun r => Nat.eqb (snd r) x) rs | _ => false end.
Definition recordsn {T} (sid : Z) (e : event T) : bool :=
  match e with ERecord _ r => Z.eqb (tx_rsrc r) sid | _ => false end.
Theorem C25_recorded_is_delivered_refuted :
  exists ev s2 id2, run_ex stray_ask = (Ok tt, (ev, (s2, id2))) /\
    existsb (recordsn 100) ev = true /\ existsb (delivers 0) ev = false.
Proof. eexists _, _, _. split; [vm_compute; reflexivity|]. split; reflexivity. Qed.

Print Assumptions C25_execution.
Print Assumptions C25_each_trade_once.
Print Assumptions C25_failure.
Print Assumptions C25_recorded_is_delivered_refuted.
