(** The facilities that come with the kernel, and simulations made of them. *)
From Coq Require Import String QArith Qpower List Bool Arith ZArith Lia Lqa Permutation.
From Verif Require Import Base CompModel ResourceModel BufModel GreedyModel GreedySpec GreedyExamples ExchangeModel TradeModel TradeSpec DreModel
  FacModel FacSpec FacProofs7 FacProofs8 FacExamples.
Import ListNotations.
Open Scope string_scope.
Open Scope Q_scope.

(** Any number of facilities, any number of steps: the run succeeds, every step's deliveries are real
    and within the capacities of that step and leave no supply that is still wanted, everything delivered is in the receivers' inventories, and
    every delivery has its row in the Transactions table, numbered consecutively. *)
Theorem C61_run : forall (E : env) (eps tol : Q) (recipes : string -> option nat) (place : nat -> nat) (mgr : nat -> Z)
    (fd : Q -> Q -> Q) (wt : option weights) (ancestors : nat -> list nat),
  fd_ok fd tol -> tol <= eps -> e_eps E <= eps ->
  forall (n : nat) (w : world) (fs : list fac) (id : Z),
  ready recipes w fs -> (forall t f, nth_error fs t = Some f -> steady f) ->
  (forall t f, nth_error fs t = Some f -> has_room (e_eps E) f (needs eps tol n f)) ->
  exists ls evs w' fs',
    fac_run E eps recipes place mgr fd wt ancestors n (w, fs) id =
      (Ok tt, (evs, ((w', fs'), (id + Z.of_nat (length (concat ls)))%Z))) /\
    length ls = n /\ (forall i l, nth_error ls i = Some l -> fair_day eps tol (map (later i) fs) l) /\
    kept (map (later n) fs) (concat ls) fs' /\ recorded mgr id (concat ls) (concat evs).
Proof. exact run_days. Qed.
Print Assumptions C61_run.
(** A mine, a plant and a store for three steps. *)
Example C61_run_example : fd_ok fdx 0 /\ 0 <= feps /\ e_eps fE <= feps /\ ready frecipes fw park /\
  (forall t f, nth_error park t = Some f -> steady f) /\
  (forall t f, nth_error park t = Some f -> has_room (e_eps fE) f (needs feps 0 3 f)) /\
  outcome (frun 2 park) = Ok tt /\
  rows (frun 2 park) = [(10%Z, 11%Z, "ore"); (10%Z, 12%Z, "ore"); (11%Z, 12%Z, "fuel"); (10%Z, 11%Z, "ore"); (11%Z, 12%Z, "fuel")] /\
  Forall2 Qeq (map held (facs (frun 2 park))) [0; 8; 8].
Proof.
  split; [exact fdx_ok|]. split; [vm_compute; discriminate|]. split; [vm_compute; discriminate|]. split; [exact park_ready|].
  split; [exact park_steady|]. split; [exact park_room|]. split; [vm_compute; reflexivity|]. split; [vm_compute; reflexivity|].
  assert (H : map held (facs (frun 2 park)) = [0; 48 # 6; 192 # 24]) by (vm_compute; reflexivity). rewrite H.
  repeat constructor.
Qed.

(** Nothing gets lost: what the inventories hold together grows by exactly what was delivered. *)
Theorem C61_nothing_lost : forall (eps tol : Q) (fs : list fac) (ls : list (list delivery)) (fs' : list fac) n,
  (forall i l, nth_error ls i = Some l -> fair_day eps tol (map (later i) fs) l) ->
  kept (map (later n) fs) (concat ls) fs' ->
  qsum (map held fs') == qsum (map held fs) + qsum (map dl_amt (concat ls)).
Proof. exact all_there. Qed.
Print Assumptions C61_nothing_lost.
Example C61_nothing_lost_example :
  (forall i l, nth_error [park_deliveries] i = Some l -> fair_day feps 0 (map (later i) park) l) /\
  kept (map (later 1) park) (concat [park_deliveries]) park_after /\ Qeq_bool (qsum (map dl_amt park_deliveries)) 7 = true.
Proof. split; [apply park_day|]. split; [apply park_day|reflexivity]. Qed.

(** After [n] steps a KFacility takes and gives its capacity times its factor to the power [n]. *)
Theorem C61_growth : forall (n : nat) (k : kfac),
  wanted_amount (later n (FK k)) == k_in_cap k * k_fin k ^ Z.of_nat n /\
  offered_amount (later n (FK k)) == k_out_cap k * k_fout k ^ Z.of_nat n.
Proof. intros n k. split; apply times_power. Qed.
Print Assumptions C61_growth.
Example C61_growth_example : wanted_amount (later 5 plant) == 96 /\ offered_amount (later 5 plant) == 64.
Proof. split; vm_compute; reflexivity. Qed.

(** A supplier given any trades: within its capacity each is answered with a new material of
    that amount, made of its recipe (or of what was asked for); beyond it the step fails. *)
Theorem C61_supplier : forall E eps recipes mgr m w fs t f ts,
  nth_error fs t = Some f -> set_up recipes f -> full_capacity f -> offered_commod f <> None ->
  (forall n c, recipes n = Some c -> (c < length (w_comps w))%nat) ->
  (forall tr, In tr ts -> a_request w (rq_target (req_at m (td_req tr)))) ->
  exists r w1 fs1, fac_trades E eps recipes mgr m t ts (w, fs) = (r, (w1, fs1)) /\
    (qsum (map td_amt ts) <= offered_amount f + eps -> exists rs, r = Ok rs /\ map fst rs = ts /\ NoDup (map snd rs) /\
       forall tr i, In (tr, i) rs -> (length (w_res w) <= i)%nat /\ exists c, is_material w1 i (td_amt tr) c /\
         match product_recipe f with
         | Some n => recipes n = Some c
         | None => exists q, is_material w1 (rs_id (rq_target (req_at m (td_req tr)))) q c
         end) /\
    (offered_amount f + eps < qsum (map td_amt ts) -> r = Throw ValueError).
Proof. exact supplier_answers. Qed.
Print Assumptions C61_supplier.
Example C61_supplier_example : a_request fw2 (rq_target (req_at fmkt (td_req (a_trade 4)))) /\
  fst (fac_trades fE feps frecipes fmgr fmkt 0 [a_trade 3; a_trade 2] (fw2, park)) = Ok [(a_trade 3, 1%nat); (a_trade 2, 2%nat)] /\
  fst (fac_trades fE feps frecipes fmgr fmkt 0 [a_trade 3; a_trade 3] (fw2, park)) = Throw ValueError.
Proof. split; [exact fmkt_target|]. split; vm_compute; reflexivity. Qed.

(** A consumer given any materials: they all go into the inventory if there is room, and the step
    fails if there is not. *)
Theorem C61_consumer : forall E m w fs t f b rs,
  nth_error fs t = Some f -> inventory f = Some b -> in_order w f -> NoDup (map snd rs) ->
  (forall tr i, In (tr, i) rs -> ~ In i (b_present b) /\ e_eps E < td_amt tr /\ 0 <= td_amt tr /\ exists c, is_material w i (td_amt tr) c) ->
  exists r w1 fs1 f1, fac_accept E m t rs (w, fs) = (r, (w1, fs1)) /\
    nth_error fs1 t = Some f1 /\ same_settings f f1 /\ (forall t', t' <> t -> nth_error fs1 t' = nth_error fs t') /\
    (has_room (e_eps E) f (qsum (map (fun r => td_amt (fst r)) rs)) ->
       r = Ok tt /\ held f1 == held f + qsum (map (fun r => td_amt (fst r)) rs)) /\
    (has_room (e_eps E) f 0 -> ~ has_room (e_eps E) f (qsum (map (fun r => td_amt (fst r)) rs)) -> r = Throw ValueError).
Proof. exact consumer_takes. Qed.
Print Assumptions C61_consumer.
Example C61_consumer_example : is_material fw2 0 4 1 /\
  fst (fac_accept fE fmkt 1 [(a_trade 4, 0%nat)] (fw2, [mine; store (Some 4)])) = Ok tt /\
  fst (fac_accept fE fmkt 1 [(a_trade 4, 0%nat)] (fw2, [mine; store (Some 3)])) = Throw ValueError.
Proof. split; [|split; vm_compute; reflexivity]. eexists. vm_compute. split; [reflexivity|]. split; reflexivity. Qed.

(** Not true: that a Sink takes at most its capacity in a step. One with two commodities takes as much of each. *)
Theorem C61_sink_capacity_refuted : exists fs s s' t,
  ready frecipes fw fs /\ outcome (frun 1 fs) = Ok tt /\ nth_error fs t = Some (FSink s) /\
  nth_error (facs (frun 1 fs)) t = Some (FSink s') /\ held (FSink s') == held (FSink s) + 2 * sk_cap s /\ 0 < sk_cap s.
Proof.
  exists two, (mkSnk ["fuel"; "ore"] "" 4 (room None)). eexists. exists 2%nat.
  split; [exact two_ready|]. split; [vm_compute; reflexivity|]. split; [reflexivity|]. split; [vm_compute; reflexivity|].
  split; [vm_compute; reflexivity|]. vm_compute. reflexivity.
Qed.
Print Assumptions C61_sink_capacity_refuted.
(** Not true: that a Sink stops asking when its inventory is full. The simulation ends with an error. *)
Theorem C61_full_sink_refuted : exists fs s,
  ready frecipes fw fs /\ outcome (frun 1 fs) = Ok tt /\ nth_error (facs (frun 1 fs)) 1 = Some (FSink s) /\
  b_cap (sk_inv s) = Some (held (FSink s)) /\ outcome (frun 2 fs) = Throw ValueError.
Proof.
  exists small. eexists. split; [exact small_ready|]. split; [vm_compute; reflexivity|]. split; [vm_compute; reflexivity|].
  split; vm_compute; reflexivity.
Qed.
Print Assumptions C61_full_sink_refuted.
(** Not true: that a Source can be switched off by a capacity of 0. The simulation ends with an error as soon as
    its commodity is asked for. *)
Theorem C61_zero_source_refuted : exists s k,
  so_cap s == 0 /\ In (so_commod s) (sk_commods k) /\ outcome (frun 1 [FSource s; FSink k]) = Throw ValueError.
Proof.
  exists (mkSrc "fuel" "leu" 0), (mkSnk ["fuel"; "ore"] "" 4 (room None)).
  split; [reflexivity|]. split; [now left|]. vm_compute. reflexivity.
Qed.
Print Assumptions C61_zero_source_refuted.
