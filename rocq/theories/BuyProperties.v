(** * C38, C39: the material buy policy.  Vocabulary: BuySpec.v. *)
From Verif Require Import Base CompModel CompSpec PackageModel ResourceModel ResourceSpec ResourceProperties
  BufModel BufSpec BufProperties GreedyModel ExchangeModel TrackerModel TrackerSpec TrackerProperties
  BuyModel BuySpec BuyProofs6 BuyProofs7 BuyProofs8 BuyProofs9.
Local Open Scope Q_scope.

(** ** The running example.  Buffer 0, capacity 20, is empty; buffer 1 holds 4 kg; the tracker over both
    has a limit of 18. *)
Definition yB (bulk : bool) : buf := snd (snd (b_runs exE EMaterial [BCapacity (Some 20)] (exW, exB bulk))).
Definition yS (bulk : bool) : sys := mkSys exW [yB bulk; snd (exOne 1)] [exT] market0 [].
Definition at_time (t : Z) (s : sys) : sys := s_set_world (set_time t (s_world s)) s.
Definition y_start (bulk : bool) (a : init_args) : result unit * (sys * pol) :=
  y_init (Some 7%Z) (Some 0%nat) (Some 0%nat) a (yS bulk, pol_new 3).
(** The policy after Init, with two commodities. *)
Definition y_ready (bulk : bool) (a : init_args) : pol :=
  y_set "fuel" 0 2 (y_set "ore" 1 1 (snd (snd (y_start bulk a)))).
Definition yeps : Q := 1 # 1000000.
Definition y_ask (bulk : bool) (a : init_args) : result (list nat) * (sys * pol) :=
  y_requests yeps (fst (snd (y_start bulk a)), y_ready bulk a).
(** (R, Q) with R = 2 and Q = 5. *)
Definition aRQ := IInvThr 17 "RQ" 5 2.
Definition aSS := IInv "sS" 9 4.
Lemma y_used bulk a : fst (y_start bulk a) = Ok tt -> cap_positive a 0 (yS bulk) ->
  used exE yeps 7 0 0 a (fst (snd (y_start bulk a))) (y_ready bulk a) 0.
Proof.
  intros H CP. unfold y_ready. apply u_set, u_set. unfold y_start in *. destruct (y_init _ _ _ _ _) as [r [s p]] eqn:E.
  cbn [fst snd] in *. subst r. eapply u_init; [exact CP|exact E].
Qed.
Lemma no_cap a i s : l_cap (limits_of a) = None -> cap_positive a i s.
Proof. intros H c b X. congruence. Qed.

(** ** C38 *)

(** Whatever a policy in use asks for is at most its throughput, the free space of its buffer, the gap to
    its target inventory, the free space of the tracker and what is left of the cumulative cap; it asks
    only at or below the reorder level, outside dormant periods; with a quantum, every portfolio is for
    exactly one quantum, exclusively, otherwise there is one portfolio; each portfolio holds one request
    for each commodity of the policy, with its preference. *)
Theorem C38_within_limits : forall E eps mgr i k a s p got ports s' p' b t,
  used E eps mgr i k a s p got -> sizes_ok a -> 0 < eps ->
  nth_error (s_bufs s) i = Some b -> nth_error (s_trks s) k = Some t ->
  y_requests eps (s, p) = (Ok ports, (s', p')) -> ports <> [] ->
  exists ts tq, trk_space (s_bufs s) t = Ok ts /\ trk_quantity (s_bufs s) t = Ok tq /\
    ole tq (l_reorder (limits_of a)) /\ y_dormant (w_time (s_world s)) p = false /\
    0 < demand (s_mkt s') ports /\ possible (limits_of a) b ts (demand (s_mkt s') ports) /\
    ole (got + demand (s_mkt s') ports) (l_cap (limits_of a)) /\
    NoDup ports /\
    match l_quantum (limits_of a) with
    | Some q => 0 < q -> Forall (fun x => asks (s_mkt s') x (y_id p) (y_commods p) q true) ports
    | None => exists x, ports = [x] /\ asks (s_mkt s') x (y_id p) (y_commods p) (demand (s_mkt s') ports) false
    end.
Proof. exact requests_within. Qed.
Print Assumptions C38_within_limits.
(** 4 kg are in the tracked buffers.  With (R, Q) = (5, 6) and throughput 17 the target is 11, of which 11
    are free in buffer 0: one quantum of 6.  Throughput 13 gives 13, throughput 17 the tracker's 14. *)
Example C38_within_limits_case :
  let a := IInvThr 17 "RQ" 6 5 in
  used exE yeps 7 0 0 a (fst (snd (y_start false a))) (y_ready false a) 0 /\ sizes_ok a /\
  (exists ports s' p', y_ask false a = (Ok ports, (s', p')) /\ length ports = 1%nat /\ demand (s_mkt s') ports == 6) /\
  (exists ports s' p', y_ask false (IQuantize 17 4) = (Ok ports, (s', p')) /\ length ports = 3%nat /\ demand (s_mkt s') ports == 12) /\
  (exists ports s' p', y_ask false (IThroughput 13 None None None) = (Ok ports, (s', p')) /\ demand (s_mkt s') ports == 13 /\
     map (fun r => (rq_commod (req_at (s_mkt s') r), rq_pref (req_at (s_mkt s') r))) (rp_reqs (rp_at (s_mkt s') 0)) = [("fuel"%string, 2); ("ore"%string, 1)]) /\
  (exists ports s' p', y_ask false (IThroughput 17 None None None) = (Ok ports, (s', p')) /\ demand (s_mkt s') ports == 14).
Proof.
  cbv zeta. split; [apply y_used; [vm_compute; reflexivity|apply no_cap; reflexivity]|]. split; [exact Logic.I|].
  split; [|split; [|split]]; do 3 eexists; (split; [vm_compute; reflexivity|]); vm_compute; auto.
Qed.

(** What was asked for can be delivered: if no more than that arrives, every trade is accepted, the buffer
    and the tracked buffers stay within their capacities and the inventory stays within the target. *)
Theorem C38_deliverable : forall E eps mgr i k a s p got ports s' p' b t bs sc resps r sd p2,
  used E eps mgr i k a s p got -> sizes_ok a -> 0 < eps -> 0 <= e_eps E ->
  nth_error (s_bufs s) i = Some b -> nth_error (s_trks s) k = Some t ->
  tracks (s_bufs s) (t_bufs t) bs -> NoDup (t_bufs t) -> In i (t_bufs t) ->
  y_requests eps (s, p) = (Ok ports, (s', p')) -> ports <> [] ->
  s_bufs sc = s_bufs s' -> in_use E EMaterial (s_world sc) b ->
  NoDup (map fst resps) -> deliverable (s_world sc) b (map fst resps) ->
  sum_qty (s_world sc) (map fst resps) <= demand (s_mkt s') ports ->
  y_accept E resps (sc, p') = (r, (sd, p2)) -> r <> UB ->
  r = Ok tt /\ exists b', nth_error (s_bufs sd) i = Some b' /\ b_cap b' = b_cap b /\
    quantity b' == quantity b + sum_qty (s_world sc) (map fst resps) /\
    (within_capacity b -> within_capacity b') /\ ole (quantity b') (l_target (limits_of a)) /\
    exists tq c tq' c', trk_quantity (s_bufs s) t = Ok tq /\ trk_capacity (s_bufs s) t = Ok c /\
      trk_quantity (s_bufs sd) t = Ok tq' /\ trk_capacity (s_bufs sd) t = Ok c' /\
      c' == c /\ tq' == tq + sum_qty (s_world sc) (map fst resps) /\ (tq <= c -> tq' <= c').
Proof. exact requests_fit. Qed.
Print Assumptions C38_deliverable.
Lemma yB_in_use bulk : in_use exE EMaterial exW (yB bulk).
Proof.
  unfold yB. replace exW with (fst (snd (b_runs exE EMaterial [BCapacity (Some 20)] (exW, exB bulk)))) at 1 by (destruct bulk; vm_compute; reflexivity).
  apply (b_runs_in_use EMaterial [BCapacity (Some 20)] bulk); destruct bulk; vm_compute; reflexivity.
Qed.
(** The 10 kg material arrives. *)
Definition y13 := y_ask false (IThroughput 13 None None None).
Definition y13_accept := y_accept exE [(0%nat, "fuel"%string)] (s_set_world exW (fst (snd y13)), snd (snd y13)).
Example C38_deliverable_case :
  fst y13 = Ok [0%nat] /\ demand (s_mkt (fst (snd y13))) [0%nat] == 13 /\
  s_bufs (fst (snd y13)) = s_bufs (yS false) /\
  tracks (s_bufs (yS false)) (t_bufs exT) (s_bufs (yS false)) /\
  in_use exE EMaterial exW (yB false) /\ deliverable exW (yB false) [0%nat] /\
  sum_qty exW [0%nat] == 10 /\ 
  fst y13_accept = Ok tt /\ trk_quantity (s_bufs (fst (snd y13_accept))) exT = Ok 14.
Proof.
  split; [vm_compute; reflexivity|]. split; [vm_compute; reflexivity|]. split; [vm_compute; reflexivity|].
  split; [cbn [exT t_bufs]; repeat constructor|]. split; [apply yB_in_use|]. split.
  { split; [|discriminate]. intros j [<-|[]]. do 2 eexists. split; [vm_compute; reflexivity|]. split; [reflexivity|]. split; [discriminate|]. intros []. }
  split; [vm_compute; reflexivity|]. split; vm_compute; reflexivity.
Qed.

(** In a dormant period, or above the reorder level, nothing is asked for. *)
Theorem C38_silent : forall E eps mgr i k a s p got r s' p' t tq,
  used E eps mgr i k a s p got -> 0 < eps -> nth_error (s_trks s) k = Some t -> trk_quantity (s_bufs s) t = Ok tq ->
  (y_dormant (w_time (s_world s)) p = true \/ exists x, l_reorder (limits_of a) = Some x /\ x < tq) ->
  y_requests eps (s, p) = (r, (s', p')) -> r <> UB -> r = Ok [] \/ exists e, r = Throw e.
Proof. exact requests_none. Qed.
Print Assumptions C38_silent.
(** 4 kg are held: with a reorder level of 3 nothing is asked for. *)
Example C38_silent_case : trk_quantity (s_bufs (yS false)) exT = Ok 4 /\
  used exE yeps 7 0 0 (IInv "sS" 9 3) (fst (snd (y_start false (IInv "sS" 9 3)))) (y_ready false (IInv "sS" 9 3)) 0 /\
  fst (y_ask false (IInv "sS" 9 3)) = Ok [] /\ fst (y_ask false (IInv "sS" 9 4)) = Ok [0%nat].
Proof.
  split; [vm_compute; reflexivity|]. split; [apply y_used; [vm_compute; reflexivity|apply no_cap; reflexivity]|].
  split; vm_compute; reflexivity.
Qed.

(** And it does ask when it can: with no other limit than a throughput, in an active period, any amount
    that the throughput and the free space allow is covered by what is asked for.  (The largest double
    stands for no limit.) *)
Theorem C38_asks_all : forall E eps mgr i k thr ad dd s p got ports s' p' b t x ts tq,
  used E eps mgr i k (IThroughput thr ad dd None) s p got -> 0 < eps ->
  nth_error (s_bufs s) i = Some b -> nth_error (s_trks s) k = Some t ->
  trk_space (s_bufs s) t = Ok ts -> trk_quantity (s_bufs s) t = Ok tq -> tq <= DBL_MAX ->
  y_dormant (w_time (s_world s)) p = false ->
  y_requests eps (s, p) = (Ok ports, (s', p')) ->
  eps <= x -> x <= thr -> ole x (space b) -> x <= ts -> x <= DBL_MAX - quantity b -> x <= DBL_MAX ->
  x <= demand (s_mkt s') ports.
Proof. exact requests_full. Qed.
Print Assumptions C38_asks_all.
Example C38_asks_all_case : space (yB false) = Some 20 /\ trk_space (s_bufs (yS false)) exT = Ok 14 /\
  y_dormant 0 (y_ready false (IThroughput 17 None None None)) = false /\
  Qleb 14 (DBL_MAX - quantity (yB false)) = true.
Proof. repeat split; vm_compute; reflexivity. Qed.

(** With a bulk buffer the cumulative cap is not respected: what was merged into the content is counted
    as nothing.  The cap is 12; 10 + 4 are received in one active period and yet more is asked for. *)
Definition z_sys : sys := mkSys exW [yB true] [mkTrk 100 [0%nat]] market0 [].
Definition z0 := y_init (Some 7%Z) (Some 0%nat) (Some 0%nat) (ICumulative 11 12 None) (z_sys, pol_new 3).
Definition z1 := y_accept exE [(0%nat, "fuel"%string)] (snd z0).
Definition z2 := y_accept exE [(1%nat, "fuel"%string)] (snd z1).
Definition z3 := y_requests yeps (fst (snd z2), y_set "fuel" 0 1 (snd (snd z2))).
Theorem C38_bulk_cap_refuted : in_use exE EMaterial exW (yB true) /\
  fst z0 = Ok tt /\ fst z1 = Ok tt /\ fst z2 = Ok tt /\
  sum_qty exW [0%nat] == 10 /\ sum_qty exW [1%nat] == 4 /\
  (exists x, fst z3 = Ok [x] /\ 0 < demand (s_mkt (fst (snd z3))) [x]) /\
  s_rows (fst (snd z3)) = s_rows (fst (snd z0)).
Proof.
  split; [apply yB_in_use|]. split; [vm_compute; reflexivity|]. split; [vm_compute; reflexivity|]. split; [vm_compute; reflexivity|].
  split; [vm_compute; reflexivity|]. split; [vm_compute; reflexivity|]. split; [|vm_compute; reflexivity].
  exists 0%nat. split; vm_compute; reflexivity.
Qed.
Print Assumptions C38_bulk_cap_refuted.

(** ** C39 *)

(** The timetable given by any lengths (active ones at least one step, dormant ones perhaps none) covers
    every step from the start exactly once. *)
Theorem C39_no_gap_no_overlap : forall t0 act dor, (forall n, 1 <= act n)%Z -> (forall n, 0 <= dor n)%Z ->
  forall t, (t0 <= t)%Z ->
  (is_active t0 act dor t \/ is_dormant t0 act dor t) /\ ~ (is_active t0 act dor t /\ is_dormant t0 act dor t).
Proof. exact partition. Qed.
Print Assumptions C39_no_gap_no_overlap.

(** A policy with a throughput and length distributions [act], [dor], initialised at [t0] and stepped once
    per time step, follows that timetable (the first sample of [dor] is only tested for its sign): it is
    dormant exactly in the dormant periods, makes requests only in active ones, and has recorded every
    period up to the current one, in order, with its start and its length. *)
Theorem C39_timetable : forall E eps mgr i k thr sd t0 rows0 bc act dor t s p tr,
  0 < eps -> (0 <= t0)%Z -> (forall n, 1 <= act n)%Z -> (forall n, 0 <= dor n)%Z ->
  steps E eps mgr i k (IThroughput thr (Some (mkI act 0)) (Some (mkI dor 0)) sd) t0 rows0 bc t s p tr ->
  let dor' n := dor (S n) in
  (y_dormant t p = true <-> is_dormant t0 act dor' t) /\
  (forall t' m, In (t', true, m) tr -> is_active t0 act dor' t') /\
  exists n, s_rows s = rows0 ++ period_rows mgr t0 act dor' (S n) /\
    (period_start t0 act dor' n <= t <= period_start t0 act dor' (S n))%Z.
Proof. exact timetable. Qed.
Print Assumptions C39_timetable.

(** Stepping without trades, for the examples. *)
Fixpoint y_idle (n : nat) (t : Z) (sp : sys * pol) : option (sys * pol * list bool) :=
  match n with
  | O => Some (sp, [])
  | S n =>
      match y_requests yeps (at_time t (fst sp), snd sp) with
      | (Ok ports, sp') =>
          match y_idle n (t + 1) sp' with
          | Some (sp'', l) => Some (sp'', negb (match ports with [] => true | _ => false end) :: l)
          | None => None
          end
      | _ => None
      end
  end.
Lemma y_idle_steps i k a t0 rows0 bc n : forall t s p tr s' p' l,
  steps exE yeps 7 i k a t0 rows0 bc t s p tr -> y_idle n t (s, p) = Some (s', p', l) ->
  exists tr', steps exE yeps 7 i k a t0 rows0 bc (t + Z.of_nat n) s' p' (tr ++ tr') /\ map (fun x => snd (fst x)) tr' = l.
Proof.
  induction n as [|n IH]; intros t s p tr s' p' l ST H; cbn [y_idle] in H.
  - injection H as <- <- <-. exists []. rewrite app_nil_r, Z.add_0_r. auto.
  - cbn [fst snd] in H. destruct (y_requests yeps (at_time t s, p)) as [[ports|e|] [s1 p1]] eqn:R; try discriminate.
    destruct (y_idle n (t + 1) (s1, p1)) as [[[s2 p2] l2]|] eqn:I; [|discriminate]. injection H as <- <- <-.
    assert (steps exE yeps 7 i k a t0 rows0 bc (t + 1) s1 p1
      (tr ++ [(t, negb match ports with [] => true | _ :: _ => false end, None)])) as S1.
    { eapply st_idle with (sa := at_time t s); [exact ST|reflexivity|reflexivity|exact R|reflexivity]. }
    destruct (IH _ _ _ _ _ _ _ S1 I) as [tr' [A B]]. exists ((t, negb match ports with [] => true | _ :: _ => false end, None) :: tr').
    split; [|cbn [map fst snd]; now rewrite B].
    rewrite <- app_assoc in A. cbn [app] in A. replace (t + Z.of_nat (S n))%Z with (t + 1 + Z.of_nat n)%Z by lia. exact A.
Qed.
(** Active periods of 2, 1, 2, 1, ... steps, dormant ones of 3: what the policy does in the first nine steps
    and what it has recorded. *)
Definition aTT := IThroughput 5 (Some (mkI (fun n => if Nat.even n then 2 else 1)%Z 0)) (Some (mkI (fun n => 3%Z) 0)) None.
Definition y_after (a : init_args) (n : nat) := y_idle n 0 (fst (snd (y_start false a)), y_ready false a).
Lemma y_after_steps a n s p l : fst (y_start false a) = Ok tt -> cap_positive a 0 (yS false) -> y_after a n = Some (s, p, l) ->
  exists tr, steps exE yeps 7 0 0 a 0 [] (Some 20) (Z.of_nat n) s p tr /\ map (fun x => snd (fst x)) tr = l.
Proof.
  intros H CP A. unfold y_after in A.
  assert (steps exE yeps 7 0 0 a 0 [] (Some 20) 0 (fst (snd (y_start false a))) (y_ready false a) []) as ST.
  { unfold y_ready. apply st_set, st_set. unfold y_start in *. destruct (y_init _ _ _ _ _) as [r [s0 p0]] eqn:E.
    cbn [fst snd] in *. subst r. eapply st_init with (b := yB false); [| |exact CP| | |exact E]; reflexivity. }
  destruct (y_idle_steps _ _ _ _ _ _ _ _ _ _ _ _ _ _ ST A) as [tr [S1 S2]]. exists tr. auto.
Qed.
Definition y_sees (a : init_args) (n : nat) : option (list bool * list cyc_row * bool) :=
  match y_after a n with Some (s, p, l) => Some (l, s_rows s, y_dormant (Z.of_nat n) p) | None => None end.
Lemma y_sees_steps a n l rows d : y_sees a n = Some (l, rows, d) -> fst (y_start false a) = Ok tt -> cap_positive a 0 (yS false) ->
  exists s p tr, steps exE yeps 7 0 0 a 0 [] (Some 20) (Z.of_nat n) s p tr /\ map (fun x => snd (fst x)) tr = l /\
    s_rows s = rows /\ y_dormant (Z.of_nat n) p = d.
Proof.
  unfold y_sees. intros H H1 H2. destruct (y_after a n) as [[[s p] l']|] eqn:A; [|discriminate]. injection H as -> <- <-.
  destruct (y_after_steps a n s p l H1 H2 A) as [tr [S1 S2]]. exists s, p, tr. auto.
Qed.
Example C39_timetable_case : exists s p tr, steps exE yeps 7 0 0 aTT 0 [] (Some 20) (Z.of_nat 9) s p tr /\
  map (fun x => snd (fst x)) tr = [true; true; false; false; false; true; false; false; false] /\
  s_rows s = [mkCyc 7 0 "Active" 2; mkCyc 7 2 "Dormant" 3; mkCyc 7 5 "Active" 1; mkCyc 7 6 "Dormant" 3] /\
  y_dormant (Z.of_nat 9) p = false.
Proof. apply y_sees_steps; [vm_compute; reflexivity|vm_compute; reflexivity|apply no_cap; reflexivity]. Qed.

(** Without a distribution of dormant lengths, or if its first sample is negative, the policy is never
    dormant; one row is recorded. *)
Theorem C39_always_active : forall E eps mgr i k a t0 rows0 bc t s p tr,
  0 < eps -> (0 <= t0)%Z -> l_cap (limits_of a) = None -> never_dormant a ->
  steps E eps mgr i k a t0 rows0 bc t s p tr ->
  (forall t', (0 <= t')%Z -> y_dormant t' p = false) /\
  s_rows s = rows0 ++ [mkCyc mgr t0 "Active" (first_active a)].
Proof. exact always_active. Qed.
Print Assumptions C39_always_active.
Example C39_always_active_case : never_dormant aRQ /\
  y_sees aRQ 3 = Some ([false; false; false], [mkCyc 7 0 "Active" 1], false) /\
  y_sees (IInv "QR" 6 5) 3 = Some ([true; true; true], [mkCyc 7 0 "Active" 1], false).
Proof. split; [exact Logic.I|]. split; vm_compute; reflexivity. Qed.

(** With a cumulative cap the policy is active until the mass received since the last dormant period
    reaches the cap (or the capacity of the buffer, if that is smaller), is dormant from the next step on
    for the sampled number of steps, and so on; requests are made only outside the dormant periods. *)
Theorem C39_cumulative : forall E eps mgr i k thr cap dd t0 rows0 bc t s p tr,
  0 < eps -> (0 <= t0)%Z ->
  steps E eps mgr i k (ICumulative thr cap dd) t0 rows0 bc t s p tr ->
  let len n := match dd with Some d => i_vals d (S (i_pos d + n)) | None => (-1)%Z end in
  let rows := cap_rows mgr (omin cap bc) (e_eps E) len 0 0 tr in
  s_rows s = rows0 ++ mkCyc mgr t0 "CumulativeCap" 1 :: rows /\
  (y_dormant t p = true <-> dormant_row rows t) /\
  (forall t' m, In (t', true, m) tr -> ~ dormant_row rows t').
Proof. exact cumulative. Qed.
Print Assumptions C39_cumulative.
(** The cap is 10; 10 kg arrive in step 0; steps 1 and 2 are dormant. *)
Definition aCum := ICumulative 11 10 (Some (mkI (fun n => Z.of_nat n + 1)%Z 0)).
Definition y_trade (w : world) (a : init_args) (resps : list (nat * string)) :=
  y_accept exE resps (s_set_world w (fst (snd (y_ask false a))), snd (snd (y_ask false a))).
Lemma y_trade_steps w a resps ports : in_use exE EMaterial w (yB false) -> fst (y_start false a) = Ok tt -> cap_positive a 0 (yS false) ->
  fst (y_ask false a) = Ok ports -> ports <> [] -> fst (y_trade w a resps) = Ok tt -> NoDup (map fst resps) ->
  w_time (s_world (fst (snd (y_start false a)))) = 0%Z -> w_time w = 0%Z ->
  nth_error (s_bufs (fst (snd (y_ask false a)))) 0 = Some (yB false) ->
  steps exE yeps 7 0 0 a 0 [] (Some 20) (0 + 1) (fst (snd (y_trade w a resps))) (snd (snd (y_trade w a resps)))
    ([] ++ [(0%Z, true, Some (sum_qty w (map fst resps)))]).
Proof.
  intros IU H CP H1 NE H2 ND T1 T2 B.
  assert (steps exE yeps 7 0 0 a 0 [] (Some 20) 0 (fst (snd (y_start false a))) (y_ready false a) []) as ST.
  { unfold y_ready. apply st_set, st_set. clear H1 H2 T1 T2 B. unfold y_start in *. destruct (y_init _ _ _ _ _) as [r [s0 p0]] eqn:E.
    cbn [fst snd] in *. subst r. eapply st_init with (b := yB false); [| |exact CP| | |exact E]; reflexivity. }
  unfold y_trade in *. unfold y_ask in H1, H2, B |- *. destruct (y_requests yeps _) as [r1 [s1 p1]] eqn:R. cbn [fst snd] in *. subst r1.
  destruct (y_accept exE resps (s_set_world w s1, p1)) as [r2 [s2 p2]] eqn:AC. cbn [fst snd] in *. subst r2.
  apply (st_trade exE yeps 7 0 0 a 0 [] (Some 20) 0 _ _ [] _ _ _ _ (s_set_world w s1) resps s2 p2 s2 ST T1 eq_refl R NE T2 eq_refl AC ND); [|reflexivity].
  exists (yB false). split; [exact B|]. split; [exact IU|reflexivity].
Qed.
Definition c2 := y_trade exW aCum [(0%nat, "fuel"%string)].
Example C39_cumulative_case :
  steps exE yeps 7 0 0 aCum 0 [] (Some 20) (0 + 1) (fst (snd c2)) (snd (snd c2)) ([] ++ [(0%Z, true, Some (sum_qty exW (map fst [(0%nat, "fuel"%string)])))]) /\
  s_rows (fst (snd c2)) = [mkCyc 7 0 "CumulativeCap" 1; mkCyc 7 1 "Dormant" 2] /\
  match y_idle 3 1 (snd c2) with Some (_, _, l) => Some l | None => None end = Some [false; false; true].
Proof.
  split; [|split; vm_compute; reflexivity].
  apply y_trade_steps with [0%nat]; [apply yB_in_use|..]; try (vm_compute; reflexivity).
  - intros c b [= <-] [= <-]. split; reflexivity.
  - discriminate.
  - repeat constructor. intros [].
Qed.

(** An active length of 0 breaks the timetable: the policy makes requests in steps 4 and 7, which it has
    recorded as dormant. *)
Definition aZero := IThroughput 5 (Some (mkI (fun n => 0)%Z 0)) (Some (mkI (fun n => 3%Z) 0)) None.
Theorem C39_zero_length_refuted : exists s p tr, steps exE yeps 7 0 0 aZero 0 [] (Some 20) (Z.of_nat 9) s p tr /\
  map (fun x => snd (fst x)) tr = [false; false; false; false; true; false; false; true; false] /\
  dormant_row (s_rows s) 4 /\ dormant_row (s_rows s) 7.
Proof.
  destruct (y_sees_steps aZero 9 [false; false; false; false; true; false; false; true; false]
    [mkCyc 7 0 "Active" 0; mkCyc 7 1 "Dormant" 3; mkCyc 7 4 "Active" 0; mkCyc 7 4 "Dormant" 3; mkCyc 7 7 "Active" 0; mkCyc 7 7 "Dormant" 3] true)
    as [s [p [tr [S1 [S2 [S3 _]]]]]]; [vm_compute; reflexivity|vm_compute; reflexivity|apply no_cap; reflexivity|].
  exists s, p, tr. split; [exact S1|]. split; [exact S2|]. rewrite S3. split.
  - exists (mkCyc 7 4 "Dormant" 3). cbn. intuition lia.
  - exists (mkCyc 7 7 "Dormant" 3). cbn. intuition lia.
Qed.
Print Assumptions C39_zero_length_refuted.

(** Initialising again a policy that was always active: the new distribution of dormant lengths is
    ignored, for ResetBehavior and Init keep the mark "never dormant". *)
Definition r1 := y_start false (IThroughput 5 None None None).
Definition r2 := y_init (Some 7%Z) (Some 0%nat) (Some 0%nat) aTT (fst (snd r1), y_reset (snd (snd r1))).
Theorem C39_reinit_refuted : fst r1 = Ok tt /\ fst r2 = Ok tt /\
  y_nde (snd (snd r2)) = (-1)%Z /\ (forall t, (0 <= t)%Z -> y_dormant t (snd (snd r2)) = false) /\
  s_rows (fst (snd r2)) = [mkCyc 7 0 "Active" 1; mkCyc 7 0 "Active" 2] /\
  match y_idle 9 0 (fst (snd r2), y_set "fuel" 0 2 (snd (snd r2))) with
  | Some (_, _, l) => Some l | None => None end = Some (repeat true 9).
Proof.
  split; [vm_compute; reflexivity|]. split; [vm_compute; reflexivity|].
  assert (y_nde (snd (snd r2)) = (-1)%Z) as H by (vm_compute; reflexivity). split; [exact H|]. split.
  - intros t L. unfold y_dormant. rewrite H. apply andb_false_intro2, Z.ltb_ge. lia.
  - split; vm_compute; reflexivity.
Qed.
Print Assumptions C39_reinit_refuted.
