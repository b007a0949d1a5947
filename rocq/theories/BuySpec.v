(** * Specification vocabulary for the material buy policy (C38, C39). *)
From Verif Require Import Base CompModel PackageModel ResourceModel ResourceSpec BufModel BufSpec
  GreedyModel ExchangeModel TrackerModel TrackerSpec BuyModel.
Local Open Scope Q_scope.

(** ** What the user configured, read off the arguments of Init ([None]: no such limit). *)
Record limits := mkLim {
  l_throughput : option Q;   (* most that may be requested in one step *)
  l_target : option Q;       (* inventory to fill up to *)
  l_reorder : option Q;      (* order only at or below this inventory *)
  l_quantum : option Q;      (* order whole multiples of this *)
  l_cap : option Q           (* most that may be received in one active period *)
}.
(** Inventory policies: (s, S) fills up to S; (R, Q) orders multiples of Q, at most up to R + Q. *)
Definition target_of (kind : string) (fill req : Q) : Q :=
  if String.eqb (lower kind) "ss" then fill else req + fill.
Definition quantum_of (kind : string) (fill : Q) : option Q :=
  if String.eqb (lower kind) "ss" then None else Some fill.
Definition limits_of (a : init_args) : limits :=
  match a with
  | IPlain => mkLim None None None None None
  | IThroughput thr _ _ _ => mkLim (Some thr) None None None None
  | IQuantize thr q => mkLim (Some thr) None None (Some q) None
  | IInvThr thr kind fill req => mkLim (Some thr) (Some (target_of kind fill req)) (Some req) (quantum_of kind fill) None
  | IInv kind fill req => mkLim None (Some (target_of kind fill req)) (Some req) (quantum_of kind fill) None
  | ICumulative thr cap _ => mkLim (Some thr) None None None (Some cap)
  end.
(** The share of the possible amount that is asked for is between 0 and 1. *)
Definition sizes_ok (a : init_args) : Prop :=
  match a with
  | IThroughput _ _ _ (Some d) => forall n, 0 <= d_vals d n <= 1
  | _ => True
  end.

(** A cumulative cap is only a cap if it is positive, on a buffer with room. *)
Definition cap_positive (a : init_args) (i : nat) (s : sys) : Prop :=
  forall c b, l_cap (limits_of a) = Some c -> nth_error (s_bufs s) i = Some b ->
  0 < c /\ match b_cap b with Some x => 0 < x | None => True end.

(** ** A policy in use.  [used ... s p got]: policy [p] was created, initialised with [a] and since then
    asked for requests and given trades any number of times, while anything else happened to the system;
    [got] is the mass received since the last cumulative cap was reached.  (With a cumulative cap the
    buffer is not a bulk one.) *)
Section Used.
Variables (E : env) (eps : Q) (mgr : Z) (i k : nat) (a : init_args).
Inductive used : sys -> pol -> Q -> Prop :=
| u_init id s s' p : cap_positive a i s -> y_init (Some mgr) (Some i) (Some k) a (s, pol_new id) = (Ok tt, (s', p)) -> used s' p 0
| u_requests s p got r s' p' : used s p got -> y_requests eps (s, p) = (r, (s', p')) -> r <> UB -> used s' p' got
| u_accept s p got resps s' p' :
    used s p got -> y_accept E resps (s, p) = (Ok tt, (s', p')) ->
    (exists b, nth_error (s_bufs s) i = Some b /\ in_use E EMaterial (s_world s) b /\
       (l_cap (limits_of a) <> None -> b_bulk b = false)) ->
    NoDup (map fst resps) ->
    used s' p' (if Nat.eqb (length (s_rows s')) (length (s_rows s))
                then got + sum_qty (s_world s) (map fst resps) else 0)
| u_set s p got commod comp pref : used s p got -> used s (y_set commod comp pref p) got
| u_unset s p got commod : used s p got -> used s (y_unset commod p) got
| u_other s p got s' : used s p got -> used s' p got.
End Used.

(** ** What was requested *)
(** The demand of some portfolios, as the exchange sees it. *)
Definition demand (m : market) (ports : list nat) : Q := qsum (map (fun x => rp_qty (rp_at m x)) ports).
(** Portfolio [x] holds one request of quantity [q] for every commodity in [cs], in order, with its
    preference; any one of them satisfies it. *)
Definition asks (m : market) (x : nat) (trader : nat) (cs : list (string * (nat * Q))) (q : Q) (excl : bool) : Prop :=
  rp_qty (rp_at m x) == q /\ rp_trader (rp_at m x) = Some trader /\
  map (fun r => (rq_commod (req_at m r), rq_pref (req_at m r))) (rp_reqs (rp_at m x)) =
    map (fun c => (fst c, snd (snd c))) cs /\
  Forall (fun r => rs_qty (rq_target (req_at m r)) == q /\ rq_excl (req_at m r) = excl /\ rq_trader (req_at m r) = trader)
    (rp_reqs (rp_at m x)).

(** The largest amount that respects every limit of the policy: buffer [b], tracker space [ts]. *)
Definition possible (l : limits) (b : buf) (ts : Q) (x : Q) : Prop :=
  ole x (l_throughput l) /\ ole x (space b) /\ x <= ts /\
  match l_target l with Some g => x <= g - quantity b | None => True end.

(** These resources can be delivered into buffer [b]: materials that are not in it already and, if it is a
    bulk buffer, can be mixed with its content. *)
Definition deliverable (w : world) (b : buf) (js : list nat) : Prop :=
  (forall j, In j js -> exists x c, nth_error (w_res w) j = Some x /\ r_qual x = QMat c /\ 0 <= r_qty x /\ ~ In j (b_rs b)) /\
  (b_bulk b = true -> mixable w (b_rs b ++ js)).

(** ** C39: the timetable of active and dormant periods.  [act n] and [dor n] are the lengths of the
    [n]th active and dormant period. *)
Section Timetable.
Variables (t0 : Z) (act dor : nat -> Z).
Fixpoint period_start (n : nat) : Z :=
  match n with O => t0 | S n => (period_start n + act n + dor n)%Z end.
Definition is_active (t : Z) : Prop := exists n, (period_start n <= t < period_start n + act n)%Z.
Definition is_dormant (t : Z) : Prop := exists n, (period_start n + act n <= t < period_start (S n))%Z.
End Timetable.

(** The rows of BuyPolActiveDormant for the first [n] periods. *)
Definition period_rows (mgr t0 : Z) (act dor : nat -> Z) (n : nat) : list cyc_row :=
  flat_map (fun m =>
    [mkCyc mgr (period_start t0 act dor m) "Active" (act m);
     mkCyc mgr (period_start t0 act dor m + act m)%Z "Dormant" (dor m)]) (seq 0 n).

(** A policy initialised at time [t0], on a buffer of capacity [bcap], and stepped once in every time step
    since: it is asked for requests, and then, if it made some, perhaps given trades.  Between those calls
    and between the steps anything may happen to the rest of the system except its clock and the rows of
    this table.  [steps ... t s p tr]: it is now time [t], before the exchange; [tr] lists for each past
    step its time, whether requests were made, and the total mass of the trades, if there were any. *)
Section Steps.
Variables (E : env) (eps : Q) (mgr : Z) (i k : nat) (a : init_args) (t0 : Z) (rows0 : list cyc_row) (bcap : option Q).
Definition same_cycle_rows (s s' : sys) : Prop := s_rows s' = s_rows s.
Inductive steps : Z -> sys -> pol -> list (Z * bool * option Q) -> Prop :=
| st_init id s s' p b :
    w_time (s_world s) = t0 -> s_rows s = rows0 -> cap_positive a i s ->
    nth_error (s_bufs s) i = Some b -> b_cap b = bcap ->
    y_init (Some mgr) (Some i) (Some k) a (s, pol_new id) = (Ok tt, (s', p)) ->
    steps t0 s' p []
| st_set t s p tr commod comp pref : steps t s p tr -> steps t s (y_set commod comp pref p) tr
| st_unset t s p tr commod : steps t s p tr -> steps t s (y_unset commod p) tr
| st_idle t s p tr sa ports sb p1 se :
    steps t s p tr ->
    w_time (s_world sa) = t -> same_cycle_rows s sa ->
    y_requests eps (sa, p) = (Ok ports, (sb, p1)) ->
    same_cycle_rows sb se ->
    steps (t + 1)%Z se p1 (tr ++ [(t, negb (match ports with [] => true | _ => false end), None)])
| st_trade t s p tr sa ports sb p1 sc resps sd p2 se :
    steps t s p tr ->
    w_time (s_world sa) = t -> same_cycle_rows s sa ->
    y_requests eps (sa, p) = (Ok ports, (sb, p1)) ->
    ports <> [] ->
    w_time (s_world sc) = t -> same_cycle_rows sb sc ->
    y_accept E resps (sc, p1) = (Ok tt, (sd, p2)) ->
    NoDup (map fst resps) ->
    (exists b, nth_error (s_bufs sc) i = Some b /\ in_use E EMaterial (s_world sc) b /\
       (l_cap (limits_of a) <> None -> b_bulk b = false)) ->
    same_cycle_rows sd se ->
    steps (t + 1)%Z se p2 (tr ++ [(t, true, Some (sum_qty (s_world sc) (map fst resps)))]).
End Steps.

(** Cumulative mode: the rows of the dormant periods.  A period starts in the step after the one whose
    trades brought the mass received since the last period to the cap, to within [eps]; the [n]th one
    lasts [dor n] steps. *)
Fixpoint cap_rows (mgr : Z) (cap eps : Q) (dor : nat -> Z) (n : nat) (got : Q) (tr : list (Z * bool * option Q)) : list cyc_row :=
  match tr with
  | [] => []
  | (_, _, None) :: tr => cap_rows mgr cap eps dor n got tr
  | (t, _, Some m) :: tr =>
      if Qltb (cap - (got + m)) eps then
        mkCyc mgr (t + 1)%Z "Dormant" (dor n) :: cap_rows mgr cap eps dor (S n) 0 tr
      else cap_rows mgr cap eps dor n (got + m) tr
  end.
(** Some row makes time [t] dormant. *)
Definition dormant_row (rows : list cyc_row) (t : Z) : Prop :=
  exists r, In r rows /\ cy_type r = "Dormant"%string /\ (cy_time r <= t < cy_time r + cy_length r)%Z.

(** The first sample of the dormant-length distribution, if one is given, is negative: no dormant periods.
    That is the default. *)
Definition never_dormant (a : init_args) : Prop :=
  match a with
  | IThroughput _ _ (Some d) _ => (i_vals d (i_pos d) < 0)%Z
  | ICumulative _ _ _ => False
  | _ => True
  end.
(** The length of the first active period; one step unless a distribution is given. *)
Definition first_active (a : init_args) : Z :=
  match a with IThroughput _ (Some d) _ _ => i_vals d (i_pos d) | _ => 1%Z end.
