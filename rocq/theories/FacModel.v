(** The facilities that come with the kernel: agents/source.h, source.cc (Source), agents/sink.h,
    sink.cc (Sink), agents/k_facility.h, k_facility.cc (KFacility), and one time step of a
    simulation in which they are the traders.

    Simplifications, once for the whole file:
    - a facility is a position in the list of facilities, which is also its number as a trader;
      its settings are values; doubles are exact rationals; logging is dropped;
    - GetRecipe is the function [recipes] from names to compositions (None: not registered,
      a KeyError, context.cc 197-202); compositions and resources are those of ResourceModel and the
      inventories those of BufModel;
    - the positions at which the bids of a portfolio are visited (a std::set of pointers) are
      arbitrary: the argument [place];
    - the product exchange is left out: Sink and KFacility post product requests
      (GetProductRequests) but none of these facilities bids on products, so it trades nothing
      (theorem C54_no_bids);
    - building and decommissioning (source.h, sink.h Build) are in SimModel. *)
From Coq Require Import String QArith List Bool Arith ZArith Lia.
From Verif Require Import Base CompModel PackageModel ResourceModel BufModel GreedyModel ExchangeModel TradeModel DreModel.
Import ListNotations.
Open Scope Q_scope.

(** agents/source.h 76-110, the state variables. *)
Record source := mkSrc { so_commod : string; so_recipe : string; so_cap : Q }.
(** agents/sink.h 68-118; max_inv_size is the capacity of the inventory. *)
Record sink := mkSnk { sk_commods : list string; sk_recipe : string; sk_cap : Q; sk_inv : buf }.
(** agents/k_facility.h 140-230. *)
Record kfac := mkKf {
  k_in : string; k_out : string; k_recipe : string;
  k_in_cap : Q; k_out_cap : Q; k_cur : Q;      (* in_capacity, out_capacity, current_capacity *)
  k_fin : Q; k_fout : Q;                       (* k_factor_in, k_factor_out *)
  k_inv : buf }.
Inductive fac := FSource (s : source) | FSink (s : sink) | FK (k : kfac).

Definition set_k_cur x k := mkKf (k_in k) (k_out k) (k_recipe k) (k_in_cap k) (k_out_cap k) x (k_fin k) (k_fout k) (k_inv k).
Definition set_k_inv x k := mkKf (k_in k) (k_out k) (k_recipe k) (k_in_cap k) (k_out_cap k) (k_cur k) (k_fin k) (k_fout k) x.
Definition set_sk_inv x s := mkSnk (sk_commods s) (sk_recipe s) (sk_cap s) x.

(** The rest of the simulation, as far as a facility reaches it. *)
Definition state := (world * list fac)%type.

Section Fac.
Variable E : env.                               (* eps_rsrc() is [e_eps E] *)
Variable eps : Q.                               (* eps() *)
Variable recipes : string -> option nat.
Variable place : nat -> nat.                    (* where the n-th bid goes in its portfolio *)
Variable mgr : nat -> Z.                        (* the agent ids of the facilities *)

(** Context::GetRecipe, context.cc 197-202. *)
Definition get_recipe (n : string) : M nat :=
  match recipes n with Some c => ret c | None => throw KeyError end.
(** NewBlankMaterial, material.cc 277-280. *)
Definition blank (q : Q) : M nat := bind (create_from_mass E []) (mat_create_untracked q).
Definition is_empty (s : string) : bool := String.eqb s EmptyString.
(** IsNegative, cyc_limits.h.in 24-26. *)
Definition is_negative (d : Q) : bool := Qltb d (- eps).

(** *** Requests *)

(** Sink::GetMatlRequests, sink.cc 15-47: everything that is done to the portfolio, which is
    number [p]. *)
Definition request_ops (p t i : nat) (amt : Q) (commods : list string) : list xop :=
  XNewRPort :: XRCons p amt CTrivial 0 ::
  map (fun c => XAddRequest p (mkRsrc i amt) t c 1 false) commods.
Definition sink_target (s : sink) : M nat :=
  bind (blank (sk_cap s)) (fun i =>
    if is_empty (sk_recipe s) then ret i
    else bind (get_recipe (sk_recipe s)) (mat_create_untracked (sk_cap s))).
Definition post (t : nat) (m : market) (amt : Q) (commods : list string) (i : nat) : result (list xop * list nat) :=
  if Qltb eps amt then
    match cc_new amt CTrivial with
    | Ok _ => Ok (request_ops (length (m_rports m)) t i amt commods, [length (m_rports m)])
    | Throw e => Throw e
    | UB => UB
    end
  else Ok ([], []).
Definition requests_of (t : nat) (m : market) (amt : Q) (commods : list string) (target : M nat) (w : world)
  : result (list xop * list nat) * world :=
  match target w with
  | (Ok i, w1) => (post t m amt commods i, w1)
  | (Throw e, w1) => (Throw e, w1)
  | (UB, w1) => (UB, w1)
  end.
(** KFacility::GetMatlRequests, k_facility.cc 146-169; Source does not override the empty
    Trader::GetMatlRequests (trader.h). *)
Definition fac_requests (t : nat) (m : market) (s : state) : result (list xop * list nat) * state :=
  let '(w, fs) := s in
  match nth_error fs t with
  | None | Some (FSource _) => (Ok ([], []), s)
  | Some (FSink k) =>
      let '(r, w1) := requests_of t m (sk_cap k) (sk_commods k) (sink_target k) w in (r, (w1, fs))
  | Some (FK k) =>
      let '(r, w1) := requests_of t m (k_in_cap k) [k_in k] (blank (k_in_cap k)) w in (r, (w1, fs))
  end.

(** *** Bids *)

(** Source::GetOffer, source.cc 33-43, and KFacility::GetOffer, k_facility.cc 73-79: [recipe] is None
    for a Source without recipe, which offers the target itself. *)
Definition get_offer (cap : Q) (recipe : option string) (target : rsrc) : M rsrc :=
  let q := qmin (rs_qty target) cap in
  match recipe with
  | None => ret target
  | Some n => bind (get_recipe n) (fun c => bind (mat_create_untracked q c) (fun i => ret (mkRsrc i q)))
  end.
(** The loops of Source::GetMatlBids, source.cc 59-64, and KFacility::GetMatlBids, k_facility.cc
    97-102. [m] is the market with the bids made so far. *)
Fixpoint make_bids (p t : nat) (cap : Q) (recipe : option string) (rs : list nat) (m : market) (w : world)
  : result (list xop) * world :=
  match rs with
  | [] => (Ok [], w)
  | r :: rest =>
      match get_offer cap recipe (rq_target (req_at m r)) w with
      | (Ok o, w1) =>
          let pos := place (length (m_bids m)) in
          match add_bid m p r o t false None pos with
          | (Ok _, m1) =>
              match make_bids p t cap recipe rest m1 w1 with
              | (Ok ops, w2) => (Ok (XAddBid p r o t false None pos :: ops), w2)
              | x => x
              end
          | (Throw e, _) => (Throw e, w1)
          | (UB, _) => (UB, w1)
          end
      | (Throw e, w1) => (Throw e, w1)
      | (UB, w1) => (UB, w1)
      end
  end.
(** Source::GetMatlBids, source.cc 45-72, and KFacility::GetMatlBids, k_facility.cc 82-110. *)
Definition bids_of (t : nat) (m : market) (commod : string) (cap : Q) (recipe : option string) (w : world)
  : result (list xop * list nat) * world :=
  match mfind String.eqb commod (x_commod m) with
  | None => (Ok ([], []), w)
  | Some rs =>
      let p := length (m_bports m) in
      match make_bids p t cap recipe rs (xstep m XNewBPort) w with
      | (Ok ops, w1) =>
          match cc_new cap CTrivial with
          | Ok _ => (Ok (XNewBPort :: ops ++ [XBCons p cap CTrivial 0], [p]), w1)
          | Throw e => (Throw e, w1)
          | UB => (UB, w1)
          end
      | (Throw e, w1) => (Throw e, w1)
      | (UB, w1) => (UB, w1)
      end
  end.
Definition recipe_of (s : source) : option string := if is_empty (so_recipe s) then None else Some (so_recipe s).
(** Sink does not override the empty Trader::GetMatlBids. *)
Definition fac_bids (t : nat) (m : market) (s : state) : result (list xop * list nat) * state :=
  let '(w, fs) := s in
  match nth_error fs t with
  | None | Some (FSink _) => (Ok ([], []), s)
  | Some (FSource f) => let '(r, w1) := bids_of t m (so_commod f) (so_cap f) (recipe_of f) w in (r, (w1, fs))
  | Some (FK f) => let '(r, w1) := bids_of t m (k_out f) (k_out_cap f) (Some (k_recipe f)) w in (r, (w1, fs))
  end.

(** *** Trades *)

(** What the supplier makes the material of, source.cc 90-94, k_facility.cc 128-129. *)
Definition made_of (m : market) (recipe : option string) (t : trade) : M nat :=
  match recipe with
  | None => mat_comp E (rs_id (rq_target (req_at m (td_req t))))
  | Some n => get_recipe n
  end.
(** The loops of Source::GetMatlTrades, source.cc 84-99, and KFacility::GetMatlTrades, k_facility.cc
    122-135; [cur] is current_capacity, which is returned even if the loop throws. *)
Fixpoint supply (agent : Z) (m : market) (recipe : option string) (ts : list trade) (cur : Q) (w : world)
  : result (list (trade * nat)) * (Q * world) :=
  match ts with
  | [] => (Ok [], (cur, w))
  | t :: rest =>
      let cur1 := cur - td_amt t in
      match bind (made_of m recipe t) (fun c => mat_create E agent (td_amt t) c unpackaged_name) w with
      | (Ok i, w1) =>
          match supply agent m recipe rest cur1 w1 with
          | (Ok rs, x) => (Ok ((t, i) :: rs), x)
          | y => y
          end
      | (Throw e, w1) => (Throw e, (cur1, w1))
      | (UB, w1) => (UB, (cur1, w1))
      end
  end.
(** source.cc 100-105, k_facility.cc 136-141: the check after the loop. *)
Definition check (r : result (list (trade * nat))) (cur : Q) : result (list (trade * nat)) :=
  match r with Ok rs => if is_negative cur then Throw ValueError else Ok rs | x => x end.
(** Source::GetMatlTrades and KFacility::GetMatlTrades; the default of Trader answers nothing. *)
Definition fac_trades (m : market) (t : nat) (ts : list trade) (s : state)
  : result (list (trade * nat)) * state :=
  let '(w, fs) := s in
  match nth_error fs t with
  | None | Some (FSink _) => (Ok [], s)
  | Some (FSource f) =>
      let '(r, (cur, w1)) := supply (mgr t) m (recipe_of f) ts (so_cap f) w in (check r cur, (w1, fs))
  | Some (FK f) =>
      let '(r, (cur, w1)) := supply (mgr t) m (Some (k_recipe f)) ts (k_cur f) w in
      (check r cur, (w1, upd fs t (FK (set_k_cur cur f))))
  end.

(** Sink::AcceptMatlTrades, sink.cc 80-88, and KFacility::AcceptMatlTrades, k_facility.cc 197-206. *)
Fixpoint push_all (rs : list (trade * nat)) : BM unit :=
  match rs with
  | [] => bret tt
  | r :: rest => bbind (buf_push E EResource (snd r)) (fun _ => push_all rest)
  end.
Definition fac_accept (m : market) (t : nat) (rs : list (trade * nat)) (s : state) : result unit * state :=
  let '(w, fs) := s in
  match nth_error fs t with
  | None | Some (FSource _) => (Ok tt, s)
  | Some (FSink f) =>
      let '(r, (w1, b1)) := push_all rs (w, sk_inv f) in (r, (w1, upd fs t (FSink (set_sk_inv b1 f))))
  | Some (FK f) =>
      let '(r, (w1, b1)) := push_all rs (w, k_inv f) in (r, (w1, upd fs t (FK (set_k_inv b1 f))))
  end.

(** The exchange reads the quantity and the state id of a resource. *)
Definition qty_of (s : state) (x : nat) : Q :=
  match nth_error (w_res (fst s)) x with Some r => r_qty r | None => 0 end.
Definition sid_of (s : state) (x : nat) : Z :=
  match nth_error (w_res (fst s)) x with Some r => r_state r | None => 0%Z end.

(** *** One time step *)

(** Tick, source.cc 23-29, sink.cc 101-116, k_facility.cc 40-56: only a KFacility has
    something to do. *)
Definition tick (f : fac) : fac := match f with FK k => FK (set_k_cur (k_out_cap k) k) | x => x end.
(** Tock, source.cc 30, sink.cc 117-127, k_facility.cc 59-70. *)
Definition tock (f : fac) : fac :=
  match f with
  | FK k =>
      let o := k_out_cap k * k_fout k in
      FK (mkKf (k_in k) (k_out k) (k_recipe k) (k_in_cap k * k_fin k) o o (k_fin k) (k_fout k) (k_inv k))
  | x => x
  end.

Variable fd : Q -> Q -> Q.
Variable weights_of : option weights.
Variable ancestors : nat -> list nat.

(** The resource exchange of a step. None of these facilities, and no institution or region of the kernel,
    changes preferences (Trader::AdjustMatlPrefs and Agent::AdjustMatlPrefs are empty). *)
Definition leave_t (t : nat) (p : prefmap) (s : state) : result prefmap * state := (Ok p, s).
Definition fac_exchange (s : state) (id : Z) : result unit * (list call * (state * Z)) :=
  execute_exchange state mgr ancestors fac_requests fac_bids leave_t leave_t fd eps weights_of
    fac_trades fac_accept qty_of sid_of (w_time (fst s)) (e_eps E)
    (seq 0 (length (snd s))) s id.

(** Timer::RunSim, timer.cc: the tick, the exchange, the tock and the next time step. *)
Definition fac_step (s : state) (id : Z) : result unit * (list call * (state * Z)) :=
  match fac_exchange (fst s, map tick (snd s)) id with
  | (Ok _, (ev, ((w, fs), id1))) => (Ok tt, (ev, ((set_time (w_time w + 1)%Z w, map tock fs), id1)))
  | x => x
  end.
Fixpoint fac_run (n : nat) (s : state) (id : Z) : result unit * (list (list call) * (state * Z)) :=
  match n with
  | O => (Ok tt, ([], (s, id)))
  | S k =>
      match fac_step s id with
      | (Ok _, (ev, (s1, id1))) =>
          let '(r, (evs, x)) := fac_run k s1 id1 in (r, (ev :: evs, x))
      | (r, (ev, x)) => (r, ([ev], x))
      end
  end.
End Fac.
