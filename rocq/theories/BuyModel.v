(** * BuyModel: MatlBuyPolicy (src/toolkit/matl_buy_policy.h, matl_buy_policy.cc).

    The policy lives in a system: the resource world (whose clock is the context's time), a heap of
    ResBuf<Material>, a heap of TotalInvTracker, the requests and portfolios (ExchangeModel) and the rows
    of the table BuyPolActiveDormant.  Simplifications: doubles are exact rationals (so the parameters are
    finite; the default "no limit" is the largest double); asserts are compiled out; the random
    distributions are arbitrary sequences of samples; logging and warnings are dropped; the policy's
    registration with the context (Start, Stop, destructor) is not modelled. *)
From Coq Require Import Ascii.
From Verif Require Import Base CompModel PackageModel ResourceModel BufModel GreedyModel ExchangeModel TrackerModel.
Local Open Scope Q_scope.

(** IntDistribution / DoubleDistribution (src/random_number_generator.h): the samples still to come, and
    max(). *)
Record idist := mkI { i_vals : nat -> Z; i_pos : nat }.
Record ddist := mkD { d_vals : nat -> Q; d_pos : nat; d_max : Q }.
Definition fixed_int (z : Z) : idist := mkI (fun _ => z) 0.           (* FixedIntDist *)
Definition fixed_double (q : Q) : ddist := mkD (fun _ => q) 0 q.      (* FixedDoubleDist *)

(** A row of BuyPolActiveDormant, matl_buy_policy.cc 403-411. *)
Record cyc_row := mkCyc { cy_agent : Z; cy_time : Z; cy_type : string; cy_length : Z }.

Record sys := mkSys {
  s_world : world; s_bufs : list buf; s_trks : list tracker; s_mkt : market; s_rows : list cyc_row }.

(** matl_buy_policy.h, private members; [y_id] is the address of the policy.  Uninitialised pointers and
    NULL are [None]. *)
Record pol := mkPol {
  y_id : nat; y_mgr : option Z; y_buf : option nat; y_trk : option nat;
  y_fill : Q; y_reqat : Q; y_quant : Q; y_thr : Q; y_cum : Q; y_cycle : Q;
  y_nae : Z; y_nde : Z;                       (* next_active_end_, next_dormant_end_ *)
  y_ad : option idist; y_dd : option idist; y_sd : option ddist;
  y_commods : list (string * (nat * Q));      (* commod_details_: composition and preference, by name *)
  y_rc : list (nat * string) }.               (* rsrc_commods_ *)

(** matl_buy_policy.cc 16-30, constructor. *)
Definition pol_new (id : nat) : pol :=
  mkPol id None None None DBL_MAX DBL_MAX (-1) DBL_MAX (-1) 0 0 0 None None None [] [].

(** Assignments. *)
Definition y_set_mgr v p := mkPol (y_id p) v (y_buf p) (y_trk p) (y_fill p) (y_reqat p) (y_quant p) (y_thr p) (y_cum p) (y_cycle p) (y_nae p) (y_nde p) (y_ad p) (y_dd p) (y_sd p) (y_commods p) (y_rc p).
Definition y_set_buf v p := mkPol (y_id p) (y_mgr p) v (y_trk p) (y_fill p) (y_reqat p) (y_quant p) (y_thr p) (y_cum p) (y_cycle p) (y_nae p) (y_nde p) (y_ad p) (y_dd p) (y_sd p) (y_commods p) (y_rc p).
Definition y_set_trk v p := mkPol (y_id p) (y_mgr p) (y_buf p) v (y_fill p) (y_reqat p) (y_quant p) (y_thr p) (y_cum p) (y_cycle p) (y_nae p) (y_nde p) (y_ad p) (y_dd p) (y_sd p) (y_commods p) (y_rc p).
Definition y_set_fill v p := mkPol (y_id p) (y_mgr p) (y_buf p) (y_trk p) v (y_reqat p) (y_quant p) (y_thr p) (y_cum p) (y_cycle p) (y_nae p) (y_nde p) (y_ad p) (y_dd p) (y_sd p) (y_commods p) (y_rc p).
Definition y_set_reqat v p := mkPol (y_id p) (y_mgr p) (y_buf p) (y_trk p) (y_fill p) v (y_quant p) (y_thr p) (y_cum p) (y_cycle p) (y_nae p) (y_nde p) (y_ad p) (y_dd p) (y_sd p) (y_commods p) (y_rc p).
Definition y_set_quant v p := mkPol (y_id p) (y_mgr p) (y_buf p) (y_trk p) (y_fill p) (y_reqat p) v (y_thr p) (y_cum p) (y_cycle p) (y_nae p) (y_nde p) (y_ad p) (y_dd p) (y_sd p) (y_commods p) (y_rc p).
Definition y_set_thr v p := mkPol (y_id p) (y_mgr p) (y_buf p) (y_trk p) (y_fill p) (y_reqat p) (y_quant p) v (y_cum p) (y_cycle p) (y_nae p) (y_nde p) (y_ad p) (y_dd p) (y_sd p) (y_commods p) (y_rc p).
Definition y_set_cum v p := mkPol (y_id p) (y_mgr p) (y_buf p) (y_trk p) (y_fill p) (y_reqat p) (y_quant p) (y_thr p) v (y_cycle p) (y_nae p) (y_nde p) (y_ad p) (y_dd p) (y_sd p) (y_commods p) (y_rc p).
Definition y_set_cycle v p := mkPol (y_id p) (y_mgr p) (y_buf p) (y_trk p) (y_fill p) (y_reqat p) (y_quant p) (y_thr p) (y_cum p) v (y_nae p) (y_nde p) (y_ad p) (y_dd p) (y_sd p) (y_commods p) (y_rc p).
Definition y_set_nae v p := mkPol (y_id p) (y_mgr p) (y_buf p) (y_trk p) (y_fill p) (y_reqat p) (y_quant p) (y_thr p) (y_cum p) (y_cycle p) v (y_nde p) (y_ad p) (y_dd p) (y_sd p) (y_commods p) (y_rc p).
Definition y_set_nde v p := mkPol (y_id p) (y_mgr p) (y_buf p) (y_trk p) (y_fill p) (y_reqat p) (y_quant p) (y_thr p) (y_cum p) (y_cycle p) (y_nae p) v (y_ad p) (y_dd p) (y_sd p) (y_commods p) (y_rc p).
Definition y_set_ad v p := mkPol (y_id p) (y_mgr p) (y_buf p) (y_trk p) (y_fill p) (y_reqat p) (y_quant p) (y_thr p) (y_cum p) (y_cycle p) (y_nae p) (y_nde p) v (y_dd p) (y_sd p) (y_commods p) (y_rc p).
Definition y_set_dd v p := mkPol (y_id p) (y_mgr p) (y_buf p) (y_trk p) (y_fill p) (y_reqat p) (y_quant p) (y_thr p) (y_cum p) (y_cycle p) (y_nae p) (y_nde p) (y_ad p) v (y_sd p) (y_commods p) (y_rc p).
Definition y_set_sd v p := mkPol (y_id p) (y_mgr p) (y_buf p) (y_trk p) (y_fill p) (y_reqat p) (y_quant p) (y_thr p) (y_cum p) (y_cycle p) (y_nae p) (y_nde p) (y_ad p) (y_dd p) v (y_commods p) (y_rc p).
Definition y_set_commods v p := mkPol (y_id p) (y_mgr p) (y_buf p) (y_trk p) (y_fill p) (y_reqat p) (y_quant p) (y_thr p) (y_cum p) (y_cycle p) (y_nae p) (y_nde p) (y_ad p) (y_dd p) (y_sd p) v (y_rc p).
Definition y_set_rc v p := mkPol (y_id p) (y_mgr p) (y_buf p) (y_trk p) (y_fill p) (y_reqat p) (y_quant p) (y_thr p) (y_cum p) (y_cycle p) (y_nae p) (y_nde p) (y_ad p) (y_dd p) (y_sd p) (y_commods p) v.
Definition s_set_world v s := mkSys v (s_bufs s) (s_trks s) (s_mkt s) (s_rows s).
Definition s_set_bufs v s := mkSys (s_world s) v (s_trks s) (s_mkt s) (s_rows s).
Definition s_set_trks v s := mkSys (s_world s) (s_bufs s) v (s_mkt s) (s_rows s).
Definition s_set_mkt v s := mkSys (s_world s) (s_bufs s) (s_trks s) v (s_rows s).
Definition s_set_rows v s := mkSys (s_world s) (s_bufs s) (s_trks s) (s_mkt s) v.

(** State and exceptions over the system and the policy; what happened before a throw stays. *)
Definition YM (A : Type) := sys * pol -> result A * (sys * pol).
Definition yret {A} (a : A) : YM A := fun s => (Ok a, s).
Definition ythrow {A} (e : err) : YM A := fun s => (Throw e, s).
Definition yub {A} : YM A := fun s => (UB, s).
Definition ybind {A B} (m : YM A) (f : A -> YM B) : YM B := fun s =>
  match m s with
  | (Ok a, s') => f a s'
  | (Throw e, s') => (Throw e, s')
  | (UB, s') => (UB, s')
  end.
Declare Scope ym_scope.
Notation "x <~~ m ;;; f" := (ybind m (fun x => f)) (at level 61, m at next level, right associativity) : ym_scope.
Notation "m ~~; f" := (ybind m (fun _ => f)) (at level 61, right associativity) : ym_scope.
Local Open Scope ym_scope.
Definition ypol : YM pol := fun s => (Ok (snd s), s).
Definition ysys : YM sys := fun s => (Ok (fst s), s).
Definition ypmod (f : pol -> pol) : YM unit := fun s => (Ok tt, (fst s, f (snd s))).
Definition ysmod (f : sys -> sys) : YM unit := fun s => (Ok tt, (f (fst s), snd s)).
Definition yderef {A} (o : option A) : YM A := match o with Some a => yret a | None => yub end.
Definition ylift {A} (r : result A) : YM A := fun s => (r, s).

(** *buf_ and *buf_tracker_ *)
Definition ybuf : YM buf :=
  p <~~ ypol;;; i <~~ yderef (y_buf p);;; s <~~ ysys;;; yderef (nth_error (s_bufs s) i).
Definition ytrk : YM tracker :=
  p <~~ ypol;;; i <~~ yderef (y_trk p);;; s <~~ ysys;;; yderef (nth_error (s_trks s) i).
(** manager()->context()->time(): a NULL manager is dereferenced. *)
Definition ytime : YM Z :=
  p <~~ ypol;;; _ <~~ yderef (y_mgr p);;; s <~~ ysys;;; yret (w_time (s_world s)).

(** Minimum with a capacity that may be infinite: std::min(x, buf_->capacity()). *)
Definition omin (x : Q) (c : option Q) : Q := match c with Some c => qmin x c | None => x end.

(** matl_buy_policy.h: use_cumulative_capacity, Excl, dormant. *)
Definition y_uses_cum (p : pol) : bool := Qltb 0 (y_cum p).
Definition y_excl (p : pol) : bool := Qltb 0 (y_quant p).
Definition y_dormant (t : Z) (p : pol) : bool := (y_nae p <=? t)%Z && (t <? y_nde p)%Z.

(** matl_buy_policy.cc 37-48, ResetBehavior: the two end times are not reset. *)
Definition y_reset (p : pol) : pol :=
  y_set_sd None (y_set_dd None (y_set_ad None (y_set_cycle 0 (y_set_cum (-1)
    (y_set_reqat DBL_MAX (y_set_fill DBL_MAX (y_set_quant (-1) (y_set_thr DBL_MAX p)))))))).

(** 50-59, set_manager. *)
Definition y_set_manager (m : option Z) : YM unit :=
  match m with Some _ => ypmod (y_set_mgr m) | None => ythrow ValueError end.

(** 61-74, set_total_inv_tracker: with a NULL argument the policy's own pointer is used, which the
    constructor has not initialised. *)
Definition y_set_tracker (t : option nat) : YM unit :=
  match t with
  | None =>
      p <~~ ypol;;; b <~~ ybuf;;; i <~~ yderef (y_buf p);;;
      k <~~ yderef (y_trk p);;; s <~~ ysys;;; old <~~ yderef (nth_error (s_trks s) k);;;
      let '(r, new) := trk_init [i] (match b_cap b with Some c => c | None => DBL_MAX end) old in
      ysmod (fun s => s_set_trks (upd (s_trks s) k new) s) ~~; ylift r
  | Some k =>
      s <~~ ysys;;; trk <~~ yderef (nth_error (s_trks s) k);;;
      p <~~ ypol;;; i <~~ yderef (y_buf p);;;
      has <~~ ylift (trk_has i trk);;;
      if negb has then ythrow ValueError else ypmod (y_set_trk (Some k))
  end.

(** 92-115, the setters without their asserts. *)
Definition y_fill_to (x : Q) : YM unit := b <~~ ybuf;;; ypmod (y_set_fill (omin x (b_cap b))).
Definition y_req_at (x : Q) : YM unit := b <~~ ybuf;;; ypmod (y_set_reqat (omin x (b_cap b))).
Definition y_cumulative (x : Q) : YM unit := b <~~ ybuf;;; ypmod (y_set_cum (omin x (b_cap b))).

(** ::tolower in the "C" locale. *)
Definition lower_ascii (c : ascii) : ascii :=
  let n := nat_of_ascii c in
  if (65 <=? n)%nat && (n <=? 90)%nat then ascii_of_nat (n + 32) else c.
Fixpoint lower (s : string) : string :=
  match s with EmptyString => EmptyString | String c s => String (lower_ascii c) (lower s) end.

(** 76-90, set_inv_policy. *)
Definition y_inv_policy (kind : string) (fill req : Q) : YM unit :=
  y_req_at req ~~;
  let kind := lower kind in
  if String.eqb kind "ss" then y_fill_to fill
  else if String.eqb kind "rq" || String.eqb kind "qr" then
    ypmod (y_set_quant fill) ~~; y_fill_to (req + fill)
  else ythrow ValueError.

(** The sample() calls. *)
Definition y_sample_active : YM Z :=
  p <~~ ypol;;; d <~~ yderef (y_ad p);;;
  ypmod (y_set_ad (Some (mkI (i_vals d) (S (i_pos d))))) ~~; yret (i_vals d (i_pos d)).
Definition y_sample_dormant : YM Z :=
  p <~~ ypol;;; d <~~ yderef (y_dd p);;;
  ypmod (y_set_dd (Some (mkI (i_vals d) (S (i_pos d))))) ~~; yret (i_vals d (i_pos d)).
(** 386-388, SampleRequestSize. *)
Definition y_sample_size : YM Q :=
  p <~~ ypol;;; d <~~ yderef (y_sd p);;;
  ypmod (y_set_sd (Some (mkD (d_vals d) (S (d_pos d)) (d_max d)))) ~~; yret (d_vals d (d_pos d)).

(** 403-411, RecordActiveDormantTime. *)
Definition y_record (t : Z) (kind : string) (len : Z) : YM unit :=
  p <~~ ypol;;; a <~~ yderef (y_mgr p);;;
  ysmod (fun s => s_set_rows (s_rows s ++ [mkCyc a t kind len]) s).

(** 347-358, SetNextActiveTime. *)
Definition y_next_active : YM unit :=
  len <~~ y_sample_active;;; t <~~ ytime;;;
  ypmod (y_set_nae (len + t)%Z) ~~;
  p <~~ ypol;;; y_record t (if y_uses_cum p then "CumulativeCap"%string else "Active"%string) len.

(** 360-384, SetNextDormantTime. *)
Definition y_next_dormant : YM unit :=
  p <~~ ypol;;;
  if y_uses_cum p then
    len <~~ y_sample_dormant;;; t <~~ ytime;;;
    ypmod (y_set_nde (len + (t + 1))%Z) ~~; y_record (t + 1)%Z "Dormant" len
  else if (0 <=? y_nde p)%Z then
    len <~~ y_sample_dormant;;;
    let start := Z.max (y_nae p) 1 in
    ypmod (y_set_nde (len + start)%Z) ~~; y_record start "Dormant" len
  else yret tt.

(** 117-147, init_active_dormant; the sample tested at 135 is not used for anything else. *)
Definition y_default_dists (p : pol) : pol :=
  let p := match y_ad p with None => y_set_ad (Some (fixed_int 1)) p | _ => p end in
  let p := match y_dd p with None => y_set_dd (Some (fixed_int (-1))) p | _ => p end in
  match y_sd p with None => y_set_sd (Some (fixed_double 1)) p | _ => p end.
Definition y_init_cycle : YM unit :=
  ypmod y_default_dists ~~;
  p <~~ ypol;;; sd <~~ yderef (y_sd p);;;
  if Qltb 1 (d_max sd) then ythrow ValueError
  else
    y_next_active ~~;
    x <~~ y_sample_dormant;;;
    if (x <? 0)%Z then ypmod (y_set_nde (-1))
    else
      p <~~ ypol;;;
      if y_uses_cum p then ypmod (y_set_nde (-1)) else y_next_dormant.

(** 149-233, the overloads of Init. *)
Inductive init_args :=
| IPlain
| IThroughput (thr : Q) (ad dd : option idist) (sd : option ddist)
| IQuantize (thr quant : Q)
| IInvThr (thr : Q) (kind : string) (fill req : Q)
| IInv (kind : string) (fill req : Q)
| ICumulative (thr cap : Q) (dd : option idist).
Definition y_init (mgr : option Z) (buf trk : option nat) (a : init_args) : YM unit :=
  y_set_manager mgr ~~;
  ypmod (y_set_buf buf) ~~;
  y_set_tracker trk ~~;
  (match a with
   | IPlain => yret tt
   | IThroughput thr ad dd sd =>
       ypmod (y_set_thr thr) ~~; ypmod (y_set_ad ad) ~~; ypmod (y_set_dd dd) ~~; ypmod (y_set_sd sd)
   | IQuantize thr q => ypmod (y_set_thr thr) ~~; ypmod (y_set_quant q)
   | IInvThr thr kind fill req => y_inv_policy kind fill req ~~; ypmod (y_set_thr thr)
   | IInv kind fill req => y_inv_policy kind fill req
   | ICumulative thr cap dd => ypmod (y_set_thr thr) ~~; y_cumulative cap ~~; ypmod (y_set_dd dd)
   end) ~~;
  y_init_cycle.

(** std::map<std::string, ...>: sorted by key. *)
Fixpoint smap_set {V} (k : string) (v : V) (m : list (string * V)) : list (string * V) :=
  match m with
  | [] => [(k, v)]
  | (k', v') :: t =>
      if String.eqb k k' then (k, v) :: t
      else if String.ltb k k' then (k, v) :: m else (k', v') :: smap_set k v t
  end.
Definition smap_erase {V} (k : string) (m : list (string * V)) : list (string * V) :=
  filter (fun p => negb (String.eqb k (fst p))) m.

(** 241-258, Set and Unset. *)
Definition y_set (commod : string) (comp : nat) (pref : Q) (p : pol) : pol :=
  y_set_commods (smap_set commod (comp, pref) (y_commods p)) p.
Definition y_unset (commod : string) (p : pol) : pol :=
  y_set_commods (smap_erase commod (y_commods p)) p.

Section WithEnv.
Variable E : env.
Variable eps : Q.      (* eps(); eps_rsrc() is [e_eps E] *)

(** 235-239, Set(commod). *)
Definition y_set_default (commod : string) : YM unit := fun sp =>
  match create_from_mass E [(10010000%Z, 1 / inject_Z (10 ^ 100))] (s_world (fst sp)) with
  | (Ok c, w) => (Ok tt, (s_set_world w (fst sp), y_set commod c 1 (snd sp)))
  | (Throw e, w) => (Throw e, (s_set_world w (fst sp), snd sp))
  | (UB, w) => (UB, (s_set_world w (fst sp), snd sp))
  end.

(** matl_buy_policy.h: TotalAvailable, std::min of four. *)
Definition y_available : YM Q :=
  p <~~ ypol;;; b <~~ ybuf;;; t <~~ ytrk;;; s <~~ ysys;;;
  ts <~~ ylift (trk_space (s_bufs s) t);;;
  yret (qmin (omin (qmin (y_thr p) (y_fill p - quantity b)) (space b)) ts).

(** matl_buy_policy.h: MakeReq. *)
Definition y_make_req : YM bool :=
  p <~~ ypol;;; t <~~ ytrk;;; s <~~ ysys;;;
  q <~~ ylift (trk_quantity (s_bufs s) t);;; yret (Qleb q (y_reqat p)).

(** 390-401, CheckActiveDormantCumulativeTimes. *)
Definition y_check : YM unit :=
  t <~~ ytime;;; p <~~ ypol;;;
  if (t =? y_nde p)%Z then
    if y_uses_cum p then ypmod (y_set_nde (-1)) else y_next_active ~~; y_next_dormant
  else yret tt.

(** 308-315: one request for each commodity. *)
Fixpoint y_add_requests (port : nat) (amt : Q) (l : list (string * (nat * Q))) : YM (list nat) :=
  match l with
  | [] => yret []
  | (commod, (comp, pref)) :: rest =>
      p <~~ ypol;;; s <~~ ysys;;;
      m <~~ (fun sp => let '(r, w) := mat_create_untracked amt comp (s_world s) in
                       (r, (s_set_world w (fst sp), snd sp)));;;
      r <~~ (fun sp => let '(r, k) := add_request (s_mkt (fst sp)) port (mkRsrc m amt) (y_id p) commod pref (y_excl p) in
                       (r, (s_set_mkt k (fst sp), snd sp)));;;
      rs <~~ y_add_requests port amt rest;;; yret (r :: rs)
  end.
(** 305-317: one portfolio. *)
Definition y_portfolio (amt : Q) : YM nat :=
  p <~~ ypol;;; s <~~ ysys;;;
  let port := length (m_rports (s_mkt s)) in
  ysmod (fun s => s_set_mkt (set_rports (s_mkt s) (m_rports (s_mkt s) ++ [rport0])) s) ~~;
  rs <~~ y_add_requests port amt (y_commods p);;;
  (fun sp => let '(r, k) := add_mutual (s_mkt (fst sp)) port rs in (r, (s_set_mkt k (fst sp), snd sp))) ~~;
  yret port.
Fixpoint y_portfolios (n : nat) (amt : Q) : YM (list nat) :=
  match n with
  | O => yret []
  | S n => i <~~ y_portfolio amt;;; is <~~ y_portfolios n amt;;; yret (i :: is)
  end.

(** matl_buy_policy.h, NReq: conversion of a double to int, undefined out of range; a negative count
    would make the loop 304 run until the int overflows. *)
Definition y_nreq (p : pol) (amt : Q) : option Z :=
  if y_excl p then obind (qdiv amt (y_quant p)) to_int else Some 1%Z.

(** 278-321, GetMatlRequests: the portfolios.  The set of portfolios is ordered by address; here in
    order of creation. *)
Definition y_requests : YM (list nat) :=
  ypmod (y_set_rc []) ~~;
  t <~~ ytime;;; p <~~ ypol;;;
  let most := if y_uses_cum p then y_cum p - y_cycle p else DBL_MAX in
  req <~~ y_make_req;;;
  amt <~~ (if req && negb (y_dormant t p) then
             a <~~ y_available;;; f <~~ y_sample_size;;; yret (qmin (a * f) most)
           else yret 0);;;
  y_check ~~;
  if Qltb amt eps then yret []
  else
    match y_nreq p amt with
    | None => yub
    | Some n =>
        if (n <? 0)%Z then yub
        else y_portfolios (Z.to_nat n) (if y_excl p then y_quant p else amt)
    end.

(** 327-336: the loop of AcceptMatlTrades; a response is a material and the commodity of its request. *)
Fixpoint y_take (resps : list (nat * string)) : YM unit :=
  match resps with
  | [] => yret tt
  | (j, commod) :: rest =>
      ypmod (fun p => y_set_rc (nupd j (fun _ => commod) (y_rc p)) p) ~~;
      p <~~ ypol;;; i <~~ yderef (y_buf p);;; b <~~ ybuf;;; s <~~ ysys;;;
      (fun sp => let '(r, (w, b')) := buf_push E EMaterial j (s_world s, b) in
                 (r, (s_set_bufs (upd (s_bufs s) i b') (s_set_world w (fst sp)), snd sp))) ~~;
      (if y_uses_cum p then
         s <~~ ysys;;; r <~~ yderef (nth_error (w_res (s_world s)) j);;;
         ypmod (fun p => y_set_cycle (y_cycle p + r_qty r) p)
       else yret tt) ~~;
      y_take rest
  end.
(** 323-345, AcceptMatlTrades. *)
Definition y_accept (resps : list (nat * string)) : YM unit :=
  ypmod (y_set_rc []) ~~;
  y_take resps ~~;
  p <~~ ypol;;;
  if y_uses_cum p && Qltb (y_cum p - y_cycle p) (e_eps E) then
    y_next_dormant ~~; ypmod (y_set_cycle 0)
  else yret tt.
End WithEnv.
