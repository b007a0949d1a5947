(** * Specification vocabulary for the material sell policy (C40). *)
From Verif Require Import Base CompModel CompSpec PackageModel ResourceModel ResourceSpec BufModel BufSpec
  GreedyModel ExchangeModel SellModel.
Local Open Scope Q_scope.

(** A package some call of Package::Create or Package::unpackaged made. *)
Definition a_package (p : package) : Prop :=
  exists e name fmin fmax s, pkg_create e name fmin fmax s = Ok p.

(** ** Bids *)
(** [all] are the pieces into which a policy [v] can divide an amount [most]: whole quanta, or packages;
    they do not exceed it, and what is left is too little for another piece. *)
Definition divided (eps : Q) (v : seller) (most : Q) (all : list Q) : Prop :=
  qsum all <= most /\ Forall (fun x => 0 <= x) all /\
  if Qltb 0 (v_quant v) then Forall (fun x => x = v_quant v) all /\ most < qsum all + v_quant v
  else
    Forall (fun x => p_fill_min (v_pkg v) - eps <= x <= p_fill_max (v_pkg v)) all /\
    most - qsum all < qmax eps (p_fill_min (v_pkg v)) /\
    (v_pkg v = pkg_unpackaged -> most < DBL_MAX -> exists x, all = [x] /\ x == most).
(** [l] is the part of the pieces the transport unit can ship. *)
Definition shipped (t : transport_unit) (all l : list Q) : Prop :=
  exists n, shippable t (Z.of_nat (length all)) = Some n /\
    ((n < 0)%Z /\ l = all \/ (0 <= n)%Z /\ l = firstn (Z.to_nat n) all).

(** What a bid says: request, quantity, bidder, exclusive or not. *)
Definition says (b : bid) : nat * Q * nat * bool := (bd_req b, rs_qty (bd_offer b), bd_trader b, bd_excl b).
(** The bids of policy [v] for the offers [os]: for each request a list of quantities. *)
Definition bids_for (v : seller) (os : list (nat * list Q)) : list (nat * Q * nat * bool) :=
  flat_map (fun o => map (fun q => (fst o, q, v_id v, Qltb 0 (v_quant v))) (snd o)) os.

(** A bid is for more than nothing and offers a material of the quantity it says; without lazy decay the
    material has the composition of [src]. *)
Definition backed (E : env) (w : world) (src : nat) (b : bid) : Prop :=
  0 < rs_qty (bd_offer b) /\
  qty_of w (rs_id (bd_offer b)) = Some (rs_qty (bd_offer b)) /\
  (e_decay E <> "lazy"%string -> exists r s c, nth_error (w_res w) (rs_id (bd_offer b)) = Some r /\
     nth_error (w_res w) src = Some s /\ r_qual r = QMat c /\ r_qual s = QMat c).
(** What is offered for one request, given the limit of the policy. *)
Definition offered (E : env) (v : seller) (k : market) (lim : Q) (o : nat * list Q) : Prop :=
  exists all, divided (e_eps E) v (qmin (rs_qty (rq_target (req_at k (fst o)))) lim) all /\ shipped (v_tu v) all (snd o).

(** Every resource is still there, with its quantity. *)
Definition none_changed (w w' : world) : Prop := forall i q, qty_of w i = Some q -> qty_of w' i = Some q.

(** ** Trades *)
(** An amount that never takes more than one of the policy's packages. *)
Definition one_package (p : package) (amt : Q) : Prop :=
  (p_strategy p = "first"%string \/ p_strategy p = "equal"%string) /\ amt <= p_fill_max p \/ amt < p_fill_max p.
(** The amounts are more than eps_rsrc and the distribution of the package respects its limits. *)
Definition trade_ok (eps : Q) (p : package) (t : vtrade) : Prop :=
  eps < t_amt t /\ one_package p (t_amt t) /\ Forall (fun s => p_fill_min p <= s <= p_fill_max p) (t_samples t).

(** Resource [i] belongs to a simulation: it was not made by CreateUntracked. *)
Definition in_ctx (w : world) (i : nat) : Prop := exists r, nth_error (w_res w) i = Some r /\ r_ctx r = true.
(** A response that hands over more than nothing. *)
Definition positive_in (w : world) (p : vtrade * nat) : bool :=
  match qty_of w (snd p) with Some q => Qltb 0 q | None => false end.
