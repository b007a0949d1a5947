(** * SellModel: MatlSellPolicy (src/toolkit/matl_sell_policy.h, matl_sell_policy.cc).

    Simplifications: doubles are exact rationals; asserts are compiled out (so quantize and throughput may
    be any number); the values a package's distribution returns are arguments; logging and warnings are
    dropped; Start, Stop and the destructor (registration with the context) are not modelled.  In the model
    of the exchange requests and bids carry no package and no price, so neither do trades. *)
From Verif Require Import Base CompModel PackageModel ResourceModel BufModel GreedyModel ExchangeModel.
Local Open Scope Q_scope.

(** matl_sell_policy.h, private members; [v_id] is the address of the policy (as a Trader). *)
Record seller := mkSell {
  v_id : nat; v_mgr : bool;              (* manager() != NULL *)
  v_commods : list string;               (* commods_, a sorted set *)
  v_quant : Q; v_thr : Q; v_ignore : bool; v_pkg : package; v_tu : transport_unit }.

(** matl_sell_policy.cc 15-26, constructor. *)
Definition sell_new (id : nat) : seller :=
  mkSell id false [] 0 DBL_MAX false pkg_unpackaged tu_unrestricted.

Definition v_set_mgr x v := mkSell (v_id v) x (v_commods v) (v_quant v) (v_thr v) (v_ignore v) (v_pkg v) (v_tu v).
Definition v_set_commods x v := mkSell (v_id v) (v_mgr v) x (v_quant v) (v_thr v) (v_ignore v) (v_pkg v) (v_tu v).
Definition v_set_quant x v := mkSell (v_id v) (v_mgr v) (v_commods v) x (v_thr v) (v_ignore v) (v_pkg v) (v_tu v).
Definition v_set_thr x v := mkSell (v_id v) (v_mgr v) (v_commods v) (v_quant v) x (v_ignore v) (v_pkg v) (v_tu v).
Definition v_set_ignore x v := mkSell (v_id v) (v_mgr v) (v_commods v) (v_quant v) (v_thr v) x (v_pkg v) (v_tu v).
Definition v_set_pkg x v := mkSell (v_id v) (v_mgr v) (v_commods v) (v_quant v) (v_thr v) (v_ignore v) x (v_tu v).
Definition v_set_tu x v := mkSell (v_id v) (v_mgr v) (v_commods v) (v_quant v) (v_thr v) (v_ignore v) (v_pkg v) x.

(** matl_sell_policy.h, Excl. *)
Definition v_excl (v : seller) : bool := Qltb 0 (v_quant v).

(** TransportUnit::MaxShippablePackages on an int; [None] is undefined behaviour, or a loop that does not
    end. *)
Definition shippable (t : transport_unit) (n : Z) : option Z :=
  match max_shippable (S (Z.to_nat n)) t n with Some r => r | None => None end.

Section WithEnv.
Variable E : env.
Variable eps : Q.                                (* eps(); eps_rsrc() is [e_eps E] *)
Variable units : list (string * transport_unit).  (* Context::transport_units_ *)

(** context.cc 259-270, GetTransportUnit. *)
Definition get_transport_unit (name : string) : result transport_unit :=
  if String.eqb name unrestricted_name then Ok tu_unrestricted
  else match find (fun p => String.eqb name (fst p)) units with Some (_, t) => Ok t | None => Throw KeyError end.

(** context.cc 224-235, GetPackage. *)
Definition get_package_named (name : string) : result package :=
  if String.eqb name unpackaged_name then Ok pkg_unpackaged
  else match find (fun p => String.eqb name (fst p)) (e_pkgs E) with Some (_, p) => Ok p | None => Throw KeyError end.

(** std::fmod(x, y) > 0, for y > 0 and x >= 0. *)
Definition fmod_pos (x y : Q) : bool := Qltb 0 (x - y * inject_Z (Qfloor (x / y))).

(** 46-69, set_package.  [fill.front()] of an empty vector is undefined. *)
Definition v_set_package (name : string) (v : seller) : result seller :=
  if negb (v_mgr v) then Ok v
  else
    match get_package_named name with
    | Ok p =>
        if Qltb 0 (v_quant v) && negb (String.eqb (p_name p) unpackaged_name) then
          if String.eqb (p_strategy p) "first" || String.eqb (p_strategy p) "equal" then
            match get_fill_mass (e_eps E) p [] (v_quant v) with
            | Some (Ok fill, _) =>
                if (1 <? Z.of_nat (length fill))%Z then Throw ValueError
                else match fill with
                     | [] => UB
                     | f :: _ => if fmod_pos f (v_quant v) then Throw ValueError else Ok (v_set_pkg p v)
                     end
            | Some (Throw e, _) => Throw e
            | Some (UB, _) | None => UB
            end
          else Throw ValueError
        else Ok (v_set_pkg p v)
    | Throw e => Throw e
    | UB => UB
    end.

(** 71-91, set_transport_unit; [samples] are drawn if the package has a random strategy. *)
Definition v_set_transport_unit (name : string) (samples : list Q) (v : seller) : result seller :=
  if negb (v_mgr v) then Ok v
  else
    match get_transport_unit name with
    | Ok t =>
        if Qltb 0 (v_quant v) && negb (String.eqb (tu_name t) unrestricted_name) then
          match get_fill_mass (e_eps E) (v_pkg v) samples (v_quant v) with
          | Some (Ok fill, _) =>
              match shippable t (Z.of_nat (length fill)) with
              | None => UB
              | Some n => if (n =? Z.of_nat (length fill))%Z then Ok (v_set_tu t v) else Throw ValueError
              end
          | Some (Throw e, _) => Throw e
          | Some (UB, _) | None => UB
          end
        else Ok (v_set_tu t v)
    | Throw e => Throw e
    | UB => UB
    end.

(** 93-143, the overloads of Init: [None] for the arguments an overload does not have. *)
Record sell_args := mkSA {
  a_thr : option Q; a_ignore : option bool;
  a_rest : option (Q * string * string) }.       (* quantize, package, transport unit *)
Definition v_init (mgr : bool) (a : sell_args) (samples : list Q) (v : seller) : result seller :=
  let v := v_set_mgr mgr v in
  let v := match a_rest a with Some (q, _, _) => v_set_quant q v | None => v end in
  let v := match a_thr a with Some x => v_set_thr x v | None => v end in
  let v := match a_ignore a with Some x => v_set_ignore x v | None => v end in
  match a_rest a with
  | None => Ok v
  | Some (_, p, t) =>
      match v_set_package p v with
      | Ok v => v_set_transport_unit t samples v
      | Throw e => Throw e
      | UB => UB
      end
  end.

(** 145-148, Set: insertion into a std::set. *)
Fixpoint sset_add (s : string) (l : list string) : list string :=
  match l with
  | [] => [s]
  | x :: t => if String.eqb s x then l else if String.ltb s x then s :: l else x :: sset_add s t
  end.
Definition v_set (commod : string) (v : seller) : seller := v_set_commods (sset_add commod (v_commods v)) v.

(** 170-175, Limit; [None]: the conversion to int is undefined. *)
Definition v_limit (b : buf) (v : seller) : option Q :=
  if v_excl v then
    obind (obind (qdiv (quantity b) (v_quant v)) (fun x => to_int (inject_Z (Qfloor x)))) (fun n =>
    Some (qmin (v_thr v) (v_quant v * inject_Z n)))
  else Some (qmin (v_thr v) (quantity b)).

(** 215-221: the bids for one request of which [qty] can be served, before the transport check. *)
Definition v_pieces (v : seller) (samples : list Q) (qty : Q) : result (list Q) * list Q :=
  if v_excl v then
    (match obind (qdiv qty (v_quant v)) (fun x => to_int (inject_Z (Qfloor x))) with
     | None => UB
     | Some n => if (n <? 0)%Z then UB else Ok (repeat (v_quant v) (Z.to_nat n))
     end, samples)
  else
    match get_fill_mass (e_eps E) (v_pkg v) samples qty with
    | Some (r, rest) => (r, rest)
    | None => (UB, samples)
    end.
(** 223-228: what can be shipped.  The comparison is unsigned: a negative count would keep everything. *)
Definition v_ship (t : transport_unit) (bids : list Q) : result (list Q) :=
  match shippable t (Z.of_nat (length bids)) with
  | None => UB
  | Some n => if (0 <=? n)%Z && (n <? Z.of_nat (length bids))%Z then Ok (firstn (Z.to_nat n) bids) else Ok bids
  end.

(** State: the world, the market and the samples to come; what happened before a throw stays. *)
Definition VM (A : Type) := world * market * list Q -> result A * (world * market * list Q).
Definition vret {A} (a : A) : VM A := fun s => (Ok a, s).
Definition vbind {A B} (m : VM A) (f : A -> VM B) : VM B := fun s =>
  match m s with
  | (Ok a, s') => f a s'
  | (Throw e, s') => (Throw e, s')
  | (UB, s') => (UB, s')
  end.
Definition vworld {A} (m : M A) : VM A := fun s => let '(w, k, l) := s in let '(r, w') := m w in (r, (w', k, l)).
Definition vmarket {A} (m : market -> result A * market) : VM A := fun s =>
  let '(w, k, l) := s in let '(r, k') := m k in (r, (w, k', l)).
Definition vsample {A} (m : list Q -> result A * list Q) : VM A := fun s =>
  let '(w, k, l) := s in let '(r, l') := m l in (r, (w, k, l')).
Definition vlift {A} (r : result A) : VM A := fun s => (r, s).
Definition vget : VM market := fun s => (Ok (snd (fst s)), s).

(** 233-239: one bid for each piece; [src] is the material whose composition is offered.  [pos] tells
    where a new bid lands in the portfolio's set of pointers. *)
Fixpoint v_add_bids (v : seller) (pos : nat -> nat) (port req src : nat) (bids : list Q) : VM unit :=
  match bids with
  | [] => vret tt
  | q :: rest =>
      vbind (vworld (mat_comp E src)) (fun c =>
      vbind (vworld (mat_create_untracked q c)) (fun o =>
      vbind (vget) (fun k =>
      vbind (vmarket (fun k => add_bid k port req (mkRsrc o q) (v_id v) (v_excl v) None (pos (length (m_bids k))))) (fun _ =>
      v_add_bids v pos port req src rest))))
  end.
(** 209-240: the loop over the requests; [front] is what Peek() returns. *)
Fixpoint v_requests (v : seller) (pos : nat -> nat) (port front : nat) (limit : Q) (reqs : list nat) : VM unit :=
  match reqs with
  | [] => vret tt
  | r :: rest =>
      vbind vget (fun k =>
      let qty := qmin (rs_qty (rq_target (req_at k r))) limit in
      vbind (vsample (fun l => v_pieces v l qty)) (fun pieces =>
      vbind (vlift (v_ship (v_tu v) pieces)) (fun bids =>
      vbind (v_add_bids v pos port r (if v_ignore v then rs_id (rq_target (req_at k r)) else front) bids) (fun _ =>
      v_requests v pos port front limit rest))))
  end.
(** 202-208: the requests for the commodities the policy sells, in order: the two loops are nested. *)
Definition v_wanted (v : seller) (cr : list (string * list nat)) : list nat :=
  flat_map (fun c => match mfind String.eqb c cr with Some l => l | None => [] end) (v_commods v).
(** 177-243, GetMatlBids.  Nothing in it changes the buffer object. *)
Definition v_bids (v : seller) (b : buf) (pos : nat -> nat) (cr : list (string * list nat)) : VM (list nat) :=
  match v_limit b v with
  | None => vlift UB
  | Some limit =>
      if empty b || Qltb (quantity b) eps || Qltb limit eps then vret []
      else
        vbind vget (fun k =>
        let port := length (m_bports k) in
        vbind (vmarket (fun k => (Ok tt, set_bports k (m_bports k ++ [bport0])))) (fun _ =>
        vbind (vmarket (fun k => add_bcons k port limit CTrivial 0)) (fun _ =>
        vbind (match v_wanted v cr, b_rs b with
               | [], _ => vret tt
               | _, [] => vlift (Throw ValueError)
               | reqs, front :: _ => v_requests v pos port front limit reqs
               end) (fun _ =>
        vret [port]))))
  end.

(** A trade as the policy sees it (src/trade.h): the target of the request and the amount; with the values
    the package's distribution returns while it is executed. *)
Record vtrade := mkVT { t_target : nat; t_amt : Q; t_samples : list Q }.

(** 261-280: pop the amount and package it; returns the material to hand over and the count of packages
    that can still be shipped. *)
Definition v_take (v : seller) (n : Z) (t : vtrade) : BM (nat * Z) :=
  mat <~ buf_pop_qty_eps E (t_amt t) (e_eps E);;
  m <~ call (rget mat);;
  if negb (String.eqb (p_name (v_pkg v)) (r_pkg m)) then
    pkgd <~ call (res_package E mat (v_pkg v) (t_samples t));;
    m <~ call (rget mat);;
    (if Qltb (e_eps E) (r_qty m) then buf_push E EMaterial mat else bret tt) ~;
    match pkgd with
    | j :: _ => bret (j, (n - 1)%Z)
    | [] =>
        c <~ call (mat_comp E mat);;
        u <~ call (mat_create_untracked 0 c);;
        bret (u, n)
    end
  else bret (mat, n).
(** 282-284: with ignore_comp the composition is replaced if it is almost that of the request. *)
Definition v_adjust (v : seller) (j : nat) (t : vtrade) : M unit :=
  if v_ignore v then
    (a <- mat_comp E (t_target t);
     x <- cref a;
     c <- mat_comp E j;
     y <- cref c;
     same <- lift (almost_eq (comp_mass E x) (comp_mass E y) (e_eps E));
     if same then a <- mat_comp E (t_target t); mat_transmute E j a else ret tt)
  else ret tt.
(** 258-287: the loop. *)
Fixpoint v_loop (v : seller) (n : Z) (trades : list vtrade) : BM (list (vtrade * nat)) :=
  match trades with
  | [] => bret []
  | t :: rest =>
      if (0 <? n)%Z then
        jn <~ v_take v n t;;
        call (v_adjust v (fst jn) t) ~;
        resp <~ v_loop v (snd jn) rest;;
        bret ((t, fst jn) :: resp)
      else v_loop v n rest
  end.
(** 245-293, GetMatlTrades. *)
Definition v_trades (v : seller) (trades : list vtrade) : BM (list (vtrade * nat)) :=
  match shippable (v_tu v) (Z.of_nat (length trades)) with
  | None => bub
  | Some n => v_loop v n trades
  end.
End WithEnv.
