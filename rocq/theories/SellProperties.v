(** * C40: the material sell policy.  Vocabulary: SellSpec.v, and BufSpec.v for buffers in use. *)
From Coq Require Import String Permutation.
From Verif Require Import Base CompModel CompSpec PackageModel ResourceModel ResourceSpec ResourceProperties
  BufModel BufSpec BufProperties GreedyModel ExchangeModel SellModel SellSpec SellProofs1 SellProofs4 SellProofs5.
Local Open Scope Q_scope.

(** ** Bids *)
(** The limit of a policy: at most its throughput and its inventory, in whole quanta if it has a quantum. *)
Theorem C40_limit : forall b v lim, v_limit b v = Some lim -> 0 <= quantity b ->
  lim <= v_thr v /\ lim <= quantity b /\
  (0 < v_quant v -> exists n, lim == qmin (v_thr v) (v_quant v * inject_Z n) /\
     v_quant v * inject_Z n <= quantity b < v_quant v * (inject_Z n + 1)) /\
  (v_quant v <= 0 -> lim == qmin (v_thr v) (quantity b)).
Proof. exact limit_spec. Qed.
Print Assumptions C40_limit.

(** A call that completes leaves the buffer and every resource as it is.  Either there is next to nothing to
    sell and it makes no bids, or it makes one portfolio, of capacity [lim], whose bids are new ones: for
    every request for a commodity it sells, the pieces into which the smaller of the request and [lim]
    divides, as far as they can be shipped.  Each bid offers a material of the quantity it says. *)
Theorem C40_bids : forall E eps v b pos cr w k l ports s',
  v_bids E eps v b pos cr (w, k, l) = (Ok ports, s') ->
  in_use E EMaterial w b -> 0 < e_eps E -> 0 < eps -> a_package (v_pkg v) ->
  Forall (fun s => p_fill_min (v_pkg v) <= s <= p_fill_max (v_pkg v)) l ->
  (forall r, In r (v_wanted v cr) -> 0 < rs_qty (rq_target (req_at k r))) ->
  exists lim, v_limit b v = Some lim /\
  ((b_rs b = [] \/ quantity b < eps \/ lim < eps) /\ ports = [] /\ s' = (w, k, l) \/
   (b_rs b <> [] /\ eps <= quantity b /\ eps <= lim) /\ ports = [length (m_bports k)] /\
   exists w' k' l' new os, s' = (w', k', l') /\ in_use E EMaterial w' b /\ none_changed w w' /\
     m_reqs k' = m_reqs k /\ m_rports k' = m_rports k /\ m_bids k' = m_bids k ++ new /\
     length (m_bports k') = Datatypes.S (length (m_bports k)) /\
     (forall p, (p < length (m_bports k))%nat -> bp_at k' p = bp_at k p) /\
     bp_cons (bp_at k' (length (m_bports k))) = [mkC lim CTrivial] /\
     Permutation (bp_bids (bp_at k' (length (m_bports k)))) (seq (length (m_bids k)) (length new)) /\
     map fst os = v_wanted v cr /\ map says new = bids_for v os /\ Forall (offered E v k lim) os /\
     Forall (fun d => backed E w' (if v_ignore v then rs_id (rq_target (req_at k (bd_req d))) else hd O (b_rs b)) d /\
       bd_port d = length (m_bports k) /\ bd_pref d = None) new).
Proof. exact C40_bids_lemma. Qed.
Print Assumptions C40_bids.

(** What is offered for one request never exceeds the request, the throughput or the inventory. *)
Theorem C40_offers_bounded : forall E v k b lim o,
  v_limit b v = Some lim -> 0 <= quantity b -> offered E v k lim o ->
  qsum (snd o) <= rs_qty (rq_target (req_at k (fst o))) /\ qsum (snd o) <= v_thr v /\ qsum (snd o) <= quantity b.
Proof. exact C40_offers_lemma. Qed.
Print Assumptions C40_offers_bounded.

(** ** Trades *)
(** Executing trades whose amounts take one package each: a first part of the trades is answered (all of
    them if the transport unit allows that many), each with a material of its own that is no longer in the
    buffer and is at most the amount of the trade; what left the buffer was handed over, up to eps_rsrc per
    trade, and exactly if all amounts exceed twice eps_rsrc. *)
Theorem C40_trades : forall E v trades w b resp w' b',
  0 < e_eps E -> a_package (v_pkg v) -> Forall (trade_ok (e_eps E) (v_pkg v)) trades ->
  in_use E EMaterial w b -> v_trades E v trades (w, b) = (Ok resp, (w', b')) ->
  in_use E EMaterial w' b' /\
  (exists n rest, shippable (v_tu v) (Z.of_nat (length trades)) = Some n /\
     trades = map fst resp ++ rest /\ (rest <> [] -> n <= Z.of_nat (length resp))%Z) /\
  NoDup (map snd resp) /\
  Forall (fun p => ~ In (snd p) (b_rs b') /\ exists q, qty_of w' (snd p) = Some q /\ 0 <= q <= t_amt (fst p)) resp /\
  exists lost, quantity b == quantity b' + sum_qty w' (map snd resp) + lost /\
    0 <= lost <= inject_Z (Z.of_nat (length resp)) * e_eps E /\
    (Forall (fun t => 2 * e_eps E < t_amt t) trades -> lost == 0).
Proof. exact C40_trades_lemma. Qed.
Print Assumptions C40_trades.

(** A policy that packages hands over no more packages than its transport unit takes, if the materials in
    its buffer belong to the simulation. *)
Theorem C40_packaged_transport_unit : forall E v trades w b resp w' b',
  0 < e_eps E -> a_package (v_pkg v) -> p_name (v_pkg v) <> unpackaged_name ->
  Forall (trade_ok (e_eps E) (v_pkg v)) trades ->
  in_use E EMaterial w b -> Forall (in_ctx w) (b_rs b) ->
  v_trades E v trades (w, b) = (Ok resp, (w', b')) ->
  exists n, shippable (v_tu v) (Z.of_nat (length trades)) = Some n /\
    (Z.of_nat (length (filter (positive_in w') resp)) <= Z.max 0 n)%Z.
Proof. exact C40_transport_lemma. Qed.
Print Assumptions C40_packaged_transport_unit.

(** A policy that sells in quanta accepts only packages that hold exactly one quantum: its trades meet the
    condition of C40_trades. *)
Theorem C40_package_holds_quantum : forall E name v v',
  0 < e_eps E -> (forall n p, In (n, p) (e_pkgs E) -> a_package p) ->
  v_mgr v = true -> v_set_package E name v = Ok v' ->
  exists p, (name = unpackaged_name /\ p = pkg_unpackaged \/
             name <> unpackaged_name /\ exists n, String.eqb name n = true /\ In (n, p) (e_pkgs E)) /\
    v' = v_set_pkg p v /\
    (0 < v_quant v -> p_name p <> unpackaged_name -> one_package p (v_quant v) /\ p_fill_min p - e_eps E <= v_quant v).
Proof. exact C40_set_package_lemma. Qed.
Print Assumptions C40_package_holds_quantum.

(** It accepts only transport units that can carry the packages of one quantum together. *)
Theorem C40_transport_unit_holds_quantum : forall E units name samples v v',
  0 < e_eps E -> a_package (v_pkg v) ->
  Forall (fun s => p_fill_min (v_pkg v) <= s <= p_fill_max (v_pkg v)) samples ->
  v_mgr v = true -> v_set_transport_unit E units name samples v = Ok v' ->
  exists t, (name = unrestricted_name /\ t = tu_unrestricted \/
             name <> unrestricted_name /\ exists n, String.eqb name n = true /\ In (n, t) units) /\
    v' = v_set_tu t v /\
    (0 < v_quant v -> tu_name t <> unrestricted_name -> exists fills,
       Forall (fun f => p_fill_min (v_pkg v) - e_eps E <= f <= p_fill_max (v_pkg v)) fills /\
       qsum fills <= v_quant v /\ v_quant v - qsum fills < qmax (e_eps E) (p_fill_min (v_pkg v)) /\
       shippable t (Z.of_nat (length fills)) = Some (Z.of_nat (length fills))).
Proof. exact C40_set_transport_lemma. Qed.
Print Assumptions C40_transport_unit_holds_quantum.

(** ** Examples *)
(** A buffer holding 7 kg (material 0) and 4 kg (material 1); material 3 is elsewhere. *)
Definition exV : seller := mkSell 9 true ["leu"%string; "ore"%string] 0 8 false (mkPackage "drum" 1 5 "first") tu_unrestricted.
Definition exQ : seller := v_set_quant 3 (v_set_pkg pkg_unpackaged exV).
Definition exM : market := mkM [mkReq (mkRsrc 3 12) 1 "leu" 1 false 0; mkReq (mkRsrc 3 6) 1 "ore" 1 false 0]
  [mkRP (Some 1%nat) [0%nat; 1%nat] [] [] 18] [] [] [] [] [] [] [] [] [].
Definition exCR : list (string * list nat) := [("leu"%string, [0%nat]); ("mox"%string, []); ("ore"%string, [1%nat])].
Definition exBids (v : seller) := v_bids exE (1#1000000) v (snd (exS false)) (fun _ => O) exCR (fst (exS false), exM, []).
Definition bids_seen (r : result (list nat) * (world * market * list Q)) :=
  (fst r, map (fun d => (bd_req d, Qred (rs_qty (bd_offer d)), bd_excl d)) (m_bids (snd (fst (snd r)))), bp_bids (bp_at (snd (fst (snd r))) 0),
   map (fun c => Qred (cc_cap c)) (bp_cons (bp_at (snd (fst (snd r))) 0))).
Lemma drum_ok : a_package (mkPackage "drum" 1 5 "first").
Proof. exists true, "drum"%string, 1, 5, "first"%string. reflexivity. Qed.
Lemma unpackaged_ok : a_package pkg_unpackaged.
Proof. exists false, unpackaged_name, 0, DBL_MAX, "first"%string. vm_compute. reflexivity. Qed.
(** Packages of at most 5 out of the throughput of 8; quanta of 3 out of an inventory of 11. *)
Example C40_bids_example :
  in_use exE EMaterial (fst (exS false)) (snd (exS false)) /\ a_package (v_pkg exV) /\ a_package (v_pkg exQ) /\
  (forall r, In r (v_wanted exV exCR) -> 0 < rs_qty (rq_target (req_at exM r))) /\
  bids_seen (exBids exV) = (Ok [0%nat], [(0%nat, 5, false); (0%nat, 3, false); (1%nat, 5, false); (1%nat, 1, false)], [3; 2; 1; 0]%nat, [8]) /\
  bids_seen (exBids exQ) = (Ok [0%nat], [(0%nat, 3, true); (0%nat, 3, true); (1%nat, 3, true); (1%nat, 3, true)], [3; 2; 1; 0]%nat, [8]).
Proof.
  split; [apply exS_in_use|]. split; [exact drum_ok|]. split; [exact unpackaged_ok|]. split.
  - intros r [<-|[<-|[]]]; reflexivity.
  - split; vm_compute; reflexivity.
Qed.

Definition exT : list vtrade := [mkVT 3 5 []; mkVT 3 (1#2) []; mkVT 3 4 []].
Definition exTrades (v : seller) (ts : list vtrade) := v_trades exE v ts (exS false).
Definition trades_seen (r : result (list (vtrade * nat)) * (world * buf)) :=
  (match fst r with Ok l => map snd l | _ => [] end,
   match fst r with Ok l => map (fun p => option_map Qred (qty_of (fst (snd r)) (snd p))) l | _ => [] end,
   Qred (quantity (snd (snd r)))).
(** Two drums of 5 and 4, and nothing for the trade of half a kilogram, which no drum takes. *)
Example C40_trades_example :
  Forall (trade_ok (e_eps exE) (v_pkg exV)) exT /\
  trades_seen (exTrades exV exT) = ([5; 7; 9]%nat, [Some 5; Some 0; Some 4], 2) /\
  map (fun j => option_map r_pkg (nth_error (w_res (fst (snd (exTrades exV exT)))) j)) [5; 7; 9]%nat
    = [Some "drum"%string; Some unpackaged_name; Some "drum"%string].
Proof.
  split; [|split; vm_compute; reflexivity].
  repeat apply Forall_cons; try apply Forall_nil; (split; [reflexivity|]; split; [left; split; [left; reflexivity|discriminate]|constructor]).
Qed.
Example C40_package_example :
  v_set_package exE "drum" exQ = Ok (v_set_pkg (mkPackage "drum" 1 5 "first") exQ) /\
  v_set_package exE "drum" (v_set_quant 6 exQ) = Throw ValueError /\ 0 < v_quant exQ /\ v_mgr exQ = true.
Proof. split; [vm_compute; reflexivity|]. split; vm_compute; auto. Qed.

(** A quantum of 12 takes drums of 5, 5 and 2: a unit for two drums is refused, one for three is taken. *)
Definition exUnits : list (string * transport_unit) := [("cask"%string, mkTU "cask" 2 2 "first"); ("train"%string, mkTU "train" 1 3 "first")].
Example C40_transport_unit_example :
  Forall (fun s => p_fill_min (v_pkg exV) <= s <= p_fill_max (v_pkg exV)) [] /\ v_mgr (v_set_quant 12 exV) = true /\
  v_set_transport_unit exE exUnits "cask" [] (v_set_quant 12 exV) = Throw ValueError /\
  v_set_transport_unit exE exUnits "train" [] (v_set_quant 12 exV) = Ok (v_set_tu (mkTU "train" 1 3 "first") (v_set_quant 12 exV)) /\
  v_set_transport_unit exE exUnits "ship" [] (v_set_quant 12 exV) = Throw KeyError.
Proof. split; [constructor|]. split; [reflexivity|]. split; [|split]; vm_compute; reflexivity. Qed.

(** Three trades, and a transport unit that takes two drums: the first and the third trade get a drum... *)
Example C40_transport_example :
  p_name (v_pkg exV) <> unpackaged_name /\ Forall (in_ctx (fst (exS false))) (b_rs (snd (exS false))) /\
  shippable (mkTU "cask" 2 2 "first") 3 = Some 2%Z /\
  trades_seen (exTrades (v_set_tu (mkTU "cask" 2 2 "first") exV) exT) = ([5; 7; 9]%nat, [Some 5; Some 0; Some 4], 2) /\
  (* ... and of three trades a drum can take, the first two *)
  trades_seen (exTrades (v_set_tu (mkTU "cask" 2 2 "first") exV) [mkVT 3 5 []; mkVT 3 2 []; mkVT 3 4 []])
    = ([5; 6]%nat, [Some 5; Some 2], 4).
Proof.
  split; [discriminate|]. split; [|split; [|split]; vm_compute; reflexivity].
  apply Forall_forall. intros i Hi.
  assert (A : forallb (fun i => match nth_error (w_res (fst (exS false))) i with Some r => r_ctx r | None => false end)
    (b_rs (snd (exS false))) = true) by (vm_compute; reflexivity).
  rewrite forallb_forall in A. specialize (A i Hi). unfold in_ctx.
  destruct (nth_error (w_res (fst (exS false))) i) as [r|]; [exists r; split; [reflexivity|exact A]|discriminate A].
Qed.

(** ** What does not hold *)
(** The transport unit is not enforced when the policy does not package: here it can take two packages,
    and three trades are executed. *)
Theorem C40_transport_unit_refuted : exists v t,
  tu_create true "cask" 2 2 "first" = Ok t /\ v_tu v = t /\ v_pkg v = pkg_unpackaged /\
  shippable t 3 = Some 2%Z /\
  trades_seen (exTrades v [mkVT 3 5 []; mkVT 3 1 []; mkVT 3 4 []]) = ([4; 5; 0]%nat, [Some 5; Some 1; Some 4], 1).
Proof.
  exists (v_set_tu (mkTU "cask" 2 2 "first") (v_set_pkg pkg_unpackaged exV)), (mkTU "cask" 2 2 "first").
  split; [reflexivity|]. split; [reflexivity|]. split; [reflexivity|]. split; vm_compute; reflexivity.
Qed.
Print Assumptions C40_transport_unit_refuted.

(** With ignore_comp, the composition asked for and bid is not the one delivered: material 1 has another
    composition than the 7 kg of material 0 that are in front. *)
Theorem C40_ignored_composition_refuted : exists v,
  v_ignore v = true /\
  exists j w' b', v_trades exE v [mkVT 1 3 []] (exS false) = (Ok [(mkVT 1 3 [], j)], (w', b')) /\
  exists r t, nth_error (w_res w') j = Some r /\ nth_error (w_res w') 1 = Some t /\ r_qual r = QMat 0 /\ r_qual t = QMat 1.
Proof.
  exists (v_set_ignore true (v_set_pkg pkg_unpackaged exV)). split; [reflexivity|].
  exists 4%nat. eexists. eexists. split; [vm_compute; reflexivity|]. eexists. eexists. split; [reflexivity|]. split; [reflexivity|]. auto.
Qed.
Print Assumptions C40_ignored_composition_refuted.

(** A trade that takes more than one package: the first is handed over, the others are gone. *)
Theorem C40_whole_trade_refuted :
  quantity (snd (exS false)) == 11 /\
  trades_seen (exTrades exV [mkVT 3 10 []]) = ([5]%nat, [Some 5], 1).
Proof. split; vm_compute; reflexivity. Qed.
Print Assumptions C40_whole_trade_refuted.
