(** Adjusting preferences, and the whole collection. *)
From Coq Require Import String QArith List Bool Arith ZArith Lia Sorted.
From Verif Require Import Base GreedyModel GreedySpec ExchangeModel ExchangeSpec ExchangeProofs1 ExchangeProofs2
  ExchangeProofs6 TradeModel TradeSpec DreModel DreSpec DreProofs1 DreProofs2 DreProofs3.
Import ListNotations.
Open Scope Q_scope.

Section Adjust.
Variable S : Type.
Variable ancestors : nat -> list nat.
Variable adjust_trader adjust_agent : nat -> prefmap -> S -> result prefmap * S.
Notation Adjust := (adjust_prefs S ancestors adjust_trader adjust_agent).
Definition chain (t : nat) : list (prefmap -> S -> result prefmap * S) :=
  adjust_trader t :: map adjust_agent (ancestors t).

Lemma adjusted_ext (ch : nat -> list (prefmap -> S -> result prefmap * S)) b a b' a' l s s1 :
  (forall t, In t l -> b t = b' t /\ a t = a' t) ->
  adjusted ch b a l s s1 -> adjusted ch b' a' l s s1.
Proof.
  intros H A. induction A as [s|t ts s s1 s2 HO A IH]; [constructor|].
  destruct (H t (or_introl eq_refl)) as [E1 E2]. apply (adjusted_cons ch b' a' t ts s s1 s2).
  - now rewrite <- E1, <- E2.
  - apply IH. intros x Hx. apply H. now right.
Qed.
Lemma fold_ext_in {A B} (f g : A -> B -> A) l : (forall x a, In x l -> f a x = g a x) -> forall a, fold_left f l a = fold_left g l a.
Proof.
  induction l as [|x l IH]; intros H a; simpl; auto. rewrite (H x a) by now left. apply IH. intros y b Hy. apply H. now right.
Qed.
Lemma prefs_of_set m t p x : prefs_of (set_xprefs m (nupd t (fun _ => p) (x_prefs m))) x
  = if Nat.eqb t x then p else prefs_of m x.
Proof.
  unfold prefs_of. cbn [x_prefs set_xprefs]. destruct (Nat.eqb_spec t x) as [->|N].
  - now rewrite nfind_nupd_same.
  - now rewrite nfind_nupd_other by auto.
Qed.
Lemma not_in_eqb (t x : nat) l : ~ In t l -> In x l -> Nat.eqb t x = false.
Proof. intros N H. apply Nat.eqb_neq. intros ->. auto. Qed.

Lemma adjust_event t m s r ev s1 : Adjust t m s = (r, (ev, s1)) ->
  exists ev', ev = VAdjustT t (prefs_of m t) :: ev' /\ forall x p, ~ In (VAdjustT x p) ev'.
Proof.
  assert (U : forall l p s r ev s1, adjust_up S adjust_agent l p s = (r, (ev, s1)) -> forall x q, ~ In (VAdjustT x q) ev).
  { induction l as [|a l IH]; intros p s0 r0 ev0 s2 H x q; cbn [adjust_up] in H.
    - inversion H; subst. auto.
    - destruct (adjust_agent a p s0) as [[p1|e|] s3].
      + destruct (adjust_up S adjust_agent l p1 s3) as [r1 [ev1 s4]] eqn:E. inversion H; subst. intros [Y|Y]; [discriminate|].
        eapply IH; eauto.
      + inversion H; subst. intros [Y|[]]; discriminate.
      + inversion H; subst. intros [Y|[]]; discriminate. }
  unfold adjust_prefs. fold (prefs_of m t). intros H.
  destruct (adjust_trader t (prefs_of m t) s) as [[p1|e|] s2].
  - destruct (adjust_up S adjust_agent (ancestors t) p1 s2) as [[p2|e|] [ev2 s3]] eqn:E; inversion H; subst;
      (eexists; split; [reflexivity|]; intros; eapply U; exact E).
  - inversion H; subst. eexists. split; [reflexivity|]. auto.
  - inversion H; subst. eexists. split; [reflexivity|]. auto.
Qed.

Lemma adjust_phase l : NoDup l -> forall m s m' ev s1, for_each S Adjust l m s = (Ok m', (ev, s1)) ->
  exists fin : nat -> prefmap,
    m' = set_xprefs m (fold_left (fun xp t => nupd t (fun _ => fin t) xp) l (x_prefs m)) /\
    adjusted chain (prefs_of m) fin l s s1 /\
    (forall t p, In (VAdjustT t p) ev -> In t l /\ p = prefs_of m t).
Proof.
  induction 1 as [|t l N D IH]; intros m s m' ev s1 H; cbn [for_each] in H.
  - inversion H; subst. exists (fun _ => []). split; [destruct m'; reflexivity|]. split; [constructor|]. intros t p [].
  - destruct (Adjust t m s) as [[m1|e|] [ev1 s2]] eqn:E; try discriminate.
    destruct (for_each S Adjust l m1 s2) as [r [ev2 s3]] eqn:E2. inversion H; subst r ev s3; clear H.
    destruct (adjust_prefs_calls _ _ _ _ _ _ _ _ _ _ E) as [_ X]. destruct (X m1 eq_refl) as [_ [p' [Em HO]]]. clear X.
    destruct (adjust_event _ _ _ _ _ _ E) as [ev' [Ev Nv]].
    destruct (IH _ _ _ _ _ E2) as [fin [Em' [A V]]]. subst m1.
    exists (fun x => if Nat.eqb t x then p' else fin x). split; [|split].
    + rewrite Em'. cbn [set_xprefs x_prefs]. cbn [fold_left]. rewrite Nat.eqb_refl.
      unfold set_xprefs. cbn. f_equal. apply fold_ext_in. intros x a Hx. now rewrite (not_in_eqb _ _ _ N Hx).
    + apply (adjusted_cons chain _ _ t l s s2 s1); [now rewrite Nat.eqb_refl|].
      apply (adjusted_ext _ _ _ _ _ _ _ _) with (2 := A). intros x Hx.
      rewrite prefs_of_set, (not_in_eqb _ _ _ N Hx). auto.
    + intros x p Hx. apply in_app_or in Hx as [Hx|Hx].
      * subst ev1. destruct Hx as [Hx|Hx]; [inversion Hx; subst; split; [now left|auto]|]. now elim (Nv _ _ Hx).
      * destruct (V _ _ Hx) as [I ->]. split; [now right|]. rewrite prefs_of_set, (not_in_eqb _ _ _ N I). auto.
Qed.

(** The final tables are those of an adjustment of the exchange model. *)
Lemma adjust_reach m s m' ev s1 : xreach m -> for_each S Adjust (x_requesters m) m s = (Ok m', (ev, s1)) ->
  xreach m' /\ same_heaps m m' /\ x_rports m' = x_rports m /\ x_bports m' = x_bports m /\ x_requesters m' = x_requesters m /\
  x_bbr m' = x_bbr m /\
  adjusted chain (prefs_of m) (prefs_of m') (x_requesters m) s s1 /\
  (forall t, ~ In t (x_requesters m) -> prefs_of m' t = prefs_of m t) /\
  (forall t p, In (VAdjustT t p) ev -> In t (x_requesters m) /\ p = prefs_of m t).
Proof.
  intros R H. assert (ND := sorted_nodup _ (requesters_sorted _ R)).
  destruct (adjust_phase _ ND _ _ _ _ _ H) as [fin [Em [A V]]].
  assert (P : forall t, nfind t (x_prefs m') = if existsb (Nat.eqb t) (x_requesters m) then Some (fin t) else nfind t (x_prefs m)).
  { intros t. rewrite Em. cbn [x_prefs set_xprefs]. apply (adjust_fold (fun t _ => fin t) _ ND). }
  assert (P1 : forall t, In t (x_requesters m) -> prefs_of m' t = fin t).
  { intros t I. unfold prefs_of. rewrite P. replace (existsb (Nat.eqb t) (x_requesters m)) with true; auto.
    symmetry. apply existsb_exists. exists t. split; auto. apply Nat.eqb_refl. }
  assert (P2 : forall t, ~ In t (x_requesters m) -> prefs_of m' t = prefs_of m t).
  { intros t I. unfold prefs_of. rewrite P. replace (existsb (Nat.eqb t) (x_requesters m)) with false; auto.
    symmetry. apply not_true_is_false. intros X. apply existsb_exists in X as [x [Ix X]]. apply Nat.eqb_eq in X. congruence. }
  split.
  { change m' with (id m'). rewrite Em. exact (xreachS m (XAdjust (fun t => [fun _ => fin t])) R Logic.I). }
  split; [rewrite Em; repeat split|]. split; [now rewrite Em|]. split; [now rewrite Em|]. split; [now rewrite Em|].
  split; [now rewrite Em|]. split.
  { apply (adjusted_ext _ (prefs_of m) fin) with (2 := A). intros t I. split; auto. symmetry. auto. }
  auto.
Qed.
End Adjust.

(** ** The whole collection *)
Section Collect.
Variable S : Type.
Variable mgr : nat -> Z.
Variable ancestors : nat -> list nat.
Variable get_requests get_bids : nat -> market -> S -> result (list xop * list nat) * S.
Variable adjust_trader adjust_agent : nat -> prefmap -> S -> result prefmap * S.
Notation Collect := (collect S mgr ancestors get_requests get_bids adjust_trader adjust_agent).

Lemma replies_app_r a b : request_replies (a ++ b) = request_replies a ++ request_replies b.
Proof. apply flat_map_app. Qed.
Lemma replies_app_b a b : bid_replies (a ++ b) = bid_replies a ++ bid_replies b.
Proof. apply flat_map_app. Qed.
Lemma about_prefs_replies ev : Forall (fun c => about_prefs (callee c)) ev -> request_replies ev = [] /\ bid_replies ev = [].
Proof. induction 1 as [|c ev H F [I1 I2]]; [auto|]. destruct c; try contradiction; cbn; auto. Qed.
Lemma callee_bids l : forall ev tb, map callee ev = map WBids l -> (forall c, In c ev -> exists t ps, c = VBids t tb ps) ->
  Forall2 (fun t c => exists ps, c = VBids t tb ps) l ev.
Proof.
  induction l as [|t l IH]; intros [|c ev] tb E H; try discriminate; constructor.
  - destruct (H c (or_introl eq_refl)) as [t' [ps ->]]. cbn in E. inversion E; subst. eauto.
  - apply IH; [now inversion E|]. intros x Hx. apply H. now right.
Qed.

Theorem collection traders s m ev s3 :
  fair_requester get_requests -> fair_bidder get_bids -> Collect traders s = (Ok m, (ev, s3)) ->
  exists l table er eb ea before s2,
    in_turn mgr traders l /\ ev = er ++ eb ++ ea /\
    map callee er = map WRequests l /\
    Forall2 (fun t c => exists ps, c = VBids t table ps) l eb /\
    map callee ea = flat_map (fun t => WPrefs t :: map WParent (ancestors t)) (x_requesters m) /\
    (forall c, shown_for table c = posted m c) /\
    x_rports m = request_replies ev /\ x_bports m = bid_replies ev /\
    (forall t ps p r, In (VRequests t ps) ev -> In p ps -> In r (rp_reqs (rp_at m p)) -> rq_trader (req_at m r) = t) /\
    (forall t sh ps p b, In (VBids t sh ps) ev -> In p ps -> In b (bp_bids (bp_at m p)) -> bd_trader (bid_at m b) = t) /\
    StronglySorted lt (x_requesters m) /\
    (forall t, In t (x_requesters m) <-> exists r, In r (all_reqs m) /\ rq_trader (req_at m r) = t) /\
    (x_bbr m = [] <-> all_bids m = []) /\
    xreach m /\ registered m /\
    (forall b, In b (all_bids m) ->
       in_table (before (rq_trader (req_at m (bd_req (bid_at m b))))) (bd_req (bid_at m b)) b = Some (stated_pref m b)) /\
    adjusted (fun t => adjust_trader t :: map adjust_agent (ancestors t)) before (prefs_of m) (x_requesters m) s2 s3 /\
    (forall t p, In (VAdjustT t p) ev -> p = before t) /\
    (forall t, ~ In t (x_requesters m) -> prefs_of m t = before t).
Proof.
  intros FR FB H. unfold collect in H.
  destruct (add_all_requests S mgr get_requests traders market0 s) as [[m1|e|] [ev1 s1]] eqn:H1; try discriminate.
  destruct (add_all_bids S mgr get_bids traders m1 s1) as [[m2|e|] [ev2 s2]] eqn:H2; try discriminate.
  destruct (adjust_everyone S ancestors adjust_trader adjust_agent m2 s2) as [r [ev3 s4]] eqn:H3.
  inversion H; subst r ev s4; clear H.
  unfold add_all_requests in H1. unfold add_all_bids in H2. unfold adjust_everyone in H3.
  set (l := init_traders mgr traders) in *.
  destruct (requests_collected S get_requests FR _ _ _ _ _ H1) as [RI [XR [BR [OW [BD [Nb Nbp]]]]]].
  destruct (bids_collected S get_bids FB m1 _ _ _ _ _ RI Nbp H2) as [BI [XB [RB [OB [BB VB]]]]].
  assert (R2 := bi_reach _ _ BI).
  destruct (adjust_reach _ _ _ _ _ _ _ _ _ R2 H3) as [R3 [[E1 [E2 [E3 E4]]] [X1 [X2 [X3 [X4 [AD [OT VA]]]]]]]].
  destruct (bi_frozen _ _ BI) as [F1 [F2 [F3 [F4 F5]]]].
  assert (C3 := adjust_callees _ _ _ _ _ _ _ _ _ _ H3).
  assert (AP : Forall (fun c => about_prefs (callee c)) ev3).
  { apply (for_each_forall S _ _ (fun t m s r ev s1 E => proj1 (adjust_prefs_calls _ _ _ _ _ _ _ _ _ _ E)) _ _ _ _ _ _ H3). }
  destruct (about_prefs_replies _ AP) as [Z1 Z2].
  assert (RQ : forall r, req_at m r = req_at m1 r) by (intros; unfold req_at; congruence).
  assert (RP : forall p, rp_at m p = rp_at m1 p) by (intros; unfold rp_at; congruence).
  assert (BQ : forall b, bid_at m b = bid_at m2 b) by (intros; unfold bid_at; congruence).
  assert (BP : forall p, bp_at m p = bp_at m2 p) by (intros; unfold bp_at; congruence).
  assert (AR : all_reqs m = all_reqs m1).
  { unfold all_reqs. rewrite X1, F3. apply flat_map_ext. intros p. now rewrite RP. }
  assert (AB : all_bids m = all_bids m2).
  { unfold all_bids. rewrite X2. apply flat_map_ext. intros p. now rewrite BP. }
  assert (PO : forall c, posted m c = posted m1 c).
  { intros c. unfold posted. rewrite AR. apply filter_ext. intros r. now rewrite RQ. }
  destruct (for_each_callees S _ WRequests (fun t m s r ev s1 E => add_requests_callee _ _ _ _ _ _ _ _ E) _ _ _ _ _ _ H1) as [re1 [C1 Z3]].
  destruct (for_each_callees S _ WBids (fun t m s r ev s1 E => add_bids_callee _ _ _ _ _ _ _ _ E) _ _ _ _ _ _ H2) as [re2 [C2 Z4]].
  rewrite (Z3 (ex_intro _ _ eq_refl)), app_nil_r in C1. rewrite (Z4 (ex_intro _ _ eq_refl)), app_nil_r in C2.
  assert (NVB : forall t sh ps, ~ In (VBids t sh ps) ev1).
  { intros t sh ps I. apply (in_map callee) in I. rewrite C1 in I. apply in_map_iff in I as [x [E _]]. discriminate. }
  assert (NVA1 : forall t p, ~ In (VAdjustT t p) ev1).
  { intros t sh I. apply (in_map callee) in I. rewrite C1 in I. apply in_map_iff in I as [x [E _]]. discriminate. }
  assert (NVA2 : forall t p, ~ In (VAdjustT t p) ev2).
  { intros t sh I. apply (in_map callee) in I. rewrite C2 in I. apply in_map_iff in I as [x [E _]]. discriminate. }
  assert (NVR : forall t ps, ~ In (VRequests t ps) ev2).
  { intros t ps I. apply (in_map callee) in I. rewrite C2 in I. apply in_map_iff in I as [x [E _]]. discriminate. }
  rewrite Forall_forall in AP.
  exists l, (x_commod m1), ev1, ev2, ev3, (prefs_of m2), s2.
  split; [apply init_in_turn|]. split; [reflexivity|]. split; [exact C1|]. split; [apply callee_bids; auto|].
  split; [rewrite C3, X3; reflexivity|]. split; [intros c; rewrite PO; apply (ri_shown _ RI)|].
  split; [rewrite !replies_app_r, RB, Z1, !app_nil_r; congruence|].
  split; [rewrite !replies_app_b, BR, Z2, !app_nil_r; cbn; congruence|].
  split.
  { intros t ps p r I Ip Ir. rewrite RP in Ir. rewrite RQ. apply in_app_or in I as [I|I]; [exact (OW _ _ I p r Ip Ir)|].
    apply in_app_or in I as [I|I]; [now elim (NVR _ _ I)|]. now apply AP in I. }
  assert (OBs : forall t sh ps p b, In (VBids t sh ps) (ev1 ++ ev2 ++ ev3) -> In p ps -> In b (bp_bids (bp_at m p)) ->
     bd_trader (bid_at m b) = t /\ exists c, In (bd_req (bid_at m b)) (shown_for (x_commod m1) c)).
  { intros t sh ps p b I Ip Ib. rewrite BP in Ib. rewrite BQ. apply in_app_or in I as [I|I]; [now elim (NVB _ _ _ I)|].
    apply in_app_or in I as [I|I]; [|now apply AP in I]. destruct (OB _ _ _ I) as [-> Y]. exact (Y p b Ip Ib). }
  split; [intros; eapply OBs; eauto|].
  split; [now apply requesters_sorted|].
  split. { intros t. rewrite X3, F5, AR. rewrite (ri_req _ RI t). split; intros [r [I E]]; exists r; split; auto; [now rewrite RQ|now rewrite <- RQ]. }
  split; [rewrite X4, AB; apply (bi_bbr _ _ BI)|].
  split; [exact R3|]. split.
  { constructor.
    - rewrite X1, F3. apply (ri_nodup _ RI).
    - rewrite X2. apply (bi_nodup _ _ BI).
    - intros b I. unfold all_bids in I. apply in_flat_map in I as [p [Ip Ib]].
      assert (IP : In p (bid_replies ev2)) by (rewrite <- XB; congruence).
      unfold bid_replies in IP. apply in_flat_map in IP as [c [Ic Ip2]].
      destruct c as [|t sh ps| | |]; try contradiction.
      assert (I : In (VBids t sh ps) (ev1 ++ ev2 ++ ev3)) by (apply in_or_app; right; apply in_or_app; now left).
      destruct (OBs _ _ _ _ _ I Ip2 Ib) as [_ [c Hc]]. rewrite (ri_shown _ RI) in Hc. unfold posted in Hc.
      apply filter_In in Hc. rewrite AR. apply Hc. }
  split.
  { intros b I. rewrite AB in I. assert (Kn := bi_known _ _ BI _ I).
    unfold known, entry in Kn. unfold in_table, prefs_of.
    assert (SQ : forall r, req_at m r = req_at m2 r) by (intros; unfold req_at; congruence).
    rewrite SQ, BQ.
    destruct (nfind (rq_trader (req_at m2 (bd_req (bid_at m2 b)))) (x_prefs m2)) as [pm|]; [|discriminate]. cbn [orempty].
    destruct (nfind (bd_req (bid_at m2 b)) pm); [|discriminate]. rewrite Kn. f_equal.
    unfold stated_pref, default_pref. now rewrite BQ, SQ. }
  split; [rewrite X3; exact AD|]. split.
  { intros t p I. apply in_app_or in I as [I|I]; [now elim (NVA1 _ _ I)|]. apply in_app_or in I as [I|I]; [now elim (NVA2 _ _ I)|].
    apply (VA _ _ I). }
  intros t N. apply OT. congruence.
Qed.
End Collect.
