(** The bids of the facilities, one after the other, and the whole market. *)
From Coq Require Import String QArith List Bool Arith ZArith Lia Lqa Sorted.
From Verif Require Import Base CompModel PackageModel ResourceModel BufModel GreedyModel ExchangeModel ExchangeSpec TradeModel DreModel DreSpec
  ExchangeProofs1 DreProofs1 DreProofs2 DreProofs3 DreProofs4 FacModel FacSpec FacProofs1 FacProofs2.
Import ListNotations.
Open Scope Q_scope.

Section Fair.
Variable E : env.
Variable eps : Q.
Variable recipes : string -> option nat.
Variable place : nat -> nat.

Lemma request_ops_own p t i amt cs : Forall (own_request t p) (request_ops p t i amt cs).
Proof.
  unfold request_ops. constructor; [exact I|]. constructor; [cbn; lia|].
  apply Forall_forall. intros o I. apply in_map_iff in I. destruct I as (c & <- & _). cbn. auto.
Qed.
Lemma post_fair t m amt cs i ops ps : post eps t m amt cs i = Ok (ops, ps) ->
  Forall (own_request t (length (m_rports m))) ops /\ Forall (fun p => (length (m_rports m) <= p)%nat) ps.
Proof.
  unfold post. destruct (Qltb eps amt).
  - destruct (cc_new amt CTrivial); try discriminate. intros H. injection H as <- <-. split; [apply request_ops_own|].
    repeat constructor.
  - intros H. injection H as <- <-. auto.
Qed.
Lemma requests_fair : fair_requester (fac_requests E eps recipes).
Proof.
  intros t m [w fs] ops ps s1. unfold fac_requests, requests_of.
  destruct (nth_error fs t) as [[s|s|k]|].
  - intros H. injection H as <- <- <-. auto.
  - destruct (sink_target E recipes s w) as [[i|e|] w1]; intros H; try discriminate.
    injection H as H <-. eapply post_fair; eauto.
  - destruct (blank E (k_in_cap k) w) as [[i|e|] w1]; intros H; try discriminate.
    injection H as H <-. eapply post_fair; eauto.
  - intros H. injection H as <- <- <-. auto.
Qed.

Lemma make_bids_own p t cap recipe c table rs : (forall r, In r rs -> In r (shown_for table c)) ->
  forall m w ops w1, make_bids recipes place p t cap recipe rs m w = (Ok ops, w1) -> Forall (own_bid t p table) ops.
Proof.
  induction rs as [|r rs IH]; intros SH m w ops w1; cbn.
  - intros H. injection H as <- <-. constructor.
  - destruct (get_offer recipes cap recipe (rq_target (req_at m r)) w) as [[o|e|] w2]; try discriminate.
    destruct (add_bid m p r o t false None (place (length (m_bids m)))) as [[b|e|] m1]; try discriminate.
    destruct (make_bids recipes place p t cap recipe rs m1 w2) as [[ops2|e|] w3] eqn:MB; try discriminate.
    intros H. injection H as <- <-. constructor.
    + cbn. split; auto. split; auto. exists c. apply SH. now left.
    + eapply IH; eauto. intros; apply SH; now right.
Qed.
Lemma bids_of_fair t m commod cap recipe w ops ps w1 : bids_of recipes place t m commod cap recipe w = (Ok (ops, ps), w1) ->
  Forall (own_bid t (length (m_bports m)) (x_commod m)) ops /\ Forall (fun p => (length (m_bports m) <= p)%nat) ps.
Proof.
  unfold bids_of. destruct (mfind String.eqb commod (x_commod m)) as [rs|] eqn:MF.
  2:{ intros H. injection H as <- <- <-. auto. }
  destruct (make_bids _ _ _ _ _ _ _ _ _) as [[ops2|e|] w2] eqn:MB; try discriminate.
  destruct (cc_new cap CTrivial); try discriminate. intros H. injection H as <- <- <-. split.
  - constructor; [exact I|]. apply Forall_app. split; [|repeat constructor; cbn; lia].
    eapply make_bids_own; [|exact MB]. intros r I. unfold shown_for. rewrite MF. exact I.
  - repeat constructor.
Qed.
Lemma bids_fair : fair_bidder (fac_bids recipes place).
Proof.
  intros t m [w fs] ops ps s1. unfold fac_bids.
  destruct (nth_error fs t) as [[s|s|k]|].
  - destruct (bids_of _ _ _ _ _ _ _ _) as [r w1] eqn:B; intros H. injection H as -> <-. eapply bids_of_fair; eauto.
  - intros H. injection H as <- <- <-. auto.
  - destruct (bids_of _ _ _ _ _ _ _ _) as [r w1] eqn:B; intros H. injection H as -> <-. eapply bids_of_fair; eauto.
  - intros H. injection H as <- <- <-. auto.
Qed.
End Fair.

Section CollectB.
Variable E : env.
Variable eps : Q.
Variable recipes : string -> option nat.
Variable place : nat -> nat.
Variable fs : list fac.
Hypothesis EPS : 0 <= eps.
Variable m0 : market.

Definition bid_ok (q : bid) : Prop := exists f, nth_error fs (bd_trader q) = Some f /\
  offered_commod f = Some (rq_commod (req_at m0 (bd_req q))) /\ (bd_pref q = None /\ bd_excl q = false) /\ 0 < rs_qty (bd_offer q) /\
  (bd_req q < length (m_reqs m0))%nat.
Definition bport_ok (m : market) (t : nat) (bp : bport) : Prop := exists f, nth_error fs t = Some f /\
  offered_commod f <> None /\ 0 < offered_amount f /\ bp_cons bp = [mkC (offered_amount f) CTrivial] /\
  Forall (fun b => (b < length (m_bids m))%nat /\ bd_trader (bid_at m b) = t) (bp_bids bp).
Record offered (owners : list nat) (m : market) : Prop := mkOF {
  of_reqs : m_reqs m = m_reqs m0; of_rp : m_rports m = m_rports m0; of_xr : x_rports m = x_rports m0;
  of_commod : x_commod m = x_commod m0;
  of_bids : Forall bid_ok (m_bids m);
  of_ports : Forall2 (bport_ok m) owners (m_bports m);
  of_x : x_bports m = seq 0 (length (m_bports m)) }.

(** There is a bid of [t] for the request [r], of at least [x]. *)
Definition bid_for (m : market) (t r : nat) (x : Q) : Prop := exists p bp b q,
  nth_error (m_bports m) p = Some bp /\ In b (bp_bids bp) /\ nth_error (m_bids m) b = Some q /\
  bd_trader q = t /\ bd_req q = r /\ x <= rs_qty (bd_offer q).
Definition covered (m : market) (t : nat) : Prop := forall f c r,
  nth_error fs t = Some f -> offered_commod f = Some c -> In r (shown_for (x_commod m0) c) ->
  bid_for m t r (qmin (rs_qty (rq_target (req_at m0 r))) (offered_amount f)).
Definition more_bids (m m' : market) : Prop := forall t r x, bid_for m t r x -> bid_for m' t r x.
Lemma covered_more m m' t : more_bids m m' -> covered m t -> covered m' t.
Proof. intros H C f c r A1 A2 A3. apply H. eapply C; eauto. Qed.
Lemma more_app m m' new ports : m_bids m' = m_bids m ++ new -> m_bports m' = m_bports m ++ ports -> more_bids m m'.
Proof.
  intros B P t r x (p & bp & b & q & A1 & A2 & A3 & A4). exists p, bp, b, q. rewrite B, P.
  split; [|split; [auto|split; [|auto]]].
  - rewrite nth_error_app1; auto. apply nth_error_Some. congruence.
  - rewrite nth_error_app1; auto. apply nth_error_Some. congruence.
Qed.

Lemma bport_more m m' t bp more : m_bids m' = m_bids m ++ more -> bport_ok m t bp -> bport_ok m' t bp.
Proof.
  intros MB (f & A1 & A2 & A0 & A3 & A4). exists f. repeat split; auto.
  eapply Forall_impl; [|exact A4]. cbn. intros b (L & T). unfold bid_at in *. rewrite MB, app_length. split; [lia|].
  now rewrite app_nth1.
Qed.
Lemma in_insert {A} (x y : A) : forall pos l, In y (insert_at pos x l) -> y = x \/ In y l.
Proof.
  induction pos as [|pos IH]; intros [|z l]; cbn; try tauto.
  - intros [->|[]]; auto.
  - intros [->|[->|I]]; auto.
  - intros [->|[]]; auto.
  - intros [->|I]; auto. apply IH in I. tauto.
Qed.
Lemma insert_in {A} (x y : A) : forall pos l, y = x \/ In y l -> In y (insert_at pos x l).
Proof.
  induction pos as [|pos IH]; intros [|z l]; cbn; intros [->|I]; auto; try contradiction.
  destruct I as [->|I]; auto.
Qed.

Lemma offer_forward w cap recipe o : 0 < cap -> 0 < rs_qty o ->
  (forall n, recipe = Some n -> exists c, recipes n = Some c /\ (c < length (w_comps w))%nat) ->
  exists o' w1, get_offer recipes cap recipe o w = (Ok o', w1) /\ keeps w w1 /\ 0 < rs_qty o' /\
    length (w_comps w1) = length (w_comps w) /\ qmin (rs_qty o) cap <= rs_qty o'.
Proof.
  intros CP QP RC. unfold get_offer. destruct recipe as [n|].
  - destruct (RC n eq_refl) as (c & R & L). unfold get_recipe, bind. rewrite R. cbn [ret].
    destruct (untracked_made (qmin (rs_qty o) cap) c w L) as (w1 & U & MD & LC). unfold ret at 1. rewrite U.
    eexists; eexists. split; [reflexivity|]. split; [apply MD|]. split; [|split; [auto|apply Qle_refl]]. cbn. unfold qmin.
    destruct (Qltb_spec cap (rs_qty o)); lra.
  - exists o, w. split; auto. split; [apply keeps_refl|]. split; auto. split; auto. unfold qmin.
    destruct (Qltb_spec cap (rs_qty o)); lra.
Qed.

Lemma make_bids_forward t f cap recipe bps rs : nth_error fs t = Some f -> 0 < cap ->
  forall m w own bs,
  (forall n, recipe = Some n -> exists c, recipes n = Some c /\ (c < length (w_comps w))%nat) ->
  Forall (fun r => (r < length (m_reqs m))%nat /\ offered_commod f = Some (rq_commod (req_at m r)) /\
                   0 < rs_qty (rq_target (req_at m r))) rs ->
  m_reqs m = m_reqs m0 -> m_bports m = bps ++ [mkBP own bs []] -> own = None \/ own = Some t ->
  exists ops w1 m1 new own1 bs1, make_bids recipes place (length bps) t cap recipe rs m w = (Ok ops, w1) /\ keeps w w1 /\
    construct m ops = Some m1 /\
    m_reqs m1 = m_reqs m /\ m_rports m1 = m_rports m /\ x_rports m1 = x_rports m /\ x_bports m1 = x_bports m /\
    x_commod m1 = x_commod m /\
    m_bids m1 = m_bids m ++ new /\ m_bports m1 = bps ++ [mkBP own1 bs1 []] /\
    Forall (fun q => bid_ok q /\ bd_trader q = t) new /\
    (forall b, In b bs1 -> In b bs \/ (length (m_bids m) <= b < length (m_bids m) + length new)%nat) /\
    (forall b, In b bs -> In b bs1) /\
    (forall r, In r rs -> exists b q, In b bs1 /\ nth_error (m_bids m1) b = Some q /\ bd_trader q = t /\ bd_req q = r /\
       qmin (rs_qty (rq_target (req_at m0 r))) cap <= rs_qty (bd_offer q)).
Proof.
  intros N CP. induction rs as [|r rs IH]; intros m w own bs RC FR MQ BP OW.
  - cbn. exists [], w, m, [], own, bs. rewrite app_nil_r. split; auto. split; [apply keeps_refl|]. repeat split; auto. intros r [].
  - inversion FR as [|? ? (LR & OC & QP) FR']; subst. cbn [make_bids].
    destruct (offer_forward w cap recipe (rq_target (req_at m r)) CP QP RC) as (o & w1 & GO & K & OP & LC & GE).
    rewrite GO. unfold add_bid.
    assert (AT : bp_at m (length bps) = mkBP own bs []).
    { unfold bp_at. rewrite BP, app_nth2, Nat.sub_diag by lia. auto. }
    rewrite AT. cbn [bp_trader bp_bids bp_cons].
    assert (VF : verify own t = Ok (Some t)).
    { destruct OW; subst; cbn; auto. now rewrite Nat.eqb_refl. }
    rewrite VF. destruct (Qltb_spec 0 (rs_qty o)) as [_|X]; [|contradiction].
    set (nb := mkBid r o t (length bps) false None).
    set (pos := place (length (m_bids m))).
    set (m1 := set_bports _ _).
    assert (Q1 : m_reqs m1 = m_reqs m) by reflexivity.
    assert (B1 : m_bids m1 = m_bids m ++ [nb]) by reflexivity.
    assert (BP1 : m_bports m1 = bps ++ [mkBP (Some t) (insert_at pos (length (m_bids m)) bs) []]).
    { subst m1. cbn. rewrite BP. apply upd_last. }
    destruct (IH m1 w1 (Some t) (insert_at pos (length (m_bids m)) bs)) as
      (ops & w2 & m2 & new & own1 & bs1 & MB & K2 & C & E1 & E2 & E3 & E4 & E5 & E6 & E7 & E8 & E9 & E10 & E11); auto.
    { intros n R. destruct (RC n R) as (c & R' & L). exists c. split; auto. lia. }
    rewrite MB. eexists; exists w2, m2, (nb :: new), own1, bs1. split; [reflexivity|].
    split; [eapply keeps_trans; eauto|]. split; [|split; [congruence|]].
    + cbn [construct building existing andb]. rewrite BP, app_length.
      destruct (Nat.ltb_spec (length bps) (length bps + length [mkBP own bs []])) as [_|X]; [|cbn in X; lia].
      destruct (Nat.ltb_spec r (length (m_reqs m))) as [_|X]; [|lia]. cbn [andb xstep].
      unfold add_bid. rewrite AT. cbn [bp_trader bp_bids bp_cons]. rewrite VF.
      destruct (Qltb_spec 0 (rs_qty o)) as [_|X]; [|contradiction]. exact C.
    + split; [rewrite E2; reflexivity|]. split; [rewrite E3; reflexivity|]. split; [rewrite E4; reflexivity|].
      split; [rewrite E5; reflexivity|]. split; [rewrite E6, B1, <- app_assoc; reflexivity|]. split; [exact E7|].
      split; [|split; [|split]].
      * constructor; auto. split; auto. exists f. cbn. unfold req_at in *. rewrite MQ in *. repeat split; auto.
      * intros b I. apply E9 in I. rewrite B1, app_length in I. cbn in I. cbn [length].
        destruct I as [I|I]; [|right; lia]. apply in_insert in I. destruct I as [->|I]; [right; lia|auto].
      * intros b I. apply E10. apply insert_in. auto.
      * intros r' [<-|I]; [|apply E11; auto]. exists (length (m_bids m)), nb. split; [apply E10; apply insert_in; auto|].
        split; [rewrite E6, B1, <- app_assoc, nth_error_app2, Nat.sub_diag by lia; reflexivity|].
        split; auto. split; auto. unfold req_at in *. rewrite <- MQ. exact GE.
Qed.

Lemma bids_of_forward t f recipe m w owners :
  nth_error fs t = Some f -> forall commod, offered_commod f = Some commod -> 0 < offered_amount f ->
  (forall n, recipe = Some n -> exists c, recipes n = Some c /\ (c < length (w_comps w))%nat) ->
  Forall (fun q => 0 < rs_qty (rq_target q)) (m_reqs m0) ->
  (forall c r, In r (shown_for (x_commod m0) c) -> (r < length (m_reqs m0))%nat /\ rq_commod (req_at m0 r) = c) ->
  offered owners m ->
  exists ops ps w1 m1, bids_of recipes place t m commod (offered_amount f) recipe w = (Ok (ops, ps), w1) /\ keeps w w1 /\
    construct m ops = Some m1 /\ forallb (fun p => Nat.ltb p (length (m_bports m1))) ps = true /\
    exists owners1, offered owners1 (fold_left ctx_add_bport (nodup Nat.eq_dec ps) m1) /\
      (owners1 = owners \/ owners1 = owners ++ [t]) /\
      let m' := fold_left ctx_add_bport (nodup Nat.eq_dec ps) m1 in covered m' t /\ more_bids m m'.
Proof.
  intros N commod OC CP RC QP SH [Q1 Q2 Q3 Q4 Q5 Q6 Q7]. unfold bids_of.
  destruct (mfind String.eqb commod (x_commod m)) as [rs|] eqn:MF.
  2:{ exists [], [], w, m. split; auto. split; [apply keeps_refl|]. split; auto. split; auto. exists owners.
      split; [cbn; split; auto|]. split; auto. cbn. split; [|intros ? ? ? H; exact H].
      intros f' c r N' OC' I. assert (c = commod) by congruence. subst c. unfold shown_for in I. rewrite <- Q4, MF in I. destruct I. }
  assert (RS : Forall (fun r => (r < length (m_reqs m))%nat /\ offered_commod f = Some (rq_commod (req_at m r)) /\
                   0 < rs_qty (rq_target (req_at m r))) rs).
  { apply Forall_forall. intros r I. destruct (SH commod r) as (L & C).
    { unfold shown_for. rewrite <- Q4, MF. exact I. }
    unfold req_at in *. rewrite Q1. repeat split; auto; [congruence|]. rewrite Forall_forall in QP. apply QP. now apply nth_In. }
  destruct (make_bids_forward t f (offered_amount f) recipe (m_bports m) rs N CP (xstep m XNewBPort) w None [] RC RS Q1 eq_refl
    (or_introl eq_refl)) as (ops & w1 & m1 & new & own1 & bs1 & MB & K & C & E1 & E2 & E3 & E4 & E5 & E6 & E7 & E8 & E9 & _ & E11).
  rewrite MB. unfold cc_new. destruct (Qleb_spec (offered_amount f) 0); [lra|].
  assert (AT : bp_at m1 (length (m_bports m)) = mkBP own1 bs1 []).
  { unfold bp_at. rewrite E7, app_nth2, Nat.sub_diag by lia. auto. }
  set (m2 := set_bports m1 (m_bports m ++ [mkBP own1 bs1 [mkC (offered_amount f) CTrivial]])).
  exists (XNewBPort :: ops ++ [XBCons (length (m_bports m)) (offered_amount f) CTrivial 0]), [length (m_bports m)], w1, m2.
  split; [reflexivity|]. split; [auto|].
  split.
  { cbn [construct building existing andb]. 
    assert (CA : forall a b m, construct m (a ++ b) = match construct m a with Some m' => construct m' b | None => None end).
    { clear. induction a as [|o a IH]; intros b m; cbn; auto. destruct (building o && existing m o); auto. }
    rewrite CA, C. cbn [construct building existing andb xstep]. rewrite E7, app_length.
    destruct (Nat.ltb_spec (length (m_bports m)) (length (m_bports m) + length [mkBP own1 bs1 []])) as [_|X]; [|cbn in X; lia].
    cbn [andb]. unfold add_bcons, cc_new. destruct (Qleb_spec (offered_amount f) 0); [lra|].
    rewrite AT, E7. cbn [snd bp_trader bp_bids bp_cons insert_at]. rewrite upd_last. reflexivity. }
  split; [cbn; rewrite app_length; cbn; rewrite andb_true_r; apply Nat.ltb_lt; lia|].
  exists (owners ++ [t]). cbn [nodup fold_left]. 
  destruct (in_dec Nat.eq_dec (length (m_bports m)) []) as [[]|_]. cbn [fold_left].
  unfold ctx_add_bport. set (m2' := mkM _ _ _ _ _ (x_bports m2 ++ _) _ _ _ _ _).
  destruct (fold_ctx_b_frame (bp_bids (bp_at m2 (length (m_bports m)))) m2') as ((S1 & S2 & S3 & S4) & XR & XB & XC & _).
  set (m3 := fold_left ctx_add_bid _ m2') in *.
  assert (MB3 : m_bids m3 = m_bids m ++ new) by (rewrite S3; cbn; exact E6).
  assert (MP3 : m_bports m3 = m_bports m ++ [mkBP own1 bs1 [mkC (offered_amount f) CTrivial]]) by (rewrite S4; reflexivity).
  cbn zeta. split; [|split; [auto|split]].
  2:{ intros f' c r N' OC' I. assert (f' = f) by congruence. subst f'. assert (c = commod) by congruence. subst c.
      unfold shown_for in I. rewrite <- Q4, MF in I. destruct (E11 r I) as (b & q & B1 & B2 & B3 & B4 & B5).
      exists (length (m_bports m)), (mkBP own1 bs1 [mkC (offered_amount f) CTrivial]), b, q.
      rewrite MP3, nth_error_app2, Nat.sub_diag by lia. rewrite E6 in B2. rewrite MB3. auto 8. }
  2:{ eapply more_app; eauto. }
  split.
  - rewrite S1. cbn. rewrite E1. exact Q1.
  - rewrite S2. cbn. rewrite E2. exact Q2.
  - rewrite XR. cbn. rewrite E3. exact Q3.
  - rewrite XC. cbn. rewrite E5. exact Q4.
  - rewrite MB3. apply Forall_app. split; auto. eapply Forall_impl; [|exact E8]. cbn; tauto.
  - rewrite MP3. apply Forall2_app.
    + eapply Forall2_mono; [|exact Q6]. intros. eapply bport_more; eauto.
    + constructor; [|constructor]. exists f. cbn [bp_cons bp_bids]. repeat split; auto; [congruence|].
      apply Forall_forall. intros b I. apply E9 in I. destruct I as [[]|I]. cbn in I.
      rewrite MB3, app_length. split; [lia|]. unfold bid_at. rewrite MB3, app_nth2 by lia.
      rewrite Forall_forall in E8. apply E8. apply nth_In. lia.
  - rewrite XB, MP3. cbn. rewrite E4. cbn. rewrite Q7, app_length, seq_app. reflexivity.
Qed.

Lemma bids_forward t f m w owners :
  nth_error fs t = Some f -> set_up recipes f ->
  (forall n c, recipes n = Some c -> (c < length (w_comps w))%nat) ->
  Forall (fun q => 0 < rs_qty (rq_target q)) (m_reqs m0) ->
  (forall c r, In r (shown_for (x_commod m0) c) -> (r < length (m_reqs m0))%nat /\ rq_commod (req_at m0 r) = c) ->
  offered owners m ->
  exists m1 ev w1, add_bids state (fac_bids recipes place) t m (w, fs) = (Ok m1, (ev, (w1, fs))) /\ keeps w w1 /\
    exists owners1, offered owners1 m1 /\ (owners1 = owners \/ owners1 = owners ++ [t]) /\ covered m1 t /\ more_bids m m1.
Proof.
  intros N SU RC QP SH OF. unfold add_bids, fac_bids. rewrite N. destruct f as [s|s|k].
  - destruct SU as (CP & RE).
    destruct (bids_of_forward t (FSource s) (recipe_of s) m w owners N (so_commod s) eq_refl CP) as
      (ops & ps & w1 & m1 & B & K & C & FB & OF1); auto.
    { intros n. unfold recipe_of, is_empty. destruct RE as [->|(c & R)]; [discriminate|].
      destruct (String.eqb (so_recipe s) ""); [discriminate|]. intros H. injection H as <-. eauto. }
    cbn [offered_amount] in B. rewrite B, C, FB. eexists; eexists; eexists. split; [reflexivity|]. auto.
  - cbn. exists m. eexists; eexists. split; [reflexivity|]. split; [apply keeps_refl|].
    exists owners. split; auto. split; auto. split; [|intros ? ? ? H; exact H]. intros f' c r N' OC'.
    assert (f' = FSink s) by congruence. subst f'. discriminate.
  - destruct SU as (CP & c & R).
    destruct (bids_of_forward t (FK k) (Some (k_recipe k)) m w owners N (k_out k) eq_refl CP) as
      (ops & ps & w1 & m1 & B & K & C & FB & OF1); auto.
    { intros n H. injection H as <-. eauto. }
    cbn [offered_amount] in B. rewrite B, C, FB. eexists; eexists; eexists. split; [reflexivity|]. auto.
Qed.

Lemma all_bids_forward l : forall w m owners,
  (forall n c, recipes n = Some c -> (c < length (w_comps w))%nat) ->
  (forall t f, nth_error fs t = Some f -> set_up recipes f) ->
  Forall (fun q => 0 < rs_qty (rq_target q)) (m_reqs m0) ->
  (forall c r, In r (shown_for (x_commod m0) c) -> (r < length (m_reqs m0))%nat /\ rq_commod (req_at m0 r) = c) ->
  Forall (fun t => (t < length fs)%nat) l -> NoDup (owners ++ l) -> offered owners m ->
  exists m1 ev w1, for_each state (add_bids state (fac_bids recipes place)) l m (w, fs) = (Ok m1, (ev, (w1, fs))) /\
    keeps w w1 /\ (exists owners1, NoDup owners1 /\ offered owners1 m1) /\ (forall t, In t l -> covered m1 t) /\ more_bids m m1.
Proof.
  induction l as [|t l IH]; intros w m owners RC SU QP SH FL ND OF.
  - cbn. exists m, [], w. split; auto. split; [apply keeps_refl|]. split; [exists owners; rewrite app_nil_r in ND; auto|].
    split; [intros ? []|intros ? ? ? H; exact H].
  - inversion FL as [|? ? LT FL']; subst.
    destruct (nth_error fs t) as [f|] eqn:N; [|apply nth_error_None in N; lia].
    destruct (bids_forward t f m w owners N (SU t f N) RC QP SH OF) as (m1 & ev & w1 & A & K & owners1 & OF1 & OW & CV & MO).
    destruct (IH w1 m1 owners1) as (m2 & ev2 & w2 & A2 & K2 & OF2 & CV2 & MO2); auto.
    { intros n c R. apply RC in R. pose proof (kp_comps _ _ K). lia. }
    { destruct OW as [->| ->]; [apply NoDup_remove_1 in ND; auto|now rewrite <- app_assoc]. }
    cbn [for_each]. rewrite A, A2. exists m2, (ev ++ ev2), w2. split; auto. split; [eapply keeps_trans; eauto|]. split; auto.
    split; [|intros ? ? ? H; apply MO2, MO, H]. intros t' [<-|I]; auto. eapply covered_more; eauto.
Qed.
End CollectB.
