(** Collecting bids from traders that mind their own business. *)
From Coq Require Import String QArith List Bool Arith ZArith Lia Sorted.
From Verif Require Import Base GreedyModel GreedySpec ExchangeModel ExchangeSpec ExchangeProofs1 ExchangeProofs2
  ExchangeProofs6 TradeModel DreModel DreSpec DreProofs1 DreProofs2.
Import ListNotations.
Open Scope Q_scope.

Lemma bp_at_upd_other l p q x : p <> q -> nth q (upd l p x) bport0 = nth q l bport0.
Proof.
  intros N. destruct (nth_error l q) eqn:E.
  - rewrite (nth_error_nth _ _ _ E). apply nth_error_nth. now rewrite nth_upd_other.
  - rewrite !nth_overflow; auto.
    + now apply nth_error_None.
    + rewrite upd_length. now apply nth_error_None.
Qed.
Lemma bp_at_set m p bp q : (p < length (m_bports m))%nat ->
  bp_at (set_bports m (upd (m_bports m) p bp)) q = if Nat.eqb p q then bp else bp_at m q.
Proof.
  intros L. unfold bp_at. cbn. destruct (Nat.eqb_spec p q) as [->|N].
  - apply nth_error_nth. now apply nth_upd_same.
  - now apply bp_at_upd_other.
Qed.
Lemma in_bp_lt m p b : xinv m -> In b (bp_bids (bp_at m p)) -> (p < length (m_bports m))%nat /\ (b < length (m_bids m))%nat.
Proof.
  intros I H. destruct (Nat.lt_ge_cases p (length (m_bports m))) as [L|L].
  - split; auto. destruct (bp_at_ok m p I L) as [_ [A _]]. now apply A.
  - unfold bp_at in H. rewrite nth_overflow in H by auto. destruct H.
Qed.

(** ** What one bid answer does *)
Record grows_b (n : nat) (m m' : market) : Prop := mkGB {
  gb_xr : x_rports m' = x_rports m; gb_xb : x_bports m' = x_bports m;
  gb_xq : x_requesters m' = x_requesters m; gb_xc : x_commod m' = x_commod m;
  gb_xbb : x_bbr m' = x_bbr m; gb_xp : x_prefs m' = x_prefs m;
  gb_rp : m_rports m' = m_rports m; gb_rq : m_reqs m' = m_reqs m;
  gb_len : (length (m_bports m) <= length (m_bports m'))%nat;
  gb_blen : (length (m_bids m) <= length (m_bids m'))%nat;
  gb_old : forall p, (p < n)%nat -> bp_at m' p = bp_at m p;
  gb_bid : forall b, (b < length (m_bids m))%nat -> bid_at m' b = bid_at m b }.
Lemma grows_b_trans n a b c : grows_b n a b -> grows_b n b c -> grows_b n a c.
Proof.
  intros A B. destruct A, B. constructor; try congruence; try lia.
  - intros p L. rewrite gb_old1; auto.
  - intros r L. rewrite gb_bid1; auto. lia.
Qed.
(** The new bids are by [t] and answer requests of [table]. *)
Definition mine_b (t n : nat) (table : list (string * list nat)) (m : market) : Prop :=
  forall p b, (n <= p)%nat -> In b (bp_bids (bp_at m p)) ->
    bd_trader (bid_at m b) = t /\ exists c, In (bd_req (bid_at m b)) (shown_for table c).
Lemma set_bport_grows n m p bp : (n <= p)%nat -> grows_b n m (set_bports m (upd (m_bports m) p bp)).
Proof.
  intros L. constructor; cbn; auto.
  - now rewrite upd_length.
  - intros q Q0. unfold bp_at. cbn. apply bp_at_upd_other. lia.
Qed.
Lemma own_bid_step t n table m o : xinv m -> (n <= length (m_bports m))%nat -> own_bid t n table o -> xvalid m o ->
  mine_b t n table m -> grows_b n m (xstep m o) /\ mine_b t n table (xstep m o).
Proof.
  intros XI LN OW V MI. destruct o; cbn [own_bid] in OW; try contradiction; cbn [xstep xvalid] in *.
  - assert (RA : forall p, bp_bids (bp_at (set_bports m (m_bports m ++ [bport0])) p) = bp_bids (bp_at m p)).
    { intros p. unfold bp_at. cbn. destruct (Nat.lt_ge_cases p (length (m_bports m))) as [L|L].
      - now rewrite app_nth1.
      - rewrite app_nth2 by auto. rewrite (nth_overflow (m_bports m)) by auto.
        destruct (p - length (m_bports m))%nat as [|[|k]]; reflexivity. }
    split.
    + constructor; cbn; auto.
      * rewrite app_length; lia.
      * intros p L. unfold bp_at. cbn. now rewrite app_nth1 by lia.
    + intros p r L I. rewrite RA in I. exact (MI p r L I).
  - destruct OW as [L [-> [c0 SH]]]. destruct V as [V VR]. unfold add_bid.
    set (m1 := set_bids m (m_bids m ++ [mkBid r offer t p excl pref])).
    assert (RQ : forall b, (b < length (m_bids m))%nat -> bid_at m1 b = bid_at m b).
    { intros b LB. unfold bid_at, m1. cbn. now rewrite app_nth1. }
    assert (RN : bid_at m1 (length (m_bids m)) = mkBid r offer t p excl pref).
    { unfold bid_at, m1. cbn. rewrite app_nth2, Nat.sub_diag by lia. reflexivity. }
    assert (G1 : grows_b n m m1).
    { constructor; cbn; auto. rewrite app_length; lia. }
    assert (M1 : mine_b t n table m1).
    { intros q b LQ I. destruct (in_bp_lt m q b XI I) as [_ LR]. rewrite RQ by auto. exact (MI q b LQ I). }
    destruct (verify (bp_trader (bp_at m p)) t) as [own|e|] eqn:VE; cbn [snd]; auto.
    destruct (Qltb 0 (rs_qty offer)); cbn [snd].
    + split.
      * eapply grows_b_trans; [exact G1|]. now apply set_bport_grows.
      * intros q b LQ I. change (bid_at (set_bports m1 _) b) with (bid_at m1 b).
        rewrite bp_at_set in I by exact V. destruct (Nat.eqb_spec p q) as [->|N].
        -- cbn in I. apply insert_at_in in I as [->|I]; [rewrite RN; cbn; eauto|]. exact (M1 q b LQ I).
        -- exact (M1 q b LQ I).
    + split.
      * eapply grows_b_trans; [exact G1|]. now apply set_bport_grows.
      * intros q b LQ I. change (bid_at (set_bports m1 _) b) with (bid_at m1 b).
        rewrite bp_at_set in I by exact V. destruct (Nat.eqb_spec p q) as [->|N]; exact (M1 q b LQ I).
  - unfold add_bcons. destruct (cc_new cap cv) as [c|e|]; cbn [snd]; [|split; auto; constructor; auto|split; auto; constructor; auto].
    split; [now apply set_bport_grows|].
    intros q r LQ I. change (bid_at (set_bports m _) r) with (bid_at m r).
    rewrite bp_at_set in I by exact V. destruct (Nat.eqb_spec p q) as [->|N]; exact (MI q r LQ I).
Qed.
Lemma own_bid_construct t n table ops : forall m m', xreach m -> (n <= length (m_bports m))%nat ->
  Forall (own_bid t n table) ops -> mine_b t n table m -> construct m ops = Some m' ->
  grows_b n m m' /\ mine_b t n table m'.
Proof.
  induction ops as [|o ops IH]; intros m m' R L F M E; simpl in E.
  - injection E as <-. split; [constructor; auto|auto].
  - destruct (building o) eqn:B; [|discriminate]. destruct (existing m o) eqn:X; [|discriminate].
    apply existing_valid in X. assert (F1 := Forall_inv F). assert (F2 := Forall_inv_tail F).
    destruct (own_bid_step t n table m o (xreach_inv m R) L F1 X M) as [G1 M1].
    destruct (IH (xstep m o) m') as [G2 M2]; auto; [now constructor|destruct G1; lia|].
    split; [eapply grows_b_trans; eauto|auto].
Qed.

(** ** Adding a portfolio of bids to the exchange *)
Definition add_one_b (m : market) (p : nat) : market :=
  mkM (m_reqs m) (m_rports m) (m_bids m) (m_bports m) (x_rports m) (x_bports m ++ [p])
         (x_requesters m) (x_bidders m) (x_commod m) (x_bbr m) (x_prefs m).
Lemma fold_ctx_b_frame l : forall m, let m' := fold_left ctx_add_bid l m in
  same_heaps m m' /\ x_rports m' = x_rports m /\ x_bports m' = x_bports m /\ x_commod m' = x_commod m /\
  x_requesters m' = x_requesters m /\
  (x_bbr m' = [] <-> x_bbr m = [] /\ l = []).
Proof.
  induction l as [|r l IH]; intros m; simpl; [repeat split; auto; intros [A _]; auto|].
  destruct (IH (ctx_add_bid m r)) as [A [B [C [D [E F]]]]].
  split; [exact A|]. split; [exact B|]. split; [exact C|]. split; [exact D|]. split; [exact E|].
  rewrite F. unfold ctx_add_bid. cbn [x_bbr]. split.
  - intros [K _]. exfalso. destruct (x_bbr m) as [|[k v] t]; cbn in K; [discriminate|].
    destruct (Nat.eqb (bd_req (bid_at m r)) k); discriminate.
  - intros [_ K]; discriminate.
Qed.
Definition frozen (m0 m : market) : Prop :=
  m_reqs m = m_reqs m0 /\ m_rports m = m_rports m0 /\ x_rports m = x_rports m0 /\
  x_commod m = x_commod m0 /\ x_requesters m = x_requesters m0.
Record binv (m0 m : market) : Prop := mkBI {
  bi_steps : xsteps market0 m;
  bi_frozen : frozen m0 m;
  bi_nodup : NoDup (x_bports m);
  bi_known : forall b, In b (all_bids m) -> known m b;
  bi_bbr : x_bbr m = [] <-> all_bids m = [] }.
Lemma bi_reach m0 m : binv m0 m -> xreach m.
Proof. intros R. eapply xsteps_reach; [constructor|apply R]. Qed.
Lemma bi_pinv m0 m : binv m0 m -> pinv m.
Proof. intros R. exact (proj1 (steps_known _ _ (bi_steps _ _ R) xreach0 pinv0)). Qed.
Lemma all_bids_same m m' : x_bports m' = x_bports m -> (forall p, In p (x_bports m) -> bp_at m' p = bp_at m p) ->
  all_bids m' = all_bids m.
Proof.
  intros E H. unfold all_bids. rewrite E. clear E. induction (x_bports m) as [|p l IH]; simpl; auto.
  rewrite (H p) by (simpl; auto). f_equal. apply IH. intros q I. apply H. now right.
Qed.
Lemma binv_grow m0 m m' : binv m0 m -> grows_b (length (m_bports m)) m m' -> xsteps m m' -> binv m0 m'.
Proof.
  intros R G ST. assert (XR := bi_reach _ _ R). assert (XI := xreach_inv m XR). assert (PI := bi_pinv _ _ R).
  destruct (steps_known _ _ ST XR PI) as [_ [KN _]]. destruct G.
  assert (AR : all_bids m' = all_bids m).
  { apply all_bids_same; auto. intros p I. apply gb_old0. assert (F := xi_xb m XI). rewrite Forall_forall in F. auto. }
  destruct R. constructor.
  - eapply xsteps_trans; eauto.
  - destruct bi_frozen0 as [A [B [C [D E]]]]. repeat split; congruence.
  - congruence.
  - intros b I. rewrite AR in I. auto.
  - now rewrite AR, gb_xbb0.
Qed.
Lemma binv_add m0 m p : binv m0 m -> (p < length (m_bports m))%nat -> ~ In p (x_bports m) ->
  let m' := ctx_add_bport m p in
  binv m0 m' /\ same_heaps m m' /\ x_bports m' = x_bports m ++ [p].
Proof.
  intros R V N. assert (XR := bi_reach _ _ R). assert (XI := xreach_inv m XR). assert (PI := bi_pinv _ _ R).
  assert (ST : xsteps m (xstep m (XCtxB p))) by (apply xsteps_one; [exact I|exact V]).
  destruct (steps_known _ _ ST XR PI) as [_ [KN _]].
  assert (KP := ctxb_known m p XI PI V). cbn [xstep] in *.
  unfold ctx_add_bport in *. fold (add_one_b m p) in *.
  destruct (fold_ctx_b_frame (bp_bids (bp_at m p)) (add_one_b m p)) as [SH [E1 [E2 [E3 [E4 E5]]]]].
  set (m' := fold_left ctx_add_bid (bp_bids (bp_at m p)) (add_one_b m p)) in *.
  assert (SH' : same_heaps m m') by exact SH.
  assert (SP : forall q, bp_at m' q = bp_at m q) by (intros q; unfold bp_at; destruct SH' as [_ [_ [_ ->]]]; reflexivity).
  assert (AR : all_bids m' = all_bids m ++ bp_bids (bp_at m p)).
  { unfold all_bids. rewrite E2. cbn [x_bports add_one_b]. rewrite flat_map_app. simpl. rewrite app_nil_r, SP.
    f_equal. apply flat_map_ext. intros q. now rewrite SP. }
  split; [|split; auto].
  destruct R. constructor.
  - eapply xsteps_trans; eauto.
  - destruct bi_frozen0 as [A [B [C [D E]]]]. destruct SH' as [F1 [F2 [F3 F4]]].
    split; [congruence|]. split; [congruence|]. split; [rewrite E1; exact C|]. split; [rewrite E3; exact D|rewrite E4; exact E].
  - rewrite E2. cbn. apply NoDup_app_one; auto.
  - intros b I. rewrite AR in I. apply in_app_or in I as [I|I]; auto.
  - rewrite E5, AR. cbn [x_bbr add_one_b]. rewrite bi_bbr0. split.
    + intros [-> ->]. reflexivity.
    + intros K. now apply app_eq_nil in K.
Qed.
Lemma binv_add_all m0 ps : forall m, binv m0 m -> Forall (fun p => (p < length (m_bports m))%nat) ps ->
  NoDup ps -> (forall p, In p ps -> ~ In p (x_bports m)) ->
  let m' := fold_left ctx_add_bport ps m in
  binv m0 m' /\ same_heaps m m' /\ x_bports m' = x_bports m ++ ps.
Proof.
  induction ps as [|p ps IH]; intros m R F D N; simpl; [split; [exact R|split; [repeat split|now rewrite app_nil_r]]|].
  assert (F1 := Forall_inv F). assert (F2 := Forall_inv_tail F). apply NoDup_cons_iff in D as [D1 D2].
  destruct (binv_add m0 m p R F1) as [R1 [SH1 X1]]; [apply N; simpl; auto|].
  destruct (IH (ctx_add_bport m p)) as [R2 [SH2 X2]]; auto.
  - destruct SH1 as [_ [_ [_ ->]]]. exact F2.
  - intros q I. rewrite X1, in_app_iff. intros [K|[->|[]]]; [|auto]. apply (N q); simpl; auto.
  - split; auto. split.
    + destruct SH1 as [A1 [B1 [C1 D1']]], SH2 as [A2 [B2 [C2 D2']]]. repeat split; congruence.
    + rewrite X2, X1, <- app_assoc. reflexivity.
Qed.

Section Bids.
Variable S : Type.
Variable get_bids : nat -> market -> S -> result (list xop * list nat) * S.
Hypothesis FAIR : fair_bidder get_bids.
Variable m0 : market.

(** Whose bids are in the portfolios returned, and that they answer what was shown. *)
Definition owned_b (m : market) (ev : list call) : Prop :=
  forall t sh ps, In (VBids t sh ps) ev -> sh = x_commod m0 /\
    forall p b, In p ps -> In b (bp_bids (bp_at m p)) ->
      bd_trader (bid_at m b) = t /\ exists c, In (bd_req (bid_at m b)) (shown_for sh c).
Definition bstate (dn : list nat) (m : market) (ev : list call) : Prop :=
  binv m0 m /\ x_bports m = bid_replies ev /\ request_replies ev = [] /\ owned_b m ev /\
  (forall t sh ps, In (VBids t sh ps) ev -> Forall (fun p => (p < length (m_bports m))%nat) ps) /\
  (forall c, In c ev -> exists t ps, c = VBids t (x_commod m0) ps).

Lemma add_bids_state t dn m s ev m1 ev1 s1 : bstate dn m ev ->
  add_bids S get_bids t m s = (Ok m1, (ev1, s1)) -> bstate (dn ++ [t]) m1 (ev ++ ev1).
Proof.
  unfold add_bids. intros [R [X [BR [OW [LT AL]]]]].
  destruct (get_bids t m s) as [[[ops ps]|e|] sa] eqn:G; try discriminate.
  destruct (construct m ops) as [mb|] eqn:C; [|discriminate].
  destruct (forallb _ ps) eqn:F; [|discriminate]. intros E. injection E as <- <- <-.
  destruct (FAIR _ _ _ _ _ _ G) as [OP PS].
  assert (RM := bi_reach _ m R). assert (XI := xreach_inv m RM).
  assert (XC : x_commod m = x_commod m0) by (apply (bi_frozen _ _ R)).
  assert (MI : mine_b t (length (m_bports m)) (x_commod m) m).
  { intros p r L I. destruct (in_bp_lt m p r XI I). lia. }
  destruct (own_bid_construct t _ _ ops m mb RM (le_n _) OP MI C) as [GR MI2].
  assert (RI := binv_grow m0 m mb R GR (construct_steps _ _ _ C)).
  assert (FX := xi_xb m XI). rewrite Forall_forall in FX.
  set (qs := nodup Nat.eq_dec ps) in *.
  assert (FQ : Forall (fun p => (p < length (m_bports mb))%nat) qs).
  { apply nodup_forall. apply Forall_forall. intros p I. rewrite forallb_forall in F. apply F in I. now apply Nat.ltb_lt. }
  assert (GQ : forall p, In p qs -> (length (m_bports m) <= p)%nat).
  { intros p I. apply nodup_In in I. rewrite Forall_forall in PS. auto. }
  destruct (binv_add_all m0 qs mb RI FQ) as [R2 [SH2 X2]].
  - apply NoDup_nodup.
  - intros p I K. rewrite (gb_xb _ _ _ GR) in K. apply FX in K. apply GQ in I. lia.
  - destruct (same_heaps_at _ _ SH2) as [SB _].
    assert (SP : forall q, bp_at (fold_left ctx_add_bport qs mb) q = bp_at mb q)
      by (intros q; unfold bp_at; destruct SH2 as [_ [_ [_ ->]]]; reflexivity).
    split; auto. split; [|split; [|split; [|split]]].
    + rewrite X2, (gb_xb _ _ _ GR), X. unfold bid_replies. rewrite flat_map_app. simpl. now rewrite app_nil_r.
    + unfold request_replies in *. rewrite flat_map_app, BR. reflexivity.
    + intros t0 sh0 ps0 I. apply in_app_or in I as [I|[I|[]]].
      * destruct (OW _ _ _ I) as [O1 O2]. split; auto. intros p b Ip Ib. rewrite SP in Ib. rewrite !SB.
        assert (L := LT _ _ _ I). rewrite Forall_forall in L. assert (Lp := L p Ip).
        rewrite (gb_old _ _ _ GR p Lp) in Ib. destruct (in_bp_lt m p b XI Ib) as [_ Lr].
        rewrite !(gb_bid _ _ _ GR b Lr). eapply O2; eauto.
      * injection I as <- <- <-. split; auto. intros p b Ip Ib. rewrite SP in Ib. rewrite !SB. apply (MI2 p b); auto.
    + intros t0 sh0 ps0 I. destruct SH2 as [_ [_ [_ ->]]]. apply in_app_or in I as [I|[I|[]]].
      * eapply Forall_impl; [|exact (LT _ _ _ I)]. intros p L. cbn in L. assert (K := gb_len _ _ _ GR). lia.
      * injection I as <- <- <-. exact FQ.
    + intros c I. apply in_app_or in I as [I|[I|[]]]; auto. rewrite XC in I. eauto.
Qed.
Lemma bids_collected l s m ev s1 : rinv m0 -> m_bports m0 = [] ->
  for_each S (add_bids S get_bids) l m0 s = (Ok m, (ev, s1)) ->
  bstate l m ev.
Proof.
  intros R0 B0 E. apply (for_each_ok S _ bstate add_bids_state l [] m0 s [] m ev s1); auto.
  destruct R0 as [H1 H2 H3 H4 H5 H6 H7]. assert (AB : all_bids m0 = []) by (unfold all_bids; now rewrite H3).
  split.
  - constructor; auto.
    + repeat split.
    + rewrite H3. constructor.
    + rewrite AB. intros b [].
    + rewrite AB, H4. tauto.
  - rewrite H3. split; [reflexivity|]. split; [reflexivity|]. split; [intros ? ? ? []|]. split; [intros ? ? ? []|intros ? []].
Qed.
End Bids.
