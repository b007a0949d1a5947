(** Collecting requests from traders that mind their own business. *)
From Coq Require Import String QArith List Bool Arith ZArith Lia Sorted.
From Verif Require Import Base GreedyModel GreedySpec ExchangeModel ExchangeSpec ExchangeProofs1 ExchangeProofs2
  ExchangeProofs6 TradeModel DreModel DreSpec DreProofs1.
Import ListNotations.
Open Scope Q_scope.

Lemma existing_valid m o : existing m o = true -> xvalid m o.
Proof.
  destruct o; simpl; auto; rewrite ?andb_true_iff, ?Nat.ltb_lt; auto.
  intros [A B]. split; auto. apply Forall_forall. intros r I. rewrite forallb_forall in B.
  apply B in I. apply existsb_exists in I as [x [I1 I2]]. apply Nat.eqb_eq in I2. now subst.
Qed.
Lemma building_no_adjust o : building o = true -> no_adjust o.
Proof. destruct o; simpl; auto; discriminate. Qed.
Lemma xsteps_trans a b c : xsteps a b -> xsteps b c -> xsteps a c.
Proof. induction 1; intros; auto. econstructor; eauto. Qed.
Lemma xsteps_one m o : no_adjust o -> xvalid m o -> xsteps m (xstep m o).
Proof. intros. econstructor; eauto. constructor. Qed.
Lemma construct_steps ops : forall m m', construct m ops = Some m' -> xsteps m m'.
Proof.
  induction ops as [|o ops IH]; intros m m' E; simpl in E; [injection E as <-; constructor|].
  destruct (building o) eqn:B; [|discriminate]. destruct (existing m o) eqn:X; [|discriminate].
  apply (xstepsS m o m'); [now apply building_no_adjust|now apply existing_valid|]. now apply IH.
Qed.

(** ** What one request answer does *)
Record grows_r (t n : nat) (m m' : market) : Prop := mkGR {
  gr_xr : x_rports m' = x_rports m; gr_xb : x_bports m' = x_bports m;
  gr_xq : x_requesters m' = x_requesters m; gr_xc : x_commod m' = x_commod m;
  gr_xbb : x_bbr m' = x_bbr m; gr_xp : x_prefs m' = x_prefs m;
  gr_bp : m_bports m' = m_bports m; gr_bd : m_bids m' = m_bids m;
  gr_len : (length (m_rports m) <= length (m_rports m'))%nat;
  gr_rlen : (length (m_reqs m) <= length (m_reqs m'))%nat;
  gr_old : forall p, (p < n)%nat -> rp_at m' p = rp_at m p;
  gr_req : forall r, (r < length (m_reqs m))%nat -> req_at m' r = req_at m r }.
Lemma grows_r_trans t n a b c : grows_r t n a b -> grows_r t n b c -> grows_r t n a c.
Proof.
  intros A B. destruct A, B. constructor; try congruence; try lia.
  - intros p L. rewrite gr_old1; auto.
  - intros r L. rewrite gr_req1; auto. lia.
Qed.
Lemma rp_at_upd_other l p q x : p <> q -> nth q (upd l p x) rport0 = nth q l rport0.
Proof.
  intros N. destruct (nth_error l q) eqn:E.
  - rewrite (nth_error_nth _ _ _ E). apply nth_error_nth. now rewrite nth_upd_other.
  - rewrite !nth_overflow; auto.
    + now apply nth_error_None.
    + rewrite upd_length. now apply nth_error_None.
Qed.
Definition mine (t n : nat) (m : market) : Prop :=
  forall p r, (n <= p)%nat -> In r (rp_reqs (rp_at m p)) -> rq_trader (req_at m r) = t.
Lemma set_rport_grows t n m p rp : (n <= p)%nat -> (n <= length (m_rports m))%nat ->
  grows_r t n m (set_rports m (upd (m_rports m) p rp)).
Proof.
  intros L LN. constructor; cbn; auto.
  - now rewrite upd_length.
  - intros q Q0. unfold rp_at. cbn. apply rp_at_upd_other. lia.
Qed.
Lemma rp_at_set m p rp q : (p < length (m_rports m))%nat ->
  rp_at (set_rports m (upd (m_rports m) p rp)) q = if Nat.eqb p q then rp else rp_at m q.
Proof.
  intros L. unfold rp_at. cbn. destruct (Nat.eqb_spec p q) as [->|N].
  - apply nth_error_nth. now apply nth_upd_same.
  - now apply rp_at_upd_other.
Qed.
Lemma in_rp_lt m p r : xinv m -> In r (rp_reqs (rp_at m p)) -> (p < length (m_rports m))%nat /\ (r < length (m_reqs m))%nat.
Proof.
  intros I H. destruct (Nat.lt_ge_cases p (length (m_rports m))) as [L|L].
  - split; auto. destruct (rp_at_ok m p I L) as [_ [A _]]. now apply A.
  - unfold rp_at in H. rewrite nth_overflow in H by auto. destruct H.
Qed.
Lemma own_step t n m o : xinv m -> (n <= length (m_rports m))%nat -> own_request t n o -> xvalid m o -> mine t n m ->
  grows_r t n m (xstep m o) /\ mine t n (xstep m o).
Proof.
  intros XI LN OW V MI. destruct o; cbn [own_request] in OW; try contradiction; cbn [xstep xvalid] in *.
  - (* new portfolio *)
    assert (RA : forall p, rp_reqs (rp_at (set_rports m (m_rports m ++ [rport0])) p) = rp_reqs (rp_at m p)).
    { intros p. unfold rp_at. cbn. destruct (Nat.lt_ge_cases p (length (m_rports m))) as [L|L].
      - now rewrite app_nth1.
      - rewrite app_nth2 by auto. rewrite (nth_overflow (m_rports m)) by auto.
        destruct (p - length (m_rports m))%nat as [|[|k]]; reflexivity. }
    split.
    + constructor; cbn; auto.
      * rewrite app_length; lia.
      * intros p L. unfold rp_at. cbn. now rewrite app_nth1 by lia.
    + intros p r L I. rewrite RA in I. exact (MI p r L I).
  - (* add a request *)
    destruct OW as [L ->]. unfold add_request.
    set (m1 := set_reqs m (m_reqs m ++ [mkReq target t commod pref excl p])).
    assert (RQ : forall r, (r < length (m_reqs m))%nat -> req_at m1 r = req_at m r).
    { intros r LR. unfold req_at, m1. cbn. now rewrite app_nth1. }
    assert (RN : req_at m1 (length (m_reqs m)) = mkReq target t commod pref excl p).
    { unfold req_at, m1. cbn. rewrite app_nth2, Nat.sub_diag by lia. reflexivity. }
    assert (G1 : grows_r t n m m1).
    { constructor; cbn; auto. rewrite app_length; lia. }
    assert (M1 : mine t n m1).
    { intros q r LQ I. destruct (in_rp_lt m q r XI I) as [_ LR]. rewrite RQ by auto. exact (MI q r LQ I). }
    destruct (verify (rp_trader (rp_at m p)) t) as [own|e|] eqn:VE; cbn [snd]; auto.
    split.
    + eapply grows_r_trans; [exact G1|]. apply set_rport_grows; auto.
    + intros q r LQ I.
      change (req_at (set_rports m1 _) r) with (req_at m1 r).
      rewrite rp_at_set in I by exact V. destruct (Nat.eqb_spec p q) as [->|N].
      * cbn in I. apply in_app_or in I as [I|[<-|[]]]; [|now rewrite RN].
        exact (M1 q r LQ I).
      * exact (M1 q r LQ I).
  - (* mutual *)
    destruct V as [V _]. unfold add_mutual. destruct rs as [|r0 rs]; cbn [snd]; [split; auto; constructor; auto|].
    destruct (Qeqb _ 0); cbn [snd]; [split; auto; constructor; auto|].
    split; [now apply set_rport_grows|].
    intros q r LQ I. change (req_at (set_rports m _) r) with (req_at m r).
    rewrite rp_at_set in I by exact V. destruct (Nat.eqb_spec p q) as [->|N]; [|exact (MI q r LQ I)].
    apply (MI q r LQ). cbn [rp_reqs] in I.
    assert (K : forall l acc avg, rp_reqs (fold_left (fun acc r => let q := rs_qty (rq_target (req_at m r)) in
       mkRP (rp_trader acc) (rp_reqs acc) (nupd r (fun _ => q / avg) (rp_coeffs acc))
               (rp_cons acc) (rp_qty acc - q)) l acc) = rp_reqs acc).
    { induction l as [|x l IHl]; intros acc avg; simpl; auto. now rewrite IHl. }
    rewrite K in I. exact I.
  - (* constraint *)
    unfold add_rcons. destruct (cc_new cap cv) as [c|e|]; cbn [snd]; [|split; auto; constructor; auto|split; auto; constructor; auto].
    split; [now apply set_rport_grows|].
    intros q r LQ I. change (req_at (set_rports m _) r) with (req_at m r).
    rewrite rp_at_set in I by exact V. destruct (Nat.eqb_spec p q) as [->|N]; exact (MI q r LQ I).
Qed.
Lemma own_construct t n ops : forall m m', xreach m -> (n <= length (m_rports m))%nat ->
  Forall (own_request t n) ops -> mine t n m -> construct m ops = Some m' ->
  grows_r t n m m' /\ mine t n m' /\ xreach m'.
Proof.
  induction ops as [|o ops IH]; intros m m' R L F M E; simpl in E.
  - injection E as <-. split; [constructor; auto|auto].
  - destruct (building o) eqn:B; [|discriminate]. destruct (existing m o) eqn:X; [|discriminate].
    apply existing_valid in X. inversion F as [|? ? F1 F2]; subst.
    destruct (own_step t n m o (xreach_inv m R) L F1 X M) as [G1 M1].
    destruct (IH (xstep m o) m') as [G2 [M2 R2]]; auto; [now constructor|destruct G1; lia|].
    split; [eapply grows_r_trans; eauto|auto].
Qed.

(** ** Adding a portfolio to the exchange *)
Lemma commod_fold l : forall m c,
  shown_for (x_commod (fold_left ctx_add_request l m)) c =
  shown_for (x_commod m) c ++ filter (fun r => String.eqb (rq_commod (req_at m r)) c) l.
Proof.
  induction l as [|r l IH]; intros m c; simpl; [now rewrite app_nil_r|].
  rewrite IH. unfold ctx_add_request at 1. cbn [x_commod].
  assert (E : shown_for (mupd String.eqb (rq_commod (req_at m r)) (opush r) (x_commod m)) c =
              shown_for (x_commod m) c ++ (if String.eqb (rq_commod (req_at m r)) c then [r] else [])).
  { unfold shown_for. destruct (String.eqb_spec (rq_commod (req_at m r)) c) as [<-|N].
    - rewrite mfind_mupd_same by (apply String.eqb_eq). destruct (mfind _ _ _); reflexivity.
    - rewrite mfind_mupd_other by (try apply String.eqb_eq; auto). now rewrite app_nil_r. }
  rewrite E, <- app_assoc. f_equal.
  change (fun r0 => String.eqb (rq_commod (req_at (ctx_add_request m r) r0)) c)
    with (fun r0 => String.eqb (rq_commod (req_at m r0)) c).
  destruct (String.eqb _ c); reflexivity.
Qed.
Lemma requesters_in l : forall m t,
  In t (x_requesters (fold_left ctx_add_request l m)) <->
  In t (x_requesters m) \/ exists r, In r l /\ rq_trader (req_at m r) = t.
Proof.
  induction l as [|r l IH]; intros m t; simpl.
  - split; auto. intros [H|[r [[] _]]]; auto.
  - rewrite IH. unfold ctx_add_request at 1. cbn [x_requesters]. rewrite sins_in.
    change (fun r0 => In r0 l /\ rq_trader (req_at (ctx_add_request m r) r0) = t) with
           (fun r0 => In r0 l /\ rq_trader (req_at m r0) = t).
    split.
    + intros [[->|H]|[r0 [H1 H2]]]; eauto. 
    + intros [H|[r0 [[<-|H1] H2]]]; eauto.
Qed.
Definition add_one (m : market) (p : nat) : market :=
  mkM (m_reqs m) (m_rports m) (m_bids m) (m_bports m) (x_rports m ++ [p]) (x_bports m)
         (x_requesters m) (x_bidders m) (x_commod m) (x_bbr m) (x_prefs m).
Lemma fold_ctx_r_frame l : forall m, let m' := fold_left ctx_add_request l m in
  same_heaps m m' /\ x_rports m' = x_rports m /\ x_bports m' = x_bports m /\ x_bbr m' = x_bbr m /\ x_prefs m' = x_prefs m.
Proof.
  induction l as [|r l IH]; intros m; simpl; [repeat split|].
  destruct (IH (ctx_add_request m r)) as [A B]. exact (conj A B).
Qed.

Lemma NoDup_app_one {A} (l : list A) x : NoDup l -> ~ In x l -> NoDup (l ++ [x]).
Proof.
  induction 1 as [|y l N D IH]; intros H; simpl; [repeat constructor; auto|].
  constructor.
  - rewrite in_app_iff. intros [K|[->|[]]]; auto. apply H. simpl; auto.
  - apply IH. intros K. apply H. now right.
Qed.

(** ** The state of the exchange while requests are collected *)
Record rinv (m : market) : Prop := mkRI {
  ri_steps : xsteps market0 m;
  ri_nodup : NoDup (x_rports m);
  ri_xb : x_bports m = [];
  ri_bbr : x_bbr m = [];
  ri_prefs : x_prefs m = [];
  ri_shown : forall c, shown_for (x_commod m) c = posted m c;
  ri_req : forall t, In t (x_requesters m) <-> exists r, In r (all_reqs m) /\ rq_trader (req_at m r) = t }.
Lemma rinv0 : rinv market0.
Proof.
  constructor; try reflexivity; try constructor.
  - intros [].
  - intros [r [[] _]].
Qed.
Lemma ri_reach m : rinv m -> xreach m.
Proof. intros R. eapply xsteps_reach; [constructor|apply R]. Qed.

Lemma all_reqs_same m m' : x_rports m' = x_rports m -> (forall p, In p (x_rports m) -> rp_at m' p = rp_at m p) ->
  all_reqs m' = all_reqs m.
Proof.
  intros E H. unfold all_reqs. rewrite E. clear E. induction (x_rports m) as [|p l IH]; simpl; auto.
  rewrite (H p) by (simpl; auto). f_equal. apply IH. intros q I. apply H. now right.
Qed.
Lemma all_reqs_lt m r : xinv m -> In r (all_reqs m) -> (r < length (m_reqs m))%nat.
Proof. intros I H. apply in_flat_map in H as [p [_ H]]. now apply (in_rp_lt m p r I). Qed.
Lemma posted_same m m' c : all_reqs m' = all_reqs m -> (forall r, In r (all_reqs m) -> req_at m' r = req_at m r) ->
  posted m' c = posted m c.
Proof.
  intros E H. unfold posted. rewrite E. apply filter_ext_in. intros r I. now rewrite H.
Qed.
Lemma rinv_grow t m m' : rinv m -> grows_r t (length (m_rports m)) m m' -> xsteps m m' -> rinv m'.
Proof.
  intros R G ST. assert (XI := xreach_inv m (ri_reach m R)). destruct G.
  assert (AR : all_reqs m' = all_reqs m).
  { apply all_reqs_same; auto. intros p I. apply gr_old0. assert (F := xi_xr m XI). rewrite Forall_forall in F. auto. }
  assert (RQ : forall r, In r (all_reqs m) -> req_at m' r = req_at m r).
  { intros r I. apply gr_req0. now apply all_reqs_lt. }
  destruct R. constructor; try congruence.
  - eapply xsteps_trans; eauto.
  - intros c. rewrite gr_xc0, (posted_same m m' c); auto.
  - intros t0. rewrite gr_xq0, ri_req0, AR. split; intros [r [A B]]; exists r; split; auto.
    + now rewrite RQ.
    + now rewrite <- RQ.
Qed.
Lemma rinv_add m p : rinv m -> (p < length (m_rports m))%nat -> ~ In p (x_rports m) ->
  let m' := ctx_add_rport m p in
  rinv m' /\ same_heaps m m' /\ x_rports m' = x_rports m ++ [p].
Proof.
  intros R V N. unfold ctx_add_rport. fold (add_one m p).
  destruct (fold_ctx_r_frame (rp_reqs (rp_at m p)) (add_one m p)) as [SH [E1 [E2 [E3 E4]]]].
  assert (ST : xsteps m (xstep m (XCtxR p))) by (apply xsteps_one; [exact I|exact V]).
  cbn [xstep] in ST. unfold ctx_add_rport in ST. fold (add_one m p) in ST.
  set (m' := fold_left ctx_add_request (rp_reqs (rp_at m p)) (add_one m p)) in *.
  assert (SH' : same_heaps m m') by exact SH.
  destruct (same_heaps_at _ _ SH') as [SB [SR _]].
  assert (SP : forall q, rp_at m' q = rp_at m q) by (intros q; unfold rp_at; destruct SH' as [_ [-> _]]; reflexivity).
  assert (AR : all_reqs m' = all_reqs m ++ rp_reqs (rp_at m p)).
  { unfold all_reqs. rewrite E1. cbn [x_rports add_one]. rewrite flat_map_app. simpl. rewrite app_nil_r, SP.
    f_equal. apply flat_map_ext. intros q. now rewrite SP. }
  split; [|split; auto].
  destruct R. constructor.
  - eapply xsteps_trans; eauto.
  - rewrite E1. cbn. apply NoDup_app_one; auto.
  - rewrite E2. exact ri_xb0.
  - rewrite E3. exact ri_bbr0.
  - rewrite E4. exact ri_prefs0.
  - intros c. unfold m'. rewrite commod_fold. cbn [x_commod add_one]. rewrite ri_shown0. fold m'.
    unfold posted. rewrite AR, filter_app. f_equal.
    + apply filter_ext. intros r. now rewrite SR.
    + apply filter_ext. intros r. now rewrite SR.
  - intros t. unfold m'. rewrite requesters_in. cbn [x_requesters add_one]. rewrite ri_req0. fold m'. rewrite AR.
    split.
    + intros [[r [A B]]|[r [A B]]]; exists r; rewrite in_app_iff, SR; auto.
    + intros [r [A B]]. rewrite in_app_iff, SR in *. destruct A; eauto.
Qed.
Lemma rinv_add_all ps : forall m, rinv m -> Forall (fun p => (p < length (m_rports m))%nat) ps ->
  NoDup ps -> (forall p, In p ps -> ~ In p (x_rports m)) ->
  let m' := fold_left ctx_add_rport ps m in
  rinv m' /\ same_heaps m m' /\ x_rports m' = x_rports m ++ ps.
Proof.
  induction ps as [|p ps IH]; intros m R F D N; simpl; [split; [exact R|split; [repeat split|now rewrite app_nil_r]]|].
  assert (F1 := Forall_inv F). assert (F2 := Forall_inv_tail F). apply NoDup_cons_iff in D as [D1 D2].
  destruct (rinv_add m p R F1) as [R1 [SH1 X1]]; [apply N; simpl; auto|].
  destruct (IH (ctx_add_rport m p)) as [R2 [SH2 X2]]; auto.
  - destruct SH1 as [_ [-> _]]. exact F2.
  - intros q I. rewrite X1, in_app_iff. intros [K|[->|[]]]; [|auto]. apply (N q); simpl; auto.
  - split; auto. split.
    + destruct SH1 as [A1 [B1 [C1 D1']]], SH2 as [A2 [B2 [C2 D2']]]. repeat split; congruence.
    + rewrite X2, X1, <- app_assoc. reflexivity.
Qed.
Lemma nodup_forall (P : nat -> Prop) ps : Forall P ps -> Forall P (nodup Nat.eq_dec ps).
Proof. rewrite !Forall_forall. intros H x I. apply H. now apply nodup_In in I. Qed.

Section Requests.
Variable S : Type.
Variable get_requests : nat -> market -> S -> result (list xop * list nat) * S.
Hypothesis FAIR : fair_requester get_requests.

(** Whose requests are in the portfolios returned. *)
Definition owned_r (m : market) (ev : list call) : Prop :=
  forall t ps, In (VRequests t ps) ev -> forall p r, In p ps -> In r (rp_reqs (rp_at m p)) -> rq_trader (req_at m r) = t.
Definition rstate (dn : list nat) (m : market) (ev : list call) : Prop :=
  rinv m /\ x_rports m = request_replies ev /\ bid_replies ev = [] /\ owned_r m ev /\
  (forall t ps, In (VRequests t ps) ev -> Forall (fun p => (p < length (m_rports m))%nat) ps) /\
  m_bids m = [] /\ m_bports m = [].

Lemma add_requests_state t dn m s ev m1 ev1 s1 : rstate dn m ev ->
  add_requests S get_requests t m s = (Ok m1, (ev1, s1)) -> rstate (dn ++ [t]) m1 (ev ++ ev1).
Proof.
  unfold add_requests. intros [R [X [BR [OW [LT [EB EP]]]]]].
  destruct (get_requests t m s) as [[[ops ps]|e|] sa] eqn:G; try discriminate.
  destruct (construct m ops) as [mb|] eqn:C; [|discriminate].
  destruct (forallb _ ps) eqn:F; [|discriminate]. intros E. injection E as <- <- <-.
  destruct (FAIR _ _ _ _ _ _ G) as [OP PS].
  assert (RM := ri_reach m R). assert (XI := xreach_inv m RM).
  assert (MI : mine t (length (m_rports m)) m).
  { intros p r L I. destruct (in_rp_lt m p r XI I). lia. }
  destruct (own_construct t _ ops m mb RM (le_n _) OP MI C) as [GR [MI2 RB]].
  assert (RI := rinv_grow t m mb R GR (construct_steps _ _ _ C)).
  assert (FX := xi_xr m XI). rewrite Forall_forall in FX.
  set (qs := nodup Nat.eq_dec ps) in *.
  assert (FQ : Forall (fun p => (p < length (m_rports mb))%nat) qs).
  { apply nodup_forall. apply Forall_forall. intros p I. rewrite forallb_forall in F. apply F in I. now apply Nat.ltb_lt. }
  assert (GQ : forall p, In p qs -> (length (m_rports m) <= p)%nat).
  { intros p I. apply nodup_In in I. rewrite Forall_forall in PS. auto. }
  destruct (rinv_add_all qs mb RI FQ) as [R2 [SH2 X2]].
  - apply NoDup_nodup.
  - intros p I K. rewrite (gr_xr _ _ _ _ GR) in K. apply FX in K. apply GQ in I. lia.
  - destruct (same_heaps_at _ _ SH2) as [_ [SR _]].
    assert (SP : forall q, rp_at (fold_left ctx_add_rport qs mb) q = rp_at mb q)
      by (intros q; unfold rp_at; destruct SH2 as [_ [-> _]]; reflexivity).
    split; auto. split; [|split; [|split; [|split; [|split]]]].
    + rewrite X2, (gr_xr _ _ _ _ GR), X. unfold request_replies. rewrite flat_map_app. simpl. now rewrite app_nil_r.
    + unfold bid_replies in *. rewrite flat_map_app, BR. reflexivity.
    + intros t0 ps0 I p r Ip Ir. rewrite SP in Ir. rewrite SR.
      apply in_app_or in I as [I|[I|[]]].
      * assert (L := LT _ _ I). rewrite Forall_forall in L. assert (Lp := L p Ip).
        rewrite (gr_old _ _ _ _ GR p Lp) in Ir. destruct (in_rp_lt m p r XI Ir) as [_ Lr].
        rewrite (gr_req _ _ _ _ GR r Lr). eapply OW; eauto.
      * injection I as <- <-. apply (MI2 p r); auto.
    + intros t0 ps0 I. destruct SH2 as [_ [-> _]]. apply in_app_or in I as [I|[I|[]]].
      * eapply Forall_impl; [|exact (LT _ _ I)]. intros p L. cbn in L. assert (K := gr_len _ _ _ _ GR). lia.
      * injection I as <- <-. exact FQ.
    + destruct SH2 as [_ [_ [-> _]]]. now rewrite (gr_bd _ _ _ _ GR).
    + destruct SH2 as [_ [_ [_ ->]]]. now rewrite (gr_bp _ _ _ _ GR).
Qed.
Lemma requests_collected l s m ev s1 : for_each S (add_requests S get_requests) l market0 s = (Ok m, (ev, s1)) ->
  rstate l m ev.
Proof.
  intros E. apply (for_each_ok S _ rstate add_requests_state l [] market0 s [] m ev s1); auto.
  split; [apply rinv0|]. repeat split; auto; intros t ps [].
Qed.
End Requests.
