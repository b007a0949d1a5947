(** * SellProofs2: the bids of a sell policy. *)
From Coq Require Import String Permutation.
From Verif Require Import Base CompModel CompSpec PackageModel PackageProofs PackageProofs2 ResourceModel ResourceSpec
  ResourceProofs1 ResourceProofs2 ResourceProofs4 BufModel BufSpec BufProofs1 BufProofs2 BufProofs4 BufProofs6 BufProofs7
  GreedyModel ExchangeModel SellModel SellSpec SellProofs1.
Local Open Scope Q_scope.

Lemma qty_of_vw w i : qty_of w i = option_map snd (nth_error (vw w) i).
Proof.
  unfold qty_of. destruct (nth_error (w_res w) i) as [r|] eqn:H.
  - rewrite (vw_nth _ _ _ H). reflexivity.
  - apply nth_error_None in H. assert (X : nth_error (vw w) i = None) by (apply nth_error_None; rewrite vw_len; auto).
    rewrite X. reflexivity.
Qed.

(** Other code at work on resources outside the buffer. *)
Lemma in_use_other E T w b o w' : in_use E T w b -> op_wf o -> step E o w = (Ok tt, w') ->
  (forall i, In i (b_rs b) -> nth_error (vw w') i = nth_error (vw w) i) -> in_use E T w' b.
Proof.
  intros U Wf H Q. apply (in_use_step E T (BOther o) w b (Ok []) w' b U).
  - simpl. unfold none, bbind, call, bret. cbn [fst snd]. rewrite H. reflexivity.
  - discriminate.
  - split; auto. cbn [fst snd]. intros i Hi. rewrite !qty_of_vw, Q; auto.
Qed.

Lemma comp_step E T w b i c w' : in_use E T w b -> mat_comp E i w = (Ok c, w') ->
  in_use E T w' b /\ vw w' = vw w /\ (exists x, nth_error (w_comps w') c = Some x) /\
  exists r cp, nth_error (w_res w) i = Some r /\ r_qual r = QMat cp /\ (e_decay E <> "lazy"%string \/ r_ctx r = false -> w' = w /\ c = cp).
Proof.
  intros U H. assert (V := vw_mat_comp _ _ _ _ _ H ltac:(discriminate)).
  destruct (mat_comp_phys _ _ _ _ _ H ltac:(discriminate)) as [r [cp [Hr [Eq [[e [? _]]|[c' [p' [Ec [Hp [NL _]]]]]]]]]]; [discriminate|].
  inversion Ec; subst c'; clear Ec.
  assert (U' : in_use E T w' b).
  { apply (in_use_other E T w b (OComp i)); auto; [exact I| |intros; rewrite V; auto].
    simpl. unfold mat_only, bind, drop, rget, deref. rewrite Hr. unfold ret at 1. unfold mat_comp_ptr. rewrite Eq. unfold ret at 1. unfold bind. rewrite H. reflexivity. }
  split; auto. split; auto. split.
  - destruct (in_use_BI _ _ _ _ U') as [Eo [Re _]]. assert (W := reachable_WF _ _ Eo Re).
    assert (Hi := nth_error_lt _ _ _ Hr).
    assert (X : nth_error (pres w') i = Some (ph_with_prev p' (ph_with_qual (QMat c) (phys_of r)))).
    { rewrite Hp. apply nth_upd_same. rewrite pres_len. auto. }
    destruct (wf_ptr _ _ W _ _ X) as [_ Y]. specialize (Y c eq_refl). rewrite pcomps_len in Y.
    destruct (nth_error (w_comps w') c) eqn:Z; eauto. apply nth_error_None in Z. lia.
  - exists r, cp. split; auto. split; auto. intros Hl. destruct (NL Hl) as [-> [-> _]]. auto.
Qed.

Lemma create_step E T w b q c o w' x : in_use E T w b -> nth_error (w_comps w) c = Some x ->
  mat_create_untracked q c w = (Ok o, w') ->
  in_use E T w' b /\ o = length (w_res w) /\ vw w' = vw w ++ [(None, q)] /\ w_comps w' = w_comps w /\
  exists r, w_res w' = w_res w ++ [r] /\ r_qual r = QMat c /\ r_qty r = q /\ r_ctx r = false.
Proof.
  intros U Hc H.
  assert (H' := H). unfold mat_create_untracked, new_resource in H'. inversion H'; subst o w'; clear H'.
  set (r := mkRes _ _ _ _ _ _ _ _ _ _ _) in *.
  assert (V : vw (set_next_obj (w_next_obj w + 1)%Z (set_next_state (w_next_state w + 1)%Z (set_res (w_res w ++ [r]) w))) = vw w ++ [(None, q)]).
  { unfold vw, pres. simpl. rewrite !map_app. reflexivity. }
  split.
  - eapply (in_use_other E T w b (OCreateMatUntracked q c)); auto; [exact Logic.I| |].
    + simpl. unfold valid_comp, bind, cref, deref. rewrite Hc. cbn [ret]. unfold drop, bind, ret at 1. rewrite H. reflexivity.
    + intros i Hi. rewrite V. apply nth_error_app1. rewrite vw_len.
      destruct (in_use_BI _ _ _ _ U) as [_ [_ B]]. apply (bi_valid _ _ B). auto.
  - split; auto. split; auto. split; [reflexivity|]. exists r. repeat split.
Qed.

(** ** What one loop adds to the market and the world *)
Record adds (port : nat) (k k' : market) (new : list bid) : Prop := {
  ad_reqs : m_reqs k' = m_reqs k;
  ad_rports : m_rports k' = m_rports k;
  ad_bids : m_bids k' = m_bids k ++ new;
  ad_len : length (m_bports k') = length (m_bports k);
  ad_other : forall p, p <> port -> bp_at k' p = bp_at k p;
  ad_cons : bp_cons (bp_at k' port) = bp_cons (bp_at k port);
  ad_port : Permutation (bp_bids (bp_at k' port)) (bp_bids (bp_at k port) ++ seq (length (m_bids k)) (length new)) }.

Lemma adds_refl port k : adds port k k [].
Proof. constructor; auto; rewrite ?app_nil_r; auto. Qed.
Lemma adds_trans port k k' k'' a b : adds port k k' a -> adds port k' k'' b -> adds port k k'' (a ++ b).
Proof.
  intros [] []. constructor; try congruence.
  - rewrite ad_bids1, ad_bids0, app_assoc. reflexivity.
  - intros p Hp. rewrite ad_other1, ad_other0; auto.
  - rewrite ad_port1, ad_port0, ad_bids0, !app_length, seq_app, app_assoc. reflexivity.
Qed.

Lemma insert_at_perm {A} pos (x : A) l : Permutation (insert_at pos x l) (l ++ [x]).
Proof.
  revert pos; induction l as [|y l IH]; intros [|pos]; simpl; auto.
  rewrite Permutation_cons_append. reflexivity.
Qed.

Lemma add_bid_adds k port r o tr ex pf pos x k' : (port < length (m_bports k))%nat ->
  add_bid k port r o tr ex pf pos = (Ok x, k') -> adds port k k' [mkBid r o tr port ex pf] /\ 0 < rs_qty o.
Proof.
  intros Hp H. unfold add_bid in H.
  destruct (verify (bp_trader (bp_at k port)) tr) as [own| |]; try discriminate.
  destruct (Qltb_spec 0 (rs_qty o)) as [Hq|]; try discriminate. inversion H; subst x k'; clear H. split; auto.
  assert (X : nth_error (upd (m_bports k) port (mkBP own (insert_at pos (length (m_bids k)) (bp_bids (bp_at k port))) (bp_cons (bp_at k port)))) port
    = Some (mkBP own (insert_at pos (length (m_bids k)) (bp_bids (bp_at k port))) (bp_cons (bp_at k port)))) by (apply nth_upd_same; auto).
  constructor; simpl; auto.
  - rewrite upd_length. auto.
  - intros p Np. unfold bp_at. simpl. rewrite <- !nth_default_eq. unfold nth_default. rewrite nth_upd_other; auto.
  - unfold bp_at at 1. simpl. rewrite <- nth_default_eq. unfold nth_default. rewrite X. reflexivity.
  - unfold bp_at at 1. simpl. rewrite <- nth_default_eq. unfold nth_default. rewrite X. simpl. apply insert_at_perm.
Qed.

(** The world grows only. *)
Definition only_more (E : env) (w w' : world) : Prop :=
  (exists extra, vw w' = vw w ++ extra) /\
  (e_decay E <> "lazy"%string -> exists extra, w_res w' = w_res w ++ extra).
Lemma more_refl E w : only_more E w w.
Proof. split; intros; exists []; rewrite app_nil_r; auto. Qed.
Lemma more_trans E w w' w'' : only_more E w w' -> only_more E w' w'' -> only_more E w w''.
Proof.
  intros [[x X] A] [[y Y] B]. split.
  - exists (x ++ y). rewrite Y, X, app_assoc. reflexivity.
  - intros L. destruct (A L) as [x' X'], (B L) as [y' Y']. exists (x' ++ y'). rewrite Y', X', app_assoc. reflexivity.
Qed.
Lemma app_nth {A} (l m : list A) i x : nth_error l i = Some x -> nth_error (l ++ m) i = Some x.
Proof. intros H. rewrite nth_error_app1; auto. apply (nth_error_lt _ _ _ H). Qed.

Lemma backed_more E w w' src b : only_more E w w' -> backed E w src b -> backed E w' src b.
Proof.
  intros [[x X] A] [P [Q1 R]]. split; auto. split.
  - rewrite qty_of_vw in *. rewrite X. destruct (nth_error (vw w) _) eqn:H; try discriminate. rewrite (app_nth _ _ _ _ H). auto.
  - intros L. destruct (R L) as [r [s [c [Hr [Hs [? ?]]]]]]. destruct (A L) as [y Y].
    exists r, s, c. rewrite Y. rewrite (app_nth _ _ _ _ Hr), (app_nth _ _ _ _ Hs). auto.
Qed.

Lemma vbind_inv {A B} (m : VM A) (f : A -> VM B) s b s' : vbind m f s = (Ok b, s') ->
  exists a s1, m s = (Ok a, s1) /\ f a s1 = (Ok b, s').
Proof. unfold vbind. destruct (m s) as [[a| |] s1]; try discriminate. eauto. Qed.

Lemma add_bids_spec E T v pos port req src bids : forall w k l s' b,
  v_add_bids E v pos port req src bids (w, k, l) = (Ok tt, s') ->
  in_use E T w b -> (port < length (m_bports k))%nat ->
  exists w' k' new, s' = (w', k', l) /\ in_use E T w' b /\ only_more E w w' /\ adds port k k' new /\
    map says new = map (fun q => (req, q, v_id v, Qltb 0 (v_quant v))) bids /\
    Forall (fun d => backed E w' src d /\ bd_port d = port /\ bd_pref d = None) new.
Proof.
  induction bids as [|q bids IH]; intros w k l s' b H U Hp.
  - inversion H; subst. exists w, k, []. split; auto. split; auto. split; [apply more_refl|]. split; [apply adds_refl|]. auto.
  - simpl in H. apply vbind_inv in H as [c [s1 [H1 H]]].
    unfold vworld in H1. destruct (mat_comp E src w) as [rc w1] eqn:H1'. inversion H1; subst rc s1; clear H1. rename H1' into H1.
    apply vbind_inv in H as [o [s2 [H2 H]]].
    unfold vworld in H2. destruct (mat_create_untracked q c w1) as [ro w2] eqn:H2'. inversion H2; subst ro s2; clear H2. rename H2' into H2.
    apply vbind_inv in H as [k0 [s3 [H3 H]]]. inversion H3; subst k0 s3; clear H3. simpl in H.
    apply vbind_inv in H as [x [s4 [H4 H]]]. unfold vmarket in H4.
    destruct (add_bid k port req (mkRsrc o q) (v_id v) (v_excl v) None (pos (length (m_bids k)))) as [rx k1] eqn:H4'.
    inversion H4; subst rx s4; clear H4. rename H4' into H4.
    destruct (comp_step _ _ _ _ _ _ _ U H1) as [U1 [V1 [[xc Hxc] [rs [cp [Hrs [Eq NL]]]]]]].
    destruct (create_step _ _ _ _ _ _ _ _ _ U1 Hxc H2) as [U2 [Eo [V2 [_ [r [Er [Eqr [Eqty _]]]]]]]].
    destruct (add_bid_adds _ _ _ _ _ _ _ _ _ _ Hp H4) as [A Pos]. simpl in Pos.
    destruct (IH w2 k1 l s' b H U2) as [w' [k' [new [-> [U' [M' [A' [Sy F]]]]]]]].
    { rewrite (ad_len _ _ _ _ A). auto. }
    assert (M12 : only_more E w w2).
    { split.
      - exists [(None, q)]. rewrite V2, V1. reflexivity.
      - intros L. destruct (NL (or_introl L)) as [-> _]. exists [r]. auto. }
    exists w', k', (mkBid req (mkRsrc o q) (v_id v) port (v_excl v) None :: new).
    split; auto. split; auto. split; [eapply more_trans; eauto|]. split.
    { apply (adds_trans port k k1 k' [_] new); auto. }
    split.
    + simpl. rewrite Sy. reflexivity.
    + constructor; auto. split; [|auto]. apply (backed_more _ w2); auto. split; auto. simpl. split.
      * rewrite qty_of_vw, V2. rewrite nth_error_app2; rewrite vw_len; subst o; [|lia]. rewrite Nat.sub_diag. reflexivity.
      * intros L. destruct (NL (or_introl L)) as [-> ->]. exists r, rs, cp. rewrite Er. subst o.
        rewrite nth_error_app2, Nat.sub_diag by lia. rewrite (app_nth _ _ _ _ Hrs). auto.
Qed.

Lemma requests_spec E T v pos port front lim reqs : forall w k l s' b,
  v_requests E v pos port front lim reqs (w, k, l) = (Ok tt, s') ->
  in_use E T w b -> (port < length (m_bports k))%nat -> 0 < e_eps E -> 0 < lim -> a_package (v_pkg v) ->
  Forall (fun s => p_fill_min (v_pkg v) <= s <= p_fill_max (v_pkg v)) l ->
  (forall r, In r reqs -> 0 < rs_qty (rq_target (req_at k r))) ->
  exists w' k' l' new os, s' = (w', k', l') /\ in_use E T w' b /\ only_more E w w' /\ adds port k k' new /\
    map fst os = reqs /\ map says new = bids_for v os /\ Forall (offered E v k lim) os /\
    Forall (fun d => backed E w' (if v_ignore v then rs_id (rq_target (req_at k (bd_req d))) else front) d /\ bd_port d = port /\ bd_pref d = None) new.
Proof.
  induction reqs as [|r reqs IH]; intros w k l s' b H U Hp He Hl Pk Sm Pos.
  - inversion H; subst. exists w, k, l, [], []. split; auto. split; auto. split; [apply more_refl|]. split; [apply adds_refl|].
    repeat split; auto.
  - simpl in H. apply vbind_inv in H as [k0 [s0 [H0 H]]]. inversion H0; subst k0 s0; clear H0. cbn [fst snd] in H.
    apply vbind_inv in H as [pieces [s1 [H1 H]]]. unfold vsample in H1.
    destruct (v_pieces E v l (qmin (rs_qty (rq_target (req_at k r))) lim)) as [rp l1] eqn:H1'.
    inversion H1; subst rp s1; clear H1. rename H1' into H1.
    apply vbind_inv in H as [bids [s2 [H2 H]]]. unfold vlift in H2.
    injection H2 as H2 <-.
    apply vbind_inv in H as [[] [s3 [H3 H]]].
    assert (Hq : 0 < qmin (rs_qty (rq_target (req_at k r))) lim).
    { unfold qmin. assert (X := Pos r (or_introl eq_refl)). destruct (Qltb_spec lim (rs_qty (rq_target (req_at k r)))); auto. }
    destruct (pieces_spec _ _ _ _ _ _ E eq_refl He Hq Pk Sm H1) as [Dv [used Eu]].
    apply ship_spec in H2.
    destruct (add_bids_spec E T v pos port r _ bids w k l1 s3 b H3 U Hp) as [w1 [k1 [new1 [-> [U1 [M1 [A1 [Sy1 F1]]]]]]]].
    destruct (IH w1 k1 l1 s' b H U1) as [w' [k' [l' [new [os [-> [U' [M' [A' [Eo [Sy [Of F]]]]]]]]]]]]; auto.
    { rewrite (ad_len _ _ _ _ A1). auto. }
    { subst l. apply Forall_app in Sm as [_ ?]. auto. }
    { intros r' Hr'. unfold req_at. rewrite (ad_reqs _ _ _ _ A1). apply Pos. right. auto. }
    assert (Rk : forall x, req_at k1 x = req_at k x) by (intros; unfold req_at; rewrite (ad_reqs _ _ _ _ A1); auto).
    exists w', k', l', (new1 ++ new), ((r, bids) :: os). split; auto. split; auto. split; [eapply more_trans; eauto|].
    split; [eapply adds_trans; eauto|]. split; [simpl; congruence|]. split.
    { rewrite map_app, Sy1, Sy. reflexivity. }
    split.
    { constructor.
      - exists pieces. auto.
      - eapply Forall_impl; [|exact Of]. intros o [all [? ?]]. exists all. rewrite Rk in *. auto. }
    apply Forall_app. split.
    + assert (Rq : Forall (fun d => bd_req d = r) new1).
      { apply Forall_forall. intros d Hd. apply (in_map says) in Hd. rewrite Sy1 in Hd.
        apply in_map_iff in Hd as [q [Eq _]]. unfold says in Eq. congruence. }
      rewrite Forall_forall in *. intros d Hd. destruct (F1 d Hd) as [B1 [? ?]]. split; auto.
      rewrite (Rq d Hd). eapply backed_more; eauto.
    + eapply Forall_impl; [|exact F]. intros d [B1 [? ?]]. rewrite Rk in B1. auto.
Qed.

Lemma bids_lemma E T eps v b pos cr w k l ports s' :
  v_bids E eps v b pos cr (w, k, l) = (Ok ports, s') ->
  in_use E T w b -> 0 < e_eps E -> 0 < eps -> a_package (v_pkg v) ->
  Forall (fun s => p_fill_min (v_pkg v) <= s <= p_fill_max (v_pkg v)) l ->
  (forall r, In r (v_wanted v cr) -> 0 < rs_qty (rq_target (req_at k r))) ->
  exists lim, v_limit b v = Some lim /\
  ((b_rs b = [] \/ quantity b < eps \/ lim < eps) /\ ports = [] /\ s' = (w, k, l) \/
   (b_rs b <> [] /\ eps <= quantity b /\ eps <= lim) /\ ports = [length (m_bports k)] /\
   exists w' k' l' new os, s' = (w', k', l') /\ in_use E T w' b /\ only_more E w w' /\
     m_reqs k' = m_reqs k /\ m_rports k' = m_rports k /\ m_bids k' = m_bids k ++ new /\
     length (m_bports k') = Datatypes.S (length (m_bports k)) /\
     (forall p, (p < length (m_bports k))%nat -> bp_at k' p = bp_at k p) /\
     bp_cons (bp_at k' (length (m_bports k))) = [mkC lim CTrivial] /\
     Permutation (bp_bids (bp_at k' (length (m_bports k)))) (seq (length (m_bids k)) (length new)) /\
     map fst os = v_wanted v cr /\ map says new = bids_for v os /\ Forall (offered E v k lim) os /\
     Forall (fun d => backed E w' (if v_ignore v then rs_id (rq_target (req_at k (bd_req d))) else hd O (b_rs b)) d /\
       bd_port d = length (m_bports k) /\ bd_pref d = None) new).
Proof.
  intros H U He Hep Pk Sm Pos. unfold v_bids in H. destruct (v_limit b v) as [lim|] eqn:El; [|discriminate].
  exists lim. split; auto.
  destruct (empty b) eqn:Ee.
  { left. inversion H; subst. split; auto. left. unfold empty in Ee. destruct (b_rs b); auto; discriminate. }
  cbn [orb] in H. destruct (Qltb_spec (quantity b) eps) as [L1|L1].
  { left. inversion H; subst. auto. }
  cbn [orb] in H. destruct (Qltb_spec lim eps) as [L2|L2].
  { left. inversion H; subst. auto. }
  right. assert (Nb : b_rs b <> []). { unfold empty in Ee. intros X. rewrite X in Ee. discriminate. }
  split; [split; auto; split; apply Qnot_lt_le; auto|].
  apply vbind_inv in H as [k0 [s0 [H0 H]]]. inversion H0; subst k0 s0; clear H0. cbn [fst snd] in H.
  apply vbind_inv in H as [[] [s1 [H1 H]]]. unfold vmarket in H1. inversion H1; subst s1; clear H1.
  apply vbind_inv in H as [[] [s2 [H2 H]]]. unfold vmarket in H2.
  set (k1 := set_bports k (m_bports k ++ [bport0])) in *.
  destruct (add_bcons k1 (length (m_bports k)) lim CTrivial 0) as [rc k2] eqn:H2'. inversion H2; subst rc s2; clear H2. rename H2' into H2.
  apply vbind_inv in H as [[] [s3 [H3 H]]]. inversion H; subst ports s3; clear H. split; auto.
  assert (B1 : bp_at k1 (length (m_bports k)) = bport0).
  { unfold bp_at, k1. simpl. rewrite app_nth2, Nat.sub_diag by lia. reflexivity. }
  unfold add_bcons in H2. unfold cc_new in H2.
  destruct (Qleb lim 0); [discriminate|]. rewrite B1 in H2. cbn [bp_trader bp_bids bp_cons bport0 insert_at] in H2.
  injection H2 as H2.
  set (bp := mkBP None [] [mkC lim CTrivial]) in *.
  assert (L12 : length (m_bports k2) = Datatypes.S (length (m_bports k))).
  { rewrite <- H2. simpl. rewrite upd_length, app_length. simpl. lia. }
  assert (B2 : bp_at k2 (length (m_bports k)) = bp).
  { rewrite <- H2. unfold bp_at. simpl. rewrite <- nth_default_eq. unfold nth_default. rewrite nth_upd_same; auto. rewrite app_length. simpl. lia. }
  assert (B2' : forall p, (p < length (m_bports k))%nat -> bp_at k2 p = bp_at k p).
  { intros p Hp. rewrite <- H2. unfold bp_at. simpl. rewrite <- !nth_default_eq. unfold nth_default.
    rewrite nth_upd_other, nth_error_app1 by lia. auto. }
  assert (Q2 : m_reqs k2 = m_reqs k /\ m_rports k2 = m_rports k /\ m_bids k2 = m_bids k) by (rewrite <- H2; auto).
  destruct Q2 as [Q2a [Q2b Q2c]]. clear H2.
  assert (Rk : forall x, req_at k2 x = req_at k x) by (intros; unfold req_at; rewrite Q2a; auto).
  assert (X : exists front, hd O (b_rs b) = front /\ v_requests E v pos (length (m_bports k)) front lim (v_wanted v cr) (w, k2, l) = (Ok tt, s')).
  { destruct (v_wanted v cr) as [|r0 rs0] eqn:Ew; destruct (b_rs b) as [|f rest]; try (exfalso; now apply Nb); simpl; exists f; split; auto. }
  destruct X as [front [Ef X]].
  destruct (requests_spec E T v pos _ front lim _ w k2 l s' b X U) as [w' [k' [l' [new [os [-> [U' [M' [A' [Eo [Sy [Of F]]]]]]]]]]]]; auto.
  { lia. }
  { lra. }
  { intros r Hr. rewrite Rk. auto. }
  exists w', k', l', new, os. split; auto. split; auto. split; auto.
  destruct A'. split; [congruence|]. split; [congruence|]. split; [congruence|]. split; [congruence|].
  split. { intros p Hp. rewrite ad_other0 by lia. auto. }
  split. { rewrite ad_cons0, B2. reflexivity. }
  split. { rewrite ad_port0, B2, Q2c. reflexivity. }
  split; auto. split; auto. split.
  - eapply Forall_impl; [|exact Of]. intros o [all [? ?]]. exists all. rewrite Rk in *. auto.
  - rewrite Ef. eapply Forall_impl; [|exact F]. intros d [Bk [? ?]]. rewrite Rk in Bk. auto.
Qed.
