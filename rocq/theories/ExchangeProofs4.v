(** The translated graph represents the exchange; when translation succeeds and when it
    throws. *)
From Coq Require Import String QArith List Bool Arith ZArith Lia Lqa Permutation.
From Verif Require Import Base GreedyModel GreedySpec ExchangeModel ExchangeSpec ExchangeProofs1
  ExchangeProofs2 ExchangeProofs3.
Import ListNotations.
Open Scope Q_scope.

Section Run.
Variable fd : Q -> Q -> Q.
Variable mgr : nat -> Z.
Variable m : market.
Hypothesis INV : xinv m.
Hypothesis REG : registered m.
Let BS := all_bids m.
Let PP2 := P2 fd mgr m.

Lemma arcs_run m' dn rest : agree m m' (x_rports m) -> x_bports m = dn ++ rest ->
  forall bs ad st st',
  (forall b, In b (ad ++ bs) -> In b (flat_map (bids_of m) dn)) -> NoDup (ad ++ bs) ->
  PP2 dn ad st -> t_arcs fd m' bs st = Ok st' -> PP2 dn (ad ++ bs) st'.
Proof.
  intros A XB. induction bs as [|b bs IH]; intros ad st st' IN ND P; simpl.
  - intros [= <-]. now rewrite app_nil_r.
  - destruct (t_arc fd m' st b) as [st1|e|] eqn:T; try discriminate. intros R.
    replace (ad ++ b :: bs) with ((ad ++ [b]) ++ bs) in * by (now rewrite <- app_assoc).
    apply (IH _ st1); auto.
    apply (arc_step fd mgr m INV REG m' dn ad st rest); auto.
    + apply IN. apply in_or_app; left. apply in_or_app; simpl; auto.
    + apply nodup_app_l in ND. apply NoDup_remove_2 in ND. now rewrite app_nil_r in ND.
    + intros c Ic. apply IN. apply in_or_app; left. apply in_or_app; auto.
Qed.

Lemma split_BS dn rest : x_bports m = dn ++ rest -> BS = flat_map (bids_of m) dn ++ flat_map (bids_of m) rest.
Proof.
  intros XB. unfold BS, all_bids. rewrite XB. change (fun p0 => bp_bids (bp_at m p0)) with (bids_of m).
  now rewrite flat_map_app.
Qed.

Lemma bports_run m' : agree m m' (x_rports m) -> forall ps dn st st',
  x_bports m = dn ++ ps -> PP2 dn (flat_map (bids_of m) dn) st -> t_bports fd mgr m' ps st = Ok st' ->
  PP2 (x_bports m) BS st'.
Proof.
  intros A. induction ps as [|p ps IH]; intros dn st st' XB P; simpl.
  - intros [= <-]. rewrite app_nil_r in XB. rewrite XB.
    assert (E := split_BS dn [] ltac:(now rewrite app_nil_r)). simpl in E. rewrite app_nil_r in E. now rewrite E.
  - assert (BPE : bp_at m' p = bp_at m p) by (unfold bp_at; now rewrite (ag_bports _ _ _ A)).
    rewrite BPE. fold (bids_of m p).
    destruct (t_arcs fd m' (bids_of m p) (t_bport mgr m' st p)) as [st1|e|] eqn:T; try discriminate.
    intros R. apply (IH (dn ++ [p]) st1); auto.
    + now rewrite <- app_assoc.
    + rewrite flat_map_app. simpl. rewrite app_nil_r.
      apply (arcs_run m' (dn ++ [p]) ps) with (st := t_bport mgr m' st p); auto.
      * now rewrite <- app_assoc.
      * intros b I. rewrite flat_map_app. simpl. now rewrite app_nil_r.
      * assert (N := NDB m INV REG). fold BS in N. rewrite (split_BS dn (p :: ps) XB) in N. simpl in N.
        rewrite app_assoc in N. now apply nodup_app_l in N.
      * apply (bport_step fd mgr m INV REG m' dn (flat_map (bids_of m) dn) p st ps); auto.
Qed.

Lemma agree0 : agree m m [].
Proof. constructor; auto. simpl; contradiction. Qed.

Lemma stage1 : 
  (asking m -> exists m1 st1, t_rports mgr (x_rports m) m (graph0, tctx0) = Ok (m1, st1) /\
                 agree m m1 (x_rports m) /\ PP2 [] [] st1) /\
  (~ asking m -> t_rports mgr (x_rports m) m (graph0, tctx0) = Throw ValueError).
Proof.
  destruct (t_rports_run mgr m (x_rports m) [] m (graph0, tctx0)) as [H1 H2].
  - apply (xi_xr m INV).
  - apply REG.
  - apply (all_reqs_nodup m INV (rg_r m REG)).
  - apply agree0.
  - reflexivity.
  - split.
    + intros AS. destruct H1 as [m1 [st1 [E [A P]]]]; [apply Forall_forall; exact AS|].
      exists m1, st1. split; auto. split; auto. now apply P1_P2.
    + intros NA. apply H2. clear - NA. unfold asking in NA.
      induction (x_rports m) as [|p ps IH]; [elim NA; simpl; contradiction|].
      destruct (Qlt_le_dec 0 (rp_qty (rp_at m p))) as [L|L]; [|now constructor].
      apply Exists_cons_tl. apply IH. intros H. apply NA. intros q [<-|I]; auto.
Qed.

Lemma translate_P2 m1 g t : translate fd mgr m = Ok (m1, (g, t)) ->
  agree m m1 (x_rports m) /\ PP2 (x_bports m) BS (g, t).
Proof.
  unfold translate. destruct (t_rports mgr (x_rports m) m (graph0, tctx0)) as [[m2 st]|e|] eqn:T; try discriminate.
  destruct (t_bports fd mgr m2 (x_bports m2) st) as [st'|e|] eqn:B; try discriminate.
  intros E. assert (m2 = m1) by congruence. assert (st' = (g, t)) by congruence. subst m2 st'. clear E.
  destruct stage1 as [S1 S2].
  assert (AS : asking m).
  { intros p I. destruct (Qlt_le_dec 0 (rp_qty (rp_at m p))); auto.
    assert (X : ~ asking m) by (intros H; specialize (H p I); lra). apply S2 in X. congruence. }
  destruct (S1 AS) as [m2 [st2 [E [A P]]]]. rewrite T in E.
  assert (m1 = m2) by congruence. assert (st = st2) by congruence. subst m2 st2.
  split; auto. rewrite (ag_xb _ _ _ A) in B.
  apply (bports_run m1 A (x_bports m) [] st); auto.
Qed.

(** ** From the invariant to the specification *)
Lemma nth_error_node g i n : nth_error (gr_nodes g) i = Some n -> node_at g i = n.
Proof. apply node_at_nth. Qed.

Lemma node_is_erase nd n : erase nd = n ->
  forall G q ex c ag, n = mkNode (Some G) q ex c ag [] [] -> node_is nd G q ex c ag.
Proof. intros E G q ex c ag E2. rewrite E2 in E. injection E as A B C D F. repeat split; auto. Qed.

Lemma nth_error_unique (l : list nat) i j x : NoDup l -> nth_error l i = Some x -> nth_error l j = Some x -> i = j.
Proof.
  intros N A B. apply (proj1 (NoDup_nth_error l) N); [now apply nth_error_lt in A|congruence].
Qed.

Lemma nth_error_map_seq s n (f : nat -> option nat) l :
  map Some (seq s n) = map f l -> forall i x, nth_error l i = Some x -> f x = Some (s + i)%nat.
Proof.
  revert s l. induction n as [|n IH]; intros s [|y l] E i x; simpl in *; try discriminate;
    try (destruct i; discriminate).
  injection E as E1 E2. destruct i; simpl.
  - intros [= <-]. rewrite <- E1. f_equal; lia.
  - intros H. rewrite (IH (S s) l E2 i x H). f_equal; lia.
Qed.

(** Nodes of the i-th portfolio's group, as lookups. *)
Lemma flat_prefix_nodes (f : nat -> list nat) (ps : list nat) s i p :
  NoDup (flat_map f ps) -> nth_error ps i = Some p ->
  let pre := flat_map f (firstn i ps) in
  map Some (seq (s + length pre) (length (f p))) =
  map (fun k => nfind k (combine (flat_map f ps) (seq s (length (flat_map f ps))))) (f p).
Proof.
  intros N E pre.
  assert (SP : flat_map f ps = pre ++ f p ++ flat_map f (skipn (S i) ps)).
  { assert (X : ps = firstn i ps ++ p :: skipn (S i) ps).
    { clear N. unfold pre. clear pre. revert i E. induction ps as [|q ps IH]; intros [|i] E; simpl in *; try discriminate.
      - now injection E as ->.
      - f_equal. now apply IH. }
    unfold pre. rewrite X at 1. rewrite flat_map_app. reflexivity. }
  assert (G : forall j k, nth_error (f p) j = Some k ->
     nfind k (combine (flat_map f ps) (seq s (length (flat_map f ps)))) = Some (s + length pre + j)%nat).
  { intros j k Ek. apply nfind_combine_nth; auto. exists (length pre + j)%nat. split; [|lia].
    rewrite SP, nth_error_app2, Nat.add_comm, Nat.add_sub by lia.
    rewrite nth_error_app1; auto. now apply nth_error_lt in Ek. }
  revert G. generalize (combine (flat_map f ps) (seq s (length (flat_map f ps)))). intros tb.
  generalize (s + length pre)%nat. clear. induction (f p) as [|x l IH]; intros n G; simpl; auto.
  rewrite (G 0%nat x eq_refl), Nat.add_0_r. f_equal. apply IH. intros j k E. rewrite (G (S j) k E). f_equal; lia.
Qed.

Lemma rgroups_nth ps : forall n i p, nth_error ps i = Some p ->
  nth_error (rgroups m n ps) i = Some (rgroup m (n + length (flat_map (reqs_of m) (firstn i ps))) p).
Proof.
  induction ps as [|q ps IH]; intros n [|i] p E; simpl in *; try discriminate.
  - injection E as ->. now rewrite Nat.add_0_r.
  - rewrite (IH _ i p E). rewrite app_length, Nat.add_assoc. auto.
Qed.
Lemma bgroups_nth ps : forall n Gs i p, bgroups_ok m n ps Gs -> nth_error ps i = Some p ->
  exists G, nth_error Gs i = Some G /\ bgroup_ok m (n + length (flat_map (bids_of m) (firstn i ps))) p G.
Proof.
  induction ps as [|q ps IH]; intros n [|H Gs] [|i] p B E; simpl in *; try discriminate; try contradiction.
  - injection E as ->. rewrite Nat.add_0_r. exists H. tauto.
  - destruct B as [_ B]. destruct (IH _ _ i p B E) as [G [A C]]. exists G.
    rewrite app_length, Nat.add_assoc. auto.
Qed.

Lemma in_nth (l : list nat) x : In x l -> exists i, nth_error l i = Some x.
Proof. apply In_nth_error. Qed.

Lemma P2_represents g t : PP2 (x_bports m) BS (g, t) -> represents fd mgr m g t.
Proof.
  intros P. assert (T := p2_ctx _ _ _ _ _ _ P). cbn [snd] in T.
  assert (T' : t = TB m BS) by exact T. clear T. subst t.
  assert (ND1 := NDR m INV REG). assert (ND2 := NDB m INV REG).
  assert (LN := p2_length _ _ _ _ _ _ P). cbn [fst] in LN.
  change (length (flat_map (bids_of m) (x_bports m))) with (length BS) in LN.
  assert (XB0 : x_bports m = x_bports m ++ []) by now rewrite app_nil_r.
  assert (UOV : forall b, In b BS -> (uo m b < length (all_reqs m) <= vo m b)%nat).
  { intros b I. destruct (uo_spec m INV REG b I). destruct (vo_spec m INV REG b I). lia. }
  assert (GRP := p2_groups _ _ _ _ _ _ P). cbn [fst] in GRP. destruct GRP as [Bs [EG BG]].
  assert (BL := bgroups_length _ _ _ _ BG).
  assert (RL := rgroups_length m 0 (x_rports m)).
  constructor.
  - rewrite LN. cbn [TB r2n b2n]. rewrite seq_app, map_app. f_equal.
    + symmetry. apply (nfind_combine_map (all_reqs m) 0). exact ND1.
    + symmetry. apply (nfind_combine_map BS (length (all_reqs m))). exact ND2.
  - intros r n. cbn [TB r2n n2r]. apply (nfind_combine_inv (all_reqs m) 0 r n ND1).
  - intros b n. cbn [TB b2n n2b]. apply (nfind_combine_inv BS (length (all_reqs m)) b n ND2).
  - apply (p2_req _ _ _ _ _ _ P).
  - apply (p2_sup _ _ _ _ _ _ P).
  - rewrite EG, app_length, RL, BL. auto.
  - intros i p E. unfold group_at.
    assert (LI : (i < length (x_rports m))%nat) by now apply nth_error_lt in E.
    assert (NE : nth_error (gr_groups g) i = Some (rgroup m (0 + length (flat_map (reqs_of m) (firstn i (x_rports m)))) p)).
    { rewrite EG, nth_error_app1 by now rewrite RL. now apply rgroups_nth. }
    rewrite (nth_error_nth _ _ _ NE). cbn [rgroup g_qty g_nodes g_caps].
    split; auto. split; auto.
    apply (flat_prefix_nodes (reqs_of m) (x_rports m) 0 i p); auto.
  - intros i p E G. unfold group_at.
    destruct (bgroups_nth _ _ _ i p BG E) as [GG [A [B [C _]]]].
    assert (NE : nth_error (gr_groups g) G = Some GG).
    { unfold G. rewrite EG, nth_error_app2 by (rewrite RL; lia). rewrite RL, Nat.add_comm, Nat.add_sub. exact A. }
    rewrite (nth_error_nth _ _ _ NE). rewrite B, C. split; auto.
    apply (flat_prefix_nodes (bids_of m) (x_bports m) (length (all_reqs m)) i p); auto.
  - intros i p r n E I F. cbn [TB r2n] in F.
    destruct (p2_rnode fd mgr m INV REG _ _ _ r n P F) as [j [q [nd [X [Iq [NN EE]]]]]].
    cbn [fst] in NN. rewrite (nth_error_node g n nd NN).
    assert (q = p).
    { assert (LP : forall x y, nth_error (x_rports m) y = Some x -> (x < length (m_rports m))%nat).
      { intros x y Hx. apply nth_error_In in Hx. assert (FF := xi_xr m INV). rewrite Forall_forall in FF. auto. }
      destruct (rp_at_ok m q INV (LP _ _ X)) as [_ [R1 _]]. destruct (R1 r Iq) as [_ [<- _]].
      destruct (rp_at_ok m p INV (LP _ _ E)) as [_ [R2 _]]. destruct (R2 r I) as [_ [<- _]]. auto. }
    subst q. rewrite (nth_error_unique _ _ _ _ (rg_r m REG) X E) in EE.
    now apply (node_is_erase _ _ EE).
  - intros i p b n E I F. cbn [TB b2n] in F.
    assert (IB : In b BS).
    { unfold BS, all_bids. apply in_flat_map. exists p. split; auto. eapply nth_error_In; eauto. }
    destruct (vo_spec m INV REG b IB) as [V _].
    change (nfind b (btab m) = Some n) in F. rewrite V in F. injection F as <-.
    destruct (p2_bnode fd mgr m INV REG _ _ _ [] b P XB0 IB) as [j [q [nd [X [Iq [NN EE]]]]]].
    cbn [fst] in NN. rewrite (nth_error_node g _ nd NN).
    assert (q = p).
    { assert (LP : forall x y, nth_error (x_bports m) y = Some x -> (x < length (m_bports m))%nat).
      { intros x y Hx. apply nth_error_In in Hx. assert (FF := xi_xb m INV). rewrite Forall_forall in FF. auto. }
      destruct (bp_at_ok m q INV (LP _ _ X)) as [_ [R1 _]]. destruct (R1 b Iq) as [_ [<- _]].
      destruct (bp_at_ok m p INV (LP _ _ E)) as [_ [R2 _]]. destruct (R2 b I) as [_ [<- _]]. auto. }
    subst q. rewrite (nth_error_unique _ _ _ _ (rg_b m REG) X E) in EE.
    now apply (node_is_erase _ _ EE).
  - assert (EA := p2_arcs _ _ _ _ _ _ P). cbn [fst] in EA. rewrite EA.
    assert (ALL : forall b, In b (filter (liked m) BS) -> In b BS) by (intros b I; now apply filter_In in I).
    fold BS. revert ALL. generalize (filter (liked m) BS) as l.
    induction l as [|b l IH]; intros ALL; simpl; constructor.
    + assert (IB : In b BS) by (apply ALL; simpl; auto).
      destruct (uo_spec m INV REG b IB) as [U1 U2]. destruct (vo_spec m INV REG b IB) as [V1 V2].
      assert (AU : a_u (arcb fd mgr m b) = uo m b) by (unfold arcb, arc_new; destruct (_ || _); auto).
      assert (AV : a_v (arcb fd mgr m b) = vo m b) by (unfold arcb, arc_new; destruct (_ || _); auto).
      cbn [TB r2n b2n]. rewrite AU, AV. split; [exact U1|]. split; [exact V1|].
      unfold unode, vnode. rewrite AU, AV.
      destruct (p2_rnode fd mgr m INV REG _ _ _ _ _ P U1) as [ju [pu [nu [XU [IU [NU EU]]]]]].
      destruct (p2_bnode fd mgr m INV REG _ _ _ [] b P XB0 IB) as [jv [pv [nv [XV [IV [NV EV]]]]]].
      cbn [fst] in NU, NV. rewrite (nth_error_node g _ _ NU), (nth_error_node g _ _ NV).
      unfold arcb. apply arc_new_erase; symmetry;
        [apply (f_equal n_qty EU)|apply (f_equal n_excl EU)|apply (f_equal n_qty EV)|apply (f_equal n_excl EV)].
    + apply IH. intros c I. apply ALL. simpl; auto.
  - intros r n I F. cbn [TB r2n] in F.
    destruct (p2_rnode fd mgr m INV REG _ _ _ r n P F) as [j [q [nd [X [Iq [NN EE]]]]]].
    cbn [fst] in NN. rewrite (nth_error_node g n nd NN).
    rewrite (p2_prefs _ _ _ _ _ _ P n nd NN). rewrite map_map. cbn [fst snd key].
    assert (FE : filter (fun b => Nat.eqb (uo m b) n) (filter (liked m) BS) =
                 filter (fun b => Nat.eqb (bd_req (bid_at m b)) r) (filter (liked m) BS)).
    { assert (ALL : forall b, In b (filter (liked m) BS) -> In b BS) by (intros b H; now apply filter_In in H).
      revert ALL. generalize (filter (liked m) BS) as l. induction l as [|b l IH]; intros ALL; simpl; auto.
      rewrite IH by (intros c Hc; apply ALL; simpl; auto).
      assert (IB : In b BS) by (apply ALL; simpl; auto). destruct (uo_spec m INV REG b IB) as [U1 _].
      assert (EQ : Nat.eqb (uo m b) n = Nat.eqb (bd_req (bid_at m b)) r); [|now rewrite EQ].
      destruct (Nat.eqb_spec (uo m b) n) as [A|A]; destruct (Nat.eqb_spec (bd_req (bid_at m b)) r) as [B|B]; auto.
      - elim B. subst n. unfold rtab in U1. apply nfind_combine_inv in U1; [|apply ND1].
        change (nfind r (combine (all_reqs m) (seq 0 (length (all_reqs m)))) = Some (uo m b)) in F.
        apply nfind_combine_inv in F; [|apply ND1]. congruence.
      - elim A. subst r. change (nfind (bd_req (bid_at m b)) (rtab m) = Some n) in F. congruence. }
    rewrite FE. apply map_ext_in. intros b Hb. f_equal.
    apply filter_In in Hb as [Hb _]. apply filter_In in Hb as [Hb _].
    symmetry. apply (vo_spec m INV REG b Hb).
  - intros n k v I. unfold node_at in I.
    destruct (nth_error (gr_nodes g) n) as [nd|] eqn:NN.
    + rewrite (nth_error_nth _ _ _ NN) in I. rewrite (p2_prefs _ _ _ _ _ _ P n nd NN) in I.
      apply in_map_iff in I as [b [[= <- <-] Ib]]. apply filter_In in Ib as [_ Ib].
      apply Nat.eqb_eq in Ib. exact Ib.
    + rewrite nth_error_None in NN. rewrite nth_overflow in I by auto. simpl in I. contradiction.
  - intros b a Ib Ia F.
    assert (EA := p2_arcs _ _ _ _ _ _ P). cbn [fst] in EA. rewrite EA in Ia.
    apply in_map_iff in Ia as [c [EC Ic]].
    assert (IC : In c BS) by now apply filter_In in Ic.
    assert (AU : a_u (arcb fd mgr m c) = uo m c) by (unfold arcb, arc_new; destruct (_ || _); auto).
    assert (AV : a_v (arcb fd mgr m c) = vo m c) by (unfold arcb, arc_new; destruct (_ || _); auto).
    subst a. rewrite AV in F. cbn [TB b2n] in F.
    destruct (vo_spec m INV REG b Ib) as [VB _]. change (nfind b (btab m) = Some (vo m c)) in F.
    assert (b = c) by (apply (vo_inj m INV REG); auto; congruence). subst c.
    destruct (p2_caps _ _ _ _ _ _ P b Ic) as [t' [SH [A1 A2]]]. cbn [fst] in A1, A2.
    exists t'. split; auto.
    destruct (uo_spec m INV REG b Ib) as [U1 _].
    destruct (p2_rnode fd mgr m INV REG _ _ _ _ _ P U1) as [ju [pu [nu [XU [IU [NU EU]]]]]].
    destruct (p2_bnode fd mgr m INV REG _ _ _ [] b P XB0 Ib) as [jv [pv [nv [XV [IV [NV EV]]]]]].
    cbn [fst] in NU, NV.
    unfold ucaps_of, akey, unode, vnode. rewrite AU, AV.
    rewrite (nth_error_node g _ _ NU), (nth_error_node g _ _ NV).
    split; apply unit_caps_per; [apply A1|apply A2]; auto.
  - apply (p2_ms _ _ _ _ _ _ P).
Qed.

Lemma translate_represents m1 g t : translate fd mgr m = Ok (m1, (g, t)) -> represents fd mgr m g t.
Proof. intros E. apply translate_P2 in E as [_ P]. now apply P2_represents. Qed.

(** ** Success and failure *)
Lemma nfind_n2r b : In b BS -> nfind (uo m b) (combine (seq 0 (length (all_reqs m))) (all_reqs m)) = Some (bd_req (bid_at m b)).
Proof.
  intros I. destruct (uo_spec m INV REG b I) as [U _]. apply (nfind_combine_inv (all_reqs m) 0); auto.
  apply (NDR m INV REG).
Qed.

Lemma arc_outcome m' dn ad st rest b : agree m m' (x_rports m) -> x_bports m = dn ++ rest ->
  In b (flat_map (bids_of m) dn) -> PP2 dn ad st -> has_prefs m b -> all_convertible m ->
  (pref_for m b == 0 -> t_arc fd m' st b = Throw ValueError) /\
  (~ pref_for m b == 0 -> exists st', t_arc fd m' st b = Ok st').
Proof.
  intros A XB Ib P HP [CR CB]. destruct st as [g t].
  assert (T := p2_ctx _ _ _ _ _ _ P). cbn [snd] in T. subst t.
  assert (SPLIT := split_BS dn rest XB).
  assert (IB : In b BS) by (rewrite SPLIT; apply in_or_app; auto).
  unfold t_arc. rewrite (proj1 (read_pref_agree m m' b A) HP).
  destruct (Qltb_spec (pref_for m b) 0) as [NEG|NN].
  { split; [lra|]. intros _. eauto. }
  destruct (Qeqb_spec (pref_for m b) 0) as [Z|NZ]; split; auto; try contradiction.
  intros _.
  assert (BDE : bid_at m' b = bid_at m b) by (unfold bid_at; now rewrite (ag_bids _ _ _ A)).
  rewrite BDE. cbn [TB r2n b2n].
  destruct (uo_spec m INV REG b IB) as [U1 U2]. destruct (vo_spec m INV REG b IB) as [V1 V2].
  rewrite U1, (nfind_prefix m INV REG _ _ _ SPLIT Ib).
  assert (BPE : forall q, bp_at m' q = bp_at m q) by (intros; unfold bp_at; now rewrite (ag_bports _ _ _ A)).
  assert (RQE : forall q, req_at m' q = req_at m q) by (intros; unfold req_at; now rewrite (ag_reqs _ _ _ A)).
  rewrite BPE, RQE.
  apply in_flat_map in Ib as [pb [Ipb Ib]].
  assert (XPB : In pb (x_bports m)) by (rewrite XB; apply in_or_app; auto).
  assert (LB : (pb < length (m_bports m))%nat).
  { assert (FF := xi_xb m INV). rewrite Forall_forall in FF. auto. }
  destruct (bp_at_ok m pb INV LB) as [_ [B1 _]]. destruct (B1 b Ib) as [_ [B2 [_ B3]]].
  assert (IR := rg_ans m REG b IB).
  assert (IR' := IR). apply in_flat_map in IR' as [pr [Ipr Ir]].
  assert (LR : (pr < length (m_rports m))%nat).
  { assert (FF := xi_xr m INV). rewrite Forall_forall in FF. auto. }
  destruct (rp_at_ok m pr INV LR) as [_ [R1 _]]. destruct (R1 _ Ir) as [_ [R2 [_ R3]]].
  rewrite B2, R2, (ag_in _ _ _ A pr Ipr). cbn [massed rp_cons].
  assert (N2R := nfind_n2r b IB).
  match goal with |- context [unit_caps (bp_cons ?x) ?o ?k ?t] =>
    destruct (unit_caps_ok (bp_cons x) o k t B3) as [vc ->] end.
  { intros c coeffs Ic CV. exists (bd_req (bid_at m b)).
    destruct (nfind (bd_req (bid_at m b)) coeffs) as [x|] eqn:E.
    - exists x. split; auto.
    - now elim (CB pb XPB c coeffs _ Ic CV IR). }
  match goal with |- context [unit_caps (rp_cons ?x ++ ?y) ?o ?k ?t] =>
    destruct (unit_caps_ok (rp_cons x ++ y) o k t B3) as [uc ->] end.
  { intros c coeffs Ic CV. exists (bd_req (bid_at m b)).
    destruct (nfind (bd_req (bid_at m b)) coeffs) as [x|] eqn:E.
    - exists x. split; auto.
    - apply in_app_or in Ic as [Ic|[<-|[]]].
      + now elim (CR pr Ipr c coeffs _ Ic CV IR).
      + cbn [mass_cons cc_conv] in CV. injection CV as <-. contradiction. }
  eauto.
Qed.

Lemma arcs_outcome m' dn rest : agree m m' (x_rports m) -> x_bports m = dn ++ rest -> all_convertible m ->
  forall bs ad st,
  (forall b, In b (ad ++ bs) -> In b (flat_map (bids_of m) dn)) -> NoDup (ad ++ bs) ->
  (forall b, In b bs -> has_prefs m b) -> PP2 dn ad st ->
  ((forall b, In b bs -> ~ pref_for m b == 0) -> exists st', t_arcs fd m' bs st = Ok st') /\
  ((exists b, In b bs /\ pref_for m b == 0) -> t_arcs fd m' bs st = Throw ValueError).
Proof.
  intros A XB C. induction bs as [|b bs IH]; intros ad st IN ND HP P; simpl.
  - split; eauto. intros [b [[] _]].
  - assert (Ib : In b (flat_map (bids_of m) dn)) by (apply IN; apply in_or_app; simpl; auto).
    destruct (arc_outcome m' dn ad st rest b A XB Ib P) as [O1 O2]; auto; [apply HP; simpl; auto|].
    destruct (Qeq_dec (pref_for m b) 0) as [Z|NZ].
    + rewrite (O1 Z). split; auto. intros H. elim (H b); auto.
    + destruct (O2 NZ) as [st1 T]. rewrite T.
      replace (ad ++ b :: bs) with ((ad ++ [b]) ++ bs) in IN, ND by (now rewrite <- app_assoc).
      destruct (IH (ad ++ [b]) st1) as [J1 J2]; auto.
      * intros c I. apply HP. simpl; auto.
      * apply (arc_step fd mgr m INV REG m' dn ad st rest); auto.
        { apply nodup_app_l in ND. apply NoDup_remove_2 in ND. now rewrite app_nil_r in ND. }
        { intros c Ic. apply IN. apply in_or_app; left. apply in_or_app; auto. }
      * split; [intros H; apply J1; auto|]. intros [c [[<-|Ic] Zc]]; [contradiction|]. apply J2; eauto.
Qed.

Lemma bports_outcome m' : agree m m' (x_rports m) -> all_convertible m -> rated m -> forall ps dn st,
  x_bports m = dn ++ ps -> PP2 dn (flat_map (bids_of m) dn) st ->
  ((forall b, In b (flat_map (bids_of m) ps) -> ~ pref_for m b == 0) -> exists st', t_bports fd mgr m' ps st = Ok st') /\
  ((exists b, In b (flat_map (bids_of m) ps) /\ pref_for m b == 0) -> t_bports fd mgr m' ps st = Throw ValueError).
Proof.
  intros A C R. induction ps as [|p ps IH]; intros dn st XB P; simpl.
  - split; eauto. intros [b [[] _]].
  - assert (BPE : bp_at m' p = bp_at m p) by (unfold bp_at; now rewrite (ag_bports _ _ _ A)).
    rewrite BPE. fold (bids_of m p).
    assert (XB' : x_bports m = (dn ++ [p]) ++ ps) by now rewrite <- app_assoc.
    assert (FL : flat_map (bids_of m) (dn ++ [p]) = flat_map (bids_of m) dn ++ bids_of m p).
    { rewrite flat_map_app. simpl. now rewrite app_nil_r. }
    assert (ND : NoDup (flat_map (bids_of m) dn ++ bids_of m p)).
    { assert (N := NDB m INV REG). fold BS in N. rewrite (split_BS _ _ XB'), FL in N.
      now apply nodup_app_l in N. }
    assert (P1' : PP2 (dn ++ [p]) (flat_map (bids_of m) dn) (t_bport mgr m' st p)).
    { apply (bport_step fd mgr m INV REG m' dn (flat_map (bids_of m) dn) p st ps); auto. }
    destruct (arcs_outcome m' (dn ++ [p]) ps A XB' C (bids_of m p) (flat_map (bids_of m) dn)
                (t_bport mgr m' st p)) as [O1 O2]; auto.
    { now rewrite FL. }
    { intros b I. apply R. change (In b BS). rewrite (split_BS _ _ XB'), FL. apply in_or_app; left. apply in_or_app; auto. }
    destruct (Exists_dec (fun b => pref_for m b == 0) (bids_of m p) (fun b => Qeq_dec _ _)) as [EX|NEX].
    + apply Exists_exists in EX. split.
      * intros H. destruct EX as [b [I Z]]. elim (H b); auto. apply in_or_app; auto.
      * intros _. now rewrite O2.
    + assert (NZ : forall b, In b (bids_of m p) -> ~ pref_for m b == 0).
      { intros b I Z. apply NEX. apply Exists_exists. eauto. }
      destruct (O1 NZ) as [st1 T]. rewrite T.
      destruct (IH (dn ++ [p]) st1 XB') as [J1 J2].
      { rewrite FL. apply (arcs_run m' (dn ++ [p]) ps A XB') with (st := t_bport mgr m' st p); auto. now rewrite FL. }
      split.
      * intros H. apply J1. intros b I. apply H. apply in_or_app; auto.
      * intros [b [I Z]]. apply in_app_or in I as [I|I]; [now elim (NZ b I)|]. apply J2. eauto.
Qed.

Lemma translate_outcome : all_convertible m -> rated m ->
  (asking m /\ (forall b, In b (all_bids m) -> ~ pref_for m b == 0) ->
     exists m1 g t, translate fd mgr m = Ok (m1, (g, t))) /\
  (~ asking m \/ (exists b, In b (all_bids m) /\ pref_for m b == 0) ->
     translate fd mgr m = Throw ValueError).
Proof.
  intros C R. destruct stage1 as [S1 S2]. unfold translate.
  assert (DEC : asking m \/ ~ asking m).
  { assert (DQ : forall p, {0 < rp_qty (rp_at m p)} + {~ 0 < rp_qty (rp_at m p)}).
    { intros p. destruct (Qlt_le_dec 0 (rp_qty (rp_at m p))); [now left|right; lra]. }
    unfold asking. destruct (Forall_dec _ DQ (x_rports m)) as [F|F]; rewrite Forall_forall in F; auto. }
  destruct DEC as [AS|NA].
  - destruct (S1 AS) as [m1 [st1 [E [A P]]]]. rewrite E.
    rewrite (ag_xb _ _ _ A).
    destruct (bports_outcome m1 A C R (x_bports m) [] st1 eq_refl P) as [O1 O2].
    split.
    + intros [_ H]. destruct (O1 H) as [[g t] T]. rewrite T. eauto.
    + intros [NA|H]; [contradiction|]. rewrite O2; auto.
  - rewrite (S2 NA). split; [intros [AS _]; contradiction|auto].
Qed.
End Run.
