(** Bid portfolios and arcs of the translation. *)
From Coq Require Import String QArith List Bool Arith ZArith Lia Lqa Permutation.
From Verif Require Import Base GreedyModel GreedySpec ExchangeModel ExchangeSpec ExchangeProofs1
  ExchangeProofs2.
Import ListNotations.
Open Scope Q_scope.

Lemma unit_caps_per cs o k t l : unit_caps cs o k t = Ok l -> per_unit cs o k t l.
Proof.
  revert l; induction cs as [|c cs IH]; intros l; simpl.
  - intros [= <-]. constructor.
  - destruct (convert (cc_conv c) o k t) as [x|e|] eqn:E; try discriminate.
    destruct (Qeqb (rs_qty o) 0); try discriminate.
    destruct (unit_caps cs o k t) as [l'|e|]; try discriminate.
    intros [= <-]. constructor; [exists x; auto|]. now apply IH.
Qed.
Lemma unit_caps_length cs o k t l : unit_caps cs o k t = Ok l -> length l = length cs.
Proof.
  intros H. apply unit_caps_per in H. unfold per_unit in H. induction H; simpl; auto.
Qed.
Lemma unit_caps_ok cs o k t : 0 < rs_qty o ->
  (forall c coeffs, In c cs -> cc_conv c = CQty coeffs ->
     exists r x, nfind (fst k) (n2r t) = Some r /\ nfind r coeffs = Some x) ->
  exists l, unit_caps cs o k t = Ok l.
Proof.
  intros P. induction cs as [|c cs IH]; intros H; simpl; eauto.
  destruct IH as [l E]; [intros c' coeffs I; apply H; simpl; auto|].
  assert (C : exists x, convert (cc_conv c) o k t = Ok x).
  { destruct (cc_conv c) eqn:CV; simpl; eauto.
    destruct (H c coeffs (or_introl eq_refl) CV) as [r [x [A B]]]. rewrite A, B. eauto. }
  destruct C as [x ->]. destruct (Qeqb_spec (rs_qty o) 0); [lra|]. rewrite E. eauto.
Qed.

Lemma nth_error_same {A} (l l' : list A) : (forall j, nth_error l j = nth_error l' j) -> l = l'.
Proof.
  revert l'; induction l as [|x l IH]; intros [|y l'] H; auto.
  - specialize (H 0%nat). discriminate.
  - specialize (H 0%nat). discriminate.
  - assert (E := H 0%nat). injection E as ->. f_equal. apply IH. intros j. apply (H (S j)).
Qed.

Section Bids.
Variable fd : Q -> Q -> Q.
Variable mgr : nat -> Z.
Variable m : market.
Hypothesis INV : xinv m.
Hypothesis REG : registered m.

Let RS := all_reqs m.
Let BS := all_bids m.
Let NR := length RS.
Let nr := length (x_rports m).

Lemma NDR : NoDup RS. Proof. apply all_reqs_nodup; auto. apply REG. Qed.
Lemma NDB : NoDup BS. Proof. apply all_bids_nodup; auto. apply REG. Qed.

Definition rtab := combine RS (seq 0 NR).
Definition btab := combine BS (seq NR (length BS)).
Definition uo (b : nat) : nat := match nfind (bd_req (bid_at m b)) rtab with Some n => n | None => 0 end.
Definition vo (b : nat) : nat := match nfind b btab with Some n => n | None => 0 end.
Definition key (b : nat) : nat * nat := (uo b, vo b).

Lemma uo_spec b : In b BS -> nfind (bd_req (bid_at m b)) rtab = Some (uo b) /\ (uo b < NR)%nat.
Proof.
  intros I. apply (rg_ans m REG) in I. unfold uo, rtab, NR.
  destruct (nfind_some_in (bd_req (bid_at m b)) (combine RS (seq 0 (length RS)))) as [v E].
  { rewrite combine_fst by now rewrite seq_length. exact I. }
  rewrite E. split; auto. apply nfind_combine_nth in E as [j [E ->]]; [|apply NDR].
  apply nth_error_lt in E. simpl; lia.
Qed.
Lemma vo_spec b : In b BS -> nfind b btab = Some (vo b) /\ (NR <= vo b < NR + length BS)%nat.
Proof.
  intros I. unfold vo, btab.
  destruct (nfind_some_in b (combine BS (seq NR (length BS)))) as [v E].
  { rewrite combine_fst by now rewrite seq_length. exact I. }
  rewrite E. split; auto. apply nfind_combine_nth in E as [j [E ->]]; [|apply NDB].
  apply nth_error_lt in E. lia.
Qed.
Lemma vo_inj b c : In b BS -> In c BS -> vo b = vo c -> b = c.
Proof.
  intros I J E. destruct (vo_spec b I) as [A _]. destruct (vo_spec c J) as [B _].
  unfold btab in *. rewrite E in A. apply nfind_combine_inv in A; [|apply NDB].
  apply nfind_combine_inv in B; [|apply NDB]. congruence.
Qed.

Lemma nfind_prefix bs rest b : BS = bs ++ rest -> In b bs ->
  nfind b (combine bs (seq NR (length bs))) = Some (vo b).
Proof.
  intros E I. destruct (vo_spec b) as [A _]; [rewrite E; apply in_or_app; auto|].
  unfold btab in A. rewrite E, app_length, seq_app, combine_app in A by now rewrite seq_length.
  rewrite nfind_app in A.
  destruct (nfind b (combine bs (seq NR (length bs)))) eqn:F; auto.
  apply nfind_none in F. rewrite combine_fst in F by now rewrite seq_length. contradiction.
Qed.

Definition TB (bs : list nat) : tctx :=
  mkTctx rtab (combine (seq 0 NR) RS) (combine bs (seq NR (length bs))) (combine (seq NR (length bs)) bs).

Lemma TR_TB : TR RS = TB [].
Proof. reflexivity. Qed.

Lemma shown_TB bs rest b : BS = bs ++ rest -> In b bs -> shown (TB bs) (TB BS) b.
Proof.
  intros E I.
  assert (A : nfind b (combine bs (seq NR (length bs))) = Some (vo b)) by now apply (nfind_prefix bs rest).
  assert (B : nfind b (combine BS (seq NR (length BS))) = Some (vo b)).
  { apply vo_spec. rewrite E. apply in_or_app; auto. }
  unfold shown; cbn [TB r2n n2r b2n n2b].
  split; [auto|split; [auto|split]].
  - now rewrite A, B.
  - intros n. rewrite <- !nfind_combine_inv.
    + rewrite A, B. tauto.
    + apply NDB.
    + assert (N := NDB). rewrite E in N. now apply nodup_app_l in N.
Qed.

Lemma t_add_bid_TB bs b : NoDup (bs ++ [b]) -> t_add_bid (TB bs) b (NR + length bs) = TB (bs ++ [b]).
Proof.
  intros N. unfold t_add_bid, TB; simpl.
  rewrite (nupd_fresh b) by now apply nfind_fresh_l.
  rewrite (nupd_fresh (NR + length bs)) by apply (nfind_fresh_r bs NR).
  f_equal; [apply (combine_snoc bs NR)|apply (combine_snoc_r bs NR)].
Qed.

(** ** Bid nodes *)
Fixpoint bnodes (G : nat) (ps : list nat) : list node :=
  match ps with [] => [] | p :: t => map (bnode mgr m G) (bids_of m p) ++ bnodes (S G) t end.
Lemma bnodes_app G ps qs : bnodes G (ps ++ qs) = bnodes G ps ++ bnodes (G + length ps) qs.
Proof.
  revert G; induction ps as [|p ps IH]; intros G; simpl; [now rewrite Nat.add_0_r|].
  rewrite IH, app_assoc. do 2 f_equal. lia.
Qed.
Lemma bnodes_length G ps : length (bnodes G ps) = length (flat_map (bids_of m) ps).
Proof. revert G; induction ps as [|p ps IH]; intros G; simpl; auto. now rewrite !app_length, map_length, IH. Qed.

(** What the groups of bids look like (up to the exclusive groups). *)
(** The exclusive bids of a portfolio whose nodes are numbered from [n], grouped by offer. *)
Fixpoint bexs (n : nat) (bs : list nat) (exs : list (nat * list nat)) : list (nat * list nat) :=
  match bs with
  | [] => exs
  | b :: t => bexs (S n) t (if bd_excl (bid_at m b) then nupd (rs_id (bd_offer (bid_at m b))) (opush n) exs else exs)
  end.
Definition bgroup_ok (n p : nat) (G : group) : Prop :=
  g_nodes G = seq n (length (bids_of m p)) /\
  g_caps G = map (fun c => Some (cc_cap c)) (bp_cons (bp_at m p)) /\
  g_excl G = map snd (stable_sort (fun x y => Nat.ltb (fst x) (fst y)) (bexs n (bids_of m p) [])).
Fixpoint bgroups_ok (n : nat) (ps : list nat) (Gs : list group) : Prop :=
  match ps, Gs with
  | [], [] => True
  | p :: t, G :: u => bgroup_ok n p G /\ bgroups_ok (n + length (bids_of m p)) t u
  | _, _ => False
  end.
Lemma bgroups_snoc n ps Gs p G : bgroups_ok n ps Gs ->
  bgroup_ok (n + length (flat_map (bids_of m) ps)) p G -> bgroups_ok n (ps ++ [p]) (Gs ++ [G]).
Proof.
  revert n Gs; induction ps as [|q ps IH]; intros n [|H Gs]; simpl; try contradiction.
  - intros _ B. rewrite Nat.add_0_r in B. auto.
  - intros [A B] C. split; auto. apply IH; auto. now rewrite app_length, Nat.add_assoc in C.
Qed.
Lemma bgroups_length n ps Gs : bgroups_ok n ps Gs -> length Gs = length ps.
Proof. revert n Gs; induction ps as [|q ps IH]; intros n [|H Gs]; simpl; try contradiction; auto. intros [_ B]. f_equal; eauto. Qed.

Lemma fold_bid_nodes m' G bs : m_bids m' = m_bids m -> m_reqs m' = m_reqs m -> forall done g ns exs,
  NoDup (done ++ bs) -> length (gr_nodes g) = (NR + length done)%nat ->
  fold_left (t_bid_node mgr m' G) bs ((g, TB done), (ns, exs)) =
  ((add_nodes g (map (bnode mgr m G) bs), TB (done ++ bs)),
   (ns ++ seq (NR + length done) (length bs), bexs (NR + length done) bs exs)).
Proof.
  intros E E2. induction bs as [|b bs IH]; intros done g ns exs N L.
  - cbn [fold_left map seq length bexs]. rewrite !app_nil_r.
    destruct g; unfold add_nodes; simpl. now rewrite app_nil_r.
  - cbn [fold_left]. unfold t_bid_node at 2.
    rewrite L. rewrite t_add_bid_TB.
    2:{ replace (done ++ b :: bs) with ((done ++ [b]) ++ bs) in N by (now rewrite <- app_assoc).
        now apply nodup_app_l in N. }
    rewrite (IH (done ++ [b])).
    + rewrite <- app_assoc. f_equal; [f_equal|].
      * unfold add_nodes; simpl. rewrite <- app_assoc. simpl. unfold bnode, bid_at, req_at. now rewrite E, E2.
      * rewrite app_length, Nat.add_1_r. cbn [length seq bexs]. rewrite <- app_assoc. rewrite Nat.add_succ_r.
        unfold bid_at. rewrite E. auto.
    + now rewrite <- app_assoc.
    + simpl. rewrite !app_length; simpl. lia.
Qed.

(** ** Arcs *)
Definition arcb (b : nat) : arc :=
  arc_new fd (uo b) (vo b) (rnode mgr m 0 (bd_req (bid_at m b))) (bnode mgr m 0 b).

Definition ucaps_fine (nodes : list node) (b : nat) : Prop :=
  exists t', shown t' (TB BS) b /\
    (forall n, nth_error nodes (vo b) = Some n ->
       unit_caps (bp_cons (bp_at m (bd_port (bid_at m b)))) (bd_offer (bid_at m b)) (key b) t'
       = Ok (alookup [] (key b) (n_ucaps n))) /\
    (forall n, nth_error nodes (uo b) = Some n ->
       unit_caps (req_cons m (rq_port (req_at m (bd_req (bid_at m b))))) (bd_offer (bid_at m b)) (key b) t'
       = Ok (alookup [] (key b) (n_ucaps n))).

Record P2 (dn ad : list nat) (st : tst) : Prop := mkP2 {
  p2_ctx : snd st = TB (flat_map (bids_of m) dn);
  p2_nodes : map erase (gr_nodes (fst st)) = rnodes mgr m 0 (x_rports m) ++ bnodes nr dn;
  p2_groups : exists Bs, gr_groups (fst st) = rgroups m 0 (x_rports m) ++ Bs /\ bgroups_ok NR dn Bs;
  p2_req : gr_req (fst st) = seq 0 nr;
  p2_sup : gr_sup (fst st) = seq nr (length dn);
  p2_arcs : gr_arcs (fst st) = map arcb (filter (liked m) ad);
  p2_ms : gr_matches (fst st) = [];
  p2_prefs : forall i n, nth_error (gr_nodes (fst st)) i = Some n ->
    n_prefs n = map (fun b => (key b, pref_for m b))
                    (filter (fun b => Nat.eqb (uo b) i) (filter (liked m) ad));
  p2_fresh : forall i n k, nth_error (gr_nodes (fst st)) i = Some n ->
    (forall b, In b (filter (liked m) ad) -> key b <> k) -> alookup [] k (n_ucaps n) = [];
  p2_caps : forall b, In b (filter (liked m) ad) -> ucaps_fine (gr_nodes (fst st)) b;
  p2_keys : forall i n, nth_error (gr_nodes (fst st)) i = Some n -> NoDup (map fst (n_ucaps n)) /\
    forall k, In k (map fst (n_ucaps n)) ->
      exists b, In b (filter (liked m) ad) /\ key b = k /\ (i = uo b \/ i = vo b) }.

Lemma rnodes_all_length : length (rnodes mgr m 0 (x_rports m)) = NR.
Proof. apply rnodes_length. Qed.

Lemma p2_length dn ad st : P2 dn ad st ->
  length (gr_nodes (fst st)) = (NR + length (flat_map (bids_of m) dn))%nat.
Proof.
  intros P. rewrite <- (map_length erase), (p2_nodes _ _ _ P), app_length, rnodes_all_length.
  now rewrite bnodes_length.
Qed.

Lemma P1_P2 st : P1 mgr m (x_rports m) st -> P2 [] [] st.
Proof.
  intros ->. constructor; cbn [fst snd gr_nodes gr_groups gr_req gr_sup gr_arcs gr_matches].
  - reflexivity.
  - simpl. rewrite app_nil_r. clear. generalize 0%nat as G.
    induction (x_rports m) as [|p ps IH]; intros G; simpl; auto. rewrite map_app, IH. f_equal.
    rewrite map_map. apply map_ext. reflexivity.
  - exists []. rewrite app_nil_r. simpl; auto.
  - reflexivity.
  - reflexivity.
  - reflexivity.
  - reflexivity.
  - intros i n E. simpl. assert (I : In n (rnodes mgr m 0 (x_rports m))) by (eapply nth_error_In; eauto).
    clear - I. revert I. generalize 0%nat as G. induction (x_rports m) as [|p ps IH]; intros G; simpl; [contradiction|].
    intros I. apply in_app_or in I as [I|I]; eauto. apply in_map_iff in I as [r [<- _]]. reflexivity.
  - intros i n k E _. assert (I : In n (rnodes mgr m 0 (x_rports m))) by (eapply nth_error_In; eauto).
    clear - I. revert I. generalize 0%nat as G. induction (x_rports m) as [|p ps IH]; intros G; simpl; [contradiction|].
    intros I. apply in_app_or in I as [I|I]; eauto. apply in_map_iff in I as [r [<- _]]. reflexivity.
  - simpl. contradiction.
  - intros i n E. assert (I : In n (rnodes mgr m 0 (x_rports m))) by (eapply nth_error_In; eauto).
    assert (U : n_ucaps n = []); [|rewrite U; split; [constructor|simpl; contradiction]].
    clear - I. revert I. generalize 0%nat as G. induction (x_rports m) as [|p ps IH]; intros G; simpl; [contradiction|].
    intros I. apply in_app_or in I as [I|I]; eauto. apply in_map_iff in I as [r [<- _]]. reflexivity.
Qed.

Lemma bport_step m' dn ad p st rest : agree m m' (x_rports m) -> x_bports m = dn ++ p :: rest ->
  (forall b, In b ad -> In b (flat_map (bids_of m) dn)) ->
  P2 dn ad st -> P2 (dn ++ [p]) ad (t_bport mgr m' st p).
Proof.
  intros A XB AD P. unfold t_bport. cbv zeta.
  destruct st as [g t].
  assert (T := p2_ctx _ _ _ P). cbn [snd] in T. subst t.
  assert (LN := p2_length _ _ _ P). cbn [fst] in LN.
  assert (BPE : bp_at m' p = bp_at m p) by (unfold bp_at; now rewrite (ag_bports _ _ _ A)).
  cbn [fst]. rewrite BPE. change (bp_bids (bp_at m p)) with (bids_of m p).
  assert (SPLIT : BS = (flat_map (bids_of m) dn ++ bids_of m p) ++ flat_map (bids_of m) rest).
  { unfold BS, all_bids. rewrite XB. change (fun p0 => bp_bids (bp_at m p0)) with (bids_of m).
    rewrite flat_map_app. simpl. now rewrite app_assoc. }
  assert (ND : NoDup (flat_map (bids_of m) dn ++ bids_of m p)).
  { assert (N := NDB). rewrite SPLIT in N. now apply nodup_app_l in N. }
  assert (HF := fold_bid_nodes m' (length (gr_groups g)) (bids_of m p)
              (ag_bids _ _ _ A) (ag_reqs _ _ _ A) (flat_map (bids_of m) dn) g [] [] ND LN).
  unfold tst in *. rewrite HF. clear HF.
  assert (GL : length (gr_groups g) = (nr + length dn)%nat).
  { destruct (p2_groups _ _ _ P) as [Bs [E B]]. cbn [fst] in E. rewrite E, app_length, rgroups_length.
    apply bgroups_length in B. unfold nr. now rewrite B. }
  cbn [fst]. rewrite GL.
  assert (FL : flat_map (bids_of m) (dn ++ [p]) = flat_map (bids_of m) dn ++ bids_of m p).
  { rewrite flat_map_app. simpl. now rewrite app_nil_r. }
  assert (NEWP : forall i n, nth_error (gr_nodes g ++ map (bnode mgr m (nr + length dn)) (bids_of m p)) i = Some n ->
     nth_error (gr_nodes g) i = Some n \/ ((NR + length (flat_map (bids_of m) dn) <= i)%nat /\
        n_prefs n = [] /\ n_ucaps n = [])).
  { intros i n E. destruct (Nat.lt_ge_cases i (length (gr_nodes g))).
    - rewrite nth_error_app1 in E; auto.
    - right. rewrite nth_error_app2 in E by auto. split; [lia|].
      apply nth_error_In in E. apply in_map_iff in E as [b [<- _]]. auto. }
  assert (OLDV : forall b, In b (filter (liked m) ad) -> (uo b < NR + length (flat_map (bids_of m) dn))%nat /\
            (vo b < NR + length (flat_map (bids_of m) dn))%nat).
  { intros b I. apply filter_In in I as [I _]. apply AD in I.
    assert (IB : In b BS) by (rewrite SPLIT; apply in_or_app; left; apply in_or_app; auto).
    split.
    - destruct (uo_spec b IB). lia.
    - rewrite <- app_assoc in SPLIT. assert (F := nfind_prefix _ _ _ SPLIT I).
      apply nfind_combine_nth in F as [j [F ->]]; [|now apply nodup_app_l in ND].
      apply nth_error_lt in F. lia. }
  constructor; cbn [fst snd add_nodes gr_nodes gr_groups gr_req gr_sup gr_arcs gr_matches].
  - now rewrite FL.
  - assert (E := p2_nodes _ _ _ P). cbn [fst] in E. rewrite map_app, E, bnodes_app. simpl. rewrite app_nil_r, <- app_assoc.
    do 2 f_equal. rewrite map_map. apply map_ext. reflexivity.
  - destruct (p2_groups _ _ _ P) as [Bs [E B]]. cbn [fst] in E.
    eexists (Bs ++ [_]). rewrite E, app_assoc. split; [reflexivity|].
    apply bgroups_snoc; auto. unfold bgroup_ok; cbn [g_nodes g_caps g_excl].
    split; auto.
  - apply (p2_req _ _ _ P).
  - assert (E := p2_sup _ _ _ P). cbn [fst] in E. rewrite E, app_length, Nat.add_1_r, seq_snoc. auto.
  - apply (p2_arcs _ _ _ P).
  - apply (p2_ms _ _ _ P).
  - intros i n E. destruct (NEWP i n E) as [O|[GE [PR _]]]; [apply (p2_prefs _ _ _ P i n O)|].
    rewrite PR. symmetry.
    assert (Z : filter (fun b => Nat.eqb (uo b) i) (filter (liked m) ad) = []).
    { clear - OLDV GE. induction (filter (liked m) ad) as [|b l IH]; simpl; auto.
      destruct (OLDV b (or_introl eq_refl)) as [U _]. destruct (Nat.eqb_spec (uo b) i); [lia|].
      apply IH. intros; apply OLDV; simpl; auto. }
    now rewrite Z.
  - intros i n k E H. destruct (NEWP i n E) as [O|[GE [_ U]]]; [apply (p2_fresh _ _ _ P i n k O H)|].
    now rewrite U.
  - intros b I. destruct (OLDV b I) as [U V]. destruct (p2_caps _ _ _ P b I) as [t' [S' [A1 A2]]].
    cbn [fst] in A1, A2. exists t'. split; auto. split; intros n E.
    + rewrite nth_error_app1 in E by lia. auto.
    + rewrite nth_error_app1 in E by lia. auto.
  - intros i n E. destruct (NEWP i n E) as [O|[GE [_ U]]]; [apply (p2_keys _ _ _ P i n O)|].
    rewrite U. split; [constructor|simpl; contradiction].
Qed.

Lemma read_pref_agree m' b : agree m m' (x_rports m) ->
  (has_prefs m b -> read_pref m' b = Ok (pref_for m b)) /\
  (forall q, read_pref m' b = Ok q -> has_prefs m b /\ q = pref_for m b).
Proof.
  intros A. unfold read_pref, pref_for, has_prefs, bid_at, req_at.
  rewrite (ag_bids _ _ _ A), (ag_reqs _ _ _ A), (ag_xp _ _ _ A).
  destruct (nfind _ (x_prefs m)) as [pm|] eqn:E.
  - split; [auto|]. intros q [= <-]. split; eauto.
  - split; [intros [pm H]; discriminate|discriminate].
Qed.

Lemma rnodes_nth_at ps : forall G r i, nth_error (flat_map (reqs_of m) ps) i = Some r ->
  exists j p, nth_error ps j = Some p /\ In r (reqs_of m p) /\
    nth_error (rnodes mgr m G ps) i = Some (rnode mgr m (G + j) r).
Proof.
  induction ps as [|p ps IH]; intros G r i; simpl; [destruct i; discriminate|].
  intros E. destruct (Nat.lt_ge_cases i (length (reqs_of m p))).
  - rewrite nth_error_app1 in E by auto. exists 0%nat, p. split; auto. split; [eapply nth_error_In; eauto|].
    rewrite nth_error_app1 by now rewrite map_length. rewrite Nat.add_0_r. now apply map_const_nth.
  - rewrite nth_error_app2 in E by auto. destruct (IH (S G) r _ E) as [j [q [A [B C]]]].
    exists (S j), q. split; auto. split; auto.
    rewrite nth_error_app2 by now rewrite map_length. rewrite map_length, C. do 2 f_equal. lia.
Qed.
Lemma bnodes_nth_at ps : forall G b i, nth_error (flat_map (bids_of m) ps) i = Some b ->
  exists j p, nth_error ps j = Some p /\ In b (bids_of m p) /\
    nth_error (bnodes G ps) i = Some (bnode mgr m (G + j) b).
Proof.
  induction ps as [|p ps IH]; intros G r i; simpl; [destruct i; discriminate|].
  intros E. destruct (Nat.lt_ge_cases i (length (bids_of m p))).
  - rewrite nth_error_app1 in E by auto. exists 0%nat, p. split; auto. split; [eapply nth_error_In; eauto|].
    rewrite nth_error_app1 by now rewrite map_length. rewrite Nat.add_0_r. now apply map_const_nth.
  - rewrite nth_error_app2 in E by auto. destruct (IH (S G) r _ E) as [j [q [A [B C]]]].
    exists (S j), q. split; auto. split; auto.
    rewrite nth_error_app2 by now rewrite map_length. rewrite map_length, C. do 2 f_equal. lia.
Qed.

(** Node data at a request's / bid's number. *)
Lemma p2_rnode dn ad st r n : P2 dn ad st -> nfind r rtab = Some n ->
  exists j p nd, nth_error (x_rports m) j = Some p /\ In r (reqs_of m p) /\
    nth_error (gr_nodes (fst st)) n = Some nd /\ erase nd = rnode mgr m j r.
Proof.
  intros P E. unfold rtab, NR in E. apply nfind_combine_nth in E as [i [E ->]]; [|apply NDR].
  destruct (rnodes_nth_at (x_rports m) 0 r i E) as [j [p [A [B C]]]].
  assert (N := p2_nodes _ _ _ P).
  assert (H : nth_error (map erase (gr_nodes (fst st))) i = Some (rnode mgr m j r)).
  { rewrite N, nth_error_app1; auto. rewrite rnodes_all_length. apply nth_error_lt in E. exact E. }
  rewrite nth_error_map in H. destruct (nth_error (gr_nodes (fst st)) i) as [nd|] eqn:F; [|discriminate].
  cbn [option_map] in H. assert (H' : erase nd = rnode mgr m j r) by congruence. exists j, p, nd. auto.
Qed.
Lemma p2_bnode dn ad st rest b : P2 dn ad st -> x_bports m = dn ++ rest -> In b (flat_map (bids_of m) dn) ->
  exists j p nd, nth_error dn j = Some p /\ In b (bids_of m p) /\
    nth_error (gr_nodes (fst st)) (vo b) = Some nd /\ erase nd = bnode mgr m (nr + j) b.
Proof.
  intros P XB I.
  assert (SPLIT : BS = flat_map (bids_of m) dn ++ flat_map (bids_of m) rest).
  { unfold BS, all_bids. rewrite XB. change (fun p0 => bp_bids (bp_at m p0)) with (bids_of m).
    now rewrite flat_map_app. }
  assert (F := nfind_prefix _ _ _ SPLIT I).
  apply nfind_combine_nth in F as [i [F V]].
  2:{ assert (N := NDB). rewrite SPLIT in N. now apply nodup_app_l in N. }
  destruct (bnodes_nth_at dn nr b i F) as [j [p [A [B C]]]].
  assert (N := p2_nodes _ _ _ P).
  assert (H : nth_error (map erase (gr_nodes (fst st))) (vo b) = Some (bnode mgr m (nr + j) b)).
  { rewrite N, nth_error_app2; rewrite rnodes_all_length; [|lia].
    replace (vo b - NR)%nat with i by lia. exact C. }
  rewrite nth_error_map in H. destruct (nth_error (gr_nodes (fst st)) (vo b)) as [nd|] eqn:E; [|discriminate].
  cbn [option_map] in H. assert (H' : erase nd = bnode mgr m (nr + j) b) by congruence. exists j, p, nd. auto.
Qed.

Lemma node_at_nth g i n : nth_error (gr_nodes g) i = Some n -> node_at g i = n.
Proof. intros E. unfold node_at. now apply nth_error_nth. Qed.

Lemma filter_snoc {A} (f : A -> bool) l x : filter f (l ++ [x]) = filter f l ++ (if f x then [x] else []).
Proof. rewrite filter_app. reflexivity. Qed.

Lemma arc_step m' dn ad st rest b st' : agree m m' (x_rports m) -> x_bports m = dn ++ rest ->
  In b (flat_map (bids_of m) dn) -> ~ In b ad -> (forall c, In c ad -> In c (flat_map (bids_of m) dn)) ->
  P2 dn ad st -> t_arc fd m' st b = Ok st' -> P2 dn (ad ++ [b]) st'.
Proof.
  intros A XB Ib NIb AD P. destruct st as [g t].
  assert (T := p2_ctx _ _ _ P). cbn [snd] in T. subst t.
  assert (SPLIT : BS = flat_map (bids_of m) dn ++ flat_map (bids_of m) rest).
  { unfold BS, all_bids. rewrite XB. change (fun p0 => bp_bids (bp_at m p0)) with (bids_of m).
    now rewrite flat_map_app. }
  assert (IB : In b BS) by (rewrite SPLIT; apply in_or_app; auto).
  unfold t_arc.
  destruct (read_pref_agree m' b A) as [RP1 RP2].
  destruct (read_pref m' b) as [pref|e|] eqn:RP; try discriminate.
  destruct (RP2 pref eq_refl) as [_ ->]. clear RP1 RP2.
  destruct (Qltb_spec (pref_for m b) 0) as [NEG|NN].
  { intros [= <-]. assert (L : liked m b = false).
    { unfold liked. destruct (Qltb_spec 0 (pref_for m b)); auto. lra. }
    assert (F : filter (liked m) (ad ++ [b]) = filter (liked m) ad).
    { rewrite filter_snoc, L. apply app_nil_r. }
    destruct P. constructor; auto; rewrite F; auto. }
  destruct (Qeqb_spec (pref_for m b) 0) as [Z|NZ]; [discriminate|].
  assert (L : liked m b = true).
  { unfold liked. destruct (Qltb_spec 0 (pref_for m b)); auto. lra. }
  assert (F : filter (liked m) (ad ++ [b]) = filter (liked m) ad ++ [b]).
  { now rewrite filter_snoc, L. }
  assert (BDE : bid_at m' b = bid_at m b) by (unfold bid_at; now rewrite (ag_bids _ _ _ A)).
  rewrite BDE.
  destruct (uo_spec b IB) as [U1 U2]. destruct (vo_spec b IB) as [V1 V2].
  assert (BIN := nfind_prefix _ _ _ SPLIT Ib).
  cbn [TB r2n b2n]. fold rtab. rewrite U1, BIN. fold (key b).
  destruct (p2_rnode _ _ _ _ _ P U1) as [ju [pu [nu [XU [IU [NU EU]]]]]].
  destruct (p2_bnode _ _ _ _ _ P XB Ib) as [jv [pv [nv [XV [IV [NV EV]]]]]].
  cbn [fst] in NU, NV.
  rewrite (node_at_nth g _ _ NU), (node_at_nth g _ _ NV).
  assert (AE : arc_new fd (uo b) (vo b) nu nv = arcb b).
  { unfold arcb. apply arc_new_erase; [apply (f_equal n_qty EU)|apply (f_equal n_excl EU)|
      apply (f_equal n_qty EV)|apply (f_equal n_excl EV)]. }
  rewrite AE.
  assert (BPE : forall q, bp_at m' q = bp_at m q) by (intros; unfold bp_at; now rewrite (ag_bports _ _ _ A)).
  assert (RQE : forall q, req_at m' q = req_at m q) by (intros; unfold req_at; now rewrite (ag_reqs _ _ _ A)).
  rewrite BPE, RQE.
  assert (PORT : rq_port (req_at m (bd_req (bid_at m b))) = pu /\ In pu (x_rports m)).
  { assert (INP : In pu (x_rports m)) by (eapply nth_error_In; eauto).
    assert (LP : (pu < length (m_rports m))%nat).
    { assert (FF := xi_xr m INV). rewrite Forall_forall in FF. auto. }
    destruct (rp_at_ok m pu INV LP) as [_ [R _]]. destruct (R _ IU) as [_ [R2 _]]. auto. }
  destruct PORT as [-> INPU].
  rewrite (ag_in _ _ _ A pu INPU). cbn [massed rp_cons].
  fold (req_cons m pu).
  destruct (unit_caps (bp_cons (bp_at m (bd_port (bid_at m b)))) (bd_offer (bid_at m b)) (key b)
              (TB (flat_map (bids_of m) dn))) as [vc|e|] eqn:VC; try discriminate.
  destruct (unit_caps (req_cons m pu) (bd_offer (bid_at m b)) (key b)
              (TB (flat_map (bids_of m) dn))) as [uc|e|] eqn:UC; try discriminate.
  assert (UV : uo b <> vo b) by lia.
  cbv zeta.
  set (g3 := on_node (on_node (on_node g (vo b) (push_caps (key b) vc)) (uo b) (push_caps (key b) uc))
               (uo b) (set_pref (key b) (pref_for m b))).
  intros HOK.
  assert (HST : st' = (mkGraph (gr_nodes g3) (gr_groups g3) (gr_req g3) (gr_sup g3)
             (gr_arcs g3 ++ [arcb b]) (gr_matches g3), TB (flat_map (bids_of m) dn))) by congruence.
  clear HOK. subst st'.
  assert (NTH : forall j, nth_error (gr_nodes g3) j =
     option_map (fun n => if Nat.eqb j (uo b) then set_pref (key b) (pref_for m b) (push_caps (key b) uc n)
                          else if Nat.eqb j (vo b) then push_caps (key b) vc n else n)
                (nth_error (gr_nodes g) j)).
  { intros j. unfold g3. rewrite !on_node_nth. destruct (nth_error (gr_nodes g) j); simpl; auto.
    destruct (Nat.eqb_spec j (uo b)) as [->|N1]; auto.
    destruct (Nat.eqb_spec (uo b) (vo b)); [contradiction|auto]. }
  assert (KEY : forall c, In c (filter (liked m) ad) -> key c <> key b).
  { intros c Ic EK. apply filter_In in Ic as [Ic _]. apply NIb.
    assert (c = b); [|now subst]. apply vo_inj; auto; [|now injection EK].
    rewrite SPLIT. apply in_or_app; auto. }
  assert (NODES : map erase (gr_nodes g3) = map erase (gr_nodes g)).
  { apply nth_error_same. intros j. rewrite !nth_error_map, NTH.
    destruct (nth_error (gr_nodes g) j) as [n|]; simpl; auto.
    destruct (Nat.eqb j (uo b)); [reflexivity|]. destruct (Nat.eqb j (vo b)); reflexivity. }
  constructor; cbn [fst snd gr_nodes gr_groups gr_req gr_sup gr_arcs gr_matches].
  - reflexivity.
  - exact (eq_trans NODES (p2_nodes _ _ _ P)).
  - apply (p2_groups _ _ _ P).
  - apply (p2_req _ _ _ P).
  - apply (p2_sup _ _ _ P).
  - assert (E := p2_arcs _ _ _ P). cbn [fst] in E.
    change (gr_arcs g3) with (gr_arcs g). rewrite E, F, map_app. reflexivity.
  - apply (p2_ms _ _ _ P).
  - intros i n E. rewrite NTH in E.
    destruct (nth_error (gr_nodes g) i) as [n0|] eqn:E0; [|discriminate]. simpl in E. injection E as E.
    assert (OLD := p2_prefs _ _ _ P i n0 E0).
    rewrite F, filter_snoc, map_app, <- OLD, Nat.eqb_sym.
    destruct (Nat.eqb_spec i (uo b)) as [->|N1].
    + subst n. cbn [set_pref push_caps n_prefs map]. apply (mupd_fresh keyb).
      apply (mfind_none keyb keyb_ok). rewrite OLD, map_map. simpl. intros I.
      apply in_map_iff in I as [c [EK Ic]]. apply filter_In in Ic as [Ic _]. now apply (KEY c Ic).
    + cbn [map]. rewrite app_nil_r.
      destruct (Nat.eqb i (vo b)); subst n; reflexivity.
  - intros i n k E H. rewrite F in H. rewrite NTH in E.
    destruct (nth_error (gr_nodes g) i) as [n0|] eqn:E0; [|discriminate]. simpl in E. injection E as E.
    assert (OLD : alookup [] k (n_ucaps n0) = []).
    { apply (p2_fresh _ _ _ P i n0 k E0). intros c Ic. apply H. apply in_or_app; auto. }
    assert (NK : k <> key b).
    { intros ->. apply (H b); auto. apply in_or_app; simpl; auto. }
    destruct (Nat.eqb i (uo b)); [|destruct (Nat.eqb i (vo b))]; subst n;
      cbn [set_pref push_caps n_ucaps]; auto; rewrite push_fold_other; auto.
  - intros c Ic. rewrite F in Ic. apply in_app_or in Ic as [Ic|[<-|[]]].
    + destruct (p2_caps _ _ _ P c Ic) as [t' [S' [A1 A2]]]. cbn [fst] in A1, A2.
      assert (NK := KEY c Ic).
      exists t'. split; auto. split; intros n E; rewrite NTH in E.
      * destruct (nth_error (gr_nodes g) (vo c)) as [n0|] eqn:E0; [|discriminate]. simpl in E. injection E as E.
        rewrite (A1 n0 eq_refl). f_equal.
        destruct (Nat.eqb (vo c) (uo b)); [|destruct (Nat.eqb (vo c) (vo b))]; subst n;
          cbn [set_pref push_caps n_ucaps]; auto; rewrite push_fold_other; auto.
      * destruct (nth_error (gr_nodes g) (uo c)) as [n0|] eqn:E0; [|discriminate]. simpl in E. injection E as E.
        rewrite (A2 n0 eq_refl). f_equal.
        destruct (Nat.eqb (uo c) (uo b)); [|destruct (Nat.eqb (uo c) (vo b))]; subst n;
          cbn [set_pref push_caps n_ucaps]; auto; rewrite push_fold_other; auto.
    + assert (PU : rq_port (req_at m (bd_req (bid_at m b))) = pu).
      { assert (LP : (pu < length (m_rports m))%nat).
        { assert (FF := xi_xr m INV). rewrite Forall_forall in FF. auto. }
        destruct (rp_at_ok m pu INV LP) as [_ [R _]]. destruct (R _ IU) as [_ [R2 _]]. auto. }
      exists (TB (flat_map (bids_of m) dn)). split; [eapply shown_TB; eauto|].
      split; intros n E; rewrite NTH in E.
      * rewrite NV in E. simpl in E.
        destruct (Nat.eqb_spec (vo b) (uo b)); [congruence|]. rewrite Nat.eqb_refl in E. injection E as <-.
        cbn [push_caps n_ucaps]. rewrite push_fold_same.
        rewrite (p2_fresh _ _ _ P (vo b) nv (key b) NV KEY). exact VC.
      * rewrite NU in E. simpl in E. rewrite Nat.eqb_refl in E. injection E as <-.
        cbn [set_pref push_caps n_ucaps]. rewrite push_fold_same.
        rewrite (p2_fresh _ _ _ P (uo b) nu (key b) NU KEY). rewrite PU. exact UC.
  - intros i n E. rewrite NTH in E.
    destruct (nth_error (gr_nodes g) i) as [n0|] eqn:E0; [|discriminate]. simpl in E. injection E as E.
    destruct (p2_keys _ _ _ P i n0 E0) as [KN KI].
    assert (OLDK : forall k, In k (map fst (n_ucaps n0)) ->
      exists b0, In b0 (filter (liked m) (ad ++ [b])) /\ key b0 = k /\ (i = uo b0 \/ i = vo b0)).
    { intros k Ik. destruct (KI k Ik) as [c [Ic HC]]. exists c. split; auto. rewrite F. apply in_or_app; auto. }
    assert (HB : In b (filter (liked m) (ad ++ [b]))) by (rewrite F; apply in_or_app; simpl; auto).
    assert (PUSH : forall l, NoDup (map fst (n_ucaps (push_caps (key b) l n0))) /\
      (forall k, In k (map fst (n_ucaps (push_caps (key b) l n0))) -> In k (map fst (n_ucaps n0)) \/ k = key b)).
    { intros l. cbn [push_caps n_ucaps]. split; [now apply push_fold_nodup|apply push_fold_keys]. }
    destruct (Nat.eqb_spec i (uo b)) as [Ei|N1]; [|destruct (Nat.eqb_spec i (vo b)) as [Ei|N2]]; subst n.
    + destruct (PUSH uc) as [PN PK]. split; [exact PN|]. intros k Ik. apply PK in Ik as [Ik| ->]; auto.
      exists b. auto.
    + destruct (PUSH vc) as [PN PK]. split; [exact PN|]. intros k Ik. apply PK in Ik as [Ik| ->]; auto.
      exists b. auto.
    + split; auto.
Qed.
End Bids.
