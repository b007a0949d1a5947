(** The graph built by the translation, step by step. *)
From Coq Require Import String QArith List Bool Arith ZArith Lia Lqa Permutation.
From Verif Require Import Base GreedyModel GreedySpec ExchangeModel ExchangeSpec ExchangeProofs1.
Import ListNotations.
Open Scope Q_scope.

Lemma map_const_nth {A B} (f : A -> B) l i x : nth_error l i = Some x -> nth_error (map f l) i = Some (f x).
Proof. intros H. now rewrite nth_error_map, H. Qed.

Lemma alookup_mfind {V} (d : V) k m : alookup d k m = match mfind keyb k m with Some v => v | None => d end.
Proof. induction m as [|[k' v] t IH]; simpl; auto. destruct (keyb k k'); auto. Qed.

Lemma push_fold_same k (l : list Q) : forall m : list ((nat * nat) * list Q),
  alookup [] k (fold_left (fun m x => mupd keyb k (opush x) m) l m) = alookup [] k m ++ l.
Proof.
  induction l as [|x l IH]; intros m; simpl; [now rewrite app_nil_r|].
  rewrite IH. rewrite !alookup_mfind, (mfind_mupd_same keyb keyb_ok).
  destruct (mfind keyb k m); simpl; rewrite <- ?app_assoc; auto.
Qed.
Lemma push_fold_other k k' (l : list Q) : k <> k' -> forall m : list ((nat * nat) * list Q),
  alookup [] k (fold_left (fun m x => mupd keyb k' (opush x) m) l m) = alookup [] k m.
Proof.
  intros N. induction l as [|x l IH]; intros m; simpl; auto.
  rewrite IH. rewrite !alookup_mfind, (mfind_mupd_other keyb keyb_ok); auto.
Qed.

Lemma push_fold_keys k (l : list Q) : forall (m : list ((nat * nat) * list Q)) j,
  In j (map fst (fold_left (fun m x => mupd keyb k (opush x) m) l m)) -> In j (map fst m) \/ j = k.
Proof.
  induction l as [|x l IH]; intros m j; simpl; auto.
  intros I. apply IH in I as [I|I]; auto. revert I. apply mupd_keys.
Qed.
Lemma push_fold_nodup k (l : list Q) : forall (m : list ((nat * nat) * list Q)),
  NoDup (map fst m) -> NoDup (map fst (fold_left (fun m x => mupd keyb k (opush x) m) l m)).
Proof. induction l as [|x l IH]; intros m N; simpl; auto. apply IH. now apply (mupd_nodup keyb keyb_ok). Qed.
Lemma on_node_nth g i f j : nth_error (gr_nodes (on_node g i f)) j =
  option_map (fun n => if Nat.eqb j i then f n else n) (nth_error (gr_nodes g) j).
Proof.
  unfold on_node; simpl. destruct (nth_error (gr_nodes g) i) as [n|] eqn:E.
  - destruct (Nat.eqb_spec j i) as [->|N].
    + rewrite nth_upd_same by (apply nth_error_Some; congruence). now rewrite E.
    + rewrite nth_upd_other by auto. destruct (nth_error (gr_nodes g) j); auto.
  - destruct (Nat.eqb_spec j i) as [->|N]; [now rewrite E|]. destruct (nth_error (gr_nodes g) j); auto.
Qed.

Definition erase (n : node) : node :=
  mkNode (n_group n) (n_qty n) (n_excl n) (n_commod n) (n_agent n) [] [].

Lemma arc_new_erase fd u v nu nv nu' nv' :
  n_qty nu = n_qty nu' -> n_excl nu = n_excl nu' -> n_qty nv = n_qty nv' -> n_excl nv = n_excl nv' ->
  arc_new fd u v nu nv = arc_new fd u v nu' nv'.
Proof. intros A B C D. unfold arc_new. now rewrite A, B, C, D. Qed.

Lemma seq_snoc s n : seq s (S n) = seq s n ++ [(s + n)%nat].
Proof. revert s; induction n; intros s; simpl; [f_equal; lia|]. f_equal. rewrite <- Nat.add_succ_comm. apply IHn. Qed.

(** ** Request portfolios *)
Section Req.
Variable mgr : nat -> Z.
Variable m : market.

Definition rnode (G r : nat) : node :=
  mkNode (Some G) (rs_qty (rq_target (req_at m r))) (rq_excl (req_at m r)) (rq_commod (req_at m r))
         (mgr (rq_trader (req_at m r))) [] [].
Definition bnode (G b : nat) : node :=
  mkNode (Some G) (rs_qty (bd_offer (bid_at m b))) (bd_excl (bid_at m b))
         (rq_commod (req_at m (bd_req (bid_at m b)))) (mgr (bd_trader (bid_at m b))) [] [].

Definition reqs_of (p : nat) : list nat := rp_reqs (rp_at m p).
Definition bids_of (p : nat) : list nat := bp_bids (bp_at m p).

Fixpoint rnodes (G : nat) (ps : list nat) : list node :=
  match ps with [] => [] | p :: t => map (rnode G) (reqs_of p) ++ rnodes (S G) t end.
Fixpoint exn (n : nat) (rs : list nat) : list (list nat) :=
  match rs with
  | [] => []
  | r :: t => (if rq_excl (req_at m r) then [[n]] else []) ++ exn (S n) t
  end.
Definition rgroup (n p : nat) : group :=
  mkGroup (rp_qty (rp_at m p)) (seq n (length (reqs_of p)))
          (map (fun c => Some (cc_cap c)) (req_cons m p)) (exn n (reqs_of p)).
Fixpoint rgroups (n : nat) (ps : list nat) : list group :=
  match ps with [] => [] | p :: t => rgroup n p :: rgroups (n + length (reqs_of p)) t end.

Lemma rnodes_app G ps qs : rnodes G (ps ++ qs) = rnodes G ps ++ rnodes (G + length ps) qs.
Proof.
  revert G; induction ps as [|p ps IH]; intros G; simpl; [now rewrite Nat.add_0_r|].
  rewrite IH, app_assoc. do 2 f_equal. lia.
Qed.
Lemma rgroups_app n ps qs : rgroups n (ps ++ qs) =
  rgroups n ps ++ rgroups (n + length (flat_map reqs_of ps)) qs.
Proof.
  revert n; induction ps as [|p ps IH]; intros n; simpl; [now rewrite Nat.add_0_r|].
  rewrite IH, app_length. do 2 f_equal. now rewrite Nat.add_assoc.
Qed.
Lemma rnodes_length G ps : length (rnodes G ps) = length (flat_map reqs_of ps).
Proof. revert G; induction ps as [|p ps IH]; intros G; simpl; auto. now rewrite !app_length, map_length, IH. Qed.
Lemma rgroups_length n ps : length (rgroups n ps) = length ps.
Proof. revert n; induction ps; intros; simpl; auto. Qed.

Definition TR (rs : list nat) : tctx :=
  mkTctx (combine rs (seq 0 (length rs))) (combine (seq 0 (length rs)) rs) [] [].

Definition add_nodes (g : graph) (l : list node) : graph :=
  mkGraph (gr_nodes g ++ l) (gr_groups g) (gr_req g) (gr_sup g) (gr_arcs g) (gr_matches g).

Lemma nfind_fresh_l (l : list nat) s k : NoDup (l ++ [k]) -> nfind k (combine l (seq s (length l))) = None.
Proof.
  intros N. apply nfind_none. rewrite combine_fst by now rewrite seq_length.
  apply NoDup_remove_2 in N. now rewrite app_nil_r in N.
Qed.
Lemma nfind_fresh_r (l : list nat) s : nfind (s + length l)%nat (combine (seq s (length l)) l) = None.
Proof.
  apply nfind_none. rewrite combine_fst by now rewrite seq_length.
  rewrite in_seq. lia.
Qed.
Lemma combine_snoc (l : list nat) s k :
  combine l (seq s (length l)) ++ [(k, (s + length l)%nat)] =
  combine (l ++ [k]) (seq s (length (l ++ [k]))).
Proof.
  rewrite app_length, Nat.add_1_r, seq_snoc, combine_app by now rewrite seq_length. auto.
Qed.
Lemma combine_snoc_r (l : list nat) s k :
  combine (seq s (length l)) l ++ [((s + length l)%nat, k)] =
  combine (seq s (length (l ++ [k]))) (l ++ [k]).
Proof.
  rewrite app_length, Nat.add_1_r, seq_snoc, combine_app by now rewrite seq_length. auto.
Qed.

Lemma t_add_req_TR rs r : NoDup (rs ++ [r]) -> t_add_req (TR rs) r (length rs) = TR (rs ++ [r]).
Proof.
  intros N. unfold t_add_req, TR; simpl.
  rewrite (nupd_fresh r) by now apply nfind_fresh_l.
  rewrite (nupd_fresh (length rs)) by apply (nfind_fresh_r rs 0).
  f_equal; [apply (combine_snoc rs 0)|apply (combine_snoc_r rs 0)].
Qed.

(** Same request and bid data. *)
Definition same_data (m' : market) : Prop := m_reqs m' = m_reqs m /\ m_bids m' = m_bids m.

Lemma fold_req_nodes m' G rs : m_reqs m' = m_reqs m -> forall done g ns exs,
  NoDup (done ++ rs) -> length (gr_nodes g) = length done ->
  fold_left (t_req_node mgr m' G) rs ((g, TR done), (ns, exs)) =
  ((add_nodes g (map (rnode G) rs), TR (done ++ rs)),
   (ns ++ seq (length done) (length rs), exs ++ exn (length done) rs)).
Proof.
  intros E. induction rs as [|r rs IH]; intros done g ns exs N L.
  - cbn [fold_left map exn seq length]. rewrite !app_nil_r.
    destruct g; unfold add_nodes; simpl. now rewrite app_nil_r.
  - cbn [fold_left]. unfold t_req_node at 2.
    rewrite L. rewrite t_add_req_TR.
    2:{ replace (done ++ r :: rs) with ((done ++ [r]) ++ rs) in N by (now rewrite <- app_assoc).
        clear - N. induction rs as [|x rs IH] using rev_ind; [now rewrite app_nil_r in N|].
        apply IH. rewrite app_assoc in N. apply NoDup_remove_1 in N. now rewrite app_nil_r in N. }
    rewrite IH.
    + rewrite <- app_assoc. f_equal; [f_equal|].
      * unfold add_nodes; simpl. rewrite <- app_assoc. simpl. unfold rnode, req_at. now rewrite E.
      * rewrite app_length, Nat.add_1_r. cbn [length seq exn]. rewrite <- app_assoc. f_equal.
        unfold req_at. rewrite E. destruct (rq_excl (nth r (m_reqs m) req0)); [now rewrite <- app_assoc|auto].
    + now rewrite <- app_assoc.
    + simpl. rewrite !app_length; simpl. lia.
Qed.

(** State after the portfolios [dn] have been translated. *)
Definition P1 (dn : list nat) (st : tst) : Prop :=
  st = (mkGraph (rnodes 0 dn) (rgroups 0 dn) (seq 0 (length dn)) [] [] [],
        TR (flat_map reqs_of dn)).

(** [m'] differs from [m] only in the mass constraints of the portfolios [dn]. *)
Definition massed (rp : rport) : rport :=
  mkRP (rp_trader rp) (rp_reqs rp) (rp_coeffs rp) (rp_cons rp ++ [mass_cons rp]) (rp_qty rp).
Record agree (m' : market) (dn : list nat) : Prop := mkAgree {
  ag_reqs : m_reqs m' = m_reqs m; ag_bids : m_bids m' = m_bids m; ag_bports : m_bports m' = m_bports m;
  ag_len : length (m_rports m') = length (m_rports m);
  ag_xr : x_rports m' = x_rports m; ag_xb : x_bports m' = x_bports m; ag_xp : x_prefs m' = x_prefs m;
  ag_in : forall p, In p dn -> rp_at m' p = massed (rp_at m p);
  ag_out : forall p, ~ In p dn -> rp_at m' p = rp_at m p }.

Lemma t_rport_step m' dn p st : agree m' (dn ++ [p]) -> NoDup (flat_map reqs_of (dn ++ [p])) ->
  P1 dn st -> P1 (dn ++ [p]) (t_rport mgr m' st p).
Proof.
  intros A N ->. unfold t_rport. cbn [fst gr_groups].
  assert (E : rp_at m' p = massed (rp_at m p)).
  { apply (ag_in m' _ A). apply in_or_app; simpl; auto. }
  rewrite E. cbn [massed rp_reqs rp_cons rp_qty].
  rewrite flat_map_app in N. simpl in N. rewrite app_nil_r in N.
  unfold reqs_of in N at 2. fold (reqs_of p) in N.
  change (rp_reqs (rp_at m p)) with (reqs_of p).
  rewrite fold_req_nodes; [|apply A|exact N|apply rnodes_length].
  unfold P1. rewrite flat_map_app. simpl. rewrite app_nil_r.
  rewrite rgroups_length. f_equal. unfold add_nodes; simpl.
  rewrite app_length, Nat.add_1_r, seq_snoc. simpl.
  f_equal.
  - rewrite rnodes_app. simpl. now rewrite app_nil_r.
  - rewrite rgroups_app. simpl. reflexivity.
Qed.

Lemma rp_at_upd p rp q : (p < length (m_rports m))%nat -> forall m', length (m_rports m') = length (m_rports m) ->
  rp_at (set_rports m' (upd (m_rports m') p rp)) q = if Nat.eqb p q then rp else rp_at m' q.
Proof.
  intros L m' L'. unfold rp_at; simpl. destruct (Nat.eqb_spec p q) as [<-|N].
  - apply nth_error_nth. apply nth_upd_same. lia.
  - destruct (nth_error (m_rports m') q) as [x|] eqn:E.
    + rewrite (nth_error_nth _ _ _ E). apply nth_error_nth. now rewrite nth_upd_other.
    + rewrite nth_error_None in E. rewrite !nth_overflow; auto. rewrite upd_length. auto.
Qed.

Lemma nodup_app_l {A} (l1 l2 : list A) : NoDup (l1 ++ l2) -> NoDup l1.
Proof.
  induction l2 as [|x l2 IH] using rev_ind; [now rewrite app_nil_r|].
  rewrite app_assoc. intros N. apply NoDup_remove_1 in N. rewrite app_nil_r in N. auto.
Qed.

Lemma t_rports_run ps : forall dn m' st,
  Forall (fun p => (p < length (m_rports m))%nat) ps -> NoDup (dn ++ ps) ->
  NoDup (flat_map reqs_of (dn ++ ps)) ->
  agree m' dn -> P1 dn st ->
  (Forall (fun p => 0 < rp_qty (rp_at m p)) ps ->
   exists m1 st1, t_rports mgr ps m' st = Ok (m1, st1) /\ agree m1 (dn ++ ps) /\ P1 (dn ++ ps) st1) /\
  (Exists (fun p => rp_qty (rp_at m p) <= 0) ps -> t_rports mgr ps m' st = Throw ValueError).
Proof.
  induction ps as [|p ps IH]; intros dn m' st F N NF A P.
  - rewrite app_nil_r. split; [intros _; exists m', st; auto|intros X; inversion X].
  - inversion F as [|? ? Lp F']; subst.
    assert (NI : ~ In p dn).
    { apply NoDup_remove_2 in N. intros I. apply N. apply in_or_app; auto. }
    assert (RP : rp_at m' p = rp_at m p) by now apply (ag_out m' dn A).
    cbn [t_rports]. rewrite RP. unfold cc_new.
    assert (EQ : (dn ++ p :: ps) = ((dn ++ [p]) ++ ps)) by now rewrite <- app_assoc.
    rewrite EQ in *.
    destruct (Qleb_spec (rp_qty (rp_at m p)) 0) as [Z|Z].
    + split; [|auto]. intros FF. inversion FF; subst. lra.
    + set (m1 := set_rports m' _).
      assert (A1 : agree m1 (dn ++ [p])).
      { unfold m1. destruct A as [A1 A2 A3 A4 A5 A6 A7 A8 A9]. constructor; simpl; auto.
        - now rewrite upd_length.
        - intros q Iq. rewrite rp_at_upd by auto. destruct (Nat.eqb_spec p q) as [<-|NE].
          + reflexivity.
          + apply in_app_or in Iq as [Iq|[->|[]]]; [auto|congruence].
        - intros q Iq. rewrite rp_at_upd by auto. destruct (Nat.eqb_spec p q) as [<-|NE].
          + elim Iq. apply in_or_app; simpl; auto.
          + apply A9. intros I. apply Iq. apply in_or_app; auto. }
      destruct (IH (dn ++ [p]) m1 (t_rport mgr m1 st p)) as [H1 H2]; auto.
      { apply t_rport_step; auto. rewrite flat_map_app in NF. now apply nodup_app_l in NF. }
      split.
      * intros FF. inversion FF; subst. auto.
      * intros X. inversion X; subst; [lra|auto].
Qed.
End Req.
