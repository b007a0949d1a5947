(** Where preferences come from. *)
From Coq Require Import String QArith List Bool Arith ZArith Lia Lqa Permutation Sorted.
From Verif Require Import Base GreedyModel GreedySpec ExchangeModel ExchangeSpec
  ExchangeProofs1 ExchangeProofs2 ExchangeProofs3.
Import ListNotations.
Open Scope Q_scope.

Definition entry (m : market) (tr r b : nat) : option Q :=
  match nfind tr (x_prefs m) with
  | None => None
  | Some pm => match nfind r pm with None => None | Some l => nfind b l end
  end.
Definition pinv (m : market) : Prop := forall tr r b v, entry m tr r b = Some v ->
  (b < length (m_bids m))%nat /\ v = default_pref m b.
Definition known (m : market) (b : nat) : Prop :=
  entry m (rq_trader (req_at m (bd_req (bid_at m b)))) (bd_req (bid_at m b)) b = Some (default_pref m b).

Lemma stated_default m b : stated_pref m b = default_pref m b.
Proof. reflexivity. Qed.
Lemma known_pref m b : known m b -> has_prefs m b /\ pref_for m b = stated_pref m b.
Proof.
  unfold known, entry, has_prefs, pref_for.
  destruct (nfind _ (x_prefs m)) as [pm|]; [|discriminate].
  destruct (nfind _ pm) as [l|]; [|discriminate]. intros E. cbn [orempty]. rewrite E. eauto.
Qed.

Lemma entry_add m b tr r b' :
  entry (ctx_add_bid m b) tr r b' =
  if (Nat.eqb tr (rq_trader (req_at m (bd_req (bid_at m b)))) && Nat.eqb r (bd_req (bid_at m b)) && Nat.eqb b' b)%bool
  then Some (keep (default_pref m b) (entry m tr r b')) else entry m tr r b'.
Proof.
  unfold entry, ctx_add_bid. cbn [x_prefs].
  set (tr0 := rq_trader _). set (r0 := bd_req _).
  destruct (Nat.eqb_spec tr tr0) as [->|N]; cbn [andb].
  - rewrite nfind_nupd_same. destruct (Nat.eqb_spec r r0) as [->|N2]; cbn [andb].
    + rewrite nfind_nupd_same. destruct (Nat.eqb_spec b' b) as [->|N3].
      * rewrite nfind_nupd_same. destruct (nfind tr0 (x_prefs m)) as [pm|]; cbn [orempty]; auto.
        destruct (nfind r0 pm); cbn [orempty]; auto.
      * rewrite nfind_nupd_other by auto. destruct (nfind tr0 (x_prefs m)) as [pm|]; cbn [orempty]; auto.
        destruct (nfind r0 pm); cbn [orempty]; auto.
    + rewrite nfind_nupd_other by auto. destruct (nfind tr0 (x_prefs m)) as [pm|]; cbn [orempty]; auto.
  - rewrite nfind_nupd_other by auto. reflexivity.
Qed.

Lemma same_heaps_at m m' : same_heaps m m' -> (forall b, bid_at m' b = bid_at m b) /\
  (forall r, req_at m' r = req_at m r) /\ (forall b, default_pref m' b = default_pref m b).
Proof.
  intros [E1 [_ [E2 _]]]. assert (B : forall b, bid_at m' b = bid_at m b) by (intros; unfold bid_at; now rewrite E2).
  assert (R : forall r, req_at m' r = req_at m r) by (intros; unfold req_at; now rewrite E1).
  split; auto. split; auto. intros b. unfold default_pref. now rewrite B, R.
Qed.

Lemma fold_add_bid bs : forall m, pinv m -> Forall (fun b => (b < length (m_bids m))%nat) bs ->
  let m' := fold_left ctx_add_bid bs m in
  pinv m' /\ (forall b, In b bs \/ known m b -> known m' b).
Proof.
  induction bs as [|b bs IH]; intros m P F; simpl.
  - split; auto. intros b [[]|K]; auto.
  - inversion F as [|? ? LB F']; subst.
    destruct (ctx_add_bid_heaps m b) as [SH _]. destruct (same_heaps_at _ _ SH) as [B [R D]].
    assert (P' : pinv (ctx_add_bid m b)).
    { intros tr r b' v E. rewrite D. destruct SH as [_ [_ [-> _]]]. rewrite entry_add in E.
      destruct (Nat.eqb tr _ && Nat.eqb r _ && Nat.eqb b' b)%bool eqn:C; [|now apply (P tr r)].
      apply andb_true_iff in C as [_ C]. apply Nat.eqb_eq in C. subst b'.
      injection E as <-. destruct (entry m tr r b) as [x|] eqn:E; cbn [keep]; auto. now apply (P tr r). }
    destruct (IH (ctx_add_bid m b) P') as [P2 K2].
    { destruct SH as [_ [_ [-> _]]]. auto. }
    split; auto. intros b' H. apply K2.
    assert (KK : known m b' \/ b' = b -> known (ctx_add_bid m b) b').
    { unfold known. rewrite !B, !R, D, entry_add.
      intros [K| ->].
      - destruct (Nat.eqb _ _ && Nat.eqb _ _ && Nat.eqb b' b)%bool; auto. now rewrite K.
      - rewrite !Nat.eqb_refl. cbn [andb].
        destruct (entry m _ _ b) as [x|] eqn:E; cbn [keep]; auto. f_equal. now apply (P _ _ _ _ E). }
    destruct H as [[->|H]|H]; auto.
Qed.

(** What no operation changes. *)
Definition extends (m m' : market) : Prop :=
  (length (m_bids m) <= length (m_bids m'))%nat /\
  (forall b, (b < length (m_bids m))%nat -> bid_at m' b = bid_at m b) /\
  (forall r, (r < length (m_reqs m))%nat -> req_at m' r = req_at m r).
Lemma extends_default m m' b : xinv m -> extends m m' -> (b < length (m_bids m))%nat ->
  default_pref m' b = default_pref m b.
Proof.
  intros I [_ [B R]] L. unfold default_pref. rewrite (B b L), R; auto. now apply (xi_ans m I).
Qed.
Lemma extends_known m m' : xinv m -> pinv m -> extends m m' -> x_prefs m' = x_prefs m ->
  pinv m' /\ (forall b, known m b -> known m' b).
Proof.
  intros I P X E. assert (EE : forall tr r b, entry m' tr r b = entry m tr r b) by (intros; unfold entry; now rewrite E).
  split.
  - intros tr r b v H. rewrite EE in H. destruct (P tr r b v H) as [L D].
    rewrite (extends_default m m' b I X L). destruct X as [X _]. split; [lia|auto].
  - intros b K. assert (L : (b < length (m_bids m))%nat) by (unfold known in K; now apply (P _ _ _ _ K)).
    unfold known. rewrite EE, (extends_default m m' b I X L).
    destruct X as [_ [B R]]. rewrite (B b L), R; auto. now apply (xi_ans m I).
Qed.
Lemma extends_refl m m' : m_bids m' = m_bids m -> m_reqs m' = m_reqs m -> extends m m'.
Proof. intros E1 E2. unfold extends, bid_at, req_at. rewrite E1, E2. auto. Qed.
Lemma extends_req m x m' : m_bids m' = m_bids m -> m_reqs m' = m_reqs m ++ [x] -> extends m m'.
Proof.
  intros E1 E2. unfold extends, bid_at, req_at. rewrite E1, E2. split; auto. split; auto.
  intros r L. now rewrite app_nth1.
Qed.
Lemma extends_bid m x m' : m_bids m' = m_bids m ++ [x] -> m_reqs m' = m_reqs m -> extends m m'.
Proof.
  intros E1 E2. unfold extends, bid_at, req_at. rewrite E1, E2. rewrite app_length. split; [lia|]. split; auto.
  intros r L. now rewrite app_nth1.
Qed.


Lemma step_known m o : xinv m -> pinv m -> no_adjust o -> xvalid m o ->
  pinv (xstep m o) /\ (forall b, known m b -> known (xstep m o) b) /\ extends m (xstep m o).
Proof.
  intros I P N V.
  assert (SIMPLE : extends m (xstep m o) -> x_prefs (xstep m o) = x_prefs m ->
    pinv (xstep m o) /\ (forall b, known m b -> known (xstep m o) b) /\ extends m (xstep m o)).
  { intros X E. destruct (extends_known m (xstep m o) I P X E) as [A B]. auto. }
  destruct o; cbn [no_adjust] in N; try contradiction.
  - apply SIMPLE; [now apply extends_refl|reflexivity].
  - apply SIMPLE.
    + eapply extends_req; cbn [xstep]; unfold add_request; destruct (verify _ _); reflexivity.
    + cbn [xstep]; unfold add_request; destruct (verify _ _); reflexivity.
  - apply SIMPLE; [apply extends_refl|]; cbn [xstep]; unfold add_mutual; destruct rs; auto; destruct (Qeqb _ _); auto.
  - apply SIMPLE; [apply extends_refl|]; cbn [xstep]; unfold add_rcons; destruct (cc_new _ _); auto.
  - apply SIMPLE; [now apply extends_refl|reflexivity].
  - apply SIMPLE.
    + eapply extends_bid; cbn [xstep]; unfold add_bid; destruct (verify _ _); try destruct (Qltb _ _); reflexivity.
    + cbn [xstep]; unfold add_bid; destruct (verify _ _); try destruct (Qltb _ _); reflexivity.
  - apply SIMPLE; [apply extends_refl|]; cbn [xstep]; unfold add_bcons; destruct (cc_new _ _); auto.
  - assert (PR : forall l m, x_prefs (fold_left ctx_add_request l m) = x_prefs m).
    { induction l as [|x l IH]; intros m1; simpl; auto. now rewrite IH. }
    destruct (fold_heaps ctx_add_request (rp_reqs (rp_at m p))
       (mkM (m_reqs m) (m_rports m) (m_bids m) (m_bports m) (x_rports m ++ [p]) (x_bports m)
         (x_requesters m) (x_bidders m) (x_commod m) (x_bbr m) (x_prefs m)) ctx_add_request_heaps)
      as [[E1 [_ [E2 _]]] _].
    apply SIMPLE; cbn [xstep]; unfold ctx_add_rport; [apply extends_refl; auto|now rewrite PR].
  - cbn [xstep xvalid] in *. unfold ctx_add_bport.
    set (m0 := mkM (m_reqs m) (m_rports m) (m_bids m) (m_bports m) (x_rports m) (x_bports m ++ [p])
         (x_requesters m) (x_bidders m) (x_commod m) (x_bbr m) (x_prefs m)).
    destruct (fold_heaps ctx_add_bid (bp_bids (bp_at m p)) m0 ctx_add_bid_heaps) as [[E1 [_ [E2 _]]] _].
    destruct (fold_add_bid (bp_bids (bp_at m p)) m0) as [A B].
    + exact P.
    + apply Forall_forall. intros b Ib. destruct (bp_at_ok m p I V) as [_ [B1 _]]. now apply B1.
    + split; auto. split; [intros b K; apply B; right; exact K|]. apply extends_refl; auto.
Qed.
Lemma ctxb_known m p : xinv m -> pinv m -> (p < length (m_bports m))%nat ->
  forall b, In b (bp_bids (bp_at m p)) -> known (xstep m (XCtxB p)) b.
Proof.
  intros I P V b Ib. cbn [xstep]. unfold ctx_add_bport.
  match goal with |- context [fold_left _ _ ?m0] => destruct (fold_add_bid (bp_bids (bp_at m p)) m0) as [A B] end.
  - exact P.
  - apply Forall_forall. intros c Ic. destruct (bp_at_ok m p I V) as [_ [B1 _]]. now apply B1.
  - apply B. auto.
Qed.

Lemma xsteps_reach m m' : xreach m -> xsteps m m' -> xreach m'.
Proof. intros R S. induction S; auto. apply IHS. now constructor. Qed.
Lemma steps_known m m' : xsteps m m' -> xreach m -> pinv m ->
  pinv m' /\ (forall b, known m b -> known m' b) /\ extends m m'.
Proof.
  induction 1 as [m|m o m' N V S IH]; intros R P.
  - split; auto. split; auto. now apply extends_refl.
  - destruct (step_known m o (xreach_inv m R) P N V) as [P1 [K1 X1]].
    destruct IH as [P2 [K2 X2]]; auto; [now constructor|].
    split; auto. split; auto. destruct X1 as [L1 [B1 R1]]. destruct X2 as [L2 [B2 R2]].
    split; [lia|]. split.
    + intros b L. rewrite B2 by lia. auto.
    + intros r L. rewrite R2; auto.
      destruct o; cbn [xstep no_adjust] in *; try contradiction.
      all: try (exact L).
      * unfold add_request; destruct (verify _ _); cbn; rewrite app_length; lia.
      * unfold add_mutual; destruct rs; auto; destruct (Qeqb _ _); auto.
      * unfold add_rcons; destruct (cc_new _ _); auto.
      * unfold add_bid; destruct (verify _ _); try destruct (Qltb _ _); auto.
      * unfold add_bcons; destruct (cc_new _ _); auto.
      * destruct (fold_heaps ctx_add_request (rp_reqs (rp_at m p))
       (mkM (m_reqs m) (m_rports m) (m_bids m) (m_bports m) (x_rports m ++ [p]) (x_bports m)
         (x_requesters m) (x_bidders m) (x_commod m) (x_bbr m) (x_prefs m)) ctx_add_request_heaps)
      as [[E1 _] _]. unfold ctx_add_rport. rewrite E1. exact L.
      * unfold ctx_add_bport.
        match goal with |- context [fold_left _ ?l ?m0] => destruct (fold_heaps ctx_add_bid l m0 ctx_add_bid_heaps) as [[E1 _] _] end.
        rewrite E1. exact L.
Qed.
Lemma pinv0 : pinv market0.
Proof. intros tr r b v E. discriminate. Qed.

Lemma default_preferences m p m' : xsteps market0 m -> (p < length (m_bports m))%nat ->
  xsteps (xstep m (XCtxB p)) m' ->
  forall b, In b (bp_bids (bp_at m p)) ->
    has_prefs m' b /\ pref_for m' b = stated_pref m' b /\ stated_pref m' b = stated_pref m b.
Proof.
  intros S V S' b Ib.
  assert (R : xreach m) by (eapply xsteps_reach; eauto; constructor).
  destruct (steps_known _ _ S xreach0 pinv0) as [P _].
  assert (R2 : xreach (xstep m (XCtxB p))) by (constructor; auto).
  destruct (step_known m (XCtxB p) (xreach_inv m R) P I V) as [P1 [_ X1]].
  destruct (steps_known _ _ S' R2 P1) as [_ [K2 X2]].
  assert (K := K2 b (ctxb_known m p (xreach_inv m R) P V b Ib)).
  destruct (known_pref m' b K) as [A B]. split; auto. split; auto.
  assert (L : (b < length (m_bids m))%nat).
  { destruct (bp_at_ok m p (xreach_inv m R) V) as [_ [B1 _]]. now apply B1. }
  rewrite !stated_default.
  rewrite (extends_default _ m' b (xreach_inv _ R2) X2); [|destruct X1; lia].
  apply (extends_default m _ b (xreach_inv m R) X1 L).
Qed.

(** ** Adjustment: once per requester *)
Lemma adjust_fold (F : nat -> prefmap -> prefmap) ts : NoDup ts -> forall xp t,
  nfind t (fold_left (fun xp t => nupd t (fun o => F t (orempty o)) xp) ts xp) =
  if existsb (Nat.eqb t) ts then Some (F t (orempty (nfind t xp))) else nfind t xp.
Proof.
  induction 1 as [|s ts N D IH]; intros xp t; simpl; auto.
  rewrite IH. destruct (Nat.eqb_spec t s) as [->|NE]; cbn [orb].
  - rewrite nfind_nupd_same.
    replace (existsb (Nat.eqb s) ts) with false; auto. symmetry. apply not_true_is_false.
    intros E. apply existsb_exists in E as [x [Ix Ex]]. apply Nat.eqb_eq in Ex. now subst x.
  - rewrite nfind_nupd_other by auto. reflexivity.
Qed.
Lemma sins_in x y l : In y (sins x l) <-> y = x \/ In y l.
Proof.
  induction l as [|z l IH]; simpl; [intuition|].
  destruct (Nat.ltb x z); simpl; [intuition|].
  destruct (Nat.eqb_spec x z) as [->|]; simpl; [intuition|]. rewrite IH. intuition.
Qed.
Lemma sins_sorted x l : StronglySorted lt l -> StronglySorted lt (sins x l).
Proof.
  induction 1 as [|z l S IH F]; simpl; [repeat constructor|].
  destruct (Nat.ltb_spec x z).
  - constructor; [now constructor|]. constructor; auto. eapply Forall_impl; [|exact F]. simpl; lia.
  - destruct (Nat.eqb_spec x z) as [->|]; [now constructor|].
    constructor; auto. apply Forall_forall. intros y I. apply sins_in in I as [->|I]; [lia|].
    rewrite Forall_forall in F. auto.
Qed.
Definition qinv (m : market) : Prop := StronglySorted lt (x_requesters m) /\
  (forall r, In r (all_reqs m) -> In (rq_trader (req_at m r)) (x_requesters m)).
Lemma sorted_nodup l : StronglySorted lt l -> NoDup l.
Proof.
  induction 1 as [|x l S IH F]; constructor; auto. intros I. rewrite Forall_forall in F. apply F in I. lia.
Qed.
Lemma requesters_fold l : forall m, StronglySorted lt (x_requesters m) ->
  StronglySorted lt (x_requesters (fold_left ctx_add_request l m)).
Proof. induction l as [|x l IH]; intros m S; simpl; auto. apply IH. cbn. now apply sins_sorted. Qed.
Lemma requesters_sorted m : xreach m -> StronglySorted lt (x_requesters m).
Proof.
  induction 1 as [|m o R IH V]; [constructor|].
  destruct o; cbn [xstep]; auto.
  - unfold add_request; destruct (verify _ _); auto.
  - unfold add_mutual; destruct rs; auto; destruct (Qeqb _ _); auto.
  - unfold add_rcons; destruct (cc_new _ _); auto.
  - unfold add_bid; destruct (verify _ _); try destruct (Qltb _ _); auto.
  - unfold add_bcons; destruct (cc_new _ _); auto.
  - unfold ctx_add_rport. now apply requesters_fold.
  - unfold ctx_add_bport.
    assert (E : forall l m1, x_requesters (fold_left ctx_add_bid l m1) = x_requesters m1).
    { induction l as [|x l IHl]; intros m1; simpl; auto. now rewrite IHl. }
    rewrite E. exact IH.
Qed.
Lemma adjusted m adj t : xreach m ->
  prefs_of (adjust_all m adj) t =
  if existsb (Nat.eqb t) (x_requesters m) then fold_left (fun pm f => f pm) (adj t) (prefs_of m t)
  else prefs_of m t.
Proof.
  intros R. unfold prefs_of, adjust_all. cbn [x_prefs set_xprefs].
  rewrite (adjust_fold (fun t pm => fold_left (fun pm f => f pm) (adj t) pm)) by (apply sorted_nodup; now apply requesters_sorted).
  destruct (existsb _ _); reflexivity.
Qed.
