(** Lemmas on the maps, and what holds of every exchange built through the API. *)
From Coq Require Import String QArith List Bool Arith ZArith Lia Lqa Permutation.
From Verif Require Import Base GreedyModel GreedySpec ExchangeModel ExchangeSpec.
Import ListNotations.
Open Scope Q_scope.

(** ** Maps *)
Section MapLemmas.
Context {K V : Type} (eqb : K -> K -> bool).
Hypothesis eqb_ok : forall a b, eqb a b = true <-> a = b.

Lemma eqb_rfl a : eqb a a = true.
Proof. apply eqb_ok; auto. Qed.
Lemma eqb_neq a b : a <> b -> eqb a b = false.
Proof. intros N. destruct (eqb a b) eqn:E; auto. apply eqb_ok in E. contradiction. Qed.

Lemma mfind_mupd_same k (f : option V -> V) m : mfind eqb k (mupd eqb k f m) = Some (f (mfind eqb k m)).
Proof.
  induction m as [|[k' v] t IH]; simpl.
  - now rewrite eqb_rfl.
  - destruct (eqb k k') eqn:E; simpl; rewrite E; auto.
Qed.
Lemma mfind_mupd_other k k' (f : option V -> V) m : k <> k' ->
  mfind eqb k (mupd eqb k' f m) = mfind eqb k m.
Proof.
  intros N. induction m as [|[k2 v] t IH]; simpl.
  - now rewrite (eqb_neq k k').
  - destruct (eqb k' k2) eqn:E; simpl.
    + apply eqb_ok in E; subst. now rewrite (eqb_neq k k2).
    + now rewrite IH.
Qed.
Lemma mfind_none k (m : list (K * V)) : mfind eqb k m = None <-> ~ In k (map fst m).
Proof.
  induction m as [|[k' v] t IH]; simpl; [tauto|].
  destruct (eqb k k') eqn:E.
  - apply eqb_ok in E; subst. split; [discriminate|intros H; elim H; auto].
  - rewrite IH. split; intros H; [intros [->|I]; auto; now rewrite eqb_rfl in E|tauto].
Qed.
Lemma mupd_fresh k (f : option V -> V) m : mfind eqb k m = None -> mupd eqb k f m = m ++ [(k, f None)].
Proof.
  induction m as [|[k' v] t IH]; simpl; auto.
  destruct (eqb k k'); [discriminate|]. intros H. now rewrite IH.
Qed.
Lemma mfind_app k (m1 m2 : list (K * V)) : mfind eqb k (m1 ++ m2) =
  match mfind eqb k m1 with Some v => Some v | None => mfind eqb k m2 end.
Proof. induction m1 as [|[k' v] t IH]; simpl; auto. destruct (eqb k k'); auto. Qed.
Lemma mfind_in k v (m : list (K * V)) : mfind eqb k m = Some v -> In (k, v) m.
Proof.
  induction m as [|[k' v'] t IH]; simpl; [discriminate|].
  destruct (eqb k k') eqn:E; auto. intros [= <-]. apply eqb_ok in E; subst; auto.
Qed.
Lemma in_mfind k v (m : list (K * V)) : NoDup (map fst m) -> In (k, v) m -> mfind eqb k m = Some v.
Proof.
  induction m as [|[k' v'] t IH]; simpl; [contradiction|].
  intros N [[= -> ->]|I].
  - now rewrite eqb_rfl.
  - inversion N as [|? ? NI N']; subst. rewrite (eqb_neq k k'); auto.
    intros ->. apply NI. apply (in_map fst) in I. exact I.
Qed.
Lemma mupd_keys k (f : option V -> V) (m : list (K * V)) j :
  In j (map fst (mupd eqb k f m)) -> In j (map fst m) \/ j = k.
Proof.
  induction m as [|[k' v] t IH]; simpl.
  - intros [<-|[]]; auto.
  - destruct (eqb k k'); simpl; [tauto|]. intros [<-|I]; auto. destruct (IH I); auto.
Qed.
Lemma mupd_nodup k (f : option V -> V) (m : list (K * V)) : NoDup (map fst m) -> NoDup (map fst (mupd eqb k f m)).
Proof.
  induction m as [|[k' v] t IH]; simpl; intros N.
  - now repeat constructor.
  - inversion N as [|? ? NI N']; subst. destruct (eqb k k') eqn:E; simpl; [now constructor|].
    constructor; auto. intros I. apply mupd_keys in I as [I| ->]; auto. now rewrite eqb_rfl in E.
Qed.
End MapLemmas.

Lemma nateqb_ok a b : Nat.eqb a b = true <-> a = b.
Proof. apply Nat.eqb_eq. Qed.
Lemma keyb_ok k l : keyb k l = true <-> k = l.
Proof.
  unfold keyb. rewrite andb_true_iff, !Nat.eqb_eq. destruct k, l; simpl.
  split; [intros [-> ->]; auto|intros [= -> ->]; auto].
Qed.

Lemma nfind_nupd_same {V} k (f : option V -> V) m : nfind k (nupd k f m) = Some (f (nfind k m)).
Proof. apply mfind_mupd_same, nateqb_ok. Qed.
Lemma nfind_nupd_other {V} k k' (f : option V -> V) m : k <> k' -> nfind k (nupd k' f m) = nfind k m.
Proof. apply mfind_mupd_other, nateqb_ok. Qed.
Lemma nupd_fresh {V} k (f : option V -> V) m : nfind k m = None -> nupd k f m = m ++ [(k, f None)].
Proof. apply mupd_fresh. Qed.
Lemma nfind_app {V} k (m1 m2 : list (nat * V)) : nfind k (m1 ++ m2) =
  match nfind k m1 with Some v => Some v | None => nfind k m2 end.
Proof. apply mfind_app. Qed.
Lemma nfind_in {V} k (v : V) m : nfind k m = Some v -> In (k, v) m.
Proof. apply mfind_in, nateqb_ok. Qed.
Lemma in_nfind {V} k (v : V) m : NoDup (map fst m) -> In (k, v) m -> nfind k m = Some v.
Proof. apply in_mfind, nateqb_ok. Qed.
Lemma nfind_none {V} k (m : list (nat * V)) : nfind k m = None <-> ~ In k (map fst m).
Proof. apply mfind_none, nateqb_ok. Qed.
Lemma nfind_some_in {V} k (m : list (nat * V)) : In k (map fst m) -> exists v, nfind k m = Some v.
Proof.
  intros I. destruct (nfind k m) eqn:E; eauto. apply nfind_none in E. contradiction.
Qed.

Lemma combine_fst {A B} (l : list A) (l' : list B) : length l = length l' -> map fst (combine l l') = l.
Proof. revert l'; induction l; destruct l'; simpl; intros; try discriminate; f_equal; auto. Qed.
Lemma combine_app {A B} (l1 l2 : list A) (k1 k2 : list B) : length l1 = length k1 ->
  combine (l1 ++ l2) (k1 ++ k2) = combine l1 k1 ++ combine l2 k2.
Proof. revert k1; induction l1; destruct k1; simpl; intros; try discriminate; f_equal; auto. Qed.

(** Lookup in a table that pairs a duplicate-free list with consecutive numbers. *)
Lemma nfind_combine_nth (l : list nat) s k i : NoDup l ->
  nfind k (combine l (seq s (length l))) = Some i <-> exists j, nth_error l j = Some k /\ i = (s + j)%nat.
Proof.
  intros N. revert s. induction N as [|x l NI N IH]; intros s; simpl.
  - split; [discriminate|intros [[|j] [E _]]; discriminate].
  - unfold nfind in *; simpl. destruct (Nat.eqb_spec k x) as [->|NE].
    + split.
      * intros [= <-]. exists 0%nat. simpl. split; [auto|lia].
      * intros [[|j] [E ->]]; [f_equal; lia|]. simpl in E.
        apply nth_error_In in E. contradiction.
    + rewrite IH. split.
      * intros [j [E ->]]. exists (S j). simpl. split; [auto|lia].
      * intros [[|j] [E ->]]; simpl in E; [congruence|]. exists j. split; [auto|lia].
Qed.
Lemma nfind_combine_map (l : list nat) s : NoDup l ->
  map (fun k => nfind k (combine l (seq s (length l)))) l = map Some (seq s (length l)).
Proof.
  intros N.
  assert (G : forall j k, nth_error l j = Some k ->
             nfind k (combine l (seq s (length l))) = Some (s + j)%nat).
  { intros j k E. apply nfind_combine_nth; eauto. }
  revert G. generalize (combine l (seq s (length l))). intros tb G. clear N.
  revert s G. induction l as [|x l IH]; intros s G; simpl; auto.
  rewrite (G 0%nat x eq_refl). rewrite Nat.add_0_r. f_equal.
  apply (IH (S s)). intros j k E. rewrite (G (S j) k E). f_equal; lia.
Qed.
Lemma nfind_combine_inv (l : list nat) s k i : NoDup l ->
  nfind k (combine l (seq s (length l))) = Some i <->
  nfind i (combine (seq s (length l)) l) = Some k.
Proof.
  intros N. rewrite nfind_combine_nth by auto. split.
  - intros [j [E ->]]. apply in_nfind.
    + rewrite combine_fst; [apply seq_NoDup|apply seq_length].
    + clear N. revert s j E. induction l as [|x l IH]; intros s [|j] E; simpl in *; try discriminate.
      * injection E as ->. left. f_equal; lia.
      * right. replace (s + S j)%nat with (S s + j)%nat by lia. apply IH; auto.
  - intros E. apply nfind_in in E. clear N. revert s E.
    induction l as [|x l IH]; intros s; simpl; [contradiction|].
    intros [[= <- <-]|I].
    + exists 0%nat. simpl. split; [auto|lia].
    + destruct (IH (S s) I) as [j [E ->]]. exists (S j). simpl. split; [auto|lia].
Qed.

Lemma insert_at_in {A} pos (x y : A) l : In y (insert_at pos x l) <-> y = x \/ In y l.
Proof.
  revert pos; induction l as [|z l IH]; destruct pos; simpl; try (intuition congruence).
  rewrite IH. intuition congruence.
Qed.
Lemma insert_at_nodup {A} pos (x : A) l : ~ In x l -> NoDup l -> NoDup (insert_at pos x l).
Proof.
  revert pos; induction l as [|z l IH]; destruct pos; simpl; intros N D;
    try (constructor; auto; fail).
  inversion D; subst. constructor.
  - rewrite insert_at_in. intros [->|I]; auto.
  - apply IH; auto.
Qed.

(** ** Every exchange built through the API *)
Definition rp_ok (m : market) (p : nat) (rp : rport) : Prop :=
  NoDup (rp_reqs rp) /\
  (forall r, In r (rp_reqs rp) -> (r < length (m_reqs m))%nat /\ rq_port (req_at m r) = p /\
     rp_trader rp = Some (rq_trader (req_at m r)) /\ nfind r (rp_coeffs rp) <> None) /\
  (forall c, In c (rp_cons rp) -> 0 < cc_cap c).
Definition bp_ok (m : market) (p : nat) (bp : bport) : Prop :=
  NoDup (bp_bids bp) /\
  (forall b, In b (bp_bids bp) -> (b < length (m_bids m))%nat /\ bd_port (bid_at m b) = p /\
     bp_trader bp = Some (bd_trader (bid_at m b)) /\ 0 < rs_qty (bd_offer (bid_at m b))) /\
  (forall c, In c (bp_cons bp) -> 0 < cc_cap c).
Record xinv (m : market) : Prop := mkXinv {
  xi_r : forall p rp, nth_error (m_rports m) p = Some rp -> rp_ok m p rp;
  xi_b : forall p bp, nth_error (m_bports m) p = Some bp -> bp_ok m p bp;
  xi_xr : Forall (fun p => (p < length (m_rports m))%nat) (x_rports m);
  xi_xb : Forall (fun p => (p < length (m_bports m))%nat) (x_bports m);
  xi_ans : forall b, (b < length (m_bids m))%nat -> (bd_req (bid_at m b) < length (m_reqs m))%nat }.

Lemma nth_error_at {A} (l : list A) i d : (i < length l)%nat -> nth_error l i = Some (nth i l d).
Proof. intros; now apply nth_error_nth'. Qed.

Lemma upd_cases {A} (l : list A) i j (x y : A) : nth_error (upd l i x) j = Some y ->
  (i = j /\ y = x /\ (i < length l)%nat) \/ (i <> j /\ nth_error l j = Some y).
Proof.
  intros E. destruct (Nat.eq_dec i j) as [->|N].
  - left. assert (L : (j < length l)%nat).
    { apply nth_error_Some_lt in E || (assert (j < length (upd l j x))%nat by (apply nth_error_Some; congruence); rewrite upd_length in *; auto). }
    rewrite nth_upd_same in E by auto. injection E as <-. auto.
  - right. rewrite nth_upd_other in E; auto.
Qed.

Lemma app_one_cases {A} (l : list A) (x y : A) j : nth_error (l ++ [x]) j = Some y ->
  nth_error l j = Some y \/ (j = length l /\ y = x).
Proof.
  intros E. destruct (Nat.lt_ge_cases j (length l)).
  - rewrite nth_error_app1 in E; auto.
  - rewrite nth_error_app2 in E by auto.
    destruct (j - length l)%nat eqn:D; simpl in E; [injection E as <-; right; split; auto; lia|].
    destruct n; discriminate.
Qed.

Lemma req_at_app m l i : (i < length (m_reqs m))%nat ->
  req_at (set_reqs m (m_reqs m ++ l)) i = req_at m i.
Proof. intros; unfold req_at; simpl. now rewrite app_nth1. Qed.
Lemma bid_at_app m l i : (i < length (m_bids m))%nat ->
  bid_at (set_bids m (m_bids m ++ l)) i = bid_at m i.
Proof. intros; unfold bid_at; simpl. now rewrite app_nth1. Qed.

(** The invariant only looks at the heaps. *)
Definition same_heaps (m m' : market) : Prop :=
  m_reqs m' = m_reqs m /\ m_rports m' = m_rports m /\ m_bids m' = m_bids m /\ m_bports m' = m_bports m.
Lemma ctx_add_request_heaps m r : same_heaps m (ctx_add_request m r) /\
  x_rports (ctx_add_request m r) = x_rports m /\ x_bports (ctx_add_request m r) = x_bports m.
Proof. unfold same_heaps; simpl; tauto. Qed.
Lemma ctx_add_bid_heaps m r : same_heaps m (ctx_add_bid m r) /\
  x_rports (ctx_add_bid m r) = x_rports m /\ x_bports (ctx_add_bid m r) = x_bports m.
Proof. unfold same_heaps; simpl; tauto. Qed.
Lemma fold_heaps (f : market -> nat -> market) l m :
  (forall m r, same_heaps m (f m r) /\ x_rports (f m r) = x_rports m /\ x_bports (f m r) = x_bports m) ->
  same_heaps m (fold_left f l m) /\ x_rports (fold_left f l m) = x_rports m /\
  x_bports (fold_left f l m) = x_bports m.
Proof.
  intros H. revert m; induction l as [|x l IH]; intros m; simpl; [unfold same_heaps; tauto|].
  destruct (IH (f m x)) as [[A [B [C D]]] [E F]]. destruct (H m x) as [[A' [B' [C' D']]] [E' F']].
  unfold same_heaps. rewrite A, B, C, D, E, F. rewrite A', B', C', D', E', F'. tauto.
Qed.

Lemma rp_ok_heaps m m' p rp : m_reqs m' = m_reqs m -> rp_ok m p rp -> rp_ok m' p rp.
Proof. intros E [A [B C]]. unfold rp_ok, req_at. rewrite E. auto. Qed.
Lemma bp_ok_heaps m m' p bp : m_bids m' = m_bids m -> bp_ok m p bp -> bp_ok m' p bp.
Proof. intros E [A [B C]]. unfold bp_ok, bid_at. rewrite E. auto. Qed.

Lemma xinv_heaps m m' : same_heaps m m' -> xinv m ->
  Forall (fun p => (p < length (m_rports m))%nat) (x_rports m') ->
  Forall (fun p => (p < length (m_bports m))%nat) (x_bports m') -> xinv m'.
Proof.
  intros [A [B [C D]]] [I1 I2 I3 I4 I5] F1 F2. constructor.
  - intros p rp. rewrite B. intros H. apply (rp_ok_heaps m m'); auto.
  - intros p bp. rewrite D. intros H. apply (bp_ok_heaps m m'); auto.
  - now rewrite B.
  - now rewrite D.
  - unfold bid_at. rewrite C, A. exact I5.
Qed.

Lemma rp_ok_grow m x p rp : rp_ok m p rp -> rp_ok (set_reqs m (m_reqs m ++ [x])) p rp.
Proof.
  intros [A [B C]]. split; [|split]; auto. intros r I. destruct (B r I) as [L [P [T N]]].
  simpl. rewrite app_length. rewrite req_at_app by auto. simpl. split; [lia|auto].
Qed.
Lemma bp_ok_grow m x p bp : bp_ok m p bp -> bp_ok (set_bids m (m_bids m ++ [x])) p bp.
Proof.
  intros [A [B C]]. split; [|split]; auto. intros r I. destruct (B r I) as [L [P [T N]]].
  simpl. rewrite app_length. rewrite bid_at_app by auto. simpl. split; [lia|auto].
Qed.

Lemma xinv_set_rport m p rp : xinv m -> (p < length (m_rports m))%nat -> rp_ok m p rp ->
  xinv (set_rports m (upd (m_rports m) p rp)).
Proof.
  intros [I1 I2 I3 I4 I5] L H. constructor; simpl.
  - intros q rq E. apply upd_cases in E as [[-> [-> _]]|[N E]]; auto.
    apply (rp_ok_heaps m); auto.
  - intros q bq E. apply (bp_ok_heaps m); auto.
  - now rewrite upd_length.
  - auto.
  - auto.
Qed.
Lemma xinv_set_bport m p bp : xinv m -> (p < length (m_bports m))%nat -> bp_ok m p bp ->
  xinv (set_bports m (upd (m_bports m) p bp)).
Proof.
  intros [I1 I2 I3 I4 I5] L H. constructor; simpl.
  - intros q rq E. apply (rp_ok_heaps m); auto.
  - intros q bq E. apply upd_cases in E as [[-> [-> _]]|[N E]]; auto.
    apply (bp_ok_heaps m); auto.
  - auto.
  - now rewrite upd_length.
  - auto.
Qed.

Lemma rp_at_ok m p : xinv m -> (p < length (m_rports m))%nat -> rp_ok m p (rp_at m p).
Proof. intros I L. apply (xi_r m I). now apply nth_error_at. Qed.
Lemma bp_at_ok m p : xinv m -> (p < length (m_bports m))%nat -> bp_ok m p (bp_at m p).
Proof. intros I L. apply (xi_b m I). now apply nth_error_at. Qed.

Lemma verify_ok own t o : verify own t = Ok o -> o = Some t /\ (forall s, own = Some s -> s = t).
Proof.
  unfold verify. destruct own as [s|].
  - destruct (Nat.eqb_spec t s); [|discriminate]. intros [= <-]. subst. split; auto. congruence.
  - intros [= <-]. split; auto. discriminate.
Qed.

Lemma add_request_inv m p t tr c pf ex : xinv m -> (p < length (m_rports m))%nat ->
  xinv (snd (add_request m p t tr c pf ex)).
Proof.
  intros I L. unfold add_request.
  assert (I1 : xinv (set_reqs m (m_reqs m ++ [mkReq t tr c pf ex p]))).
  { destruct I as [J1 J2 J3 J4 J5]. constructor; simpl.
    - intros q rq E. apply rp_ok_grow. auto.
    - intros q bq E. apply (bp_ok_heaps m); auto.
    - auto.
    - auto.
    - intros b B. rewrite app_length. specialize (J5 b B). unfold bid_at in *; simpl in *. lia. }
  destruct (verify (rp_trader (rp_at m p)) tr) as [own|e|] eqn:V; cbn [snd]; auto.
  apply verify_ok in V as [-> OWN].
  apply xinv_set_rport; auto.
  destruct (rp_at_ok m p I L) as [ND [R C]].
  assert (FR : forall r, In r (rp_reqs (rp_at m p)) -> r <> length (m_reqs m)).
  { intros r Ir. destruct (R r Ir) as [Lr _]. lia. }
  split; [|split]; simpl.
  - apply Permutation_NoDup with (length (m_reqs m) :: rp_reqs (rp_at m p)).
    { apply Permutation_cons_append. }
    constructor; auto. intros Ir. now apply (FR _ Ir).
  - intros r Ir. apply in_app_or in Ir as [Ir|[<-|[]]].
    + destruct (R r Ir) as [Lr [P [T N]]]. rewrite app_length. rewrite req_at_app by auto.
      simpl. split; [lia|]. split; auto. split.
      * rewrite T in OWN. now rewrite (OWN _ eq_refl).
      * rewrite nfind_nupd_other; auto.
    + rewrite app_length; simpl. unfold req_at; simpl. rewrite app_nth2 by auto.
      rewrite Nat.sub_diag; simpl. split; [lia|]. split; auto. split; auto.
      rewrite nfind_nupd_same. discriminate.
  - auto.
Qed.

Lemma nfind_nupd_keeps {V} k k' (f : option V -> V) m : nfind k m <> None -> nfind k (nupd k' f m) <> None.
Proof.
  intros N. destruct (Nat.eq_dec k k') as [->|NE].
  - rewrite nfind_nupd_same. discriminate.
  - rewrite nfind_nupd_other; auto.
Qed.

Lemma mutual_fold_ok m p avg rs rp : rp_ok m p rp ->
  rp_ok m p (fold_left (fun acc r =>
          let q := rs_qty (rq_target (req_at m r)) in
          mkRP (rp_trader acc) (rp_reqs acc) (nupd r (fun _ => q / avg) (rp_coeffs acc))
               (rp_cons acc) (rp_qty acc - q)) rs rp).
Proof.
  revert rp. induction rs as [|r rs IH]; intros rp H; simpl; auto. apply IH.
  destruct H as [A [B C]]. split; [|split]; simpl; auto.
  intros r' I. destruct (B r' I) as [L [P [T N]]]. repeat split; auto. now apply nfind_nupd_keeps.
Qed.

Lemma add_mutual_inv m p rs : xinv m -> (p < length (m_rports m))%nat -> xinv (snd (add_mutual m p rs)).
Proof.
  intros I L. unfold add_mutual. destruct rs as [|r rs]; auto.
  cbv zeta. destruct (Qeqb _ 0); auto.
  change (snd (?a, ?b)) with b.
  apply xinv_set_rport; auto.
  destruct (mutual_fold_ok m p (avg_qty m (r :: rs)) (r :: rs) (rp_at m p) (rp_at_ok m p I L)) as [A [B C]].
  split; [|split]; auto.
Qed.

Lemma cc_new_pos cap cv c : cc_new cap cv = Ok c -> c = mkC cap cv /\ 0 < cap.
Proof.
  unfold cc_new. destruct (Qleb_spec cap 0); [discriminate|]. intros [= <-]. split; auto. lra.
Qed.

Lemma xreach_inv m : xreach m -> xinv m.
Proof.
  induction 1 as [|m o R I V].
  - constructor; simpl; try (intros [|p]; discriminate); auto. intros b B; lia.
  - destruct o; simpl in *.
    + destruct I as [J1 J2 J3 J4 J5]. constructor; simpl.
      * intros p rp E. apply app_one_cases in E as [E|[-> ->]].
        { apply (rp_ok_heaps m); auto. }
        { split; [constructor|split]; simpl; contradiction. }
      * intros p bp E. apply (bp_ok_heaps m); auto.
      * rewrite app_length. eapply Forall_impl; [|exact J3]. simpl. intros; lia.
      * auto.
      * auto.
    + now apply add_request_inv.
    + now apply add_mutual_inv.
    + unfold add_rcons. destruct (cc_new cap cv) as [c|e|] eqn:E; simpl; auto.
      apply cc_new_pos in E as [-> P].
      apply xinv_set_rport; auto. destruct (rp_at_ok m p I V) as [A [B C]].
      split; [|split]; simpl; auto. intros c H. apply insert_at_in in H as [->|H]; auto.
    + destruct I as [J1 J2 J3 J4 J5]. constructor; simpl.
      * intros p rp E. apply (rp_ok_heaps m); auto.
      * intros p bp E. apply app_one_cases in E as [E|[-> ->]].
        { apply (bp_ok_heaps m); auto. }
        { split; [constructor|split]; simpl; contradiction. }
      * auto.
      * rewrite app_length. eapply Forall_impl; [|exact J4]. simpl. intros; lia.
      * auto.
    + destruct V as [L Lr]. unfold add_bid.
      assert (I1 : xinv (set_bids m (m_bids m ++ [mkBid r offer trader p excl pref]))).
      { destruct I as [J1 J2 J3 J4 J5]. constructor; simpl.
        - intros q rq E. apply (rp_ok_heaps m); auto.
        - intros q bq E. apply bp_ok_grow. auto.
        - auto.
        - auto.
        - intros b B. rewrite app_length in B. simpl in B.
          destruct (Nat.eq_dec b (length (m_bids m))) as [->|N].
          + unfold bid_at; simpl. rewrite app_nth2, Nat.sub_diag by auto. simpl. auto.
          + rewrite bid_at_app by lia. apply J5. lia. }
      destruct (verify (bp_trader (bp_at m p)) trader) as [own|e|] eqn:VV; auto.
      apply verify_ok in VV as [-> OWN].
      destruct (bp_at_ok m p I L) as [ND [R' C]].
      assert (OLD : forall b, In b (bp_bids (bp_at m p)) ->
         (b < length (m_bids m ++ [mkBid r offer trader p excl pref]))%nat /\
         bd_port (bid_at (set_bids m (m_bids m ++ [mkBid r offer trader p excl pref])) b) = p /\
         Some trader = Some (bd_trader (bid_at (set_bids m (m_bids m ++ [mkBid r offer trader p excl pref])) b)) /\
         0 < rs_qty (bd_offer (bid_at (set_bids m (m_bids m ++ [mkBid r offer trader p excl pref])) b))).
      { intros b Ib. destruct (R' b Ib) as [Lb [P [T N]]]. rewrite app_length. rewrite bid_at_app by auto.
        simpl. split; [lia|]. split; auto. split; auto. rewrite T in OWN. now rewrite (OWN _ eq_refl). }
      destruct (Qltb_spec 0 (rs_qty offer)) as [Q|Q]; cbn [snd].
      * apply xinv_set_bport; auto. split; [|split]; simpl; auto.
        { apply insert_at_nodup; auto. intros Ib. destruct (R' _ Ib). lia. }
        intros b Ib. apply insert_at_in in Ib as [->|Ib]; auto.
        rewrite app_length; simpl. unfold bid_at; simpl. rewrite app_nth2, Nat.sub_diag by auto. simpl.
        split; [lia|auto].
      * apply xinv_set_bport; auto. split; [|split]; simpl; auto.
    + unfold add_bcons. destruct (cc_new cap cv) as [c|e|] eqn:E; simpl; auto.
      apply cc_new_pos in E as [-> P].
      apply xinv_set_bport; auto. destruct (bp_at_ok m p I V) as [A [B C]].
      split; [|split]; simpl; auto. intros c H. apply insert_at_in in H as [->|H]; auto.
    + unfold ctx_add_rport.
      match goal with |- xinv (fold_left _ _ ?mm) =>
        destruct (fold_heaps ctx_add_request (rp_reqs (rp_at m p)) mm ctx_add_request_heaps)
          as [[A [B [C D]]] [E F]] end.
      apply (xinv_heaps m); auto.
      * unfold same_heaps. rewrite A, B, C, D. simpl. auto.
      * rewrite E. simpl. apply Forall_app. split; [apply (xi_xr m I)|constructor; auto].
      * rewrite F. simpl. apply (xi_xb m I).
    + unfold ctx_add_bport.
      match goal with |- xinv (fold_left _ _ ?mm) =>
        destruct (fold_heaps ctx_add_bid (bp_bids (bp_at m p)) mm ctx_add_bid_heaps)
          as [[A [B [C D]]] [E F]] end.
      apply (xinv_heaps m); auto.
      * unfold same_heaps. rewrite A, B, C, D. simpl. auto.
      * rewrite E. simpl. apply (xi_xr m I).
      * rewrite F. simpl. apply Forall_app. split; [apply (xi_xb m I)|constructor; auto].
    + apply (xinv_heaps m); auto; [unfold same_heaps; simpl; auto|apply (xi_xr m I)|apply (xi_xb m I)].
Qed.

(** Requests and bids belong to one portfolio only. *)
Lemma nodup_flat {A} (f : nat -> list A) (own : A -> nat) ps : NoDup ps ->
  (forall p, In p ps -> NoDup (f p)) -> (forall p x, In p ps -> In x (f p) -> own x = p) ->
  NoDup (flat_map f ps).
Proof.
  induction 1 as [|p ps NI N IH]; intros H1 H2; simpl; [constructor|].
  assert (D : forall x, In x (f p) -> ~ In x (flat_map f ps)).
  { intros x Ix J. apply in_flat_map in J as [q [Iq Jq]].
    rewrite <- (H2 p x (or_introl eq_refl) Ix), (H2 q x (or_intror Iq) Jq) in NI. contradiction. }
  assert (IH' : NoDup (flat_map f ps)) by (apply IH; intros; [apply H1|apply H2]; simpl; auto).
  assert (N1 : NoDup (f p)) by (apply H1; simpl; auto).
  clear - D IH' N1. induction N1 as [|x l NX N IH2]; simpl; auto.
  constructor.
  - intros I. apply in_app_or in I as [I|I]; auto. now apply (D x (or_introl eq_refl)).
  - apply IH2. intros y Iy. apply D. simpl; auto.
Qed.

Lemma all_reqs_nodup m : xinv m -> NoDup (x_rports m) -> NoDup (all_reqs m).
Proof.
  intros I N. assert (F := xi_xr m I). rewrite Forall_forall in F.
  apply (nodup_flat _ (fun r => rq_port (req_at m r))); auto.
  - intros p Ip. apply (rp_at_ok m p I (F p Ip)).
  - intros p x Ip Ix. destruct (rp_at_ok m p I (F p Ip)) as [_ [B _]]. now apply B.
Qed.
Lemma all_bids_nodup m : xinv m -> NoDup (x_bports m) -> NoDup (all_bids m).
Proof.
  intros I N. assert (F := xi_xb m I). rewrite Forall_forall in F.
  apply (nodup_flat _ (fun b => bd_port (bid_at m b))); auto.
  - intros p Ip. apply (bp_at_ok m p I (F p Ip)).
  - intros p x Ip Ix. destruct (bp_at_ok m p I (F p Ip)) as [_ [B _]]. now apply B.
Qed.
