(** * ResMap: proofs. *)
From Verif Require Import Base CompModel CompSpec CompProofs PackageModel ResourceModel ResourceSpec ResourceProofs1 ResourceProofs2
  BufModel BufProofs1 BufProofs2 MapModel MapSpec.
Open Scope Q_scope.

Lemma qsort_sum l : qsum (qsort l) == qsum l.
Proof.
  assert (I : forall x l, qsum (qinsert x l) == x + qsum l).
  { intros x m. induction m as [|y m IH]; simpl; [lra|]. destruct (Qleb x y); simpl; [lra|]. rewrite IH. lra. }
  induction l as [|x l IH]; simpl; [lra|]. rewrite I, IH. lra.
Qed.
Lemma kahan_exact l : kahan_sum l == qsum l.
Proof.
  unfold kahan_sum. rewrite <- qsort_sum. generalize (qsort l). clear l. intros l.
  assert (K : forall l s c, c == 0 -> fst (fold_left kahan_step l (s, c)) == s + qsum l).
  { clear. induction l as [|x l IH]; intros s c Hc; simpl; [lra|]. rewrite IH; lra. }
  rewrite K; lra.
Qed.

(** The contained pointers. *)
Lemma entries_spec m w l : entries m w = Some l -> exists is, map snd m = map Some is /\
  (forall i, In i is -> exists r, nth_error (w_res w) i = Some r) /\
  map fst l = map fst m /\ qsum (map (fun p => r_qty (snd p)) l) == sum_qty w is /\
  map (fun p => Some (snd p)) l = map (fun i => nth_error (w_res w) i) is.
Proof.
  revert l. induction m as [|[k [i|]] m IH]; simpl; intros l H; try discriminate.
  - inversion H; subst. exists []. unfold sum_qty. simpl. split; auto. split; [intros ? []|]. split; auto. split; auto. lra.
  - destruct (nth_error (w_res w) i) as [r|] eqn:Hr; [|discriminate]. destruct (entries m w) as [l'|]; [|discriminate].
    inversion H; subst. destruct (IH l' eq_refl) as [is [A [B [C [D F]]]]]. exists (i :: is). simpl.
    split; [congruence|]. split; [intros j [<-|Hj]; eauto|]. split; [congruence|].
    split; [|rewrite Hr; congruence]. rewrite D. unfold sum_qty. simpl. rewrite Hr. lra.
Qed.

(** The cached quantity is right for these pointers. *)
Definition cached (w : world) (m : rmap) : Prop :=
  exists is, map_values m = map Some is /\ (forall i, In i is -> exists r, nth_error (w_res w) i = Some r) /\ m_qty m == sum_qty w is.

Lemma update_quantity_spec w m r m' : update_quantity w m = (r, m') -> r <> UB ->
  r = Ok tt /\ m_res m' = m_res m /\ m_obj m' = m_obj m /\ m_dirty m' = false /\ cached w m'.
Proof.
  unfold update_quantity. intros H N. destruct (m_res m) as [|x l] eqn:E.
  - inversion H; subst. simpl. repeat split; auto. exists []. unfold map_values, sum_qty. simpl. split; auto. split; [intros ? []|lra].
  - rewrite <- E in *. destruct (entries (m_res m) w) as [es|] eqn:Es; [|inversion H; congruence].
    inversion H; subst. simpl. repeat split; auto. apply entries_spec in Es as [is [A [B [C [D _]]]]].
    exists is. unfold map_values. simpl. split; auto. split; auto. rewrite kahan_exact. auto.
Qed.

Lemma cached_frame w w' m : cached w m -> (forall i, In (Some i) (map_values m) -> qty_of w' i = qty_of w i) -> cached w' m.
Proof.
  intros [is [A [B C]]] F. exists is. split; auto.
  assert (F' : forall i, In i is -> qty_of w' i = qty_of w i).
  { intros i Hi. apply F. rewrite A. now apply in_map. }
  split.
  - intros i Hi. destruct (B i Hi) as [r Hr]. specialize (F' i Hi). unfold qty_of in F'. rewrite Hr in F'.
    destruct (nth_error (w_res w') i); [eauto|discriminate].
  - rewrite C, !sum_vw. symmetry. apply sumv_ext. intros i Hi. specialize (F' i Hi). destruct (B i Hi) as [r Hr].
    rewrite !qv_vw. unfold qty_of in F'. rewrite Hr in *. destruct (nth_error (w_res w') i); [|discriminate]. inversion F'. lra.
Qed.

Definition minv (w : world) (m : rmap) : Prop := m_dirty m = false -> cached w m.

Lemma assign_values_dirty vals : forall look w m r m', assign_values vals look w m = (r, m') -> r <> UB -> m_dirty m' = true.
Proof.
  induction vals as [|[i|] vals IH]; simpl; intros look w m r m' H N; [inversion H; auto| |inversion H; congruence].
  destruct (nth_error (w_res w) i); [|inversion H; congruence]. eapply IH; eauto.
Qed.

Lemma mhist_inv E w0 tr w m : mhist E (w0, map_new) tr (w, m) -> minv w m /\ m_dirty m = opened tr.
Proof.
  intros H. remember (w0, map_new) as s0. remember (w, m) as s. revert w m Heqs.
  induction H as [|tr s o res s' H IH Hs N F]; intros w m Es.
  - subst. inversion Es; subst. split; [discriminate|reflexivity].
  - destruct s as [w1 m1]. destruct (IH w1 m1 eq_refl) as [I1 D1]. subst s'. unfold opened. rewrite fold_left_app.
    fold (opened tr). simpl fold_left. clear IH.
    assert (UQ : forall m0 r m', update_quantity w1 m0 = (r, m') -> r <> UB -> w = w1 -> m = m' -> minv w m /\ m_dirty m = false).
    { intros m0 r m' U Nu -> ->. apply update_quantity_spec in U as [_ [_ [_ [U1 U2]]]]; auto. split; auto. intros _. auto. }
    assert (Dt : m_dirty m = true -> opens o res (opened tr) = true -> minv w m /\ m_dirty m = opens o res (opened tr)).
    { intros A B. rewrite B. split; auto. intros X. congruence. }
    destruct o; simpl in Hs, F.
    + (* quantity *) unfold map_quantity in Hs. destruct (m_dirty m1) eqn:Dm.
      * destruct (update_quantity w1 m1) as [r m'] eqn:U. destruct r as [[]|e|]; inversion Hs; subst; simpl; try (now (simpl in N; congruence)).
        -- eapply UQ; eauto; discriminate.
        -- exfalso. destruct (update_quantity_spec _ _ _ _ U ltac:(discriminate)) as [? _]. discriminate.
      * inversion Hs; subst. simpl. auto.
    + (* obj_ids *) unfold map_obj_ids in Hs. destruct (entries (m_res m1) w1) as [l|]; inversion Hs; subst; [|simpl in N; congruence].
      simpl. split; auto.
    + inversion Hs; subst. auto.
    + inversion Hs; subst. apply Dt; auto. unfold map_index. destruct (kfind k (m_res m1)); reflexivity.
    + inversion Hs; subst. auto.
    + inversion Hs; subst. auto.
    + unfold map_erase_it, map_erase_range in Hs. destruct (Nat.ltb pos _); [|inversion Hs; subst; congruence].
      destruct (_ && _); [|inversion Hs; subst; congruence].
      destruct (update_quantity w1 _) as [r m'] eqn:U. inversion Hs; subst. eapply UQ; eauto.
    + unfold map_erase_key in Hs. destruct (update_quantity w1 _) as [r m'] eqn:U. inversion Hs; subst. eapply UQ; eauto.
    + unfold map_erase_range in Hs. destruct (_ && _); [|inversion Hs; subst; congruence].
      destruct (update_quantity w1 _) as [r m'] eqn:U. inversion Hs; subst. eapply UQ; eauto.
    + inversion Hs; subst. auto.
    + inversion Hs; subst. auto.
    + unfold map_set_values in Hs. destruct (assign_values _ _ _ _) as [r m'] eqn:A. inversion Hs; subst.
      apply Dt; auto. eapply assign_values_dirty; eauto.
    + unfold map_pop in Hs. destruct (kfind k (m_res m1)); inversion Hs; subst; simpl; auto.
    + destruct (step E o w1) as [r w2] eqn:St. inversion Hs; subst. simpl in *. split; auto.
      intros Dm. destruct F as [F|F]; [congruence|]. eapply cached_frame; [apply I1; auto|auto].
Qed.

(** ** std::map facts *)
From Coq Require Import Sorted.
Definition asc {A} (m : list (Z * A)) : Prop := StronglySorted Z.lt (map fst m).

Lemma kfind_None {A} k (m : list (Z * A)) : Forall (fun k' => (k < k')%Z) (map fst m) -> kfind k m = None.
Proof.
  induction m as [|[k' a] m IH]; simpl; intros H; auto. inversion H; subst. destruct (Z.eqb_spec k k'); [lia|auto].
Qed.
Lemma kfind_kset {A} k (a : A) m k' : asc m -> kfind k' (kset k a m) = if (k' =? k)%Z then Some a else kfind k' m.
Proof.
  unfold asc. induction m as [|[k0 a0] m IH]; simpl; intros W.
  - destruct (k' =? k)%Z; auto.
  - inversion W; subst. destruct (Z.eqb_spec k k0).
    + subst. simpl. destruct (Z.eqb_spec k' k0); auto.
    + destruct (Z.ltb_spec k k0); simpl.
      * destruct (Z.eqb_spec k' k); auto.
      * rewrite IH by auto. destruct (Z.eqb_spec k' k0), (Z.eqb_spec k' k); auto. lia.
Qed.
Lemma kset_keys {A} k (a : A) m x : In x (map fst (kset k a m)) -> x = k \/ In x (map fst m).
Proof.
  induction m as [|[k0 a0] m IH]; simpl; [intuition|]. destruct (k =? k0)%Z eqn:E; simpl; [apply Z.eqb_eq in E; intuition|].
  destruct (k <? k0)%Z; simpl; intuition.
Qed.
Lemma kset_asc {A} k (a : A) m : asc m -> asc (kset k a m).
Proof.
  unfold asc. induction m as [|[k0 a0] m IH]; simpl; intros W; [repeat constructor|].
  inversion W; subst. destruct (Z.eqb_spec k k0); [subst; auto|]. destruct (Z.ltb_spec k k0); simpl.
  - constructor; auto. constructor; auto. eapply Forall_impl; [|exact H2]. simpl. intros. lia.
  - constructor; auto. apply Forall_forall. intros x Hx. apply kset_keys in Hx as [->|Hx]; [lia|].
    rewrite Forall_forall in H2. auto.
Qed.
Lemma asc_filter {A} f (m : list (Z * A)) : asc m -> asc (filter f m).
Proof.
  unfold asc. induction m as [|[k a] m IH]; simpl; intros W; auto. inversion W; subst.
  destruct (f (k, a)); simpl; auto. constructor; auto. rewrite Forall_forall in *. intros x Hx. apply H2.
  apply in_map_iff in Hx as [y [<- Hy]]. apply filter_In in Hy as [Hy _]. now apply in_map.
Qed.
Lemma asc_app {A} (a b : list (Z * A)) : asc (a ++ b) -> asc a /\ asc b /\ (forall x y, In x (map fst a) -> In y (map fst b) -> (x < y)%Z).
Proof.
  unfold asc. rewrite map_app. induction a as [|[k v] a IH]; simpl; intros W.
  - split; [constructor|]. split; auto. intros ? ? [].
  - inversion W; subst. destruct (IH H1) as [A1 [A2 A3]]. rewrite Forall_app in H2. destruct H2 as [F1 F2].
    split; [constructor; auto|]. split; auto. intros x y [<-|Hx] Hy; auto. rewrite Forall_forall in F2. auto.
Qed.
Lemma asc_cut {A} a b (m : list (Z * A)) : (a <= b)%nat -> asc m -> asc (firstn a m ++ skipn b m).
Proof.
  unfold asc. revert a b. induction m as [|x m IH]; intros a b L W.
  - rewrite firstn_nil, skipn_nil. constructor.
  - inversion W; subst. destruct a as [|a], b as [|b]; try lia; simpl.
    + auto.
    + change (skipn b m) with (firstn 0 m ++ skipn b m). apply IH; [lia|auto].
    + constructor; [apply IH; auto; lia|]. rewrite Forall_forall in *. intros y Hy. apply H2.
      rewrite map_app, in_app_iff in Hy. rewrite <- (firstn_skipn a m) at 1. 
      apply in_map_iff. destruct Hy as [Hy|Hy]; apply in_map_iff in Hy as [z [<- Hz]]; exists z; split; auto.
      * apply in_app_iff; auto.
      * rewrite firstn_skipn. rewrite <- (firstn_skipn b m). apply in_app_iff; auto.
Qed.

Lemma asc_ext {A} (m n : list (Z * A)) : asc m -> asc n -> (forall k, kfind k m = kfind k n) -> m = n.
Proof.
  unfold asc. revert n. induction m as [|[k a] m IH]; intros [|[k' a'] n] W1 W2 H; simpl in *; auto.
  - specialize (H k'). rewrite Z.eqb_refl in H. discriminate.
  - specialize (H k). rewrite Z.eqb_refl in H. discriminate.
  - inversion W1 as [|? ? S1 F1]; subst. inversion W2 as [|? ? S2 F2]; subst.
    assert (k = k').
    { destruct (Z.lt_trichotomy k k') as [L|[L|L]]; auto.
      - specialize (H k). rewrite Z.eqb_refl in H. destruct (Z.eqb_spec k k'); [lia|]. rewrite kfind_None in H; [discriminate|].
        eapply Forall_impl; [|exact F2]. simpl. intros. lia.
      - specialize (H k'). rewrite Z.eqb_refl in H. destruct (Z.eqb_spec k' k); [lia|]. rewrite kfind_None in H; [discriminate|].
        eapply Forall_impl; [|exact F1]. simpl. intros. lia. }
    subst k'. assert (a = a') by (specialize (H k); rewrite Z.eqb_refl in H; congruence). subst. f_equal.
    apply IH; auto. intros x. specialize (H x). destruct (Z.eqb_spec x k); auto. subst.
    rewrite !kfind_None; auto.
Qed.
Lemma kfind_In {A} k (a : A) m : asc m -> (kfind k m = Some a <-> In (k, a) m).
Proof.
  unfold asc. induction m as [|[k' a'] m IH]; simpl; intros W; [split; [discriminate|tauto]|].
  inversion W; subst. destruct (Z.eqb_spec k k').
  - subst. split; [intros X; inversion X; auto|]. intros [X|X]; [congruence|].
    rewrite Forall_forall in H2. specialize (H2 k' ltac:(apply in_map_iff; exists (k', a); auto)). lia.
  - rewrite IH by auto. split; auto. intros [X|X]; auto. congruence.
Qed.
Lemma kfind_kdel {A} k (m : list (Z * A)) k' : kfind k' (kdel k m) = if (k' =? k)%Z then None else kfind k' m.
Proof.
  induction m as [|[k0 a] m IH]; simpl; [destruct (k' =? k)%Z; auto|].
  destruct (Z.eqb_spec k k0); simpl.
  - subst. rewrite IH. destruct (Z.eqb_spec k' k0); auto.
  - rewrite IH. destruct (Z.eqb_spec k' k0), (Z.eqb_spec k' k); auto. lia.
Qed.

Lemma assign_values_asc vals : forall look w m r m', assign_values vals look w m = (r, m') -> asc (m_res m) -> asc (m_res m').
Proof.
  induction vals as [|[i|] vals IH]; simpl; intros look w m r m' H W; [inversion H; subst; auto| |inversion H; subst; auto].
  destruct (nth_error (w_res w) i); [|inversion H; subst; auto]. eapply IH; [eauto|]. simpl. now apply kset_asc.
Qed.
Lemma update_quantity_res w m r m' : update_quantity w m = (r, m') -> m_res m' = m_res m.
Proof. unfold update_quantity. destruct (m_res m) eqn:E; [inversion 1; auto|]. rewrite <- E. destruct (entries _ _); inversion 1; auto. Qed.
Lemma mhist_asc E w0 tr w m : mhist E (w0, map_new) tr (w, m) -> asc (m_res m).
Proof.
  intros H. remember (w0, map_new) as s0. remember (w, m) as s. revert w m Heqs.
  induction H as [|tr s o res s' H IH Hs N F]; intros w m Es.
  - subst. inversion Es; subst. constructor.
  - destruct s as [w1 m1]. specialize (IH w1 m1 eq_refl). subst s'.
    assert (U : forall m0 r m', update_quantity w1 m0 = (r, m') -> asc (m_res m0) -> asc (m_res m')).
    { intros m0 r m' X Y. apply update_quantity_res in X. now rewrite X. }
    destruct o; simpl in Hs.
    + unfold map_quantity in Hs. destruct (m_dirty m1); [|inversion Hs; subst; auto].
      destruct (update_quantity w1 m1) as [r m'] eqn:X. inversion Hs; subst. eauto.
    + unfold map_obj_ids in Hs. destruct (entries _ _); inversion Hs; subst; auto.
    + inversion Hs; subst; auto.
    + inversion Hs; subst. unfold map_index. destruct (kfind k (m_res m1)); simpl; auto. now apply kset_asc.
    + inversion Hs; subst. simpl. now apply kset_asc.
    + inversion Hs; subst; auto.
    + unfold map_erase_it, map_erase_range in Hs. destruct (Nat.ltb pos _); [|inversion Hs; subst; auto].
      destruct (_ && _) eqn:G; [|inversion Hs; subst; auto]. apply andb_prop in G as [G _]. apply Nat.leb_le in G.
      destruct (update_quantity w1 _) as [r m'] eqn:X. inversion Hs; subst. eapply U; eauto. cbn [m_res set_mres]. now apply asc_cut.
    + unfold map_erase_key in Hs. destruct (update_quantity w1 _) as [r m'] eqn:X. inversion Hs; subst. eapply U; eauto. simpl. now apply asc_filter.
    + unfold map_erase_range in Hs. destruct (_ && _) eqn:G; [|inversion Hs; subst; auto]. apply andb_prop in G as [G _]. apply Nat.leb_le in G.
      destruct (update_quantity w1 _) as [r m'] eqn:X. inversion Hs; subst. eapply U; eauto. simpl. now apply asc_cut.
    + inversion Hs; subst. constructor.
    + inversion Hs; subst; auto.
    + unfold map_set_values in Hs. destruct (assign_values _ _ _ _) as [r m'] eqn:A. inversion Hs; subst. eapply assign_values_asc; eauto.
    + unfold map_pop in Hs. destruct (kfind k (m_res m1)); inversion Hs; subst; simpl; auto. now apply asc_filter.
    + destruct (step E o w1) as [r w2] eqn:St. inversion Hs; subst. auto.
Qed.

(** ** C12 *)
Lemma C12_quantity_lemma E w0 tr w m q m' : mhist E (w0, map_new) tr (w, m) -> map_quantity w m = (Ok q, m') ->
  m_res m' = m_res m /\ exists is, map_values m = map Some is /\ (forall i, In i is -> exists r, nth_error (w_res w) i = Some r) /\ q == sum_qty w is.
Proof.
  intros H Q. destruct (mhist_inv _ _ _ _ _ H) as [I _]. unfold map_quantity in Q. destruct (m_dirty m) eqn:D.
  - destruct (update_quantity w m) as [r m1] eqn:U. destruct r as [[]|e|]; inversion Q; subst.
    destruct (update_quantity_spec _ _ _ _ U ltac:(discriminate)) as [_ [R [_ [_ [is [A [B C]]]]]]]. split; auto.
    exists is. split; auto. unfold map_values in *. congruence.
  - inversion Q; subst. split; auto. destruct (I D) as [is X]. exists is. auto.
Qed.

Lemma C12_pop_lemma k m r m' : map_pop k m = (r, m') ->
  (kfind k (m_res m) = None /\ r = Throw KeyError /\ m' = m) \/
  (exists p, kfind k (m_res m) = Some p /\ r = Ok p /\ kfind k (m_res m') = None /\
     forall k', k' <> k -> kfind k' (m_res m') = kfind k' (m_res m)).
Proof.
  unfold map_pop. destruct (kfind k (m_res m)) as [p|] eqn:E; intros H; inversion H; subst; [right|left; auto].
  exists p. split; auto. split; auto. cbn [m_res set_dirty set_mres].
  split; [rewrite kfind_kdel, Z.eqb_refl; auto|]. intros k' Hk. rewrite kfind_kdel.
  destruct (Z.eqb_spec k' k); congruence.
Qed.

(** Restoring. *)
Lemma lookup_find o : NoDup (map snd o) -> forall id k, In (k, id) o -> kfind id (lookup_of o) = Some k.
Proof.
  unfold lookup_of.
  assert (G : forall o acc, asc acc -> NoDup (map snd o) ->
     asc (fold_left (fun l p => kset (snd p) (fst p) l) o acc) /\
     forall id, kfind id (fold_left (fun l (p : Z * Z) => kset (snd p) (fst p) l) o acc) =
       match find (fun p => Z.eqb (snd p) id) o with Some p => Some (fst p) | None => kfind id acc end).
  { clear. induction o as [|[k i] o IH]; simpl; intros acc W Nd; auto. inversion Nd; subst.
    destruct (IH (kset i k acc) (kset_asc _ _ _ W) H2) as [A B]. split; auto. intros id. rewrite B.
    destruct (Z.eqb_spec i id).
    - subst. destruct (find _ o) as [p|] eqn:F.
      + exfalso. apply find_some in F as [F1 F2]. apply Z.eqb_eq in F2. apply H1. rewrite <- F2. now apply in_map.
      + rewrite kfind_kset, Z.eqb_refl; auto.
    - destruct (find _ o); auto. rewrite kfind_kset by auto. destruct (Z.eqb_spec id i); congruence. }
  intros Nd id k Hin. destruct (G o [] ltac:(constructor) Nd) as [_ B]. rewrite B.
  destruct (find _ o) as [p|] eqn:F.
  - apply find_some in F as [F1 F2]. apply Z.eqb_eq in F2. destruct p as [k2 i2]. simpl in *. subst i2.
    clear -Nd Hin F1. f_equal.
    induction o as [|[a b] o IH]; [destruct Hin|]. simpl in Nd. inversion Nd; subst.
    destruct Hin as [Hin|Hin], F1 as [F1|F1]; try congruence; auto.
    + inversion Hin; subst. exfalso. apply H1. apply in_map_iff. exists (k2, id). auto.
    + inversion F1; subst. exfalso. apply H1. apply in_map_iff. exists (k, id). auto.
  - exfalso. eapply find_none in F; eauto. simpl in F. rewrite Z.eqb_refl in F. discriminate.
Qed.

Lemma assign_values_run w look ps : forall m, asc (m_res m) ->
  (forall k i, In (k, i) ps -> exists r, nth_error (w_res w) i = Some r /\ kfind (r_obj r) look = Some k) ->
  exists m', assign_values (map (fun p => Some (snd p)) ps) look w m = (Ok tt, m') /\ m_obj m' = m_obj m /\ asc (m_res m') /\
    (NoDup (map fst ps) -> forall k, kfind k (m_res m') = match kfind k ps with Some i => Some (Some i) | None => kfind k (m_res m) end).
Proof.
  induction ps as [|[k i] ps IH]; intros m W H.
  - exists (set_dirty m). simpl. auto.
  - destruct (H k i ltac:(simpl; auto)) as [r [Hr Hk]]. simpl. rewrite Hr, Hk.
    destruct (IH (set_mres (kset k (Some i) (m_res m)) m) (kset_asc _ _ _ W) ltac:(intros; apply H; simpl; auto)) as [m' [A [B [C D]]]].
    exists m'. split; auto. split; auto. split; auto. intros Nd k'. inversion Nd; subst. rewrite D by auto. simpl.
    destruct (Z.eqb_spec k' k).
    + subst. destruct (kfind k ps) eqn:F.
      * exfalso. apply H2. clear -F. induction ps as [|[a b] ps IH]; [discriminate|]. simpl in *. destruct (Z.eqb_spec k a); auto.
      * rewrite kfind_kset, Z.eqb_refl; auto.
    + destruct (kfind k' ps); auto. rewrite kfind_kset by auto. destruct (Z.eqb_spec k' k); congruence.
Qed.

Lemma C12_restore_lemma w m o m1 vals : asc (m_res m) -> map_obj_ids w m = (Ok o, m1) -> NoDup (map snd o) ->
  Permutation vals (map_values m) ->
  exists m2, map_set_values vals w (map_set_obj_ids o map_new) = (Ok tt, m2) /\ m_res m2 = m_res m.
Proof.
  intros W H Nd P. unfold map_obj_ids in H. destruct (entries (m_res m) w) as [l|] eqn:E; [|discriminate].
  inversion H; subst; clear H. 
  (* the pairs in the order of vals *)

  assert (Pm : exists ps, vals = map (fun p : Z * option nat => snd p) ps /\ Permutation (m_res m) ps).
  { unfold map_values in P. apply Permutation_map_inv in P as [ps [A B]]. exists ps. auto. }
  destruct Pm as [ps [-> Pp]].
  assert (En : forall k p, In (k, p) (m_res m) -> exists i r, p = Some i /\ nth_error (w_res w) i = Some r /\ In (k, r) l).
  { clear -E. revert l E. induction (m_res m) as [|[k0 p0] q IH]; intros l E k p Hin; [destruct Hin|]. simpl in E.
    destruct p0 as [i0|]; [|discriminate]. destruct (nth_error (w_res w) i0) as [r0|] eqn:Hr; [|discriminate].
    destruct (entries q w) as [l'|]; [|discriminate]. inversion E; subst. destruct Hin as [Hin|Hin].
    - inversion Hin; subst. exists i0, r0. simpl. auto.
    - destruct (IH _ eq_refl _ _ Hin) as [i [r [A [B C]]]]. exists i, r. simpl. auto. }
  set (qs := map (fun p : Z * option nat => (fst p, match snd p with Some i => i | None => O end)) ps).
  assert (Vq : map (fun p : Z * option nat => snd p) ps = map (fun p => Some (snd p)) qs).
  { unfold qs. rewrite map_map. apply map_ext_in. intros [k p] Hp. simpl.
    destruct (En k p) as [i [r [-> _]]]; auto. eapply Permutation_in; [apply Permutation_sym; exact Pp|auto]. }
  unfold map_set_values. rewrite Vq. cbn [m_obj map_set_obj_ids set_mobj set_dirty map_new].
  set (o := map (fun p => (fst p, r_obj (snd p))) l) in *.
  destruct (assign_values_run w (lookup_of o) qs (map_set_obj_ids o map_new)) as [m2 [A [_ [C D]]]].
  { constructor. }
  { intros k i Hin. unfold qs in Hin. apply in_map_iff in Hin as [[k0 p0] [Heq Hin]]. simpl in Heq. inversion Heq; subst k0 i.
    destruct (En k p0) as [i [r [-> [Hr Hl]]]]; [eapply Permutation_in; [apply Permutation_sym; exact Pp|auto]|].
    exists r. split; auto. apply lookup_find; auto. unfold o. apply in_map_iff. exists (k, r). auto. }
  exists m2. split; [exact A|]. apply asc_ext; auto. intros k.
  assert (Kq : map fst qs = map fst ps) by (unfold qs; rewrite map_map; reflexivity).
  assert (Ndk : NoDup (map fst ps)).
  { eapply Permutation_NoDup; [apply Permutation_map; exact Pp|]. clear -W. unfold asc in W.
    induction (map fst (m_res m)); constructor; inversion W; subst; auto. intros Hin. rewrite Forall_forall in H2. specialize (H2 _ Hin). lia. }
  rewrite D by (rewrite Kq; auto). simpl.
  assert (Fq : forall k, kfind k qs = match kfind k ps with Some p => Some (match p with Some i => i | None => O end) | None => None end).
  { intros x. unfold qs. clear. induction ps as [|[a b] ps IH]; simpl; auto. destruct (x =? a)%Z; auto. }
  rewrite Fq.
  assert (Fp : kfind k ps = kfind k (m_res m)).
  { clear -Pp Ndk W. destruct (kfind k (m_res m)) as [p|] eqn:E.
    - apply kfind_In in E; auto. assert (Hin : In (k, p) ps) by (eapply Permutation_in; eauto).
      clear -Hin Ndk. induction ps as [|[a b] ps IH]; [destruct Hin|]. simpl in *. inversion Ndk; subst.
      destruct (Z.eqb_spec k a); [|apply IH; auto; destruct Hin; [congruence|auto]]. subst. destruct Hin as [Hin|Hin]; [congruence|].
      exfalso. apply H1. apply in_map_iff. exists (a, p). auto.
    - destruct (kfind k ps) as [p|] eqn:F; auto. exfalso.
      assert (Hin : In (k, p) ps). { clear -F. induction ps as [|[a b] ps IH]; [discriminate|]. simpl in *. destruct (Z.eqb_spec k a); [left; congruence|auto]. }
      assert (Hin2 : In (k, p) (m_res m)) by (eapply Permutation_in; [apply Permutation_sym|]; eauto).
      apply kfind_In in Hin2; auto. congruence. }
  rewrite Fp. destruct (kfind k (m_res m)) as [p|] eqn:F; auto.
  apply kfind_In in F; auto. destruct (En _ _ F) as [i [r [-> _]]]. reflexivity.
Qed.
