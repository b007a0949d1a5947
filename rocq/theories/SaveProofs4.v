(** * SaveProofs4: a saved agent comes back. *)
From Coq Require Import String.
From Verif Require Import Base CompModel CompSpec PackageModel ResourceModel ResourceSpec BufModel BufSpec
  BufProofs1 BufProofs2 BufProofs7 SaveModel SaveSpec SaveProofs SaveProofs2 SaveProofs3.
Open Scope Q_scope.

Lemma reloaded_sum w w2 : forall l l2, Forall2 (reloaded w w2) l l2 -> sumv (vw w2) l2 == sumv (vw w) l.
Proof.
  intros l l2 H. induction H as [|i j l l2 Hij H IH].
  - rewrite !sumv_nil. reflexivity.
  - destruct Hij as [r [r2 [R [R2 [Eq _]]]]]. rewrite !sumv_cons, (qv_nth _ _ _ R), (qv_nth _ _ _ R2), IH, Eq. reflexivity.
Qed.
Lemma reloaded_len w w2 : forall l l2, Forall2 (reloaded w w2) l l2 -> length l2 = length l.
Proof. intros l l2 H. induction H; simpl; congruence. Qed.
Lemma Forall2_right {A B} (P : A -> B -> Prop) l l2 : Forall2 P l l2 -> forall j, In j l2 -> exists i, In i l /\ P i j.
Proof.
  intros H. induction H as [|a b l l2 Hab H IH]; intros j []; subst.
  - exists a. split; auto. now left.
  - destruct (IH j H0) as [i [? ?]]. exists i. split; auto. now right.
Qed.
Lemma reloaded_kept w w2 T keep i j : reloaded w w2 i j ->
  (exists r, nth_error (w_res w) i = Some r /\ casts T r = true /\ (keep = true \/ r_pkg r = unpackaged_name)) ->
  kept_ok w2 T keep j.
Proof.
  intros [r [r2 [R [R2 [_ [Ep Eq]]]]]] [r' [R' [C K]]]. assert (r' = r) by congruence. subst r'.
  exists r2. split; auto. split; [|rewrite Ep; auto].
  unfold casts in *. destruct T, (r_qual r), (r_qual r2); auto; tauto.
Qed.

Lemma comes_back E c w o : class_ok c -> object_of c o -> 0 <= e_eps E -> settled_agent E c w o ->
  exists row i o', snapshot c o = Ok row /\ snapshot_inv E c (w, o) = (Ok i, (w, o')) /\ same_object o o' /\
    forall fresh w2 i2, just_constructed c fresh -> reloaded_invs w w2 i i2 ->
      (forall x T b b0, buf_var c x T -> find x o = Some (MBuf T b) -> find x fresh = Some (MBuf T b0) ->
         b_bulk b0 = b_bulk b /\ b_keep b0 = b_keep b /\
         exists q, annotated_cap c o x q /\ 0 <= q /\ b_qty b <= q + e_eps E) ->
      exists m m', init_from_db E c [row] fresh = Ok m /\ init_inv E c i2 (w2, m) = (Ok tt, (w2, m')) /\
        (forall x, plain_var c x -> find x m' = find x o) /\
        (forall x T b, buf_var c x T -> find x o = Some (MBuf T b) ->
           exists b' q, find x m' = Some (MBuf T b') /\ Forall2 (reloaded w w2) (b_rs b) (b_rs b') /\
             quantity b' == quantity b /\ annotated_cap c o x q /\ b_cap b' = Some q /\
             b_bulk b' = b_bulk b /\ b_keep b' = b_keep b) /\
        (forall x, trk_var c x -> find x m' = find x fresh).
Proof.
  intros Hc Ho He Hs. pose proof (ok_names _ Hc) as Nd.
  destruct (snapshot_ok c Hc o Ho) as [row [Sr [Rr _]]].
  destruct (snapshot_inv_ok E c Hc w o Ho Hs) as [i [o' [Si [So [Ai _]]]]].
  exists row, i, o'. split; auto. split; auto. split; auto.
  intros fresh w2 i2 Hj Hi Hb.
  destruct (db_ok E c Hc He fresh o row Hj Ho Rr) as [m [Dm [Pm [Bm Tm]]]].
  { intros x T Hx. destruct (of_buf _ _ Ho x T Hx) as [b F]. destruct (of_buf _ _ (jc_of _ _ Hj) x T Hx) as [b0 F0].
    destruct (Hb x T b b0 Hx F F0) as [_ [_ [q [? [? _]]]]]. eauto. }
  assert (K : forall x T b, buf_var c x T -> find x o = Some (MBuf T b) -> exists b1 q,
    find x m = Some (MBuf T b1) /\ annotated_cap c o x q /\ b_cap b1 = Some q /\ b_bulk b1 = b_bulk b /\ b_keep b1 = b_keep b /\
    room_for E w2 T b1 (inv_at x i2)).
  { intros x T b Hx F. destruct (of_buf _ _ (jc_of _ _ Hj) x T Hx) as [b0 F0].
    destruct (Hb x T b b0 Hx F F0) as [Eb [Ek [q [Aq [Pq Lq]]]]].
    destruct (Bm x T q Hx Aq) as [T' [b0' [F0' Fm]]]. assert (T' = T /\ b0' = b0) as [-> ->] by (split; congruence).
    exists (set_b_cap (Some q) b0), q. split; auto. split; auto. split; auto. split; auto. split; auto.
    destruct (jc_empty _ _ Hj x T b0 Hx F0) as [J1 [J2 J3]]. pose proof (Hs x T b Hx F) as Sb.
    destruct (in_use_BI _ _ _ _ (se_use _ _ _ _ Sb)) as [_ [_ HB]].
    destruct (Hi x) as [L2 N2]. rewrite (Ai x T b Hx F) in L2.
    unfold room_for. simpl. split; auto. split; auto. split; auto. split; auto. split; [|split].
    - intros j Hj'. destruct (Forall2_right _ _ _ L2 j Hj') as [k [Hk Rk]]. rewrite Ek.
      eapply reloaded_kept; eauto. apply (se_held _ _ _ _ Sb k Hk).
    - intros B. rewrite (reloaded_len _ _ _ _ L2). apply (bi_bulk _ _ HB). congruence.
    - intros q' Eq. injection Eq as <-. split; auto. rewrite (reloaded_sum _ _ _ _ L2), <- (bi_qty _ _ HB). auto. }
  destruct (init_inv_ok E c Hc w2 i2 m) as [m' [Dm' [Bm' Um']]].
  { intros x T Hx. destruct (of_buf _ _ Ho x T Hx) as [b F]. destruct (K x T b Hx F) as [b1 [q [? [_ [_ [_ [_ R]]]]]]].
    eauto. }
  exists m, m'. split; auto. split; auto.
  assert (NB : forall x i1, In (x, Var i1) c -> (forall T, i_type i1 <> TyBuf T) -> forall T, ~ buf_var c x T).
  { intros x i1 H1 N T [j [Hj' Ej]]. rewrite (one_entry _ _ _ _ Nd Hj' H1) in Ej. destruct (N T Ej). }
  split; [|split].
  - intros x Px. rewrite Um'; [auto|]. destruct Px as [i1 [t [H1 E1]]]. apply (NB x i1 H1). congruence.
  - intros x T b Hx F. destruct (K x T b Hx F) as [b1 [q [Fm [Aq [Cq [Eb [Ek R]]]]]]].
    destruct (Bm' x T b1 Hx Fm) as [b' [F' [G1 [G2 [G3 [G4 [G5 _]]]]]]].
    destruct (Hi x) as [L2 N2]. rewrite (Ai x T b Hx F) in L2.
    pose proof (Hs x T b Hx F) as Sb. destruct (in_use_BI _ _ _ _ (se_use _ _ _ _ Sb)) as [_ [_ HB]].
    exists b', q. split; auto. split; [congruence|]. split.
    + unfold quantity. rewrite G2, (reloaded_sum _ _ _ _ L2). symmetry. apply (bi_qty _ _ HB).
    + split; auto. split; [congruence|]. split; congruence.
  - intros x Tx. rewrite Um'; [auto|]. destruct Tx as [i1 [H1 E1]]. apply (NB x i1 H1). congruence.
Qed.

Lemma clone_copies E c fresh self : class_ok c -> 0 <= e_eps E -> just_constructed c fresh -> object_of c self ->
  (forall x T b q, buf_var c x T -> find x self = Some (MBuf T b) -> b_cap b = Some q -> 0 <= q) ->
  exists m, clone E c fresh self = Ok m /\
    (forall x, plain_var c x -> find x m = find x self) /\
    (forall x T b b0, buf_var c x T -> find x self = Some (MBuf T b) -> find x fresh = Some (MBuf T b0) ->
       exists b', find x m = Some (MBuf T b') /\ b_cap b' = b_cap b /\ b_rs b' = [] /\ quantity b' == 0 /\
         b_bulk b' = b_bulk b0 /\ b_keep b' = b_keep b0) /\
    (forall x, trk_var c x -> find x m = find x fresh).
Proof.
  intros Hc He Hj Ho Hq. destruct (copy_ok E c Hc He fresh self Hj Ho Hq) as [m [Sm [Pm [Bm Tm]]]].
  exists m. split; auto. split; auto. split; auto.
  intros x T b b0 Hx F F0. destruct (Bm x T b Hx F) as [T' [b0' [F0' Fm]]].
  assert (T' = T /\ b0' = b0) as [-> ->] by (split; congruence).
  destruct (jc_empty _ _ Hj x T b0 Hx F0) as [J1 [J2 J3]].
  exists (set_b_cap (b_cap b) b0). simpl. auto 10.
Qed.

(** A class with a ResMap: its content is handed out but never taken back. *)
Lemma map_not_restored c x i k T : NoDup (map fst c) -> In (x, Var i) c -> i_type i = TyMap k T ->
  In (SMap x) (gen_snapshotinv c) /\
  ~ In (SMap x) (gen_initinv c) /\ ~ In (SPush x) (gen_initinv c) /\ In (SCopy x) (gen_copy c).
Proof.
  intros Nd Hi Ei. unfold gen_snapshotinv, gen_initinv, gen_copy, each. split; [|split; [|split]].
  - apply in_flat_map. exists (x, Var i). split; auto. simpl. rewrite Ei. simpl. auto.
  - intros H. apply in_flat_map in H as [[y [[t cap]|z]] [Hy H]]; [|destruct H]. simpl in H.
    destruct t; simpl in H; intuition congruence.
  - intros H. apply in_flat_map in H as [[y [j|z]] [Hy H]]; [|destruct H]. simpl in H.
    destruct (i_type j) eqn:Ej; simpl in H; try tauto; destruct H as [H|[]]; [|discriminate]. injection H as ->.
    rewrite (one_entry _ _ _ _ Nd Hy Hi) in Ej. congruence.
  - apply in_app_iff. left. apply in_flat_map. exists (x, Var i). split; auto. simpl. rewrite Ei. simpl. auto.
Qed.
