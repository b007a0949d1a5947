(** * Buffers: Push(vector), the invariant over histories. *)
From Verif Require Import Base CompModel CompSpec CompProofs PackageModel
  ResourceModel ResourceSpec ResourceProofs1 ResourceProofs2 ResourceProofs3 ResourceProofs4 ResourceProofs5 ResourceProofs6
  BufModel BufSpec BufProofs1 BufProofs2 BufProofs3 BufProofs4 BufProofs5.
Open Scope Q_scope.

Lemma too_big_fits eps tot b : too_big eps tot b = false <-> fits eps tot b.
Proof.
  unfold too_big, fits. destruct (space b) as [s|]; [|tauto]. destruct (Qltb_spec eps (tot - s)); split; intros; try discriminate; auto; lra.
Qed.
Lemma fits_eq eps a a' b : a == a' -> fits eps a b -> fits eps a' b.
Proof. unfold fits. destruct (space b); auto. intros. lra. Qed.

Lemma cast_all_spec T is : forall w r w', cast_all T is w = (r, w') -> r <> UB -> w' = w /\
  ((r = Ok tt /\ forall i, In i is -> exists x, nth_error (w_res w) i = Some x /\ casts T x = true) \/
   (r = Throw CastError /\ exists i x, In i is /\ nth_error (w_res w) i = Some x /\ casts T x = false)).
Proof.
  induction is as [|i is IH]; simpl; intros w r w' H N.
  - inversion H; subst. split; auto. left. split; auto. intros ? [].
  - unfold bind in H. destruct (rget i w) as [x w1] eqn:G. apply rget_ok in G as [-> G].
    destruct (nth_error (w_res w) i) as [y|] eqn:Hy; subst x; [|inversion H; congruence].
    destruct (casts T y) eqn:C.
    + apply IH in H as [-> [[-> A]|[-> [j [z [A B]]]]]]; auto; split; auto.
      * left. split; auto. intros j [<-|Hj]; eauto.
      * right. split; auto. exists j, z. auto.
    + inversion H; subst. split; auto. right. split; auto. exists i, y. auto.
Qed.
Lemma sum_all_spec is : forall acc w r w', sum_all is acc w = (r, w') -> r <> UB ->
  w' = w /\ exists q, r = Ok q /\ q == acc + sumv (vw w) is.
Proof.
  induction is as [|i is IH]; simpl; intros acc w r w' H N.
  - inversion H; subst. split; auto. exists acc. rewrite sumv_nil. split; auto. lra.
  - unfold bind in H. destruct (rget i w) as [x w1] eqn:G. apply rget_ok in G as [-> G].
    destruct (nth_error (w_res w) i) as [y|] eqn:Hy; subst x; [|inversion H; congruence].
    apply IH in H as [-> [q [-> Hq]]]; auto. split; auto. exists q. split; auto. rewrite sumv_cons, (qv_nth _ _ _ Hy). lra.
Qed.

Lemma put_all_plain E T is : forall w b r s', b_bulk b = false -> put_all E T is (w, b) = (r, s') -> r <> UB ->
  r = Ok tt /\ exists w' b', s' = (w', b') /\ vw w' = vw w /\ moves E w w' /\ same_cfg b b' /\ b_qty b' = b_qty b /\
    b_rs b' = b_rs b ++ is /\ (forall j, In j (b_present b') <-> In j (b_present b) \/ In j is).
Proof.
  induction is as [|i is IH]; intros w b r s' Hb H N.
  - inversion H; subst. split; auto. exists w, b. rewrite app_nil_r. split; auto. split; auto. split; [apply moves_refl|].
    split; [apply same_cfg_refl|]. split; auto. split; auto. simpl. tauto.
  - simpl in H. unfold bbind in H. destruct (put E T i (w, b)) as [u s1] eqn:P.
    assert (Nu : u <> UB) by (intros ->; inversion H; congruence).
    apply put_plain in P as [-> [w1 [-> [V Mv]]]]; auto.
    apply IH in H as [-> [w' [b' [-> [V' [Mv' [C [Qb [R P]]]]]]]]]; auto. split; auto. exists w', b'. split; auto.
    split; [congruence|]. split; [eapply moves_trans; eauto|]. split; [exact C|]. split; [exact Qb|].
    split; [rewrite R; simpl; rewrite <- app_assoc; reflexivity|]. intros j. rewrite P. simpl. rewrite insert_In. intuition.
Qed.
Lemma put_all_bulk E T is : forall w b f r s', b_bulk b = true -> T <> EResource -> b_rs b = [f] -> put_all E T is (w, b) = (r, s') ->
  exists w', s' = (w', b) /\ absorb_all E f is w = (r, w').
Proof.
  induction is as [|i is IH]; intros w b f r s' Hb HT E0 H.
  - inversion H; subst. exists w. auto.
  - simpl in H. unfold bbind in H. destruct (put E T i (w, b)) as [u s1] eqn:P.
    destruct (put_bulk _ _ _ _ _ _ _ _ _ Hb E0 P) as [w1 [-> A]].
    assert (A' : absorb E f i w = (u, w1)) by (destruct T; auto; congruence).
    simpl. unfold bind. rewrite A'. destruct u as [[]|e|].
    + eapply IH; eauto.
    + inversion H; subst. eauto.
    + inversion H; subst. eauto.
Qed.

Lemma push_vector_spec E T w b is res s' : BI w b -> buf_push_vector E T is (w, b) = (res, s') -> res <> UB ->
  (s' = (w, b) /\
   (res = Throw CastError /\ (exists i x, In i is /\ nth_error (w_res w) i = Some x /\ casts T x = false) \/
    res = Throw ValueError /\ ~ fits (e_eps E) (sumv (vw w) is) b \/
    res = Throw KeyError /\ exists i, In i is /\ In i (b_rs b))) \/
  ((forall i, In i is -> exists x, nth_error (w_res w) i = Some x /\ casts T x = true) /\
   fits (e_eps E) (sumv (vw w) is) b /\ (forall i, In i is -> ~ In i (b_rs b)) /\
   (NoDup is ->
    (b_bulk b = true -> env_ok E /\ reachable E w /\ T <> EResource /\ mixv (vw w) (b_rs b ++ is)) ->
    res = Ok tt /\ exists w' b', s' = (w', b') /\ BI w' b' /\ same_cfg b b' /\ moves E w w' /\
      b_qty b' == b_qty b + sumv (vw w) is /\
      (b_bulk b = false -> vw w' = vw w /\ b_rs b' = b_rs b ++ is) /\
      (b_bulk b = true -> b_rs b' = firstn 1 (b_rs b ++ is) /\
         forall k, ~ In k (b_rs b ++ is) -> nth_error (vw w') k = nth_error (vw w) k))).
Proof.
  intros HB H N. unfold buf_push_vector, bbind at 1 in H. unfold call in H. simpl in H.
  destruct (cast_all T is w) as [u w1] eqn:C.
  assert (Nu : u <> UB) by (intros ->; inversion H; congruence).
  apply cast_all_spec in C as [-> [[-> Cs]|[-> Cs]]]; auto.
  2:{ left. inversion H; subst. split; auto. }
  unfold bbind at 1 in H. simpl in H. destruct (sum_all is 0 w) as [u w2] eqn:S.
  assert (Nu2 : u <> UB) by (intros ->; inversion H; congruence).
  apply sum_all_spec in S as [-> [tot [-> St]]]; auto.
  unfold bbind at 1, bget in H. simpl in H.
  assert (St' : tot == sumv (vw w) is) by lra.
  destruct (too_big (e_eps E) tot b) eqn:Tb.
  { left. inversion H; subst. split; auto. right. left. split; auto. intros F.
    apply (fits_eq _ _ tot) in F; [|lra]. apply too_big_fits in F. congruence. }
  apply too_big_fits in Tb. apply (fits_eq _ _ _ _ St') in Tb.
  destruct (existsb (fun i => present i b) is) eqn:X.
  { left. inversion H; subst. split; auto. right. right. split; auto. apply existsb_exists in X as [i [Hi Pi]].
    exists i. split; auto. apply (bi_pres _ _ HB). now apply present_spec. }
  assert (Ni : forall i, In i is -> ~ In i (b_rs b)).
  { intros i Hi Hr. apply (bi_pres _ _ HB) in Hr. apply present_spec in Hr.
    assert (existsb (fun i => present i b) is = true) by (apply existsb_exists; eauto). congruence. }
  right. split; auto. split; auto. split; auto. intros Nd Hbulk.
  unfold bbind in H. destruct (put_all E T is (w, b)) as [u s1] eqn:P.
  assert (Nu3 : u <> UB) by (intros ->; inversion H; congruence).
  assert (Vi : forall i, In i is -> (i < length (w_res w))%nat).
  { intros i Hi. destruct (Cs i Hi) as [x [Hx _]]. eapply nth_error_lt; eauto. }
  destruct (b_bulk b) eqn:Hb.
  - destruct (Hbulk eq_refl) as [HE [HR [HT Hm]]]. clear Hbulk.
    (* reduce to a front element *)
    destruct (b_rs b) as [|f rest] eqn:E0.
    + destruct is as [|i js].
      { simpl in P. inversion P; subst u s1. inversion H; subst. split; auto.
        eexists _, _. split; [reflexivity|]. split; [|split; [repeat split; simpl; auto|split; [apply moves_refl|]]].
        - destruct HB as [h1 h2 h3 h4 h5]. rewrite sumv_nil in *. constructor; simpl; auto. lra.
        - simpl. split; [lra|]. split; [congruence|]. intros _. split; auto. }
      simpl in P. unfold bbind in P. destruct (put E T i (w, b)) as [u1 s2] eqn:P1.
      assert (Nu4 : u1 <> UB) by (intros ->; inversion P; congruence).
      apply put_plain in P1 as [-> [w1 [-> [V1 Mv1]]]]; auto.
      assert (E1 : b_rs (set_b_present (insert i (b_present b)) (set_b_rs (b_rs b ++ [i]) b)) = [i]) by (simpl; rewrite E0; auto).
      apply (put_all_bulk _ _ _ _ _ i) in P as [w2 [-> A]]; auto.
      destruct (absorb_all_spec _ _ _ _ _ _ Nd A Nu3) as [Mv [Lv [Ov [Sv Okv]]]].
      rewrite V1 in *. specialize (Okv HE (moves_reach _ _ _ Mv1 HR) Hm). subst u. specialize (Sv eq_refl).
      inversion H; subst. split; auto. eexists _, _. split; [reflexivity|].
      destruct HB as [h1 h2 h3 h4 h5]. rewrite E0 in *. rewrite sumv_nil in h4.
      split; [|split; [repeat split; simpl; auto|split; [eapply moves_trans; eauto|]]].
      * constructor; simpl; rewrite ?E0.
        -- repeat constructor; auto.
        -- intros j. rewrite insert_In, h2. simpl. intuition.
        -- intros j [<-|[]]. rewrite <- vw_len, Lv, vw_len. apply Vi. simpl; auto.
        -- rewrite h4, St', (sumv_cons _ i []), sumv_nil, Sv. lra.
        -- simpl. lia.
      * simpl. split; [lra|]. split; [congruence|]. intros _. rewrite ?E0. split; auto.
    + assert (rest = []). { pose proof (bi_bulk _ _ HB Hb) as L. rewrite E0 in L. destruct rest; auto. simpl in L. lia. }
      subst rest. apply (put_all_bulk _ _ _ _ _ f) in P as [w2 [-> A]]; auto.
      assert (Nd' : NoDup (f :: is)). { constructor; auto. intros Hf. apply (Ni f Hf). simpl; auto. }
      destruct (absorb_all_spec _ _ _ _ _ _ Nd' A Nu3) as [Mv [Lv [Ov [Sv Okv]]]].
      specialize (Okv HE HR Hm). subst u. specialize (Sv eq_refl).
      inversion H; subst. split; auto. eexists _, _. split; [reflexivity|].
      destruct HB as [h1 h2 h3 h4 h5]. rewrite E0 in *.
      rewrite (sumv_cons _ f []), sumv_nil in h4. rewrite sumv_cons in Sv.
      split; [|split; [repeat split; simpl; auto|split; [auto|]]].
      * constructor; simpl; rewrite ?E0; auto.
        -- intros j Hj. rewrite <- vw_len, Lv, vw_len. auto.
        -- rewrite h4, St', (sumv_cons _ f []), sumv_nil, Sv. lra.
      * simpl. rewrite ?E0. split; [lra|]. split; [congruence|]. intros _. split; auto.
  - clear Hbulk. apply put_all_plain in P as [-> [w1 [b1 [-> [V [Mv [C [Qb [R P]]]]]]]]]; auto.
    inversion H; subst. split; auto. exists w1, (set_b_qty (b_qty b1 + tot) b1). split; [reflexivity|].
    destruct HB as [h1 h2 h3 h4 h5]. split; [|split; [exact C|split; [auto|]]].
    + constructor; simpl.
      * rewrite R. apply NoDup_app_iff. split; auto. split; auto. intros x Hx Hi. eapply Ni; eauto.
      * intros j. rewrite P, R, h2, in_app_iff. tauto.
      * intros j. rewrite R, in_app_iff, <- vw_len, V, vw_len. intros [?|?]; auto.
      * rewrite Qb, R, V, sumv_app, h4. lra.
      * destruct C as [_ [Cb _]]. congruence.
    + simpl. split; [rewrite Qb; lra|]. split; [auto|congruence].
Qed.

Lemma decay_all_spec E t is : forall w r w', decay_all E is t w = (r, w') -> r <> UB -> vw w' = vw w /\ moves E w w'.
Proof.
  induction is as [|i is IH]; simpl; intros w r w' H N; [inversion H; subst; split; auto; apply moves_refl|].
  apply bind_inv in H as [[u [w1 [H1 H]]]|[[e [H1 H]]|[H1 H]]]; [| |congruence].
  - destruct (IH _ _ _ H N) as [A B]. assert (V := vw_res_decay _ _ _ _ _ _ H1 ltac:(discriminate)).
    split; [congruence|]. eapply moves_trans; [eapply moves_decay; eauto; discriminate|auto].
  - split; [eapply vw_res_decay; eauto; discriminate|eapply moves_decay; eauto; discriminate].
Qed.

Lemma pop_qty_eps_spec E w b q e res s' : BI w b -> buf_pop_qty_eps E q e (w, b) = (res, s') -> res <> UB ->
  (b_qty b + e < q /\ res = Throw ValueError /\ s' = (w, b)) \/
  (q <= b_qty b + e /\ b_qty b <= q /\ exists w' b', s' = (w', b') /\ BI w' b' /\ same_cfg b b' /\ moves E w w' /\ b_rs b' = [] /\
     (b_rs b = [] -> res = Throw PlainError) /\
     (forall x, res = Ok x -> hd_error (b_rs b) = Some x /\ qv (vw w') x == b_qty b /\ (x < length (w_res w'))%nat) /\
     (env_ok E -> reachable E w -> mixv (vw w) (b_rs b) -> b_rs b <> [] -> exists x, res = Ok x)) \/
  (q <= b_qty b + e /\ q < b_qty b /\ buf_pop_qty E q (w, b) = (res, s')).
Proof.
  intros HB H N. unfold buf_pop_qty_eps, bbind at 1, bget in H. simpl in H.
  destruct (Qltb_spec (b_qty b + e) q); [left; inversion H; auto|]. right.
  destruct (Qleb_spec (b_qty b) q); [left|right; split; [lra|split; [lra|auto]]].
  split; [lra|]. split; auto. unfold bbind at 1 in H.
  destruct (buf_pop_n (count b) (w, b)) as [u s1] eqn:U.
  assert (Nu : u <> UB) by (intros ->; inversion H; congruence).
  destruct (pop_n_spec _ _ _ _ _ HB U Nu) as [[Hc _]|[_ [outs [b' [-> [-> [R [L [B1 [C1 Q1]]]]]]]]]]; [unfold count in Hc; lia|].
  assert (Rn : b_rs b' = []).
  { unfold count in L. rewrite R, app_length in L. destruct (b_rs b'); auto. simpl in L. lia. }
  rewrite Rn, app_nil_r in R. subst outs.
  unfold call in H. simpl in H. destruct (squash E (b_rs b) w) as [r2 w'] eqn:S. inversion H; subst r2 s'; clear H.
  assert (Sq := squash_spec _ _ _ _ _ (bi_nodup _ _ HB) S N). destruct (b_rs b) as [|i js] eqn:E0.
  - destruct Sq as [-> ->]. exists w, b'. split; auto. split; auto. split; auto. split; [apply moves_refl|]. split; auto. split; auto.
    split; [discriminate|congruence].
  - rewrite <- E0 in *. destruct Sq as [Mv [Lv [Ov [Rv Okv]]]]. exists w', b'. split; auto. split.
    { eapply BI_frame_v; [exact B1|rewrite Rn; intros ? []|lia]. }
    split; auto. split; auto. split; auto. split; [congruence|]. split.
    + intros x Hx. destruct (Rv x Hx) as [-> Hs]. rewrite E0. split; auto. rewrite Hs, <- (bi_qty _ _ HB). split; [lra|].
      rewrite <- vw_len, Lv, vw_len. apply (bi_valid _ _ HB). rewrite E0. simpl; auto.
    + intros HE HR Hm _. exists i. apply Okv; auto.
Qed.

Lemma none_inv m s r s' : none m s = (r, s') -> r <> UB -> exists u, m s = (u, s') /\ u <> UB /\
  (r = Ok [] /\ u = Ok tt \/ exists e, r = Throw e /\ u = Throw e).
Proof.
  unfold none, bbind, bret. destruct (m s) as [[[]|e|] s1]; intros H N; inversion H; subst.
  - exists (Ok tt). split; auto. split; [discriminate|auto].
  - exists (Throw e). split; auto. split; [discriminate|eauto].
  - congruence.
Qed.
Lemma one_inv m s r s' : one m s = (r, s') -> r <> UB -> exists u, m s = (u, s') /\ u <> UB /\
  (exists x, r = Ok [x] /\ u = Ok x \/ exists e, r = Throw e /\ u = Throw e).
Proof.
  unfold one, bbind, bret. destruct (m s) as [[x|e|] s1]; intros H N; inversion H; subst.
  - exists (Ok x). split; auto. split; [discriminate|eauto].
  - exists (Throw e). split; auto. split; [discriminate|]. exists O. eauto.
  - congruence.
Qed.

Lemma bstep_BI E T o w b res w' b' : env_ok E -> reachable E w -> BI w b -> bstep E T o (w, b) = (res, (w', b')) -> res <> UB ->
  fair T o (w, b) (w', b') -> BI w' b' /\ reachable E w'.
Proof.
  intros HE HR HB H N F. destruct o; simpl in H.
  - apply none_inv in H as [u [H [Nu _]]]; auto. unfold buf_capacity, bbind, bget, bmod, bthrow in H. simpl in H.
    assert (X : w' = w /\ (b' = b \/ exists c, b' = set_b_cap c b)).
    { destruct c as [c|]; [|inversion H; eauto]. destruct (Qltb c 0); [inversion H; eauto|]. destruct (Qltb _ _); inversion H; eauto. }
    destruct X as [-> [->|[c' ->]]]; split; auto. destruct HB; constructor; auto.
  - apply none_inv in H as [u [H [Nu _]]]; auto. unfold buf_keep_packaging, bbind, bget, bmod, bthrow in H. simpl in H.
    destruct (_ && _); inversion H; subst; split; auto. destruct HB; constructor; auto.
  - apply none_inv in H as [u [H [Nu _]]]; auto. destruct (push_spec _ _ _ _ _ _ _ HB H Nu) as [r [Hr P]].
    destruct (push_refused _ _ _ _ _).
    + destruct P as [_ P]. inversion P; subst. auto.
    + destruct P as [w1 [b1 [P [B1 [_ [Mv _]]]]]]. inversion P; subst. split; auto. eapply moves_reach; eauto.
  - apply none_inv in H as [u [H [Nu _]]]; auto. destruct (push_vector_spec _ _ _ _ _ _ _ HB H Nu) as [[P _]|[_ [_ [_ P]]]].
    + inversion P; subst. auto.
    + simpl in F. destruct F as [Nd Fb]. destruct P as [_ [w1 [b1 [P [B1 [_ [Mv _]]]]]]]; auto.
      * intros Hb. destruct (Fb Hb) as [HT Hm]. repeat (split; auto). now apply mixable_mixv.
      * inversion P; subst. split; auto. eapply moves_reach; eauto.
  - apply one_inv in H as [u [H [Nu _]]]; auto. destruct (pop_spec _ _ _ _ HB H Nu) as [[_ [_ P]]|[i [b1 [r [_ [_ [P [B1 _]]]]]]]];
      inversion P; subst; auto.
  - apply one_inv in H as [u [H [Nu _]]]; auto. destruct (pop_back_spec _ _ _ _ HB H Nu) as [[_ [_ P]]|[i [b1 [r [_ [_ [P [B1 _]]]]]]]];
      inversion P; subst; auto.
  - destruct (pop_n_spec _ _ _ _ _ HB H N) as [[_ [_ P]]|[_ [outs [b1 [_ [P [_ [_ [B1 _]]]]]]]]]; inversion P; subst; auto.
  - destruct (pop_vector_spec _ _ _ _ _ _ HB H N) as [[_ [_ P]]|[_ [outs [w1 [b1 [_ [P [Tk [B1 _]]]]]]]]]; inversion P; subst; auto.
    split; auto. eapply moves_reach; [eapply taken_moves; eauto|auto].
  - apply one_inv in H as [u [H [Nu _]]]; auto.
    destruct (pop_qty_spec _ _ _ _ _ _ HB H Nu) as [[_ [_ P]]|[[_ [_ [_ [b1 [P [B1 _]]]]]]|[_ [_ [outs [w1 [w2 [b1 [P [_ [B1 [_ [_ [Mv _]]]]]]]]]]]]]];
      inversion P; subst; auto. split; auto. eapply moves_reach; eauto.
  - apply one_inv in H as [u [H [Nu _]]]; auto.
    destruct (pop_qty_eps_spec _ _ _ _ _ _ _ HB H Nu) as [[_ [_ P]]|[[_ [_ [w1 [b1 [P [B1 [_ [Mv _]]]]]]]]|[_ [_ G]]]].
    + inversion P; subst; auto.
    + inversion P; subst; auto. split; auto. eapply moves_reach; eauto.
    + destruct (pop_qty_spec _ _ _ _ _ _ HB G Nu) as [[_ [_ P]]|[[_ [_ [_ [b1 [P [B1 _]]]]]]|[_ [_ [outs [w1 [w2 [b1 [P [_ [B1 [_ [_ [Mv _]]]]]]]]]]]]]];
      inversion P; subst; auto. split; auto. eapply moves_reach; eauto.
  - apply one_inv in H as [u [H [Nu _]]]; auto. unfold buf_peek, bbind, bget in H. simpl in H. destruct (b_rs b); inversion H; subst; auto.
  - apply none_inv in H as [u [H [Nu _]]]; auto. unfold buf_decay, bbind, bget, call in H. simpl in H.
    destruct (decay_all E (b_rs b) t w) as [u2 w2] eqn:D. inversion H; subst.
    destruct (decay_all_spec _ _ _ _ _ _ D Nu) as [V Mv]. split; [|eapply moves_reach; eauto].
    eapply BI_frame_v; [exact HB|intros; rewrite V; auto|rewrite V; auto].
  - apply none_inv in H as [u [H [Nu _]]]; auto. unfold call in H. simpl in H, F. destruct (step E o w) as [u2 w2] eqn:D. inversion H; subst.
    destruct F as [Fw F]. split.
    + assert (X : forall i, In i (b_rs b') -> (i < length (w_res w'))%nat /\ qv (vw w') i == qv (vw w) i).
      { intros i Hi. specialize (F i Hi). assert (L := bi_valid _ _ HB i Hi). unfold qty_of in F.
        destruct (nth_error (w_res w) i) eqn:A; [|apply nth_error_None in A; lia].
        destruct (nth_error (w_res w') i) eqn:B; [|discriminate]. simpl in F.
        split; [eapply nth_error_lt; eauto|]. rewrite !qv_vw, A, B. inversion F. lra. }
      destruct HB as [h1 h2 h3 h4 h5]. constructor; auto.
      * intros i Hi. now apply X.
      * rewrite h4. symmetry. apply sumv_ext. intros i Hi. now apply X.
    + destruct HR as [ops [A R]]. exists (ops ++ [o]). split; [apply Forall_app; auto|].
      rewrite (run_app _ _ _ _ _ R). simpl. rewrite D. destruct u; congruence.
Qed.

Lemma bhist_BI E T w0 bulk keep b0 tr w b : env_ok E -> reachable E w0 -> fresh_buf bulk keep b0 ->
  bhist E T (w0, b0) tr (w, b) -> BI w b /\ reachable E w.
Proof.
  intros HE HR HF H.
  assert (B0 : BI w0 b0).
  { unfold fresh_buf, buf_new in HF. destruct (_ && _); [discriminate|]. inversion HF; subst. constructor; simpl; try tauto.
    - constructor. - rewrite sumv_nil. lra. - lia. }
  remember (w0, b0) as s0. remember (w, b) as s. revert w b Heqs.
  induction H as [|tr s o res s' H IH Hs N F]; intros w b Es.
  - subst. inversion Es; subst. auto.
  - destruct s as [w1 b1]. destruct (IH w1 b1 eq_refl) as [B1 R1]. subst s'. eapply bstep_BI; eauto.
Qed.
