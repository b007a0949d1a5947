(** * Buffers: PopVector, Squash, Pop(q). *)
From Verif Require Import Base CompModel CompSpec CompProofs PackageModel
  ResourceModel ResourceSpec ResourceProofs1 ResourceProofs2 ResourceProofs3 ResourceProofs4 ResourceProofs5 ResourceProofs6
  BufModel BufSpec BufProofs1 BufProofs2.
Open Scope Q_scope.

Lemma NoDup_app_iff {A} (l l' : list A) : NoDup (l ++ l') <-> NoDup l /\ NoDup l' /\ (forall x, In x l -> ~ In x l').
Proof.
  induction l as [|a l IH]; simpl.
  - split; [intros H; repeat split; auto; constructor|tauto].
  - rewrite !NoDup_cons_iff, IH, in_app_iff. firstorder; subst; firstorder.
Qed.

(** The loop, started with [left]. *)
Definition taken (w w' : world) (rs : list nat) (q : Q) (outs rs' : list nat) (E : env) : Prop :=
  exists pre,
    (forall p l, pre = p ++ l -> l <> [] -> sumv (vw w) p < q) /\
    ((rs = pre ++ rs' /\ outs = pre /\ w' = w /\
        (sumv (vw w) pre == q \/ q <= 0 /\ pre = [] \/ rs' = [] /\ sumv (vw w) pre < q)) \/
     (exists i rest r l, rs = pre ++ i :: rest /\ rs' = i :: rest /\ outs = pre ++ [length (w_res w)] /\
        nth_error (w_res w) i = Some r /\ 0 < l /\ l < r_qty r /\ sumv (vw w) pre + l == q /\
        extract_res E i l w = (Ok (length (w_res w)), w'))).

Lemma popvec_loop_spec E fuel : forall left w b res s', (length (b_rs b) < fuel)%nat -> BI w b ->
  popvec_loop E fuel left (w, b) = (res, s') -> res <> UB ->
  exists outs w' b', res = Ok outs /\ s' = (w', b') /\ taken w w' (b_rs b) left outs (b_rs b') E /\
    BI w' b' /\ same_cfg b b' /\ b_qty b' == b_qty b - sumv (vw w') outs.
Proof.
  induction fuel as [|fuel IH]; intros left w b res s' L HB H N; [lia|].
  simpl in H. unfold bbind at 1 in H. unfold bget in H. simpl in H.
  destruct (Qltb_spec 0 left) as [Hl|Hl].
  2:{ inversion H; subst. exists [], w, b. rewrite sumv_nil. split; auto. split; auto. split.
      - exists []. split; [intros p l Hp Hne; symmetry in Hp; apply app_eq_nil in Hp as [_ ->]; congruence|].
        left. split; auto. split; auto. split; auto. right. left. split; auto. lra.
      - split; auto. split; [apply same_cfg_refl|lra]. }
  destruct (b_rs b) as [|i rest] eqn:E0.
  { inversion H; subst. exists [], w, b. rewrite sumv_nil. split; auto. split; auto. split.
    - exists []. split; [intros p l Hp Hne; symmetry in Hp; apply app_eq_nil in Hp as [_ ->]; congruence|].
      left. rewrite E0, sumv_nil. auto 10.
    - split; auto. split; [apply same_cfg_refl|lra]. }
  unfold bbind at 1 in H. unfold call in H. simpl in H. destruct (rget i w) as [x w1] eqn:G. apply rget_ok in G as [-> G].
  destruct (nth_error (w_res w) i) as [r|] eqn:Hr; subst x; [|inversion H; congruence].
  unfold bbind at 1 in H. destruct (Qltb_spec left (r_qty r)) as [Hq|Hq].
  - (* split *)
    simpl in H. destruct (extract_res E i left w) as [o w1] eqn:X.
    assert (No : o <> UB) by (intros ->; inversion H; congruence).
    pose proof X as X0.
    apply vw_extract in X as [k [a [Na [[Hlt _]|[Hle [-> V]]]]]]; auto.
    { rewrite (vw_nth _ _ _ Hr) in Na. inversion Na; subst. lra. }
    rewrite (vw_nth _ _ _ Hr) in Na. inversion Na; subst k a; clear Na.
    unfold bbind at 1 in H. simpl in H. destruct (rget _ w1) as [y w2] eqn:G2. apply rget_ok in G2 as [-> G2].
    assert (Ly : exists o, nth_error (w_res w1) (length (vw w)) = Some o /\ r_qty o = left).
    { assert (Y : nth_error (vw w1) (length (vw w)) = Some (kindq (r_qual r), left)).
      { rewrite V. rewrite nth_error_app2; rewrite upd_length; auto. rewrite Nat.sub_diag. reflexivity. }
      apply vw_inv in Y as [o [Y1 Y2]]. exists o. split; auto. congruence. }
    destruct Ly as [oo [Hoo Qoo]]. rewrite Hoo in G2. subst y.
    unfold bbind at 1 in H. unfold bmod in H. simpl in H.
    set (b1 := set_b_qty (b_qty b - r_qty oo) b) in *.
    destruct fuel as [|fuel]; [simpl in L; lia|].
    unfold bbind at 1 in H. destruct (popvec_loop E (S fuel) (left - r_qty r) (w1, b1)) as [u s2] eqn:U.
    simpl in U. unfold bbind at 1 in U. unfold bget in U. simpl in U.
    destruct (Qltb_spec 0 (left - r_qty r)); [lra|]. inversion U; subst u s2; clear U. inversion H; subst res s'; clear H.
    assert (Li : (i < length (vw w))%nat) by (rewrite vw_len; eapply nth_error_lt; eauto).
    assert (B1 : BI w1 b1).
    { destruct HB as [h1 h2 h3 h4 h5]. constructor; simpl; auto.
      - intros j Hj. apply h3 in Hj. rewrite <- vw_len, V, app_length, upd_length, vw_len. lia.
      - rewrite V, sumv_grow by (intros j Hj; rewrite upd_length, vw_len; auto).
        rewrite E0, sumv_in by (rewrite <- ?E0; simpl; auto; rewrite E0; simpl; auto).
        rewrite <- E0, h4, (qv_nth _ _ _ Hr), Qoo. lra. }
    assert (Sout : sumv (vw w1) [length (vw w)] == left).
    { rewrite sumv_cons, sumv_nil, V.
      replace (length (vw w)) with (length (upd (vw w) i (kindq (r_qual r), r_qty r - left))) by apply upd_length.
      rewrite qv_last. simpl. lra. }
    rewrite vw_len in *.
    exists [length (w_res w)], w1, b1. split; auto. split; auto. split; [|split; auto].
    + exists []. split; [intros p l Hp Hne; symmetry in Hp; apply app_eq_nil in Hp as [_ ->]; congruence|].
      right. exists i, rest, r, left. simpl. rewrite E0. repeat split; auto. rewrite sumv_nil. lra.
    + split; [repeat split|]. simpl. rewrite Sout, Qoo. lra.
  - (* whole element *)
    unfold bbind at 1 in H. unfold bmod at 1 in H. simpl in H. unfold bbind, bmod, call in H. simpl in H.
    destruct (rget i w) as [y w2] eqn:G2. apply rget_ok in G2 as [-> G2]. rewrite Hr in G2. subst y. simpl in H.
    assert (B1 := pop_front_BI _ _ _ _ _ HB E0 Hr).
    set (b1 := set_b_qty _ _) in *.
    destruct (popvec_loop E fuel (left - r_qty r) (w, b1)) as [u s1] eqn:U.
    assert (Nu : u <> UB) by (intros ->; inversion H; congruence).
    apply IH in U as [outs [w' [b' [-> [-> [Tk [B2 [C2 Q2]]]]]]]]; auto; [|simpl in *; lia].
    inversion H; subst res s'; clear H. exists (i :: outs), w', b'.
    assert (Si : qv (vw w') i == r_qty r).
    { destruct Tk as [pre [_ [[_ [_ [-> _]]]|[i2 [rest2 [r2 [l2 [R2 [_ [_ [Hr2 [_ [_ [_ X2]]]]]]]]]]]]]].
      - rewrite (qv_nth _ _ _ Hr). lra.
      - apply vw_extract in X2 as [k [a [_ [[_ [? _]]|[_ [_ V]]]]]]; [discriminate| |discriminate].
        rewrite V, qv_app by (rewrite upd_length, vw_len; eapply nth_error_lt; eauto).
        rewrite qv_upd_other, (qv_nth _ _ _ Hr); [lra|]. intros ->.
        destruct HB as [h1 _ _ _ _]. rewrite E0 in h1. inversion h1; subst. apply H1. simpl in R2. rewrite R2. apply in_app_iff. simpl. auto. }
    split; auto. split; auto. split; [|split; [auto|split; [exact C2|]]].
    + destruct Tk as [pre [P1 D]]. exists (i :: pre).
      assert (Qi := qv_nth _ _ _ Hr). split.
      * intros p l Hp Hne. destruct p as [|j p]; [rewrite sumv_nil; auto|]. simpl in Hp. inversion Hp; subst j.
        rewrite sumv_cons, Qi. specialize (P1 p l ltac:(auto) Hne). lra.
      * destruct D as [[R [Ho [-> D]]]|[i2 [rest2 [r2 [l2 [R [R' [Ho [Hr2 [L1 [L2 [Sl X2]]]]]]]]]]]].
        -- left. simpl in R. rewrite R. subst outs. split; [reflexivity|]. split; auto. split; auto.
           rewrite sumv_cons, Qi. destruct D as [D|[[D1 ->]|[D1 D2]]].
           ++ left. lra.
           ++ rewrite sumv_nil. left. lra.
           ++ right. right. split; auto. lra.
        -- right. simpl in R. exists i2, rest2, r2, l2. rewrite R. split; [reflexivity|]. split; auto.
           split; [rewrite Ho; reflexivity|]. split; auto. split; auto. split; auto. split; auto.
           rewrite sumv_cons, Qi. lra.
    + rewrite Q2, sumv_cons, Si. simpl. lra.
Qed.

Lemma pop_vector_spec E w b q res s' : BI w b -> buf_pop_vector E q (w, b) = (res, s') -> res <> UB ->
  (b_qty b < q /\ res = Throw ValueError /\ s' = (w, b)) \/
  (q <= b_qty b /\ exists outs w' b', res = Ok outs /\ s' = (w', b') /\ taken w w' (b_rs b) q outs (b_rs b') E /\
    BI w' b' /\ same_cfg b b' /\ b_qty b' == b_qty b - sumv (vw w') outs).
Proof.
  intros HB H N. unfold buf_pop_vector, bbind at 1, bget in H. simpl in H.
  destruct (Qltb_spec (b_qty b) q); [left; inversion H; auto|]. right. split; [lra|].
  unfold bbind at 1 in H. destruct (bbind bget _ _) as [u s1] eqn:U in H.
  change (popvec_loop E (S (length (b_rs b))) q (w, b) = (u, s1)) in U.
  assert (Nu : u <> UB) by (intros ->; inversion H; congruence).
  apply popvec_loop_spec in U as [outs [w' [b1 [-> [-> [Tk [B1 [C1 Q1]]]]]]]]; auto.
  unfold bbind in H. destruct (update_qty (w', b1)) as [u2 s2] eqn:U2.
  assert (Nu2 : u2 <> UB) by (intros ->; inversion H; congruence).
  destruct (update_qty_BI _ _ _ _ U2 Nu2 B1) as [-> [b' [-> [B2 [C2 [R2 Q2]]]]]]. inversion H; subst res s'.
  exists outs, w', b'. rewrite R2. split; auto. split; auto. split; auto. split; auto.
  split; [eapply same_cfg_trans; eauto|]. lra.
Qed.

(** What was taken adds up. *)
Lemma taken_sum E w w' rs q outs rs' : taken w w' rs q outs rs' E -> NoDup rs -> (forall i, In i rs -> (i < length (w_res w))%nat) ->
  0 < q -> q <= sumv (vw w) rs -> sumv (vw w') outs == q /\ NoDup outs /\ outs <> [] /\
  (forall i, In i outs -> (i < length (w_res w'))%nat) /\ (forall i, In i outs -> ~ In i rs').
Proof.
  intros [pre [P D]] Nd V Hq Hs. destruct D as [[R [-> [-> D]]]|[i [rest [r [l [R [R' [-> [Hr [L1 [L2 [Sm X]]]]]]]]]]]].
  - assert (Hsum : sumv (vw w) pre == q).
    { destruct D as [D|[[D ->]|[D1 D2]]]; [auto|lra|]. subst rs'. rewrite R, app_nil_r in Hs. lra. }
    split; auto. subst rs. apply NoDup_app_iff in Nd as [N1 [N2 N3]]. split; auto. split.
    { intros ->. rewrite sumv_nil in Hsum. lra. }
    split; [|auto]. intros i Hi. apply V, in_app_iff. auto.
  - assert (Li := nth_error_lt _ _ _ Hr). 
    apply vw_extract in X as [k [a [Na [[_ [? _]]|[_ [_ Vw]]]]]]; [discriminate| |discriminate].
    assert (Lw : length (w_res w') = S (length (w_res w))).
    { rewrite <- vw_len, Vw, app_length, upd_length, vw_len. simpl. lia. }
    assert (Hpre : forall j, In j pre -> (j < length (w_res w))%nat /\ j <> i).
    { intros j Hj. split; [apply V; subst rs; apply in_app_iff; auto|]. intros ->. subst rs.
      apply NoDup_remove_2 in Nd. apply Nd, in_app_iff. auto. }
    split; [|split; [|split; [|split]]].
    + rewrite sumv_app, sumv_cons, sumv_nil.
      assert (A : sumv (vw w') pre == sumv (vw w) pre).
      { apply sumv_ext. intros j Hj. destruct (Hpre j Hj). rewrite Vw, qv_app, qv_upd_other by (rewrite ?upd_length, ?vw_len; auto). lra. }
      assert (B : qv (vw w') (length (w_res w)) == l).
      { rewrite Vw. replace (length (w_res w)) with (length (upd (vw w) i (k, a - l))) by (rewrite upd_length; apply vw_len).
        rewrite qv_last. simpl. lra. }
      rewrite A, B. lra.
    + apply NoDup_app_iff. split; [subst rs; apply NoDup_app_iff in Nd; tauto|]. split; [repeat constructor; auto|].
      intros j Hj [<-|[]]. destruct (Hpre _ Hj). lia.
    + destruct pre; discriminate.
    + intros j Hj. apply in_app_iff in Hj as [Hj|[<-|[]]]; [destruct (Hpre _ Hj)|]; lia.
    + intros j Hj Hr'. subst rs rs'. apply in_app_iff in Hj as [Hj|[<-|[]]].
      * apply NoDup_app_iff in Nd as [_ [_ N3]]. eapply N3; eauto.
      * assert (length (w_res w) < length (w_res w))%nat; [|lia]. apply V, in_app_iff. auto.
Qed.
