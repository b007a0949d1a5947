(** * Buffers: Pop(q), Push, histories. *)
From Verif Require Import Base CompModel CompSpec CompProofs PackageModel
  ResourceModel ResourceSpec ResourceProofs1 ResourceProofs2 ResourceProofs3 ResourceProofs4 ResourceProofs5 ResourceProofs6
  BufModel BufSpec BufProofs1 BufProofs2 BufProofs3 BufProofs4.
Open Scope Q_scope.

Lemma BI_frame_v w b w' : BI w b -> (forall i, In i (b_rs b) -> nth_error (vw w') i = nth_error (vw w) i) ->
  (length (vw w) <= length (vw w'))%nat -> BI w' b.
Proof.
  intros HB H L. eapply BI_frame; eauto; [|rewrite !vw_len in L; auto].
  intros i Hi. unfold qv. rewrite H by auto. lra.
Qed.

Lemma taken_moves E w w' rs q outs rs' : taken w w' rs q outs rs' E -> moves E w w'.
Proof.
  intros [pre [_ [[_ [_ [-> _]]]|[i [rest [r [l [_ [_ [_ [_ [_ [_ [_ X]]]]]]]]]]]]]].
  - apply moves_refl.
  - eapply moves_extract; eauto. discriminate.
Qed.

Lemma taken_mix E w w' rs q outs rs' : taken w w' rs q outs rs' E -> NoDup rs -> mixv (vw w) rs -> mixv (vw w') outs.
Proof.
  intros [pre [_ [[-> [-> [-> _]]]|[i [rest [r [l [-> [_ [-> [Hr [L1 [L2 [_ X]]]]]]]]]]]]]] Nd Hm.
  - eapply mixv_sub; [|exact Hm]. intros. apply in_app_iff; auto.
  - apply vw_extract in X as [k [a [Na [[_ [? _]]|[_ [_ V]]]]]]; [discriminate| |discriminate].
    assert (Vr := vw_nth _ _ _ Hr). rewrite Na in Vr. inversion Vr; subst k a.
    assert (Xp : forall j, In j pre -> forall y, nth_error (vw w) j = Some y -> nth_error (vw w') j = Some y).
    { intros j Hj y Hy. rewrite V, nth_error_app1 by (rewrite upd_length; eapply nth_error_lt; eauto).
      rewrite nth_upd_other; auto. intros ->. apply NoDup_remove_2 in Nd. apply Nd, in_app_iff. auto. }
    assert (Xn : nth_error (vw w') (length (w_res w)) = Some (kindq (r_qual r), l)).
    { rewrite V, nth_error_app2; rewrite upd_length, vw_len; auto. rewrite Nat.sub_diag. reflexivity. }
    destruct Hm as [Hm|[s Hm]]; [left|right; exists s].
    + destruct (Hm i ltac:(apply in_app_iff; simpl; auto)) as [q0 [Hi _]]. rewrite Na in Hi. injection Hi as Hk Hk2.
      intros j Hj. apply in_app_iff in Hj as [Hj|[<-|[]]].
      * destruct (Hm j ltac:(apply in_app_iff; auto)) as [qj [Hj' ?]]. exists qj. split; auto.
      * exists l. rewrite Hk in Xn. split; auto. lra.
    + destruct (Hm i ltac:(apply in_app_iff; simpl; auto)) as [q0 Hi]. rewrite Na in Hi. injection Hi as Hk Hk2.
      intros j Hj. apply in_app_iff in Hj as [Hj|[<-|[]]].
      * destruct (Hm j ltac:(apply in_app_iff; auto)) as [qj Hj']. exists qj. auto.
      * exists l. rewrite Hk in Xn. auto.
Qed.

Lemma pop_qty_spec E w b q res s' : BI w b -> buf_pop_qty E q (w, b) = (res, s') -> res <> UB ->
  (b_qty b < q /\ res = Throw ValueError /\ s' = (w, b)) \/
  (q <= b_qty b /\ q <= 0 /\ res = Throw PlainError /\ exists b', s' = (w, b') /\ BI w b' /\ same_cfg b b' /\ b_rs b' = b_rs b /\ b_qty b' == b_qty b) \/
  (0 < q /\ q <= b_qty b /\ exists outs w1 w' b', s' = (w', b') /\ taken w w1 (b_rs b) q outs (b_rs b') E /\
    BI w' b' /\ same_cfg b b' /\ b_qty b' == b_qty b - q /\ moves E w w' /\
    (forall x, res = Ok x -> hd_error outs = Some x /\ qv (vw w') x == q /\ (x < length (w_res w'))%nat /\ ~ In x (b_rs b')) /\
    (env_ok E -> reachable E w -> mixv (vw w) (b_rs b) -> exists x, res = Ok x)).
Proof.
  intros HB H N. unfold buf_pop_qty, bbind at 1 in H.
  destruct (buf_pop_vector E q (w, b)) as [u s1] eqn:U.
  assert (Nu : u <> UB) by (intros ->; inversion H; congruence).
  destruct (pop_vector_spec _ _ _ _ _ _ HB U Nu) as [[A [-> ->]]|[A [outs [w1 [b' [-> [-> [Tk [B1 [C1 Q1]]]]]]]]]].
  { left. inversion H; auto. }
  right. unfold call in H. simpl in H. destruct (squash E outs w1) as [r2 w'] eqn:S. inversion H; subst r2 s'; clear H.
  destruct (Qlt_le_dec 0 q) as [Hq|Hq].
  - right. split; auto. split; auto.
    destruct HB as [h1 h2 h3 h4 h5].
    destruct (taken_sum _ _ _ _ _ _ _ Tk h1 h3 Hq ltac:(rewrite <- h4; auto)) as [Sm [Nd [Ne [Vl Dj]]]].
    assert (Sq := squash_spec _ _ _ _ _ Nd S N). destruct outs as [|i js] eqn:Eo; [congruence|]. rewrite <- Eo in *.
    destruct Sq as [Mv [Lv [Ov [Rv Okv]]]].
    exists outs, w1, w', b'. split; auto. split; auto. split.
    + eapply BI_frame_v; [exact B1| |lia]. intros k Hk. apply Ov. intros Hin. eapply Dj; eauto.
    + split; auto. split; [lra|]. assert (Mt := taken_moves _ _ _ _ _ _ _ Tk). split; [eapply moves_trans; eauto|].
      split.
      * intros x Hx. destruct (Rv x Hx) as [-> Hs]. split; [rewrite Eo; auto|]. split; [lra|].
        assert (Io : In i outs) by (rewrite Eo; simpl; auto). split; [|auto]. apply Vl in Io. rewrite <- vw_len, Lv, vw_len. auto.
      * intros HE HR Hm. exists i. apply Okv; auto; [eapply moves_reach; eauto|]. eapply taken_mix; eauto.
  - left. split; auto. split; auto.
    assert (Ho : outs = [] /\ w1 = w /\ b_rs b = b_rs b').
    { destruct Tk as [pre [P D]].
      assert (Hp : pre = []). { destruct pre as [|x pre]; auto. specialize (P [] (x :: pre) eq_refl ltac:(discriminate)). rewrite sumv_nil in P. lra. }
      subst pre. destruct D as [[R [-> [-> _]]]|[i [rest [r [l [_ [_ [_ [_ [L1 [_ [Sm _]]]]]]]]]]]]; auto.
      rewrite sumv_nil in Sm. lra. }
    destruct Ho as [-> [-> Rb]]. inversion S; subst. split; auto. exists b'. rewrite sumv_nil in Q1.
    split; auto. split; auto. split; auto. split; auto. lra.
Qed.

(** ** Pushing *)
Lemma put_plain E T w b i r s' : (b_bulk b = false \/ b_rs b = []) -> put E T i (w, b) = (r, s') -> r <> UB ->
  r = Ok tt /\ exists w', s' = (w', set_b_present (insert i (b_present b)) (set_b_rs (b_rs b ++ [i]) b)) /\
    vw w' = vw w /\ moves E w w'.
Proof.
  intros D H N. unfold put, bbind at 1, bget in H. simpl in H.
  assert (K : forall r s', (bbind (if b_keep b then bret tt else call (change_package E i unpackaged_name))
     (fun _ => bbind (bmod (fun b => set_b_rs (b_rs b ++ [i]) b)) (fun _ => bmod (fun b => set_b_present (insert i (b_present b)) b)))) (w, b) = (r, s') ->
     r <> UB -> r = Ok tt /\ exists w', s' = (w', set_b_present (insert i (b_present b)) (set_b_rs (b_rs b ++ [i]) b)) /\
    vw w' = vw w /\ moves E w w').
  { clear. intros r s' H N. unfold bbind, bmod in H. simpl in H. destruct (b_keep b).
    - simpl in H. inversion H; subst. split; auto. exists w. split; [reflexivity|]. split; auto. apply moves_refl.
    - unfold call in H. simpl in H. destruct (change_package E i unpackaged_name w) as [u w1] eqn:C.
      assert (Nu : u <> UB) by (intros ->; inversion H; congruence).
      rewrite (unpackage_ok _ _ _ _ _ C Nu) in *. inversion H; subst. split; auto. exists w1. split; [reflexivity|].
      split; [eapply vw_change_package; eauto|eapply moves_package; eauto]. }
  destruct (b_rs b) eqn:E0.
  - apply K; auto.
  - destruct D as [D|D]; [|discriminate]. rewrite D in H. apply K; auto.
Qed.

Lemma put_bulk E T w b f rest i r s' : b_bulk b = true -> b_rs b = f :: rest -> put E T i (w, b) = (r, s') ->
  exists w', s' = (w', b) /\ absorb_as T E f i w = (r, w').
Proof.
  intros D E0 H. unfold put, bbind at 1, bget in H. simpl in H. rewrite E0, D in H. unfold call in H. simpl in H.
  destruct (absorb_as T E f i w) as [u w1]. inversion H; subst. eauto.
Qed.

Lemma add_BI w b i r : BI w b -> (b_bulk b = false \/ b_rs b = []) -> ~ In i (b_rs b) -> nth_error (w_res w) i = Some r ->
  forall b', b_rs b' = b_rs b ++ [i] -> b_present b' = insert i (b_present b) -> same_cfg b b' -> b_qty b' == b_qty b + r_qty r -> BI w b'.
Proof.
  intros [h1 h2 h3 h4 h5] D Ni Hr b' R P C Hq. constructor.
  - rewrite R. apply NoDup_app_iff. split; auto. split; [repeat constructor; auto|]. intros x Hx [<-|[]]. auto.
  - intros j. rewrite P, R, insert_In, h2, in_app_iff. simpl. intuition.
  - intros j. rewrite R, in_app_iff. intros [Hj|[<-|[]]]; auto. eapply nth_error_lt; eauto.
  - rewrite Hq, h4, R, sumv_app, sumv_cons, sumv_nil, (qv_nth _ _ _ Hr). lra.
  - destruct C as [_ [Cb _]]. rewrite Cb. intros Hb. destruct D as [D|D]; [congruence|]. rewrite R, D. simpl. lia.
Qed.

(** What a push tests first. *)
Definition push_refused (eps : Q) (tot : Q) (b : buf) (bad_cast : bool) (is : list nat) : option err :=
  if bad_cast then Some CastError else if too_big eps tot b then Some ValueError
  else if existsb (fun i => present i b) is then Some KeyError else None.

Lemma push_spec E T w b i res s' : BI w b -> buf_push E T i (w, b) = (res, s') -> res <> UB ->
  exists r, nth_error (w_res w) i = Some r /\
  match push_refused (e_eps E) (r_qty r) b (negb (casts T r)) [i] with
  | Some e => res = Throw e /\ s' = (w, b)
  | None => exists w' b', s' = (w', b') /\ BI w' b' /\ same_cfg b b' /\ moves E w w' /\ ~ In i (b_rs b) /\
      ((exists e, res = Throw e /\ b' = b /\ b_bulk b = true /\ b_rs b <> [] /\ vw w' = vw w /\ (T <> EMaterial -> w' = w)) \/
       (res = Ok tt /\ b_qty b' == b_qty b + r_qty r /\
        ((b_bulk b = false \/ b_rs b = []) /\ b_rs b' = b_rs b ++ [i] /\ vw w' = vw w \/
         b_bulk b = true /\ T <> EResource /\ b_rs b' = b_rs b /\ exists f k a, b_rs b = [f] /\ nth_error (vw w) f = Some (k, a) /\
           nth_error (vw w) i = Some (k, r_qty r) /\ vw w' = upd (upd (vw w) f (k, a + r_qty r)) i (k, 0)))) /\
      (env_ok E -> reachable E w -> T <> EResource -> mixv (vw w) (b_rs b ++ [i]) -> res = Ok tt)
  end.
Proof.
  intros HB H N. unfold buf_push, bbind at 1 in H. unfold call in H. simpl in H.
  destruct (rget i w) as [x w1] eqn:G. apply rget_ok in G as [-> G].
  destruct (nth_error (w_res w) i) as [r|] eqn:Hr; subst x; [|inversion H; congruence]. exists r. split; auto.
  unfold push_refused. simpl. rewrite orb_false_r. simpl in H. unfold bbind at 1, bget in H. simpl in H.
  destruct (negb (casts T r)) eqn:Ct; [inversion H; auto|].
  destruct (too_big (e_eps E) (r_qty r) b) eqn:Tb; [inversion H; auto|].
  destruct (present i b) eqn:Pr; [inversion H; auto|].
  assert (Ni : ~ In i (b_rs b)).
  { intros Hi. apply (bi_pres _ _ HB) in Hi. apply present_spec in Hi. congruence. }
  unfold bbind at 1 in H. destruct (put E T i (w, b)) as [u s1] eqn:P.
  assert (Nu : u <> UB) by (intros ->; inversion H; congruence).
  assert (Dc : (b_bulk b = false \/ b_rs b = []) \/ (b_bulk b = true /\ exists f rest, b_rs b = f :: rest)).
  { destruct (b_bulk b); auto. destruct (b_rs b); eauto 10. }
  destruct Dc as [Dc|[Hb [f [rest E0]]]].
  - apply put_plain in P as [-> [w1 [-> [V Mv]]]]; auto.
    unfold bbind at 1 in H. simpl in H. destruct (rget i w1) as [x w2] eqn:G. apply rget_ok in G as [-> G].
    assert (Hr1 : exists r1, nth_error (w_res w1) i = Some r1 /\ r_qty r1 = r_qty r).
    { assert (Y := vw_nth _ _ _ Hr). rewrite <- V in Y. apply vw_inv in Y as [r1 [Y1 Y2]]. exists r1. split; auto. congruence. }
    destruct Hr1 as [r1 [Hr1 Q1]]. rewrite Hr1 in G. subst x. unfold bbind, bmod in H. simpl in H.
    assert (HB1 : BI w1 b). { eapply BI_frame_v; [exact HB|intros; rewrite V; auto|rewrite V; auto]. }
    match type of H with update_qty (w1, ?bb) = _ => set (b1 := bb) in * end.
    assert (B1 : BI w1 b1).
    { eapply (add_BI w1 b i r1); eauto; unfold b1; simpl; auto; [repeat split|lra]. }
    destruct (update_qty_BI _ _ _ _ H N B1) as [-> [b' [-> [B2 [C2 [R2 Q2]]]]]].
    exists w1, b'. split; auto. split; auto. split; [eapply same_cfg_trans; [|exact C2]; repeat split|].
    split; auto. split; auto. split; [|auto]. right. split; auto. split; [rewrite Q2; unfold b1; simpl; rewrite Q1; lra|].
    left. auto.
  - assert (rest = []). { pose proof (bi_bulk _ _ HB Hb) as L. rewrite E0 in L. destruct rest; auto. simpl in L. lia. }
    subst rest. destruct (put_bulk _ _ _ _ _ _ _ _ _ Hb E0 P) as [w1 [-> A]].
    assert (Hfi : f <> i). { intros ->. apply Ni. rewrite E0. simpl. auto. }
    assert (DT : (T = EResource /\ u = Throw PlainError /\ w1 = w) \/ (T <> EResource /\ absorb E f i w = (u, w1))).
    { destruct T; simpl in A; [right; split; auto; discriminate|right; split; auto; discriminate|left; inversion A; auto]. }
    destruct DT as [[HT [-> ->]]|[HT A2]].
    { inversion H; subst res s'. exists w, b. split; auto. split; auto. split; [apply same_cfg_refl|].
      split; [apply moves_refl|]. split; auto. split; [left|congruence]. exists PlainError. rewrite E0.
      split; auto. split; auto. split; auto. split; [discriminate|auto]. }
    clear A. rename A2 into A.
    assert (Mv := moves_absorb _ _ _ _ _ _ Hfi A Nu).
    destruct (vw_absorb _ _ _ _ _ _ Hfi A Nu) as [k [a [bq [Nf [[e [-> [V [k' [_ Kn]]]]]|[-> [Nj V]]]]]]].
    + inversion H; subst res s'; clear H. exists w1, b. split; [auto|].
      split; [eapply BI_frame_v; [exact HB|intros; rewrite V; auto|rewrite V; auto]|].
      split; [apply same_cfg_refl|]. split; [auto|]. split; [auto|]. split.
      * left. exists e. rewrite E0. split; auto. split; auto. split; auto. split; [discriminate|]. split; auto.
        intros HT2. apply Kn. intros ->. destruct T; [congruence| |congruence].
        unfold absorb in A. unfold bind in A. destruct (rget f w) as [xf wf] eqn:Gf. apply rget_ok in Gf as [-> Gf].
        destruct (nth_error (w_res w) f) as [rf|] eqn:Hf; subst xf; [|discriminate].
        destruct (rget i w) as [xi wi] eqn:Gi. apply rget_ok in Gi as [-> Gi]. rewrite Hr in Gi. subst xi.
        rewrite (vw_nth _ _ _ Hf) in Nf. destruct (r_qual rf); [|discriminate].
        destruct (r_qual r) eqn:Er; [|discriminate]. unfold casts in Ct. rewrite Er in Ct. discriminate.
      * intros HE HR _ Hm. rewrite E0 in Hm. simpl in Hm. apply (absorb_mix_ok _ _ _ _ _ _ HE HR Hfi Hm) in A; auto.
    + unfold bbind in H. simpl in H. destruct (rget i w1) as [x w2] eqn:G. apply rget_ok in G as [-> G].
      assert (Li := nth_error_lt _ _ _ Nj). assert (Lf := nth_error_lt _ _ _ Nf).
      assert (Y : nth_error (vw w1) i = Some (k, 0)) by (rewrite V; apply nth_upd_same; rewrite upd_length; auto).
      apply vw_inv in Y as [r1 [Y1 Y2]]. rewrite Y1 in G. subst x. injection Y2 as _ Q1.
      unfold bmod in H. simpl in H.
      match type of H with update_qty (w1, ?bb) = _ => set (b1 := bb) in * end.
      destruct (update_qty_spec _ _ _ _ H N) as [-> [q [-> [_ [Hq _]]]]].
      assert (E1 : b_rs b1 = [f]) by exact E0. rewrite E1 in Hq. specialize (Hq ltac:(simpl; lia)).
      assert (Sf : sumv (vw w1) [f] == a + bq).
      { rewrite sumv_cons, sumv_nil, V, qv_upd_other, qv_upd by auto. simpl. lra. }
      rewrite (vw_nth _ _ _ Hr) in Nj. injection Nj as Hk1 Hk2; subst k bq.
      assert (S0 : b_qty b == a). { rewrite (bi_qty _ _ HB), E0, sumv_cons, sumv_nil. unfold qv. rewrite Nf. simpl. lra. }
      exists w1, (set_b_qty q b1). split; auto. split.
      { destruct HB as [h1 h2 h3 h4 h5]. constructor; simpl; auto.
        - intros j Hj. rewrite <- vw_len, V, !upd_length, vw_len. auto.
        - rewrite Hq, E0. lra. }
      split; [repeat split|]. split; auto. split; auto. split; auto. right. split; auto.
      split; [simpl; rewrite Hq, Sf, S0; lra|]. right. split; auto. split; auto. split; auto. exists f, (kindq (r_qual r)), a.
      split; auto. split; auto. split; [rewrite (vw_nth _ _ _ Hr); auto|auto].
Qed.
