(** * SellProofs3: how a sell policy executes trades. *)
From Coq Require Import String Permutation.
From Verif Require Import Base CompModel CompSpec PackageModel PackageProofs PackageProofs2 ResourceModel ResourceSpec
  ResourceProofs1 ResourceProofs2 ResourceProofs4 ResourceProofs7 BufModel BufSpec BufProofs1 BufProofs2 BufProofs3 BufProofs4 BufProofs5 BufProofs6 BufProofs7
  GreedyModel ExchangeModel SellModel SellSpec SellProofs1 SellProofs2.
Local Open Scope Q_scope.

(** Only resources in [rs] and new ones are changed. *)
Definition untouched (w w' : world) (rs : list nat) : Prop :=
  (length (vw w) <= length (vw w'))%nat /\
  forall k, (k < length (vw w))%nat -> ~ In k rs -> nth_error (vw w') k = nth_error (vw w) k.
Lemma untouched_refl w rs : untouched w w rs.
Proof. split; auto. Qed.
Lemma untouched_eq w w' rs : vw w' = vw w -> untouched w w' rs.
Proof. intros H. split; rewrite H; auto. Qed.
Lemma untouched_trans w w' w'' rs rs' : untouched w w' rs -> untouched w' w'' rs' ->
  (forall i, (i < length (vw w))%nat -> In i rs' -> In i rs) -> untouched w w'' rs.
Proof.
  intros [L A] [L1 B] S. split; [lia|]. intros k Hk Nk. rewrite B; [apply A; auto|lia|]. intros X. apply Nk. auto.
Qed.

Lemma bbind_inv {A B} (m : BM A) (f : A -> BM B) s b s' : bbind m f s = (Ok b, s') ->
  exists a s1, m s = (Ok a, s1) /\ f a s1 = (Ok b, s').
Proof. unfold bbind. destruct (m s) as [[a| |] s1]; try discriminate. eauto. Qed.
Lemma call_inv {A} (m : M A) w b a s' : call m (w, b) = (Ok a, s') -> exists w', m w = (Ok a, w') /\ s' = (w', b).
Proof. unfold call. cbn [fst snd]. destruct (m w) as [r w'] eqn:H. intros X. inversion X; subst. eauto. Qed.

Lemma rget_some i w r w' : rget i w = (Ok r, w') -> nth_error (w_res w) i = Some r /\ w' = w.
Proof.
  intros H. apply rget_ok in H as [-> H]. destruct (nth_error (w_res w) i); [|discriminate]. inversion H; auto.
Qed.

Lemma squash_untouched E is w x w' rs : NoDup is -> squash E is w = (Ok x, w') -> (forall i, In i is -> (i < length (vw w))%nat -> In i rs) ->
  untouched w w' rs.
Proof.
  intros Nd H S. assert (X := squash_spec _ _ _ _ _ Nd H ltac:(discriminate)). destruct is as [|i is].
  - destruct X; discriminate.
  - destruct X as [_ [L [F _]]]. split; [lia|]. intros k Hk Nk. apply F. intros Y. apply Nk. auto.
Qed.

Lemma pop_frame E w b q e x w' b' : BI w b -> 0 < q -> 0 <= e ->
  buf_pop_qty_eps E q e (w, b) = (Ok x, (w', b')) ->
  untouched w w' (b_rs b) /\ (In x (b_rs b) \/ (length (vw w) <= x)%nat) /\ (forall i, In i (b_rs b') -> In i (b_rs b)) /\
  BI w' b' /\ same_cfg b b' /\ (x < length (vw w'))%nat /\ ~ In x (b_rs b') /\
  qv (vw w') x == qmin q (b_qty b) /\ q <= b_qty b + e /\ b_qty b' == b_qty b - qmin q (b_qty b).
Proof.
  intros B Hq He H.
  destruct (pop_qty_eps_spec _ _ _ _ _ _ _ B H ltac:(discriminate)) as [[_ [? _]]|[[A1 [A2 [w0 [b0 [Es [B' [Cf [_ [Er [_ [X _]]]]]]]]]]]|[A1 [A2 H2]]]]; try discriminate.
  - inversion Es; subst w0 b0; clear Es. destruct (X x eq_refl) as [Hd [Qx Lx]].
    assert (Hm : qmin q (b_qty b) == b_qty b) by (unfold qmin; destruct (Qltb_spec (b_qty b) q); [reflexivity|lra]).
    unfold buf_pop_qty_eps in H. apply bbind_inv in H as [b1 [s1 [H1 H]]]. inversion H1; subst b1 s1; clear H1.
    cbn [fst snd] in H. destruct (Qltb_spec (b_qty b + e) q) as [L|L]; [lra|].
    destruct (Qleb_spec (b_qty b) q) as [L'|L']; [|lra].
    apply bbind_inv in H as [outs [[w1 b1] [H1 H]]].
    destruct (pop_n_spec _ _ _ _ _ B H1 ltac:(discriminate)) as [[_ [? _]]|[_ [outs' [b2 [Eo [Es [Ers [Len [B2 [_ Q2]]]]]]]]]]; [discriminate|].
    inversion Eo; subst outs'; clear Eo. inversion Es; subst w1 b2; clear Es.
    apply call_inv in H as [w2 [H Es]]. inversion Es; subst w2 b1; clear Es.
    assert (Eo : outs = b_rs b) by (rewrite Ers, Er, app_nil_r; auto).
    rewrite Eo in H. split. { apply (squash_untouched _ _ _ _ _ _ (bi_nodup _ _ B) H). auto. }
    split. { left. destruct (b_rs b); simpl in Hd; inversion Hd; simpl; auto. }
    split. { rewrite Er. simpl. tauto. }
    split; auto. split; auto. split; [rewrite vw_len; auto|]. split; [rewrite Er; auto|]. split; [rewrite Qx, Hm; reflexivity|].
    split; auto. rewrite Hm. assert (Y := bi_qty _ _ B'). rewrite Er in Y. rewrite Y. unfold sumv. simpl. ring.
  - assert (Hm : qmin q (b_qty b) == q) by (unfold qmin; destruct (Qltb_spec (b_qty b) q); [lra|reflexivity]).
    destruct (pop_qty_spec _ _ _ _ _ _ B H2 ltac:(discriminate)) as [[_ [? _]]|[[_ [_ [? _]]]|[_ [_ [outs [w1 [w2 [b2 [Es [Tk [B' [Cf [Q' [_ [X _]]]]]]]]]]]]]]]; try discriminate.
    inversion Es; subst w2 b2; clear Es. destruct (X x eq_refl) as [Hd [Qx [Lx Nx]]].
    assert (Sm := bi_qty _ _ B).
    destruct (taken_sum _ _ _ _ _ _ _ Tk (bi_nodup _ _ B) (bi_valid _ _ B) Hq ltac:(lra)) as [_ [Nd [_ [Vo _]]]].
    unfold buf_pop_qty in H2. apply bbind_inv in H2 as [outs' [[w3 b3] [H3 H4]]].
    apply call_inv in H4 as [w4 [H4 Es]]. inversion Es; subst w4 b3; clear Es.
    destruct (pop_vector_spec _ _ _ _ _ _ B H3 ltac:(discriminate)) as [[_ [? _]]|[_ [o3 [w5 [b5 [Eo [Es [Tk3 [_ [_ _]]]]]]]]]]; [discriminate|].
    inversion Eo; subst o3; clear Eo. inversion Es; subst w5 b5; clear Es.
    destruct (taken_sum _ _ _ _ _ _ _ Tk3 (bi_nodup _ _ B) (bi_valid _ _ B) Hq ltac:(lra)) as [_ [Nd3 [Ne3 [Vo3 _]]]].
    assert (Hx : exists t, outs' = x :: t).
    { assert (Y := squash_spec _ _ _ _ _ Nd3 H4 ltac:(discriminate)). destruct outs' as [|i t]; [now elim Ne3|].
      destruct Y as [_ [_ [_ [Y _]]]]. destruct (Y x eq_refl) as [-> _]. eauto. }
    destruct Hx as [t Et].
    assert (U3 : untouched w w3 (b_rs b) /\ (forall i, In i outs' -> In i (b_rs b) \/ (length (vw w) <= i)%nat) /\ (forall i, In i (b_rs b') -> In i (b_rs b))).
    { destruct Tk3 as [pre [_ [[Er [-> [-> _]]]|[i [rest [r [l [Er [Er' [-> [Hi [_ [_ [_ Ex]]]]]]]]]]]]]].
      - split; [apply untouched_refl|]. split.
        + intros i Hi. left. rewrite Er. apply in_or_app. auto.
        + intros i Hi. rewrite Er. apply in_or_app. auto.
      - destruct (vw_extract _ _ _ _ _ _ Ex ltac:(discriminate)) as [kk [a [Hv [[_ [? _]]|[_ [_ Hv']]]]]]; [discriminate|].
        split.
        + split. { rewrite Hv', app_length, upd_length. lia. }
          intros k Hk Nk. rewrite Hv', nth_error_app1 by (rewrite upd_length; auto). apply nth_upd_other. intros <-. apply Nk.
          rewrite Er. apply in_or_app. right. left. auto.
        + split.
          * intros k Hk. apply in_app_or in Hk as [Hk|[<-|[]]].
            -- left. rewrite Er. apply in_or_app. auto.
            -- right. rewrite vw_len. auto.
          * intros k Hk. rewrite Er' in Hk. rewrite Er. apply in_or_app. auto. }
    destruct U3 as [U3 [U3' U3'']].
    split.
    { eapply untouched_trans; [exact U3| |].
      - apply (squash_untouched _ _ _ _ _ outs' Nd3 H4). auto.
      - intros i Hi Io. destruct (U3' _ Io); auto; lia. }
    split. { apply U3'. rewrite Et. left. auto. }
    split; auto. split; auto. split; auto. split; [rewrite vw_len; auto|]. split; auto.
    split; [rewrite Qx, Hm; reflexivity|]. split; [lra|]. rewrite Q', Hm. reflexivity.
Qed.

Lemma others_untouched w w' i : others_same [i] w w' -> (length (w_res w) <= length (w_res w'))%nat -> untouched w w' [i].
Proof.
  intros O L. split; [rewrite !vw_len; auto|]. intros k Hk Nk. rewrite vw_len in Hk.
  destruct (nth_error (w_res w) k) as [r|] eqn:Hr; [|apply nth_error_None in Hr; lia].
  destruct (O _ _ Nk Hr) as [r' [Hr' Ls]]. rewrite (vw_nth _ _ _ Hr), (vw_nth _ _ _ Hr').
  destruct Ls as [-> [-> _]]. reflexivity.
Qed.
Lemma one_package_le p a q : one_package p q -> a <= q -> one_package p a.
Proof. intros [[S L]|L] H; [left; split; auto; lra|right; lra]. Qed.

Lemma take_spec E v n t w b j n' w' b' : in_use E EMaterial w b -> 0 < e_eps E -> a_package (v_pkg v) ->
  trade_ok (e_eps E) (v_pkg v) t -> v_take E v n t (w, b) = (Ok (j, n'), (w', b')) ->
  in_use E EMaterial w' b' /\ untouched w w' (b_rs b) /\ (In j (b_rs b) \/ (length (vw w) <= j)%nat) /\ (j < length (vw w'))%nat /\
  ~ In j (b_rs b') /\ (forall i, In i (b_rs b') -> In i (b_rs b) \/ (length (vw w) <= i)%nat) /\
  (n' = n \/ n' = n - 1)%Z /\ 0 <= qv (vw w') j <= t_amt t /\
  exists lost, b_qty b == b_qty b' + qv (vw w') j + lost /\ 0 <= lost <= e_eps E /\
    (2 * e_eps E < t_amt t -> lost == 0).
Proof.
  intros U He Pk [Ha [Op Sm]] H. unfold v_take in H.
  apply bbind_inv in H as [x [[w1 b1] [H1 H]]].
  destruct (in_use_BI _ _ _ _ U) as [_ [_ B]].
  assert (U1 : in_use E EMaterial w1 b1).
  { apply (in_use_step E EMaterial (BPopQtyEps (t_amt t) (e_eps E)) w b (Ok [x]) w1 b1 U); [|discriminate|exact Logic.I].
    simpl. unfold one, bbind. rewrite H1. reflexivity. }
  assert (Ha0 : 0 < t_amt t) by lra. assert (He0 : 0 <= e_eps E) by lra.
  destruct (pop_frame _ _ _ _ _ _ _ _ B Ha0 He0 H1) as [Un1 [Ix [Sub1 [B1 [_ [Lx [Nx [Qx [Lq Q1]]]]]]]]].
  assert (Qm : t_amt t - e_eps E <= qmin (t_amt t) (b_qty b) <= t_amt t).
  { unfold qmin. destruct (Qltb_spec (b_qty b) (t_amt t)); split; lra. }
  set (a := qmin (t_amt t) (b_qty b)) in *.
  apply bbind_inv in H as [m [s2 [H2 H]]]. apply call_inv in H2 as [w2 [H2 ->]].
  apply rget_some in H2 as [Hm ->]. assert (Hm' := qv_nth _ _ _ Hm).
  destruct (String.eqb (p_name (v_pkg v)) (r_pkg m)); cbn [negb] in H.
  { inversion H; subst; clear H. split; auto. split; auto. split; auto. split; auto. split; auto.
    split; [auto|]. split; auto. split; [rewrite Qx; lra|]. exists 0. rewrite Qx, Q1. split; [ring|]. split; [lra|]. reflexivity. }
  apply bbind_inv in H as [js [s3 [H3 H]]]. apply call_inv in H3 as [w3 [H3 ->]].
  assert (U3 : in_use E EMaterial w3 b1 /\ untouched w1 w3 [x] /\
    exists r', nth_error (w_res w3) x = Some r' /\
     ((js = [] /\ r_qty r' == a) \/ exists f, js = [length (w_res w1)] /\ (length (w_res w1) < length (w_res w3))%nat /\ qv (vw w3) (length (w_res w1)) = f /\ f == a /\ r_qty r' == 0)).
  { assert (H3' := H3). unfold res_package in H3'. unfold bind in H3'. destruct (rget x w1) as [[m'| |] w1'] eqn:Hg; try discriminate.
    apply rget_some in Hg as [Hg ->]. rewrite Hm in Hg. inversion Hg; subst m'; clear Hg.
    destruct (get_fill_mass (e_eps E) (v_pkg v) (t_samples t) (r_qty m)) as [[[fills|e|] rest]|] eqn:Gf; try discriminate.
    assert (Rm : r_qty m == a) by (rewrite <- Hm'; exact Qx).
    assert (Op' : one_package (v_pkg v) (r_qty m)) by (eapply one_package_le; [exact Op|lra]).
    assert (Rp : 0 < r_qty m) by lra.
    assert (Fs := one_fill _ _ _ _ _ _ (a_package_legal _ Pk) He Rp Op' Gf).
    assert (Fx : Forall (fun f => 0 <= f) fills /\ qsum fills <= r_qty m).
    { destruct Fs as [[-> _]|[f [-> Ef]]]; simpl; split; auto; try lra. constructor; auto; lra. }
    destruct Fx as [Fx1 Fx2].
    destruct (package_loop_spec E x (p_name (v_pkg v)) fills He0 w1 m _ _ Hm Fx1 Fx2 H3' ltac:(discriminate))
      as [Ej [Len [[r' [Hr' [Qr _]]] [Pkd [Os _]]]]].
    inversion Ej; subst js; clear Ej.
    assert (Un : untouched w1 w3 [x]) by (apply others_untouched; auto; lia).
    split.
    { eapply (in_use_other E EMaterial w1 b1 (OPackage x (v_pkg v) (t_samples t))); auto; [exact Logic.I| |].
      - simpl. unfold drop, bind. rewrite H3. reflexivity.
      - intros i Hi. apply Un.
        + rewrite vw_len. apply (bi_valid _ _ B1). auto.
        + intros [<-|[]]. auto. }
    split; auto. exists r'. split; auto.
    destruct Fs as [[-> _]|[f [-> Ef]]].
    - left. split; auto. rewrite Qr. simpl. rewrite Rm. ring.
    - right. exists f. split; auto. split; [simpl in Len; lia|]. inversion Pkd as [|? ? ? ? Pj _]; subst. destruct Pj as [nn [Hn [Qn _]]].
      split; [rewrite (qv_nth _ _ _ Hn); auto|]. split; [lra|]. rewrite Qr. simpl. rewrite Ef. ring. }
  destruct U3 as [U3 [Un3 [r' [Hr' Cs]]]].
  assert (Un13 : untouched w w3 (b_rs b)).
  { eapply untouched_trans; [exact Un1|exact Un3|]. intros i Hi [<-|[]]. destruct Ix; auto; lia. }
  assert (L13 : (length (vw w) <= length (vw w1) <= length (vw w3))%nat) by (split; [apply Un1|apply Un3]).
  apply bbind_inv in H as [m3 [s4 [H4 H]]]. apply call_inv in H4 as [w4 [H4 ->]].
  apply rget_some in H4 as [Hm3 ->]. rewrite Hr' in Hm3. inversion Hm3; subst m3; clear Hm3.
  destruct Cs as [[-> Qr]|[f [-> [Ln [Qf [Ef Qr]]]]]].
  - (* nothing could be packaged *)
    destruct (Qltb_spec (e_eps E) (r_qty r')) as [Big|Small].
    + apply bbind_inv in H as [[] [[w5 b5] [H5 H]]].
      apply bbind_inv in H as [c [s6 [H6 H]]]. apply call_inv in H6 as [w6 [H6 ->]].
      apply bbind_inv in H as [u [s7 [H7 H]]]. apply call_inv in H7 as [w7 [H7 ->]].
      inversion H; subst; clear H.
      destruct (in_use_BI _ _ _ _ U3) as [_ [_ B3]].
      assert (U5 : in_use E EMaterial w5 b').
      { apply (in_use_step E EMaterial (BPush x) w3 b1 (Ok []) w5 b' U3); [|discriminate|exact Logic.I].
        simpl. unfold none, bbind. rewrite H5. reflexivity. }
      destruct (push_spec _ _ _ _ _ _ _ B3 H5 ltac:(discriminate)) as [r5 [Hr5 P5]].
      rewrite Hr' in Hr5. inversion Hr5; subst r5; clear Hr5.
      destruct (push_refused _ _ _ _ _); [destruct P5; discriminate|].
      destruct P5 as [w5' [b5' [Es [B5 [_ [_ [_ [P5 _]]]]]]]]. inversion Es; subst w5' b5'; clear Es.
      destruct P5 as [[e [? _]]|[_ [Q5 P5]]]; [discriminate|].
      assert (Un5 : untouched w3 w5 (x :: b_rs b1) /\ (forall i, In i (b_rs b') -> i = x \/ In i (b_rs b1))).
      { destruct P5 as [[_ [Er Ev]]|[_ [_ [Er [f [k0 [a0 [Ef [_ [_ Ev]]]]]]]]]].
        - split; [apply untouched_eq; auto|]. intros i Hi. rewrite Er in Hi. apply in_app_or in Hi as [|[<-|[]]]; auto.
        - split.
          + split; [rewrite Ev, !upd_length; auto|]. intros k Hk Nk. rewrite Ev, Ef in *. simpl in Nk.
            rewrite nth_upd_other by (intros <-; tauto). apply nth_upd_other. intros <-. tauto.
          + intros i Hi. rewrite Er in Hi. auto. }
      destruct Un5 as [Un5 Sub5].
      destruct (comp_step _ _ _ _ _ _ _ U5 H6) as [U6 [V6 [[xc Hxc] _]]].
      destruct (create_step _ _ _ _ _ _ _ _ _ U6 Hxc H7) as [U7 [Ej [V7 [_ _]]]].
      assert (L7 : length (vw w') = Datatypes.S (length (vw w5))) by (rewrite V7, app_length, V6; simpl; lia).
      assert (Ejv : j = length (vw w5)) by (rewrite Ej, <- V6, vw_len; auto).
      assert (L5 := proj1 Un5).
      assert (Qj : qv (vw w') j = 0) by (rewrite V7, V6, Ejv; apply qv_last).
      split; auto. split.
      { eapply untouched_trans; [exact Un13| |].
        - eapply untouched_trans; [exact Un5| |].
          + split; [|intros k Hk _; rewrite V7, V6; apply nth_error_app1; auto]. lia.
          + instantiate (1 := []). intros i _ [].
        - intros i Hi [<-|Hi']; auto. destruct Ix; auto; lia. }
      split; [right; lia|]. split; [lia|]. split.
      { intros Hj. destruct (in_use_BI _ _ _ _ U5) as [_ [_ B5']]. apply (bi_valid _ _ B5') in Hj. rewrite vw_len in Ejv. lia. }
      split. { intros i Hi. destruct (Sub5 _ Hi) as [->|Hi']; auto. }
      split; auto. rewrite Qj. split; [split; lra|].
      exists 0. rewrite Q5, Q1. fold a. rewrite Qr. split; [ring|]. split; [lra|]. reflexivity.
    + apply bbind_inv in H as [[] [s5 [H5 H]]]. inversion H5; subst s5; clear H5.
      apply bbind_inv in H as [c [s6 [H6 H]]]. apply call_inv in H6 as [w6 [H6 ->]].
      apply bbind_inv in H as [u [s7 [H7 H]]]. apply call_inv in H7 as [w7 [H7 ->]].
      inversion H; subst; clear H.
      destruct (comp_step _ _ _ _ _ _ _ U3 H6) as [U6 [V6 [[xc Hxc] _]]].
      destruct (create_step _ _ _ _ _ _ _ _ _ U6 Hxc H7) as [U7 [Ej [V7 [_ _]]]].
      assert (L7 : length (vw w') = Datatypes.S (length (vw w3))) by (rewrite V7, app_length, V6; simpl; lia).
      assert (Ejv : j = length (vw w3)) by (rewrite Ej, <- V6, vw_len; auto).
      assert (Qj : qv (vw w') j = 0) by (rewrite V7, V6, Ejv; apply qv_last).
      split; auto. split.
      { eapply untouched_trans; [exact Un13| |].
        - split; [|intros k Hk _; rewrite V7, V6; apply nth_error_app1; auto]. lia.
        - instantiate (1 := []). intros i _ []. }
      split; [right; lia|]. split; [lia|]. split.
      { intros Hj. destruct (in_use_BI _ _ _ _ U3) as [_ [_ B5']]. apply (bi_valid _ _ B5') in Hj. rewrite vw_len in Ejv. lia. }
      split; [auto|]. split; auto. rewrite Qj. split; [split; lra|].
      exists a. rewrite Q1. split; [unfold a; ring|]. split; [lra|]. intros. lra.
  - (* one package *)
    destruct (Qltb_spec (e_eps E) (r_qty r')) as [Big|Small]; [lra|].
    apply bbind_inv in H as [[] [s5 [H5 H]]]. inversion H5; subst s5; clear H5.
    inversion H; subst; clear H.
    split; auto. split; auto. split; [right; rewrite <- vw_len; lia|]. split; [rewrite vw_len; auto|]. split.
    { intros Hj. apply (bi_valid _ _ B1) in Hj. lia. }
    split; [auto|]. split; auto. split; [lra|].
    exists 0. split; [|split; [lra|reflexivity]]. rewrite Q1. fold a. lra.
Qed.

Lemma bind_ok {A B} (m : M A) (f : A -> M B) w b w' : bind m f w = (Ok b, w') ->
  exists a w1, m w = (Ok a, w1) /\ f a w1 = (Ok b, w').
Proof. unfold bind. destruct (m w) as [[a| |] w1]; try discriminate. eauto. Qed.
Lemma cref_some c w x w' : cref c w = (Ok x, w') -> nth_error (w_comps w) c = Some x /\ w' = w.
Proof. unfold cref, deref. destruct (nth_error (w_comps w) c); unfold ret, ub; intros H; inversion H; auto. Qed.

Lemma adjust_spec E v j t w b w' : in_use E EMaterial w b -> v_adjust E v j t w = (Ok tt, w') ->
  in_use E EMaterial w' b /\ vw w' = vw w.
Proof.
  intros U H. unfold v_adjust in H. destruct (v_ignore v); [|inversion H; subst; auto].
  apply bind_ok in H as [a [w1 [H1 H]]]. destruct (comp_step _ _ _ _ _ _ _ U H1) as [U1 [V1 _]].
  apply bind_ok in H as [x [w2 [H2 H]]]. apply cref_some in H2 as [_ ->].
  apply bind_ok in H as [c [w3 [H3 H]]]. destruct (comp_step _ _ _ _ _ _ _ U1 H3) as [U3 [V3 _]].
  apply bind_ok in H as [y [w4 [H4 H]]]. apply cref_some in H4 as [_ ->].
  apply bind_ok in H as [s [w5 [H5 H]]]. unfold lift in H5. injection H5 as H5 <-.
  destruct s; [|inversion H; subst; split; auto; congruence].
  apply bind_ok in H as [a' [w6 [H6 H]]]. destruct (comp_step _ _ _ _ _ _ _ U3 H6) as [U6 [V6 [[x6 Hx6] _]]].
  assert (Kj : exists q, nth_error (vw w6) j = Some (None, q)).
  { destruct (comp_step _ _ _ _ _ _ _ U1 H3) as [_ [_ [_ [r [cp [Hr [Eq _]]]]]]]. exists (r_qty r).
    rewrite V6, V3, (vw_nth _ _ _ Hr), Eq. reflexivity. }
  destruct Kj as [q Kj]. destruct (vw_inv _ _ _ Kj) as [r6 [Hr6 Er6]].
  destruct (r_qual r6) as [cq|] eqn:Eq6; [|discriminate].
  destruct (transmute_phys _ _ _ _ _ _ H ltac:(discriminate)) as [r [Hr [_ [Hp _]]]].
  rewrite Hr6 in Hr. inversion Hr; subst r; clear Hr.
  assert (V' : vw w' = vw w6).
  { rewrite (vw_upd _ _ _ _ Hp). simpl. apply nth_ext with (d := (None, 0)) (d' := (None, 0)); [apply upd_length|].
    intros k Hk. rewrite <- !nth_default_eq. unfold nth_default. destruct (Nat.eq_dec k j) as [->|Nk].
    - rewrite nth_upd_same by (apply (nth_error_lt _ _ _ Kj)). rewrite (vw_nth _ _ _ Hr6), Eq6. reflexivity.
    - rewrite nth_upd_other; auto. }
  split; [|congruence].
  eapply (in_use_other E EMaterial w6 b (OTransmute j a')); auto; [exact Logic.I| |intros; rewrite V'; auto].
  simpl. unfold mat_only, bind, rget, deref. rewrite Hr6. unfold ret at 1. unfold mat_comp_ptr. rewrite Eq6. unfold ret at 1.
  unfold valid_comp, bind, cref, deref. rewrite Hx6. unfold ret at 1. exact H.
Qed.

Lemma loop_spec E v trades : 0 < e_eps E -> a_package (v_pkg v) -> Forall (trade_ok (e_eps E) (v_pkg v)) trades ->
  forall n w b resp w' b', in_use E EMaterial w b -> v_loop E v n trades (w, b) = (Ok resp, (w', b')) ->
  in_use E EMaterial w' b' /\ untouched w w' (b_rs b) /\
  (forall i, In i (b_rs b') -> In i (b_rs b) \/ (length (vw w) <= i)%nat) /\
  NoDup (map snd resp) /\
  (forall j, In j (map snd resp) -> (In j (b_rs b) \/ (length (vw w) <= j)%nat) /\ (j < length (vw w'))%nat /\ ~ In j (b_rs b')) /\
  Forall (fun p => 0 <= qv (vw w') (snd p) <= t_amt (fst p)) resp /\
  (exists rest, trades = map fst resp ++ rest /\ (rest <> [] -> (n <= Z.of_nat (length resp))%Z)) /\
  exists lost, b_qty b == b_qty b' + sumv (vw w') (map snd resp) + lost /\
    0 <= lost <= inject_Z (Z.of_nat (length resp)) * e_eps E /\
    (Forall (fun t => 2 * e_eps E < t_amt t) trades -> lost == 0).
Proof.
  intros He Pk. induction trades as [|t trades IH]; intros Ok n w b resp w' b' U H.
  - inversion H; subst; clear H. split; auto. split; [apply untouched_refl|]. split; auto. split; [constructor|].
    split; [intros j []|]. split; [constructor|]. split; [exists []; split; auto; now intros []|].
    exists 0. simpl. unfold sumv. simpl. change (inject_Z 0) with 0. split; [ring|]. split; [split; lra|]. reflexivity.
  - inversion Ok as [|? ? Ok1 Ok2]; subst; clear Ok. simpl in H. destruct (Z.ltb_spec 0 n) as [Hn|Hn].
    + apply bbind_inv in H as [[j n'] [[w1 b1] [H1 H]]]. cbn [fst snd] in H.
      apply bbind_inv in H as [[] [s2 [H2 H]]]. apply call_inv in H2 as [w2 [H2 ->]].
      apply bbind_inv in H as [resp' [[w3 b3] [H3 H]]]. inversion H; subst resp w3 b3; clear H.
      destruct (take_spec _ _ _ _ _ _ _ _ _ _ U He Pk Ok1 H1) as [U1 [Un1 [Ij [Lj [Nj [Sub1 [Hn' [Qj [l1 [Q1 [L1 Z1]]]]]]]]]]].
      destruct (adjust_spec _ _ _ _ _ _ _ U1 H2) as [U2 V2].
      destruct (IH Ok2 n' w2 b1 resp' w' b' U2 H3) as [U' [Un2 [Sub2 [Nd [Js [Fq [[rest [Er Hrest]] [l2 [Q2 [L2 Z2]]]]]]]]]].
      rewrite V2 in *. destruct Un2 as [Ln2 Un2]. rewrite V2 in Ln2, Un2.
      assert (Kj : nth_error (vw w') j = nth_error (vw w1) j) by (apply Un2; auto).
      assert (Qj' : qv (vw w') j = qv (vw w1) j) by (unfold qv; rewrite Kj; auto).
      assert (L01 := proj1 Un1).
      split; auto. split.
      { split; [lia|]. intros k Hk Nk. rewrite Un2; [apply Un1; auto|lia|]. intros X. destruct (Sub1 _ X); auto; lia. }
      split. { intros i Hi. destruct (Sub2 _ Hi) as [X|X]; [apply Sub1; auto|right; lia]. }
      split. { simpl. constructor; auto. intros X. destruct (Js _ X) as [[Y|Y] _]; auto; lia. }
      split.
      { simpl. intros i [<-|Hi].
        - split; auto. split; [lia|]. intros X. destruct (Sub2 _ X); auto; lia.
        - destruct (Js _ Hi) as [[X|X] [? ?]]; split; auto; right; lia. }
      split. { constructor; auto. cbn [fst snd]. rewrite Qj'. auto. }
      split. { exists rest. split; [simpl; congruence|]. intros X. specialize (Hrest X). simpl length. lia. }
      exists (l1 + l2). simpl map. rewrite sumv_cons, Qj'. split.
      { rewrite Q1, Q2. ring. }
      split.
      { simpl length. rewrite Nat2Z.inj_succ. unfold Z.succ. rewrite inject_Z_plus. change (inject_Z 1) with 1.
        split; [lra|]. ring_simplify. lra. }
      intros F. inversion F; subst. rewrite Z1, Z2; auto. ring.
    + assert (X : resp = [] /\ w' = w /\ b' = b).
      { clear -H Hn. induction trades as [|t' tr IH]; simpl in H.
        - inversion H; auto.
        - destruct (Z.ltb_spec 0 n); [lia|]. auto. }
      destruct X as [-> [-> ->]]. split; auto. split; [apply untouched_refl|]. split; auto. split; [constructor|].
      split; [intros j []|]. split; [constructor|]. split; [exists (t :: trades); split; auto; intros _; simpl; lia|].
      exists 0. simpl. unfold sumv. simpl. change (inject_Z 0) with 0. split; [ring|]. split; [split; lra|]. reflexivity.
Qed.
