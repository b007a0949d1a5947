(** * Buffers: the operations, one by one. *)
From Verif Require Import Base CompModel CompSpec CompProofs PackageModel
  ResourceModel ResourceSpec ResourceProofs1 ResourceProofs2 ResourceProofs3 ResourceProofs4 ResourceProofs5 ResourceProofs6
  BufModel BufSpec BufProofs1.
Open Scope Q_scope.

(** ** Sums *)
Definition qv (v : list (option string * Q)) (j : nat) : Q := match nth_error v j with Some x => snd x | None => 0 end.
Definition sumv v js : Q := qsum (map (qv v) js).
Lemma qv_vw w j : qv (vw w) j = match nth_error (w_res w) j with Some r => r_qty r | None => 0 end.
Proof.
  unfold qv. destruct (nth_error (w_res w) j) eqn:H.
  - now rewrite (vw_nth _ _ _ H).
  - destruct (nth_error (vw w) j) eqn:G; auto. apply vw_inv in G as [r [G _]]. congruence.
Qed.
Lemma sum_vw w js : sum_qty w js = sumv (vw w) js.
Proof. unfold sum_qty, sumv. f_equal. apply map_ext. intros j. symmetry. apply qv_vw. Qed.
Lemma sumv_app v a b : sumv v (a ++ b) == sumv v a + sumv v b.
Proof. unfold sumv. rewrite map_app. induction a; simpl; [lra|]. rewrite IHa. lra. Qed.
Lemma sumv_cons v i l : sumv v (i :: l) == qv v i + sumv v l.
Proof. unfold sumv. simpl. lra. Qed.
Lemma sumv_nil v : sumv v [] = 0.
Proof. reflexivity. Qed.
Lemma sumv_ext v v' l : (forall i, In i l -> qv v' i == qv v i) -> sumv v' l == sumv v l.
Proof.
  intros H. unfold sumv. induction l; simpl; [lra|].
  assert (A : qsum (map (qv v') l) == qsum (map (qv v) l)) by (apply IHl; intros; apply H; simpl; auto).
  assert (B : qv v' a == qv v a) by (apply H; simpl; auto). rewrite A, B. lra.
Qed.
Lemma qv_upd v i x : (i < length v)%nat -> qv (upd v i x) i = snd x.
Proof. intros H. unfold qv. now rewrite nth_upd_same. Qed.
Lemma qv_upd_other v i j x : i <> j -> qv (upd v i x) j = qv v j.
Proof. intros H. unfold qv. now rewrite nth_upd_other. Qed.
Lemma qv_app v l j : (j < length v)%nat -> qv (v ++ l) j = qv v j.
Proof. intros H. unfold qv. now rewrite nth_error_app1. Qed.
Lemma qv_last v x : qv (v ++ [x]) (length v) = snd x.
Proof. unfold qv. rewrite nth_error_app2, Nat.sub_diag by auto. reflexivity. Qed.
Lemma sumv_notin v i x l : ~ In i l -> sumv (upd v i x) l == sumv v l.
Proof. intros H. apply sumv_ext. intros j Hj. rewrite qv_upd_other; [lra|]. intros ->. auto. Qed.
Lemma sumv_grow v x l : (forall i, In i l -> (i < length v)%nat) -> sumv (v ++ x) l == sumv v l.
Proof. intros H. apply sumv_ext. intros j Hj. rewrite qv_app by auto. lra. Qed.
Lemma sumv_in v i k a l : NoDup l -> In i l -> (i < length v)%nat -> sumv (upd v i (k, a)) l == sumv v l - qv v i + a.
Proof.
  intros N Hi Hl. induction N as [|j l Hj N IH]; [destruct Hi|]. rewrite !sumv_cons. destruct Hi as [->|Hi].
  - rewrite sumv_notin, qv_upd by auto. simpl. lra.
  - rewrite IH, qv_upd_other by (auto; intros ->; auto). lra.
Qed.

(** ** Sets of pointers *)
Lemma erase_In i j l : In j (erase i l) <-> In j l /\ j <> i.
Proof.
  unfold erase. rewrite filter_In. split; intros [H1 H2]; split; auto.
  - intros ->. rewrite Nat.eqb_refl in H2. discriminate.
  - destruct (Nat.eqb_spec i j); auto.
Qed.
Lemma present_spec i b : present i b = true <-> In i (b_present b).
Proof.
  unfold present. rewrite existsb_exists. split.
  - intros [x [H1 H2]]. apply Nat.eqb_eq in H2. now subst.
  - intros H. exists i. rewrite Nat.eqb_refl. auto.
Qed.
Lemma insert_In i j l : In j (insert i l) <-> In j l \/ j = i.
Proof.
  unfold insert. destruct (existsb (Nat.eqb i) l) eqn:H.
  - apply existsb_exists in H as [x [H1 H2]]. apply Nat.eqb_eq in H2. subst x. split; auto. intros [?| ->]; auto.
  - rewrite in_app_iff. simpl. intuition.
Qed.

(** ** Invariant of a buffer *)
Record BI (w : world) (b : buf) : Prop := mkBI {
  bi_nodup : NoDup (b_rs b);
  bi_pres : forall i, In i (b_present b) <-> In i (b_rs b);
  bi_valid : forall i, In i (b_rs b) -> (i < length (w_res w))%nat;
  bi_qty : b_qty b == sumv (vw w) (b_rs b);
  bi_bulk : b_bulk b = true -> (length (b_rs b) <= 1)%nat
}.
(** The settings of a buffer. *)
Definition same_cfg (b b' : buf) : Prop := b_cap b' = b_cap b /\ b_bulk b' = b_bulk b /\ b_keep b' = b_keep b.
Lemma same_cfg_refl b : same_cfg b b.
Proof. repeat split. Qed.
Lemma same_cfg_trans a b c : same_cfg a b -> same_cfg b c -> same_cfg a c.
Proof. unfold same_cfg. intuition congruence. Qed.

Lemma BI_frame w b w' : BI w b -> (forall i, In i (b_rs b) -> qv (vw w') i == qv (vw w) i) ->
  (length (w_res w) <= length (w_res w'))%nat -> BI w' b.
Proof.
  intros [h1 h2 h3 h4 h5] H L. constructor; auto.
  - intros i Hi. apply h3 in Hi. lia.
  - rewrite h4. symmetry. now apply sumv_ext.
Qed.

Lemma rget_ok i w r w' : rget i w = (r, w') -> w' = w /\
  match nth_error (w_res w) i with Some x => r = Ok x | None => r = UB end.
Proof. unfold rget, deref. destruct (nth_error (w_res w) i); inversion 1; auto. Qed.

Lemma qv_nth w i r : nth_error (w_res w) i = Some r -> qv (vw w) i = r_qty r.
Proof. intros H. rewrite qv_vw, H. reflexivity. Qed.

Lemma update_qty_spec w b r s' : update_qty (w, b) = (r, s') -> r <> UB ->
  r = Ok tt /\ exists q, s' = (w, set_b_qty q b) /\
    (q = b_qty b \/ q == sumv (vw w) (b_rs b)) /\ ((length (b_rs b) <= 1)%nat -> q == sumv (vw w) (b_rs b)) /\
    (b_rs b = [] -> q = 0).
Proof.
  unfold update_qty, bbind, bget. simpl. destruct (b_rs b) as [|i [|j l]] eqn:E; intros H N.
  - inversion H; subst. split; auto. exists 0. split; [reflexivity|]. rewrite sumv_nil. split; [right|split; intros]; auto; lra.
  - unfold call in H. simpl in H. destruct (rget i w) as [x w1] eqn:G. apply rget_ok in G as [-> G].
    destruct (nth_error (w_res w) i) as [y|] eqn:Hy; subst x; [|inversion H; congruence].
    inversion H; subst. split; auto. exists (r_qty y). split; [reflexivity|].
    assert (X : r_qty y == sumv (vw w) [i]).
    { rewrite sumv_cons, sumv_nil, (qv_nth _ _ _ Hy). lra. }
    split; [right|split; intros]; auto; discriminate.
  - inversion H; subst. split; auto. exists (b_qty b). split; [destruct b; reflexivity|].
    split; [auto|]. split; simpl; intros; [lia|discriminate].
Qed.

(** Leaving [update_qty] out of account, once the sum is right. *)
Lemma update_qty_BI w b r s' : update_qty (w, b) = (r, s') -> r <> UB -> BI w b ->
  r = Ok tt /\ exists b', s' = (w, b') /\ BI w b' /\ same_cfg b b' /\ b_rs b' = b_rs b /\ b_qty b' == b_qty b.
Proof.
  intros H N HB. apply update_qty_spec in H as [-> [q [-> [D [_ _]]]]]; auto. split; auto.
  assert (Hq : q == b_qty b). { destruct D as [->|D]; [lra|]. rewrite D. symmetry. apply HB. }
  exists (set_b_qty q b). split; auto. destruct HB as [h1 h2 h3 h4 h5]. split; [|repeat split; auto].
  constructor; simpl; auto. lra.
Qed.

(** ** Popping whole elements *)
Lemma pop_front_BI w b i rest r : BI w b -> b_rs b = i :: rest -> nth_error (w_res w) i = Some r ->
  BI w (set_b_qty (b_qty b - r_qty r) (set_b_present (erase i (b_present b)) (set_b_rs rest b))).
Proof.
  intros [h1 h2 h3 h4 h5] E Hr. rewrite E in *. inversion h1; subst. constructor; simpl; auto.
  - intros j. rewrite erase_In, h2. simpl. split; [intros [[->|?] ?]; congruence || auto|intros Hj; split; auto; intros ->; auto].
  - intros j Hj. apply h3. simpl; auto.
  - rewrite h4, sumv_cons, (qv_nth _ _ _ Hr). lra.
  - intros Hb. specialize (h5 Hb). simpl in h5. lia.
Qed.

Lemma pop_spec w b res s' : BI w b -> buf_pop (w, b) = (res, s') -> res <> UB ->
  (b_rs b = [] /\ res = Throw ValueError /\ s' = (w, b)) \/
  (exists i b' r, b_rs b = i :: b_rs b' /\ res = Ok i /\ s' = (w, b') /\ BI w b' /\ same_cfg b b' /\
     nth_error (w_res w) i = Some r /\ b_qty b' == b_qty b - r_qty r).
Proof.
  intros HB H N. unfold buf_pop, bbind, bget in H. simpl in H. destruct (b_rs b) as [|i rest] eqn:E.
  { left. inversion H; auto. }
  right. unfold call in H. simpl in H. destruct (rget i w) as [x w1] eqn:G. apply rget_ok in G as [-> G].
  destruct (nth_error (w_res w) i) as [y|] eqn:Hy; subst x; [|inversion H; congruence]. simpl in H.
  assert (B1 := pop_front_BI _ _ _ _ _ HB E Hy).
  destruct (update_qty _) as [u s1] eqn:U.
  destruct u as [[]|e|]; [| |inversion H; congruence].
  - destruct (update_qty_BI _ _ _ _ U ltac:(discriminate) B1) as [_ [b' [-> [B2 [C2 [R2 Q2]]]]]]. simpl in *.
    inversion H; subst res s'. exists i, b', y. rewrite R2. auto 10.
  - destruct (update_qty_BI _ _ _ _ U ltac:(discriminate) B1) as [? _]. discriminate.
Qed.

Lemma pop_back_spec w b res s' : BI w b -> buf_pop_back (w, b) = (res, s') -> res <> UB ->
  (b_rs b = [] /\ res = Throw ValueError /\ s' = (w, b)) \/
  (exists i b' r, b_rs b = b_rs b' ++ [i] /\ res = Ok i /\ s' = (w, b') /\ BI w b' /\ same_cfg b b' /\
     nth_error (w_res w) i = Some r /\ b_qty b' == b_qty b - r_qty r).
Proof.
  intros HB H N. unfold buf_pop_back, bbind, bget in H. simpl in H. destruct (rev (b_rs b)) as [|i rest] eqn:E.
  { left. inversion H; auto. apply (f_equal (@rev nat)) in E. rewrite rev_involutive in E. auto. }
  right. apply (f_equal (@rev nat)) in E. rewrite rev_involutive in E. simpl in E.
  unfold call in H. simpl in H. destruct (rget i w) as [x w1] eqn:G. apply rget_ok in G as [-> G].
  destruct (nth_error (w_res w) i) as [y|] eqn:Hy; subst x; [|inversion H; congruence]. simpl in H.
  assert (B1 : BI w (set_b_qty (b_qty b - r_qty y) (set_b_present (erase i (b_present b)) (set_b_rs (rev rest) b)))).
  { destruct HB as [h1 h2 h3 h4 h5]. rewrite E in *.
    assert (Nd : NoDup (rev rest) /\ ~ In i (rev rest)).
    { apply NoDup_remove in h1. rewrite app_nil_r in h1. auto. }
    destruct Nd as [Nd Ni]. constructor; simpl; auto.
    - intros j. rewrite erase_In, h2, in_app_iff. simpl. split; [intros [[?|[->|[]]] ?]; congruence || auto|intros Hj; split; auto; intros ->; auto].
    - intros j Hj. apply h3. apply in_app_iff; auto.
    - rewrite h4, sumv_app, sumv_cons, sumv_nil, (qv_nth _ _ _ Hy). lra.
    - intros Hb. specialize (h5 Hb). rewrite app_length in h5. simpl in h5. lia. }
  destruct (update_qty _) as [u s1] eqn:U.
  destruct u as [[]|e|]; [| |inversion H; congruence].
  - destruct (update_qty_BI _ _ _ _ U ltac:(discriminate) B1) as [_ [b' [-> [B2 [C2 [R2 Q2]]]]]]. simpl in *.
    inversion H; subst res s'. exists i, b', y. rewrite R2. auto 10.
  - destruct (update_qty_BI _ _ _ _ U ltac:(discriminate) B1) as [? _]. discriminate.
Qed.

Lemma popn_loop_spec n : forall w b res s', BI w b -> (n <= length (b_rs b))%nat ->
  popn_loop n (w, b) = (res, s') -> res <> UB ->
  exists outs b', res = Ok outs /\ s' = (w, b') /\ b_rs b = outs ++ b_rs b' /\ length outs = n /\
    BI w b' /\ same_cfg b b' /\ b_qty b' == b_qty b - sumv (vw w) outs.
Proof.
  induction n as [|n IH]; intros w b res s' HB L H N.
  - inversion H; subst. exists [], b. rewrite sumv_nil. repeat split; auto; try apply HB. lra.
  - simpl in H. unfold bbind at 1 in H. unfold bget in H. simpl in H. destruct (b_rs b) as [|i rest] eqn:E; [simpl in L; lia|].
    unfold bbind at 1 in H. unfold call in H. simpl in H. destruct (rget i w) as [x w1] eqn:G. apply rget_ok in G as [-> G].
    destruct (nth_error (w_res w) i) as [y|] eqn:Hy; subst x; [|inversion H; congruence]. simpl in H.
    unfold bbind, bmod in H. simpl in H.
    assert (B1 := pop_front_BI _ _ _ _ _ HB E Hy).
    set (b1 := set_b_present _ _) in H.
    assert (B2 : BI w b1) by exact B1.
    destruct (popn_loop n (w, b1)) as [u s1] eqn:U. destruct u as [outs|e|]; [| |inversion H; congruence].
    + destruct (IH _ _ _ _ B2 ltac:(simpl in *; lia) U ltac:(discriminate)) as [o2 [b' [Ho [-> [R2 [L2 [B3 [C3 Q3]]]]]]]].
      inversion Ho; subst o2. inversion H; subst. exists (i :: outs), b'. simpl in *.
      split; auto. split; auto. split; [rewrite R2; auto|]. split; [lia|]. split; [auto|]. split; [auto|].
      rewrite Q3, sumv_cons, (qv_nth _ _ _ Hy). lra.
    + destruct (IH _ _ _ _ B2 ltac:(simpl in *; lia) U ltac:(discriminate)) as [o2 [b' [Ho _]]]. discriminate.
Qed.

Lemma pop_n_spec w b n res s' : BI w b -> buf_pop_n n (w, b) = (res, s') -> res <> UB ->
  ((n < 0 \/ count b < n)%Z /\ res = Throw ValueError /\ s' = (w, b)) \/
  ((0 <= n <= count b)%Z /\ exists outs b', res = Ok outs /\ s' = (w, b') /\ b_rs b = outs ++ b_rs b' /\
    Z.of_nat (length outs) = n /\ BI w b' /\ same_cfg b b' /\ b_qty b' == b_qty b - sumv (vw w) outs).
Proof.
  intros HB H N. unfold buf_pop_n, bbind at 1, bget in H. simpl in H.
  destruct (Z.ltb_spec (count b) n); [left; inversion H; subst; split; auto|].
  destruct (Z.ltb_spec n 0); [left; inversion H; subst; split; auto|]. simpl in H. right. split; [lia|].
  unfold count in *. unfold bbind at 1 in H.
  destruct (popn_loop _ _) as [u s1] eqn:U.
  assert (Nu : u <> UB) by (intros ->; inversion H; congruence).
  apply popn_loop_spec in U as [outs [b1 [-> [-> [R1 [L1 [B1 [C1 Q1]]]]]]]]; auto; [|lia].
  unfold bbind in H. destruct (update_qty (w, b1)) as [u2 s2] eqn:U2.
  assert (Nu2 : u2 <> UB) by (intros ->; inversion H; congruence).
  destruct (update_qty_BI _ _ _ _ U2 Nu2 B1) as [-> [b' [-> [B2 [C2 [R2 Q2]]]]]]. inversion H; subst.
  exists outs, b'. rewrite R2. split; auto. split; auto. split; auto. split; [lia|]. split; auto.
  split; [eapply same_cfg_trans; eauto|]. lra.
Qed.
