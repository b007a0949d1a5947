(** AcceptMatlTrades. *)
From Verif Require Import Base CompModel CompSpec PackageModel ResourceModel ResourceSpec BufModel BufSpec
  BufProofs1 BufProofs2 BufProofs3 BufProofs4 BufProofs5 BufProofs6 BufProofs7
  GreedyModel ExchangeModel TrackerModel TrackerSpec BuyModel BuySpec BuyProofs1 BuyProofs2 BuyProofs3.
Local Open Scope Q_scope.

(** Operations on resources leave the clock alone. *)
Definition timeless {A} (m : M A) : Prop := forall w r w', m w = (r, w') -> w_time w' = w_time w.
Lemma timeless_bind {A B} (m : M A) (f : A -> M B) : timeless m -> (forall a, timeless (f a)) -> timeless (bind m f).
Proof.
  intros Hm Hf w r w'. unfold bind. destruct (m w) as [[a|e|] w1] eqn:E; intros H.
  - rewrite (Hf _ _ _ _ H). eapply Hm; eauto.
  - injection H as <- <-. eapply Hm; eauto.
  - injection H as <- <-. eapply Hm; eauto.
Qed.
Lemma timeless_ret {A} (a : A) : timeless (ret a).
Proof. intros w r w' H. injection H as <- <-. reflexivity. Qed.
Lemma timeless_throw {A} e : timeless (@throw A e).
Proof. intros w r w' H. injection H as <- <-. reflexivity. Qed.
Lemma timeless_ub {A} : timeless (@ub A).
Proof. intros w r w' H. injection H as <- <-. reflexivity. Qed.
Lemma timeless_deref {A} (o : option A) : timeless (deref o).
Proof. destruct o; [apply timeless_ret|apply timeless_ub]. Qed.
Lemma timeless_lift {A} (o : result A) : timeless (lift o).
Proof. intros w r w' H. injection H as <- <-. reflexivity. Qed.
Lemma timeless_get : timeless get.
Proof. intros w r w' H. injection H as <- <-. reflexivity. Qed.
Lemma timeless_rget i : timeless (rget i).
Proof. intros w r w' H. unfold rget in H. eapply timeless_deref; eauto. Qed.
Lemma timeless_cref i : timeless (cref i).
Proof. intros w r w' H. unfold cref in H. eapply timeless_deref; eauto. Qed.
Lemma timeless_modify f : (forall w, w_time (f w) = w_time w) -> timeless (modify f).
Proof. intros F w r w' H. injection H as <- <-. apply F. Qed.
Lemma timeless_new q c x p : timeless (new_resource q c x p).
Proof. intros w r w' H. injection H as <- <-. reflexivity. Qed.
Lemma timeless_bump i : timeless (bump_state i).
Proof.
  intros w r w' H. unfold bump_state in H. revert H. generalize (w_next_state w). intros n.
  apply (timeless_bind (rmod i (with_state n))).
  - unfold rmod. apply timeless_bind; [apply timeless_rget|]. intros. apply timeless_modify. reflexivity.
  - intros _. apply timeless_modify. reflexivity.
Qed.
Lemma timeless_comp_new a m : timeless (comp_new a m).
Proof. intros w r w' H. injection H as <- <-. reflexivity. Qed.
Lemma timeless_comp_line a m l : timeless (comp_new_in_line a m l).
Proof. intros w r w' H. injection H as <- <-. reflexivity. Qed.
Ltac tl :=
  repeat match goal with
  | |- timeless (bind _ _) => apply timeless_bind; [|intros]
  | |- timeless (ret _) => apply timeless_ret
  | |- timeless (throw _) => apply timeless_throw
  | |- timeless ub => apply timeless_ub
  | |- timeless (deref _) => apply timeless_deref
  | |- timeless (lift _) => apply timeless_lift
  | |- timeless get => apply timeless_get
  | |- timeless (rget _) => apply timeless_rget
  | |- timeless (cref _) => apply timeless_cref
  | |- timeless (modify _) => apply timeless_modify; intros; reflexivity
  | |- timeless (new_resource _ _ _ _) => apply timeless_new
  | |- timeless (bump_state _) => apply timeless_bump
  | |- timeless (comp_new _ _) => apply timeless_comp_new
  | |- timeless (comp_new_in_line _ _ _) => apply timeless_comp_line
  | |- timeless (if ?b then _ else _) => destruct b
  | |- timeless (match ?b with _ => _ end) => destruct b
  | |- timeless (let _ := _ in _) => cbv zeta
  end.
Lemma timeless_rmod i f : timeless (rmod i f).
Proof. unfold rmod. tl. Qed.
Lemma timeless_emit d : timeless (emit d).
Proof. unfold emit. tl. Qed.
Ltac tl2 := tl; try apply timeless_rmod; try apply timeless_emit.
Lemma timeless_comp_record E i : timeless (comp_record E i).
Proof. unfold comp_record, cmod. tl. Qed.
Lemma timeless_qual_id q : timeless (qual_id q).
Proof. unfold qual_id. tl. Qed.
Lemma timeless_res_record E i : timeless (res_record E i).
Proof. unfold res_record. tl; [apply timeless_emit|apply timeless_comp_record]. Qed.
Lemma timeless_tr_record E b i : timeless (tr_record E b i).
Proof. unfold tr_record. tl; [apply timeless_qual_id|apply timeless_emit|apply timeless_res_record]. Qed.
Lemma timeless_tr_modify E i : timeless (tr_modify E i).
Proof. unfold tr_modify. tl2. apply timeless_tr_record. Qed.
Lemma timeless_tr_absorb E i j : timeless (tr_absorb E i j).
Proof. unfold tr_absorb. tl2. apply timeless_tr_record. Qed.
Lemma timeless_tr_package E i j : timeless (tr_package E i j).
Proof. unfold tr_package. tl2; apply timeless_tr_record. Qed.
Lemma timeless_create_mass E v : timeless (create_from_mass E v).
Proof. unfold create_from_mass. tl. Qed.
Lemma timeless_comp_decay E c d s : timeless (comp_decay E c d s).
Proof. unfold comp_decay, new_decay. tl. Qed.
Lemma timeless_transmute E i c : timeless (mat_transmute E i c).
Proof. unfold mat_transmute. tl2. apply timeless_tr_modify. Qed.
Lemma timeless_decay E i c : timeless (mat_decay E i c).
Proof.
  unfold mat_decay, mat_comp_ptr. tl2; [apply timeless_comp_decay|apply timeless_transmute].
Qed.
Lemma timeless_comp E i : timeless (mat_comp E i).
Proof. unfold mat_comp, mat_comp_ptr. tl. apply timeless_decay. Qed.
Lemma timeless_absorb E i j : timeless (absorb E i j).
Proof.
  unfold absorb, mat_absorb, prod_absorb, prod_quality. tl; try apply timeless_comp; try apply timeless_create_mass;
    try apply timeless_rmod; apply timeless_tr_absorb.
Qed.
Lemma timeless_package E i n : timeless (change_package E i n).
Proof.
  unfold change_package, mat_change_package, prod_change_package, get_package. tl; try apply timeless_rmod; apply timeless_tr_package.
Qed.
Definition btimeless {A} (m : BM A) : Prop := forall s r s', m s = (r, s') -> w_time (fst s') = w_time (fst s).
Lemma btimeless_bind {A B} (m : BM A) (f : A -> BM B) : btimeless m -> (forall a, btimeless (f a)) -> btimeless (bbind m f).
Proof.
  intros Hm Hf w r w'. unfold bbind. destruct (m w) as [[a|e|] w1] eqn:E; intros H.
  - rewrite (Hf _ _ _ _ H). eapply Hm; eauto.
  - injection H as <- <-. eapply Hm; eauto.
  - injection H as <- <-. eapply Hm; eauto.
Qed.
Lemma btimeless_call {A} (m : M A) : timeless m -> btimeless (call m).
Proof.
  intros Hm s r s'. unfold call. destruct (m (fst s)) as [x w] eqn:E. intros H. injection H as <- <-. cbn. eapply Hm; eauto.
Qed.
Ltac btl :=
  repeat match goal with
  | |- btimeless (bbind _ _) => apply btimeless_bind; [|intros]
  | |- btimeless (call _) => apply btimeless_call
  | |- btimeless (bret _) => intros s r s' H; injection H as <- <-; reflexivity
  | |- btimeless bget => intros s r s' H; injection H as <- <-; reflexivity
  | |- btimeless (bthrow _) => intros s r s' H; injection H as <- <-; reflexivity
  | |- btimeless (bmod _) => intros s r s' H; injection H as <- <-; reflexivity
  | |- btimeless (if ?b then _ else _) => destruct b
  | |- btimeless (match ?b with _ => _ end) => destruct b
  end.
Lemma btimeless_push E T i : btimeless (buf_push E T i).
Proof.
  unfold buf_push, put, update_qty, absorb_as. btl; try apply timeless_rget; try apply timeless_package.
  destruct T; [apply timeless_absorb|apply timeless_absorb|apply timeless_throw] || (destruct T; [apply timeless_throw|apply timeless_absorb|apply timeless_absorb]).
Qed.

(** The policy's fields that acceptance leaves alone. *)
Definition cyc (p : pol) := (y_nae p, y_nde p, y_ad p, y_dd p, y_sd p).

Definition can_take (w : world) (b : buf) (js : list nat) : Prop :=
  forall j, In j js -> exists x, nth_error (w_res w) j = Some x /\ casts EMaterial x = true /\ 0 <= r_qty x /\ ~ In j (b_rs b).

Lemma fits_sub eps a b c q : 0 <= q -> fits eps (a + q) b -> c == a -> fits eps c b.
Proof. unfold fits. destruct (space b); auto. intros. lra. Qed.

Lemma sumv_can w b js : can_take w b js -> 0 <= sumv (vw w) js.
Proof.
  induction js as [|j js IH]; intros H; [rewrite sumv_nil; lra|]. rewrite sumv_cons.
  destruct (H j (or_introl eq_refl)) as [x [X [_ [P _]]]]. rewrite (qv_nth _ _ _ X).
  assert (0 <= sumv (vw w) js) by (apply IH; intros k K; apply H; now right). lra.
Qed.

Lemma push_step E i s b j r w' b' :
  buf_push E EMaterial j (s_world s, b) = (r, (w', b')) -> r <> UB ->
  nth_error (s_bufs s) i = Some b -> env_ok E -> reachable E (s_world s) -> BI (s_world s) b ->
  reachable E w' /\ BI w' b' /\ same_cfg b b' /\ w_time w' = w_time (s_world s) /\
  (r = Ok tt -> (exists x, nth_error (w_res (s_world s)) j = Some x /\ quantity b' == quantity b + r_qty x /\
       (b_bulk b = false -> vw w' = vw (s_world s))) /\
     length (vw w') = length (vw (s_world s)) /\
     (forall l, NoDup l -> ~ In j l -> (forall k, In k l -> ~ In k (b_rs b)) -> sumv (vw w') l == sumv (vw (s_world s)) l) /\
     (forall k, k <> j -> ~ In k (b_rs b) -> forall x, nth_error (w_res (s_world s)) k = Some x -> exists y,
        nth_error (w_res w') k = Some y /\ r_qty y = r_qty x /\ kindq (r_qual y) = kindq (r_qual x)) /\
     (forall k, In k (b_rs b') -> In k (b_rs b) \/ k = j) /\ (forall k, In k (b_rs b) -> In k (b_rs b')) /\ ~ In j (b_rs b) /\
     (forall l, (b_bulk b = true -> mixv (vw (s_world s)) (b_rs b ++ j :: l)) -> b_bulk b = true -> mixv (vw w') (b_rs b' ++ l))) /\
  (forall l, can_take (s_world s) b (j :: l) -> (b_bulk b = true -> mixv (vw (s_world s)) (b_rs b ++ j :: l)) ->
     fits (e_eps E) (sumv (vw (s_world s)) (j :: l)) b -> r = Ok tt).
Proof.
  intros H N B EO R I. pose proof (btimeless_push _ _ _ _ _ _ H) as TM. cbn [fst] in TM.
  destruct (push_spec _ _ _ _ _ _ _ I H N) as [x [X Sp]].
  destruct (push_refused (e_eps E) (r_qty x) b (negb (casts EMaterial x)) [j]) as [e|] eqn:PR.
  { destruct Sp as [-> Q]. injection Q as -> ->. repeat (split; [assumption || apply same_cfg_refl|]).
    split; [discriminate|]. intros l C M F. exfalso. destruct (C j (or_introl eq_refl)) as [y [Y [Y1 [Y2 Y3]]]].
    rewrite X in Y. injection Y as <-. unfold push_refused in PR. rewrite Y1 in PR. cbn [negb] in PR.
    destruct (too_big (e_eps E) (r_qty x) b) eqn:TB.
    - assert (fits (e_eps E) (r_qty x) b) as F'.
      { apply fits_sub with (r_qty x) (sumv (vw (s_world s)) l); [|eapply fits_eq; [|exact F]|reflexivity].
        - apply sumv_can with b. intros k K. apply C. now right.
        - rewrite sumv_cons, (qv_nth _ _ _ X). lra. }
      apply too_big_fits in F'. congruence.
    - cbn [existsb] in PR. destruct (present j b) eqn:P; [|discriminate]. apply present_spec in P. apply (bi_pres _ _ I) in P. auto. }
  destruct Sp as [w1 [b1 [Q1 [I1 [C1 [MV [NI [D MX]]]]]]]]. injection Q1 as <- <-.
  split; [now apply moves_reach with (s_world s)|]. split; [assumption|]. split; [assumption|]. split; [assumption|].
  split.
  - intros ->. destruct D as [[e [Z _]]|[_ [Q1 D]]]; [discriminate|].
    assert (BKE : b_bulk b' = b_bulk b) by (destruct C1 as [_ [Z _]]; exact Z).
    destruct D as [[D1 [D2 D3]]|[D1 [_ [D2 [f [k0 [a0 [D3 [D4 [D5 D6]]]]]]]]]].
    + split; [exists x; split; [assumption|]; split; [exact Q1|auto]|]. rewrite D3.
      split; [reflexivity|]. split; [reflexivity|]. split; [|split].
      * intros k _ _ y Y. apply vw_nth in Y. rewrite <- D3 in Y. apply vw_inv in Y as [z [Z1 Z2]]. exists z. split; [assumption|].
        injection Z2 as Z2 Z3. auto.
      * intros k. rewrite D2, in_app_iff. cbn. intuition.
      * split; [intros k; rewrite D2, in_app_iff; now left|]. split; [assumption|]. intros l M BK. specialize (M BK). rewrite D2, <- app_assoc. exact M.
    + split; [exists x; split; [assumption|]; split; [exact Q1|congruence]|]. rewrite D6.
      assert (f <> j) as FJ by (intros ->; apply NI; rewrite D3; now left).
      split; [now rewrite !upd_length|]. split; [|split; [|split]].
      * intros l ND NJ NR. rewrite sumv_notin by assumption. rewrite sumv_notin; [reflexivity|].
        intros K. apply (NR f K). rewrite D3. now left.
      * intros k KJ KR y Y. apply vw_nth in Y.
        assert (nth_error (vw w') k = Some (kindq (r_qual y), r_qty y)) as Z.
        { rewrite D6, nth_upd_other by congruence. rewrite nth_upd_other; [assumption|]. intros <-. apply KR. rewrite D3. now left. }
        apply vw_inv in Z as [z [Z1 Z2]]. injection Z2 as Z2 Z3. exists z. auto.
      * intros k. rewrite D2. auto.
      * split; [intros k; now rewrite D2|]. split; [assumption|]. intros l M BK. specialize (M BK). rewrite D2. apply mixv_sub with (b_rs b ++ j :: l).
        { intros k. rewrite !in_app_iff. cbn. intuition. }
        eapply absorb_mix_keep; [exact FJ|exact D4|exact D5|reflexivity| | |exact M]; rewrite in_app_iff; [left; rewrite D3; now left|right; now left].
  - intros l C M F. destruct D as [[e [-> [_ [BK [NE _]]]]]|[-> _]]; [|reflexivity].
    apply MX; [assumption|assumption|discriminate|]. apply mixv_sub with (b_rs b ++ j :: l); [|auto].
    intros k. rewrite !in_app_iff. cbn. intuition.
Qed.

Lemma take_spec E i resps : forall s p r s' p' b,
  y_take E resps (s, p) = (r, (s', p')) -> r <> UB -> y_buf p = Some i -> nth_error (s_bufs s) i = Some b ->
  env_ok E -> reachable E (s_world s) -> BI (s_world s) b -> NoDup (map fst resps) ->
  params p' = params p /\ cyc p' = cyc p /\ s_rows s' = s_rows s /\ s_trks s' = s_trks s /\ s_mkt s' = s_mkt s /\
  w_time (s_world s') = w_time (s_world s) /\ reachable E (s_world s') /\
  exists b', s_bufs s' = upd (s_bufs s) i b' /\ same_cfg b b' /\ BI (s_world s') b' /\
    (y_uses_cum p = false -> y_cycle p' = y_cycle p) /\
    (r = Ok tt -> (forall k, In k (map fst resps) -> ~ In k (b_rs b)) /\ quantity b' == quantity b + sum_qty (s_world s) (map fst resps) /\
       (b_bulk b = false -> y_uses_cum p = true -> y_cycle p' == y_cycle p + sum_qty (s_world s) (map fst resps))) /\
    (can_take (s_world s) b (map fst resps) -> (b_bulk b = true -> mixv (vw (s_world s)) (b_rs b ++ map fst resps)) ->
       fits (e_eps E) (sum_qty (s_world s) (map fst resps)) b -> r = Ok tt).
Proof.
  induction resps as [|[j commod] resps IH]; intros s p r s' p' b H N Y B EO R I ND; cbn [y_take] in H.
  - injection H as <- <- <-. repeat (split; [reflexivity || assumption|]).
    exists b. split; [symmetry; now apply upd_same|]. split; [apply same_cfg_refl|]. split; [assumption|]. split; [reflexivity|].
    split; [|reflexivity]. intros _. cbn. split; [tauto|]. split; [lra|]. intros; lra.
  - cbn [map] in ND |- *. cbn [fst] in ND |- *. inversion ND as [|? ? NJ ND']; subst.
    unfold ybind at 1, ypmod in H. cbn [fst snd] in H. unfold ybind at 1, ypol in H. cbn [snd] in H.
    set (p0 := y_set_rc (nupd j (fun _ => commod) (y_rc p)) p) in *.
    unfold ybind at 1 in H. change (y_buf p0) with (y_buf p) in H. rewrite Y in H. cbn [yderef] in H. unfold yret at 1 in H.
    unfold ybind at 1 in H. unfold ybuf, ybind, ypol, ysys in H. cbn [fst snd] in H.
    change (y_buf p0) with (y_buf p) in H. rewrite Y in H. cbn [yderef] in H. unfold yret in H. cbn [fst snd] in H.
    rewrite B in H. cbn [yderef] in H. unfold yret in H. cbn [fst snd] in H.
    destruct (buf_push E EMaterial j (s_world s, b)) as [r1 [w1 b1]] eqn:P.
    cbn [fst snd] in H.
    assert (r1 <> UB) as N1 by (intros ->; injection H as <- <- <-; congruence).
    pose proof (push_step _ _ _ _ _ _ _ _ P N1 B EO R I) as [R1 [I1 [C1 [T1 [OK TH]]]]].
    change (y_uses_cum p0) with (y_uses_cum p) in H.
    destruct r1 as [[]|e|]; [| |congruence].
    2:{ injection H as <- <- <-. ysimp. repeat (split; [reflexivity || assumption|]).
        exists b1. split; [reflexivity|]. split; [assumption|]. split; [assumption|]. split; [reflexivity|]. split; [discriminate|].
        intros C M F. rewrite sum_vw in F. now rewrite (TH _ C M F). }
    destruct (OK eq_refl) as [[x [X [QB KEEP]]] [LV [SV [KV [RV [RI [NI MV]]]]]]]. clear OK.
    set (s1 := s_set_bufs (upd (s_bufs s) i b1) (s_set_world w1 s)) in *.
    assert (exists p1, y_take E resps (s1, p1) = (r, (s', p')) /\ params p1 = params p /\ cyc p1 = cyc p /\
       (y_uses_cum p = false -> y_cycle p1 = y_cycle p) /\
       (y_uses_cum p = true -> b_bulk b = false -> y_cycle p1 = y_cycle p + r_qty x)) as [p1 [H1 [P1 [P2 [P3 P4]]]]].
    { destruct (y_uses_cum p).
      - unfold s1 in H. ysimp. destruct (nth_error (w_res w1) j) as [y|] eqn:Y1; cbn [yderef] in H; unfold yub, yret in H.
        + eexists. split; [exact H|]. split; [reflexivity|]. split; [reflexivity|]. split; [discriminate|]. intros _ BK. ysimp.
          apply vw_nth in Y1. rewrite (KEEP BK) in Y1. apply vw_nth in X. rewrite X in Y1. injection Y1 as _ Y1. now rewrite Y1.
        + injection H as <- <- <-. congruence.
      - exists p0. split; [exact H|]. split; [reflexivity|]. split; [reflexivity|]. split; [reflexivity|]. discriminate. }
    assert (nth_error (s_bufs s1) i = Some b1) as B1.
    { unfold s1. ysimp. apply nth_upd_same. apply nth_error_Some. congruence. }
    pose proof (params_inj _ _ P1) as [_ [_ [PB [_ [_ [_ [_ [_ [PC _]]]]]]]]].
    assert (y_uses_cum p1 = y_uses_cum p) as UC by (unfold y_uses_cum; now rewrite PC).
    apply IH with (b := b1) in H1; try assumption; [|congruence].
    destruct H1 as [A1 [A2 [A3 [A4 [A5 [A6 [A7 [b' [A8 [A9 [A10 [A11 [A12 A13]]]]]]]]]]]]].
    unfold s1 in A3, A4, A5, A6, A8, A12, A13. ysimp. unfold same_cfg in *.
    split; [congruence|]. split; [congruence|]. split; [congruence|]. split; [congruence|]. split; [congruence|].
    split; [congruence|]. split; [assumption|]. exists b'. split; [rewrite A8; apply upd_twice|].
    split; [intuition congruence|]. split; [assumption|].
    split; [intros U; rewrite A11 by congruence; auto|].
    split.
    + intros ->. destruct (A12 eq_refl) as [F1 [F2 F3]].
      assert (forall k, In k (map fst resps) -> ~ In k (b_rs b)) as NR by (intros k K Z; apply (F1 k K); auto).
      rewrite sum_vw in F2, F3. rewrite SV in F2 by assumption. rewrite !sum_vw.
      split; [intros k [<-|K]; auto|]. rewrite sumv_cons, (qv_nth _ _ _ X). split; [rewrite F2, QB; ring|].
      intros BK U. rewrite F3; [rewrite P4 by assumption; rewrite SV by assumption; ring| |congruence].
      destruct C1 as [_ [C1 _]]. congruence.
    + intros C M F. rewrite sum_vw in F. eapply fits_eq in F; [|rewrite sumv_cons, (qv_nth _ _ _ X); reflexivity].
      assert (forall k, In k (map fst resps) -> ~ In k (b_rs b)) as NR.
      { intros k K. destruct (C k (or_intror K)) as [y [_ [_ [_ Z]]]]. exact Z. }
      apply A13.
      * intros k K. destruct (C k (or_intror K)) as [y [Y1 [Y2 [Y3 Y4]]]].
        destruct (KV k) with (x := y) as [z [Z1 [Z2 Z3]]]; try assumption; [intros ->; contradiction|].
        exists z. split; [assumption|]. split; [|split; [now rewrite Z2|]].
        -- unfold casts in *. destruct (r_qual y), (r_qual z); cbn in *; congruence.
        -- intros Z. apply RV in Z as [Z| ->]; contradiction.
      * intros BK. apply MV; [assumption|]. destruct C1 as [_ [C1 _]]. congruence.
      * rewrite sum_vw. unfold fits, space in *. rewrite (proj1 C1). destruct (b_cap b) as [c|]; [|exact Logic.I].
        rewrite SV by assumption. unfold quantity in *.
        destruct (C j (or_introl eq_refl)) as [y [Y1 [_ [Y3 _]]]]. rewrite X in Y1. injection Y1 as <-.
        unfold qmax in *. destruct (Qltb_spec 0 (c - b_qty b)), (Qltb_spec 0 (c - b_qty b1)); lra.
Qed.

(** AcceptMatlTrades: the loop, then the cumulative cap. *)
Lemma accept_spec E i resps s p r s' p' b :
  y_accept E resps (s, p) = (r, (s', p')) -> r <> UB -> ready p -> y_buf p = Some i -> nth_error (s_bufs s) i = Some b ->
  env_ok E -> reachable E (s_world s) -> BI (s_world s) b -> NoDup (map fst resps) ->
  params p' = params p /\ dvals p' = dvals p /\ y_ad p' = y_ad p /\ y_sd p' = y_sd p /\ y_nae p' = y_nae p /\
  s_trks s' = s_trks s /\ s_mkt s' = s_mkt s /\
  w_time (s_world s') = w_time (s_world s) /\ reachable E (s_world s') /\
  (exists b', s_bufs s' = upd (s_bufs s) i b' /\ same_cfg b b' /\ BI (s_world s') b' /\
    (r = Ok tt -> quantity b' == quantity b + sum_qty (s_world s) (map fst resps)) /\
    (can_take (s_world s) b (map fst resps) -> (b_bulk b = true -> mixv (vw (s_world s)) (b_rs b ++ map fst resps)) ->
       fits (e_eps E) (sum_qty (s_world s) (map fst resps)) b -> r = Ok tt)) /\
  (y_uses_cum p = false -> y_cycle p' = y_cycle p /\ y_dd p' = y_dd p /\ y_nde p' = y_nde p /\ s_rows s' = s_rows s) /\
  (y_uses_cum p = true -> b_bulk b = false -> r = Ok tt ->
    let got := y_cycle p + sum_qty (s_world s) (map fst resps) in
    (e_eps E <= y_cum p - got /\ y_cycle p' == got /\ y_dd p' = y_dd p /\ y_nde p' = y_nde p /\ s_rows s' = s_rows s) \/
    (y_cum p - got < e_eps E /\ y_cycle p' == 0 /\ exists m d, y_mgr p = Some m /\ y_dd p = Some d /\
       y_dd p' = Some (mkI (i_vals d) (S (i_pos d))) /\
       y_nde p' = (i_vals d (i_pos d) + (w_time (s_world s) + 1))%Z /\
       s_rows s' = s_rows s ++ [mkCyc m (w_time (s_world s) + 1)%Z "Dormant" (i_vals d (i_pos d))])).
Proof.
  intros H N RD Y B EO R I ND. unfold y_accept in H. unfold ybind at 1, ypmod in H. cbn [fst snd] in H.
  unfold ybind at 1 in H. set (p0 := y_set_rc [] p) in *.
  destruct (y_take E resps (s, p0)) as [r1 [s1 p1]] eqn:T.
  assert (r1 <> UB) as N1 by (intros ->; injection H as <- <- <-; congruence).
  pose proof (take_spec _ _ _ _ _ _ _ _ _ T N1 Y B EO R I ND) as TK.
  destruct TK as [A1 [A2 [A3 [A4 [A5 [A6 [A7 [b' [A8 [A9 [A10 [A11 [A12 A13]]]]]]]]]]]]].
  change (params p0) with (params p) in A1. change (cyc p0) with (cyc p) in A2.
  change (y_uses_cum p0) with (y_uses_cum p) in *. change (y_cycle p0) with (y_cycle p) in *.
  pose proof (params_inj _ _ A1) as [_ [PM [PB [_ [_ [_ [_ [_ [PC _]]]]]]]]].
  assert (y_uses_cum p1 = y_uses_cum p) as UC by (unfold y_uses_cum; now rewrite PC).
  unfold cyc in A2. injection A2 as C1 C2 C3 C4 C5.
  assert (dvals p1 = dvals p) as DV by (unfold dvals; now rewrite C3, C4, C5).
  destruct r1 as [[]|e|]; [| |congruence].
  2:{ injection H as <- <- <-. repeat (split; [assumption|]). split.
      - exists b'. repeat (split; [assumption|]). split; [discriminate|]. intros a1 a2 a3. discriminate (A13 a1 a2 a3).
      - split; [|discriminate]. intros U. auto. }
  unfold ybind at 1, ypol in H. cbn [snd] in H. rewrite UC in H.
  destruct (A12 eq_refl) as [_ [A14 A15]].
  destruct (y_uses_cum p) eqn:U; cbn [andb] in H.
  2:{ injection H as <- <- <-. repeat (split; [assumption|]). split.
      - exists b'. repeat (split; [assumption|]). split; auto.
      - split; [auto|discriminate]. }
  destruct RD as [[m M] [_ [[d D] _]]].
  destruct (Qltb_spec (y_cum p1 - y_cycle p1) (e_eps E)) as [L|L].
  - unfold ybind at 1 in H. rewrite (next_dormant_eq _ _ m d) in H by congruence. rewrite UC in H.
    injection H as <- <- <-. ysimp. repeat (split; [assumption|]). split.
    { unfold dvals in *. ysimp. rewrite <- DV, C4, D. reflexivity. }
    repeat (split; [assumption|]). split; [exists b'; repeat (split; [assumption|]); split; auto|].
    split; [discriminate|]. intros _ BK _. right. rewrite <- PC, <- (A15 BK eq_refl). split; [assumption|]. split; [reflexivity|].
    exists m, d. rewrite A6, A3. auto.
  - injection H as <- <- <-. repeat (split; [assumption|]). split; [exists b'; repeat (split; [assumption|]); split; auto|].
    split; [discriminate|]. intros _ BK _. left. rewrite <- PC, <- (A15 BK eq_refl). repeat split; try assumption. lra.
Qed.
