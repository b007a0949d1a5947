(** Presence, lifetimes and creation. *)
From Coq Require Import String List ZArith Bool Arith Lia Sorted.
From Verif Require Import Base SimModel SimSpec SimProofs1 SimProofs2 SimProofs3 SimProofs4 SimProofs5 SimProofs6 SimProofs7 SimProofs8.
Import ListNotations.
Local Open Scope Z_scope.

(** ** Creation in closed form *)
Lemma create_none want n s : sfind n (protos (w s)) = None -> create_agent want n s = (Raised KeyError, s).
Proof. intros H. unfold create_agent, bind, gets. now rewrite H. Qed.
Definition clone_of (x : agent) (id : Z) : agent :=
  mkA id (a_kind x) (a_shim x) (a_proto x) (a_spec x) (a_life x) (-1) None (-1) [] true.
Lemma create_normal want n s a s' : create_agent want n s = (Normal a, s') ->
  exists p x, sfind n (protos (w s)) = Some p /\ live s p x /\ a = length (heap (w s)) /\
    match want with Some k => k = a_kind x | None => True end /\
    heap (w s') = heap (w s) ++ [clone_of x (nid (w s))] /\ nid (w s') = nid (w s) + 1 /\ ti s' = ti s /\
    log s' = log s ++ [(tm (ti s), ENew a); (tm (ti s), ECreate n a)] /\
    protos (w s') = protos (w s) /\ nproto (w s') = nproto (w s) /\ nspec (w s') = nspec (w s) /\ traders (w s') = traders (w s) /\
    (forall b, In b (alist (w s')) <-> b = a \/ In b (alist (w s))).
Proof.
  intros H. unfold create_agent, bind at 1, gets in H. destruct (sfind n (protos (w s))) as [p|]; [|discriminate].
  apply bind_normal in H. destruct H as (x & s1 & E1 & H). unfold deref in E1. destruct (get s p) as [x'|] eqn:G; [|discriminate].
  injection E1 as <- <-. apply get_nth in G. unfold bind at 1, construct in H.
  assert (C : (match want with Some k => k = a_kind x' | None => True end) /\
     (modify (emit (ECreate n (length (heap (w s))))) ;; ret (length (heap (w s)))) (emit (ENew (length (heap (w s)))) (with_w (fun y =>
     mkW (heap y ++ [mkA (nid y) (a_kind x') (a_shim x') (a_proto x') (a_spec x') (a_life x') (-1) None (-1) [] true]) (nid y + 1) (pins (length (heap (w s))) (alist y))
         (protos y) (nproto y) (nspec y) (traders y)) s)) = (Normal a, s')).
  { destruct want as [k|]; [|auto]. destruct (kind_eqb k (a_kind x')) eqn:E.
    - split; [destruct k, (a_kind x'); try discriminate; reflexivity|exact H].
    - apply bind_normal in H. destruct H as ([] & s2 & _ & H). discriminate. }
  destruct C as [Ck C]. unfold bind, modify, ret in C. injection C as <- <-.
  exists p, x'. split; [reflexivity|]. split; [exact G|]. split; [reflexivity|]. split; [exact Ck|].
  cbn [log w ti emit with_ti with_w heap nid alist protos nproto nspec traders].
  split; [reflexivity|]. split; [reflexivity|]. split; [reflexivity|]. split; [rewrite <- app_assoc; reflexivity|].
  do 4 (split; [reflexivity|]). intros b. apply pins_in.
Qed.
(** A failed cast: the clone is deleted again. *)
Lemma create_cast want n s e s' : create_agent want n s = (Raised e, s') ->
  (e = KeyError /\ s' = s /\ sfind n (protos (w s)) = None) \/
  (e = CastError /\ exists p x k, sfind n (protos (w s)) = Some p /\ live s p x /\ want = Some k /\ k <> a_kind x /\
    heap (w s') = heap (w s) ++ [set_dead (clone_of x (nid (w s)))] /\ nid (w s') = nid (w s) + 1 /\ ti s' = ti s /\
    log s' = log s ++ [(tm (ti s), ENew (length (heap (w s)))); (tm (ti s), EDelete (length (heap (w s))))] /\
    protos (w s') = protos (w s) /\ nproto (w s') = nproto (w s) /\ nspec (w s') = nspec (w s)).
Proof.
  intros H. unfold create_agent, bind at 1, gets in H. destruct (sfind n (protos (w s))) as [p|].
  2:{ injection H as <- <-. auto. }
  right. unfold bind at 1, deref in H. destruct (get s p) as [x|] eqn:G; [|discriminate]. apply get_nth in G.
  unfold bind at 1, construct in H. destruct want as [k|]; [|discriminate].
  destruct (kind_eqb k (a_kind x)) eqn:E; [discriminate|].
  match type of H with ?m ?s0 = _ => set (s1 := s0) in H end.
  assert (K : del_agent (length (heap (w s))) s1 <> (Undef, s') -> True) by auto. clear K.
  unfold bind in H. destruct (del_agent (length (heap (w s))) s1) as [o s2] eqn:D.
  assert (Nu : o <> Undef) by (intros ->; discriminate).
  assert (A1 : nth_error (heap (w s1)) (length (heap (w s))) = Some (clone_of x (nid (w s)))) by (simpl; apply nth_app_new).
  destruct (del_normal _ _ _ _ D Nu) as [-> [[Ni _]|(Ia & x1 & [L1 L2] & E1 & E2 & E3 & E4 & E5 & E6 & E7 & E8 & F)]].
  { exfalso. apply Ni. simpl. apply pins_in. auto. }
  unfold raise in H. injection H as <- <-. split; [reflexivity|]. exists p, x, k.
  split; [reflexivity|]. split; [exact G|]. split; [reflexivity|]. split; [intros ->; destruct (a_kind x); discriminate|].
  assert (x1 = clone_of x (nid (w s))) by congruence. subst x1.
  split; [|split; [exact E5|split; [exact E2|split; [rewrite E1; simpl; rewrite <- app_assoc; reflexivity|auto]]]].
  apply nth_ext with (d := x) (d' := x).
  - rewrite E4. simpl. rewrite !app_length. reflexivity.
  - intros i Hi. rewrite E4 in Hi. simpl in Hi. rewrite app_length in Hi. simpl in Hi.
    assert (Eq : nth_error (heap (w s2)) i = nth_error (heap (w s) ++ [set_dead (clone_of x (nid (w s)))]) i).
    { rewrite F. simpl heap. destruct (Nat.lt_ge_cases i (length (heap (w s)))) as [Lt|Ge].
      - rewrite !nth_error_app1 by exact Lt. destruct (nth_error (heap (w s)) i) as [y|]; [|reflexivity]. simpl. f_equal.
        unfold destroyed. simpl. destruct (Nat.eqb_spec i (length (heap (w s)))); [lia|reflexivity].
      - assert (i = length (heap (w s))) by lia. subst i. rewrite !nth_app_new. simpl. unfold destroyed. simpl. now rewrite Nat.eqb_refl. }
    destruct (nth_error (heap (w s2)) i) as [y|] eqn:Ey; [|apply nth_error_None in Ey; rewrite E4 in Ey; simpl in Ey; rewrite app_length in Ey; simpl in Ey; lia].
    rewrite (nth_error_nth _ _ x Ey). symmetry. apply nth_error_nth. now rewrite <- Eq.
Qed.

(** ** An agent that entered stays until it leaves *)
Record present_ok (s : sim) : Prop := {
  p_in : inr s (entered (log s));
  p_live : forall a, In a (entered (log s)) -> ~ In a (exits (log s)) -> exists x, live s a x }.
Definition presenter (s s' : sim) : Prop := present_ok s -> present_ok s'.
Lemma present_step s s' en ex : entered (log s') = entered (log s) ++ en -> exits (log s') = exits (log s) ++ ex ->
  (length (heap (w s)) <= length (heap (w s')))%nat ->
  (forall a x, live s a x -> ~ In a ex -> exists y, live s' a y) ->
  (forall a, In a en -> (a < length (heap (w s')))%nat /\ (~ In a ex -> exists y, live s' a y)) -> presenter s s'.
Proof.
  intros E1 E2 L H Hn [A B]. constructor.
  - rewrite E1. apply Forall_app. split.
    + eapply Forall_impl; [|exact A]. simpl. intros; lia.
    + apply Forall_forall. intros a Ha. now apply Hn.
  - intros a Ia Nx. rewrite E1 in Ia. rewrite E2 in Nx. rewrite in_app_iff in Nx. apply in_app_or in Ia.
    destruct Ia as [Ia|Ia]; [|apply Hn; tauto]. destruct (B a Ia) as (x & Lx); [tauto|]. eapply H; eauto.
Qed.
Lemma present_coarse : coarse presenter.
Proof.
  constructor.
  - intros e s P. apply (present_step s _ [] []); simpl; auto; try contradiction.
    + now rewrite entered_app, plain_entered.
    + now rewrite exits_app, plain_exits.
    + intros a x L _. exists x. exact L.
  - intros f s. apply (present_step s _ [] []); simpl; rewrite ?app_nil_r; auto; try contradiction. intros a x L _. exists x. exact L.
  - intros f s o s' [= <- <-] _. apply (present_step s _ [] []); simpl; rewrite ?app_nil_r; auto; try contradiction. intros a x L _. exists x. exact L.
  - intros k sh pr sp l s o s' [= <- <-] _. apply (present_step s _ [] []); simpl; rewrite ?entered_app, ?exits_app; auto; try contradiction.
    + rewrite app_length. lia.
    + intros a x [L1 L2] _. exists x. split; [|exact L2]. simpl. rewrite nth_error_app1; [exact L1|]. apply nth_error_Some. congruence.
  - intros s a x n G. apply get_nth in G. destruct G as [G Gx].
    assert (L : (a < length (heap (w s)))%nat) by (apply nth_error_Some; congruence).
    apply (present_step s _ [] []); simpl; rewrite ?app_nil_r, ?upd_length; auto; try contradiction.
    intros b y [L1 L2] _. unfold live. rewrite set_agent_nth by exact L. destruct (Nat.eqb b a).
    + eexists. split; [reflexivity|exact Gx].
    + exists y. auto.
  - intros want n s o s' H N. destruct o as [a|e| |]; try congruence.
    + apply create_normal in H. destruct H as (p & x & _ & _ & Ea & _ & Eh & _ & _ & El & _).
      apply (present_step s _ [] []); rewrite ?El, ?entered_app, ?exits_app; auto; try contradiction.
      * rewrite Eh, app_length. lia.
      * intros b y [L1 L2] _. exists y. split; [|exact L2]. rewrite Eh, nth_error_app1; [exact L1|]. apply nth_error_Some. congruence.
    + apply create_cast in H. destruct H as [(_ & -> & _)|(_ & p & x & k & _ & _ & _ & _ & Eh & _ & _ & El & _)]; [unfold presenter; auto|].
      apply (present_step s _ [] []); rewrite ?El, ?entered_app, ?exits_app; auto; try contradiction.
      * rewrite Eh, app_length. lia.
      * intros b y [L1 L2] _. exists y. split; [|exact L2]. rewrite Eh, nth_error_app1; [exact L1|]. apply nth_error_Some. congruence.
    + exfalso. unfold create_agent, bind at 1, gets in H. destruct (sfind n _) as [p|]; [|discriminate]. unfold bind at 1, deref in H.
      destruct (get s p) as [x|]; [|discriminate]. unfold bind at 1, construct in H. destruct want as [k|]; [|discriminate].
      destruct (kind_eqb _ _); [discriminate|]. unfold bind in H.
      match type of H with context [del_agent ?a ?s] => destruct (del_agent a s) as [o1 s1] eqn:D end.
      destruct o1; try discriminate. apply del_normal in D; [|discriminate]. destruct D as [D _]. discriminate.
  - intros a s o s' H N. apply base_normal in H; [|exact N].
    destruct H as (_ & x & L & T & Ln & _ & _ & _ & _ & C).
    apply (present_step s _ [] [a]); auto; try contradiction.
    + destruct C as [(_ & El & _)|(_ & El & _)]; rewrite El, entered_app; reflexivity.
    + destruct C as [(_ & El & _)|(_ & El & _)]; rewrite El, exits_app; reflexivity.
    + lia.
    + intros b y [L1 L2] Nb. destruct C as [(_ & _ & Eh & _)|(_ & _ & _ & F)].
      * exists y. split; [now rewrite Eh|exact L2].
      * exists (destroyed a x b y). split; [rewrite F, L1; reflexivity|]. rewrite destroyed_alive, L2.
        destruct (Nat.eqb_spec b a) as [->|]; [exfalso; apply Nb; now left|reflexivity].
  - intros a p s o s' H N. apply front_normal in H; [|exact N].
    destruct H as [(-> & _ & ->)|(_ & Nq & x & pid & L & Lq & El & E2 & Ln & E4 & E5 & Np & Ns & F)].
    + apply (present_step s _ [] []); simpl; rewrite ?entered_app, ?exits_app; auto; try contradiction.
      * simpl. now rewrite Nat.eqb_refl.
      * intros b y Lb _. exists y. exact Lb.
    + assert (Lb : forall b y, live s b y -> exists z, live s' b z).
      { intros b y [L1 L2]. exists (joined (tm (ti s)) a p pid b y). split; [rewrite F, L1; reflexivity|now rewrite joined_alive]. }
      apply (present_step s _ [a] []); auto.
      * rewrite El. change ((tm (ti s), EBuild a p) :: ?m) with ([(tm (ti s), EBuild a p)] ++ m).
        rewrite !entered_app. destruct p as [q|]; simpl.
        -- destruct (Nat.eqb_spec q a); [congruence|]. destruct (a_kind x); reflexivity.
        -- destruct (a_kind x); reflexivity.
      * rewrite El, exits_app. destruct (a_kind x); reflexivity.
      * lia.
      * eauto.
      * intros b [<-|[]]. split; [|eauto]. destruct L as [L1 _]. rewrite Ln. apply nth_error_Some. congruence.
  - intros n a ov s o s' H N. unfold add_prototype, bind at 1, gets in H. destruct (_ && _); [injection H as <- <-; unfold presenter; auto|].
    apply deref_inv in H; [|exact N]. destruct H as (x & G & H). injection H as <- <-.
    apply (present_step s _ [] []); simpl; rewrite ?entered_app, ?exits_app; auto; try contradiction. intros b y Lb _. exists y. exact Lb.
Qed.
Lemma run_present beh cond fuel setup t0 d o s' : simulate beh cond fuel setup t0 d = (o, s') -> o <> Undef -> present_ok s'.
Proof.
  intros H N. refine (coarse_simulate presenter _ _ present_coarse _ _ _ _ _ _ _ _ H N _); unfold presenter; auto.
  constructor; [constructor|intros a []].
Qed.

(** ** Institution::Tock *)
Lemma sched_now c s o s' : sched_decom c (-1) s = (o, s') -> o <> Undef ->
  o = Normal tt /\ log s' = log s ++ [(tm (ti s), ESchedD c (tm (ti s)))] /\ w s' = w s /\ tm (ti s') = tm (ti s).
Proof.
  intros H N. unfold sched_decom, bind at 1, gets in H. simpl in H. unfold bind at 1, timer_sched_decom in H.
  rewrite Z.ltb_irrefl in H. unfold bind, deref in H. destruct (get _ c); [|congruence].
  unfold modify in H. injection H as <- <-. simpl. auto.
Qed.
Lemma tock_orders cond i s o s' : cond_of_agents cond -> inst_tock cond i s = (o, s') -> o <> Undef ->
  o = Normal tt /\ exists x, live s i x /\ w s' = w s /\ tm (ti s') = tm (ti s) /\
  log s' = log s ++ map (fun c => (tm (ti s), ESchedD c (tm (ti s)))) (filter (due cond s) (a_kids x)).
Proof.
  intros Hc H N. unfold inst_tock in H. apply deref_inv in H; [|exact N]. destruct H as (x & G & H). apply get_nth in G.
  assert (X : forall l s1 o s', w s1 = w s -> tm (ti s1) = tm (ti s) ->
    each (fun c =>
      y <- deref c ;; now <- gets (fun s => tm (ti s)) ;;
      if negb (Z.eqb (a_life y) (-1)) && Z.leb (exit_time y) now then
        ok <- gets (cond c) ;;
        if negb (kind_eqb (a_kind y) KFac) || ok then sched_decom c (-1) else ret tt
      else ret tt) l s1 = (o, s') -> o <> Undef ->
    o = Normal tt /\ w s' = w s /\ tm (ti s') = tm (ti s) /\
    log s' = log s1 ++ map (fun c => (tm (ti s), ESchedD c (tm (ti s)))) (filter (due cond s) l)).
  { clear H N o s'. induction l as [|c l IH]; intros s1 o s' W T H N.
    - simpl in H. injection H as <- <-. simpl. rewrite app_nil_r. auto.
    - cbn [each] in H.
      assert (Y : exists s2, w s2 = w s /\ tm (ti s2) = tm (ti s) /\
        log s2 = log s1 ++ map (fun c => (tm (ti s), ESchedD c (tm (ti s)))) (filter (due cond s) [c]) /\
        each (fun c =>
          y <- deref c ;; now <- gets (fun s => tm (ti s)) ;;
          if negb (Z.eqb (a_life y) (-1)) && Z.leb (exit_time y) now then
            ok <- gets (cond c) ;;
            if negb (kind_eqb (a_kind y) KFac) || ok then sched_decom c (-1) else ret tt
          else ret tt) l s2 = (o, s')).
      { rewrite bind_assoc in H. apply deref_inv in H; [|exact N]. destruct H as (y & Gy & H). apply get_nth in Gy. destruct Gy as [Gy _].
        rewrite bind_assoc in H. unfold bind at 1, gets at 1 in H.
        assert (Du : due cond s c = negb (Z.eqb (a_life y) (-1)) && Z.leb (exit_time y) (tm (ti s)) && (negb (kind_eqb (a_kind y) KFac) || cond c s1)).
        { unfold due. rewrite <- W, Gy. unfold exit_time. destruct (Z.eqb (a_life y) (-1)); [reflexivity|].
          rewrite (Hc c s1 s W T). destruct (a_kind y); simpl; rewrite ?orb_true_r, ?orb_false_l; reflexivity. }
        rewrite T in H. destruct (negb _ && Z.leb _ _).
        - rewrite bind_assoc in H. unfold bind at 1, gets at 1 in H. destruct (negb _ || _).
          + destruct (bind_inv _ _ _ _ _ H) as [([] & s2 & E1 & E2)|(No & o1 & E1 & N1 & U)].
            * apply sched_now in E1; [|congruence]. destruct E1 as (_ & L2 & W2 & T2). exists s2.
              split; [congruence|]. split; [congruence|]. split; [|exact E2]. rewrite L2, T. cbn [filter]. rewrite Du. reflexivity.
            * exfalso. apply sched_now in E1; [|intros E; apply N; now apply U]. destruct E1 as [E1 _]. eapply N1; eauto.
          + exists s1. split; [exact W|]. split; [exact T|]. split; [|exact H]. cbn [filter]. rewrite Du. simpl. now rewrite app_nil_r.
        - exists s1. split; [exact W|]. split; [exact T|]. split; [|exact H]. cbn [filter]. rewrite Du. simpl. now rewrite app_nil_r. }
      destruct Y as (s2 & W2 & T2 & L2 & H2). destruct (IH _ _ _ W2 T2 H2 N) as (A & B & C & D).
      split; [exact A|]. split; [exact B|]. split; [exact C|].
      change (c :: l) with ([c] ++ l). rewrite D, L2, filter_app, map_app, app_assoc. reflexivity. }
  destruct (X _ _ _ _ eq_refl eq_refl H N) as (A & B & C & D). split; [exact A|]. exists x. auto.
Qed.

(** ** The effect of Build on the entry time *)
Lemma build_enters beh cond fuel a p s s' : do_cmd beh cond fuel (CBuild a p) s = (Normal tt, s') ->
  exists x, nth_error (heap (w s')) a = Some x /\ (a_enter x = tm (ti s) /\ tm (ti s') = tm (ti s)).
Proof.
  intros H. apply do_cmd_normal in H. destruct H as (f & [] & Ef & H).
  apply bind_normal in H. destruct H as ([] & s4 & E4 & E3).
  assert (T4 := x_tm _ _ _ (at_front _ _ (ext_atoms cond) _ _ _ _ _ E4 ltac:(discriminate))).
  apply front_normal in E4; [|discriminate].
  destruct E4 as [(_ & D & _)|(_ & Nq & x & pid & [L1 L2] & Lq & El & E2 & Ln & E4 & E5 & Np & Ns & F)]; [discriminate|].
  assert (Hy : nth_error (heap (w s4)) a = Some (joined (tm (ti s)) a p pid a x)) by (rewrite F, L1; reflexivity).
  assert (En : a_enter (joined (tm (ti s)) a p pid a x) = tm (ti s)).
  { unfold joined. rewrite Nat.eqb_refl. destruct p as [q|]; [|reflexivity]. destruct (Nat.eqb_spec a q); [congruence|reflexivity]. }
  unfold bind at 1, gets in E3. apply bind_normal in E3. destruct E3 as ([] & s5 & E5' & E6).
  assert (X : enters s4 s5) by (eapply (keeps_exec enters); eauto using enters_refl, enters_trans, enters_atoms; congruence).
  destruct X as (T5 & Ln5 & X).
  assert (La : (a < length (heap (w s4)))%nat) by (apply nth_error_Some; congruence).
  unfold build_back, bind, deref in E6. destruct (get s5 a); [|discriminate]. unfold modify in E6. injection E6 as <-. simpl.
  destruct (nth_error (heap (w s5)) a) as [z|] eqn:Ez; [|apply nth_error_None in Ez; lia].
  exists z. split; [reflexivity|]. split; [|congruence]. destruct (X _ _ Ez) as [E|[(y' & Hy' & E)|E]].
  - congruence.
  - congruence.
  - lia.
Qed.

(** ** The log is in order of time *)
Definition stamps (s s' : sim) : Prop := tm (ti s) <= tm (ti s') /\ exists suf, log s' = log s ++ suf /\
  Forall (fun x => tm (ti s) <= fst x <= tm (ti s')) suf /\ StronglySorted Z.le (map fst suf).
Lemma sorted_app l m z : StronglySorted Z.le l -> StronglySorted Z.le m -> Forall (fun x => x <= z) l -> Forall (fun x => z <= x) m ->
  StronglySorted Z.le (l ++ m).
Proof.
  induction 1 as [|a l H IH F]; simpl; intros Hm Fl Fm; [exact Hm|]. inversion Fl; subst. constructor; [auto|].
  apply Forall_app. split; [exact F|]. eapply Forall_impl; [|exact Fm]. simpl. intros; lia.
Qed.
Lemma stamps_refl s : stamps s s.
Proof. split; [lia|]. exists []. rewrite app_nil_r. split; [reflexivity|]. split; constructor. Qed.
Lemma stamps_trans a b c : stamps a b -> stamps b c -> stamps a c.
Proof.
  intros [A1 (s1 & L1 & F1 & S1)] [A2 (s2 & L2 & F2 & S2)]. split; [lia|]. exists (s1 ++ s2).
  rewrite L2, L1, app_assoc. split; [reflexivity|]. split.
  - apply Forall_app. split; (eapply Forall_impl; [|eassumption]); simpl; intros; lia.
  - rewrite map_app. apply sorted_app with (z := tm (ti b)); auto; apply Forall_map; (eapply Forall_impl; [|eassumption]); simpl; intros; lia.
Qed.
Lemma stamps_emit e s : stamps s (emit e s).
Proof. split; [simpl; lia|]. exists [(tm (ti s), e)]. simpl. split; [reflexivity|]. split; repeat constructor; simpl; lia. Qed.
Lemma run_stamps beh cond fuel setup t0 d o s' : simulate beh cond fuel setup t0 d = (o, s') -> o <> Undef ->
  StronglySorted Z.le (map fst (log s')).
Proof.
  intros H N. assert (X : stamps (sim0 t0 d) s').
  { eapply keeps_simulate; eauto using stamps_refl, stamps_trans.
    - assert (W : forall A (m : M A), keeps ext m -> keeps stamps m).
      { intros A m Hm a o1 b E N1. destruct (Hm _ _ _ E N1) as [(suf & L & F & _) T _ _ _]. split; [lia|].
        exists suf. split; [exact L|]. split.
        - eapply Forall_impl; [|exact F]. simpl. intros x [-> _]. lia.
        - clear L. induction F as [|x l [Ex _] F IH]; simpl; constructor; [exact IH|]. apply Forall_map. eapply Forall_impl; [|exact F].
          simpl. intros y [Ey _]. lia. }
      destruct (ext_atoms cond). constructor; intros; apply W; auto.
    - constructor; intros; apply keeps_modify; intros a; try apply stamps_emit; (split; [simpl; lia|]);
        (exists []; rewrite app_nil_r; split; [reflexivity|]; split; constructor).
    - intros p e _. apply keeps_modify. intros a. apply stamps_emit. }
  destruct X as (_ & suf & E & _ & Hs). simpl in E. rewrite E. exact Hs.
Qed.

(** ** Consequences for whole phases *)
Lemma sorted_after (pre : history) t e post : StronglySorted Z.le (map fst (pre ++ (t, e) :: post)) ->
  Forall (fun x => t <= fst x) post.
Proof.
  induction pre as [|x pre IH]; simpl; intros H; inversion H; subst; [|auto].
  apply (proj1 (Forall_map _ _ _)) in H3. exact H3.
Qed.
Lemma builds_none t l : Forall (fun x => match snd x with ESchedB _ _ _ t' => t < t' | _ => True end) l -> builds_for t l = [].
Proof.
  induction 1 as [|x l Hx H IH]; [reflexivity|]. unfold builds_for in *. cbn [flat_map]. rewrite IH, app_nil_r.
  destruct (snd x); try reflexivity. destruct (Z.eqb_spec t0 t); [lia|reflexivity].
Qed.
Section Runs.
Context (beh : hook -> sim -> prog) (cond : nat -> sim -> bool) (fuel : nat) (setup : prog) (t0 d : Z) (o : out unit) (s' : sim).
Hypothesis Hrun : simulate beh cond fuel setup t0 d = (o, s').
Hypothesis Hdef : o <> Undef.

Lemma run_inv : inv s'.
Proof. exact (proj1 (run_calls _ _ _ _ _ _ _ _ Hrun Hdef)). Qed.
Lemma builds_before pre seg t : whole_phase (log s') pre seg t PBuild -> builds_for t (log s') = builds_for t pre.
Proof.
  intros (post & E & _ & _). assert (So := run_stamps _ _ _ _ _ _ _ _ Hrun Hdef). assert (F := i_future _ run_inv).
  rewrite E in So, F |- *. apply sorted_after in So. apply Forall_app in F. destruct F as [_ F]. inversion F as [|? ? _ F2]; subst.
  unfold builds_for at 1. rewrite flat_map_app. fold (builds_for t pre). cbn [flat_map snd app].
  fold (builds_for t (seg ++ post)). rewrite (builds_none t (seg ++ post)), app_nil_r; [reflexivity|].
  rewrite Forall_forall in *. intros x Hx. specialize (So x Hx). specialize (F2 x Hx). simpl in F2. destruct (snd x); auto. lia.
Qed.
Lemma mark_free pre t p : standing (pre ++ [(t, EPhase p)]) = standing pre /\ builds_for t (pre ++ [(t, EPhase p)]) = builds_for t pre /\
  decoms_for t (pre ++ [(t, EPhase p)]) = decoms_for t pre.
Proof.
  split; [apply standing_snoc|]. split.
  - unfold builds_for. rewrite flat_map_app. simpl. apply app_nil_r.
  - unfold decoms_for. rewrite fold_left_app. reflexivity.
Qed.
Lemma whole_builds pre seg t : whole_phase (log s') pre seg t PBuild ->
  exists pieces, seg = concat pieces /\ Forall2 (built_as t) (builds_for t pre) pieces.
Proof.
  intros H. destruct (whole_executed _ _ _ _ _ _ _ _ _ _ _ _ Hrun Hdef H) as (s1 & s2 & I1 & _ & B & L1 & T1 & L2 & _).
  assert (J : at_t t s1) by (split; assumption).
  destruct (build_phase _ _ _ _ _ _ J B) as (pcs & Lp & F). exists pcs. rewrite L2 in Lp. apply app_inv_head in Lp. split; [exact Lp|].
  rewrite L1 in F. now rewrite (proj1 (proj2 (mark_free pre t PBuild))) in F.
Qed.
Lemma whole_decoms pre seg t : whole_phase (log s') pre seg t PDecom ->
  exists pieces, seg = concat pieces /\ Forall2 (left_as t) (decoms_for t pre) pieces.
Proof.
  intros H. destruct (whole_executed _ _ _ _ _ _ _ _ _ _ _ _ Hrun Hdef H) as (s1 & s2 & I1 & _ & B & L1 & T1 & L2 & _).
  assert (J : at_t t s1) by (split; assumption).
  destruct (decom_phase _ _ _ _ _ _ J B) as (pcs & Lp & F). exists pcs. rewrite L2 in Lp. apply app_inv_head in Lp. split; [exact Lp|].
  rewrite L1 in F. now rewrite (proj2 (proj2 (mark_free pre t PDecom))) in F.
Qed.
Lemma forall2_in {A B} (R : A -> B -> Prop) l m a : Forall2 R l m -> In a l -> exists b, In b m /\ R a b.
Proof. induction 1 as [|x y l m Hxy H IH]; intros []; [subst; exists y; simpl; auto|]. destruct IH as (b & Hb & Rb); auto. exists b. simpl; auto. Qed.
Lemma decommissioned pre seg t a : whole_phase (log s') pre seg t PDecom -> pending a pre = Some t -> In (t, EExit a (Z.of_nat a) t) seg.
Proof.
  intros H P. destruct (whole_decoms _ _ _ H) as (pcs & E & F). apply decoms_pending in P.
  destruct (forall2_in _ _ _ _ F P) as (pc & Ip & rest & Ep & Ie & _). rewrite E. apply in_concat. exists pc. split; [exact Ip|].
  rewrite Ep. now right.
Qed.
Lemma qdecoms_concat t l pcs : Forall2 (left_as t) l pcs -> qdecoms (concat pcs) = l.
Proof.
  induction 1 as [|a pc l pcs (rest & -> & _ & Q) H IH]; [reflexivity|]. simpl. unfold qdecoms in *. rewrite flat_map_app, Q, IH. reflexivity.
Qed.
Lemma qbuilds_concat t l pcs : Forall2 (built_as t) l pcs -> qbuilds (concat pcs) = l.
Proof.
  induction 1 as [|[n p] pc l pcs (a & rest & -> & _ & _ & Q) H IH]; [reflexivity|]. simpl. unfold qbuilds in *.
  rewrite flat_map_app, Q, IH. reflexivity.
Qed.
Lemma shim_same s2 b : inv s2 -> hrel (w s2) (w s') -> (b < length (heap (w s2)))%nat -> shim_of s' b = shim_of s2 b.
Proof.
  intros I2 [Hl Hh] L. unfold shim_of. destruct (nth_error (heap (w s2)) b) as [x|] eqn:E; [|apply nth_error_None in E; lia].
  destruct (Hh _ _ E) as (y & Ey & R). rewrite Ey. apply R.
Qed.
Lemma filter_same {A} (P Q : A -> bool) l : (forall a, In a l -> P a = Q a) -> filter P l = filter Q l.
Proof. induction l as [|a l IH]; intros H; [reflexivity|]. simpl. rewrite (H a), IH; simpl; auto. intros b Hb. apply H. now right. Qed.
Lemma whole_calls (proj : history -> list nat) ev h p pre seg t : calls_of ev ->
  (forall l m, proj (l ++ m) = proj l ++ proj m) -> (forall m, calm t m -> proj m = []) -> (forall a, proj [(t, ev a)] = [a]) ->
  body beh cond p fuel = (py_loop beh cond fuel ev h ;; cpp_loop beh cond fuel fuel 0 ev h) ->
  whole_phase (log s') pre seg t p -> unregs seg = [] ->
  proj seg = filter (shim_of s') (standing pre) ++ filter (fun a => negb (shim_of s' a)) (standing (pre ++ seg)).
Proof.
  intros C A1 A2 A3 Eb H U. destruct (whole_executed _ _ _ _ _ _ _ _ _ _ _ _ Hrun Hdef H) as (s1 & s2 & I1 & I2 & B & L1 & T1 & L2 & Hr).
  assert (J : at_t t s1) by (split; assumption). rewrite Eb in B.
  destruct (tick_phase _ _ _ proj ev h _ _ _ C A1 A2 A3 J B) as (_ & _ & seg' & Ls & X).
  rewrite L2 in Ls. apply app_inv_head in Ls. subst seg'. rewrite X by exact U.
  assert (S2 : standing (log s2) = standing (pre ++ seg)).
  { rewrite L2, L1. rewrite (standing_no_unreg (pre ++ _) seg U), (standing_no_unreg pre seg U). now rewrite (proj1 (mark_free pre t p)). }
  rewrite S2, L1, (proj1 (mark_free pre t p)). assert (R2 := i_reg _ I2). rewrite S2 in R2. rewrite Forall_forall in R2.
  f_equal; apply filter_same; intros b Hb.
  - symmetry. apply shim_same; auto. apply R2. rewrite standing_no_unreg by exact U. apply in_or_app. now left.
  - f_equal. symmetry. apply shim_same; auto.
Qed.
Lemma whole_decides pre seg t : whole_phase (log s') pre seg t PDecide ->
  StronglySorted lt (decides seg) /\ forall b, In b (standing pre) -> ~ In b (unregs seg) -> In b (decides seg).
Proof.
  intros H. destruct (whole_executed _ _ _ _ _ _ _ _ _ _ _ _ Hrun Hdef H) as (s1 & s2 & I1 & I2 & B & L1 & T1 & L2 & Hr).
  assert (J : at_t t s1) by (split; assumption).
  destruct (decision_phase _ _ _ _ _ _ J B) as (seg' & Ls & A & C). rewrite L2 in Ls. apply app_inv_head in Ls. subst seg'.
  split; [exact A|]. rewrite L1, (proj1 (mark_free pre t PDecide)) in C. exact C.
Qed.
End Runs.
