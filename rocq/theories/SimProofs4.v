(** What happens in each phase. *)
From Coq Require Import String List ZArith Bool Arith Lia Sorted.
From Verif Require Import Base SimModel SimSpec SimProofs1 SimProofs2 SimProofs3.
Import ListNotations.
Local Open Scope Z_scope.

(** Stretches of user code. *)
Definition calm (t : Z) (l : history) : Prop := Forall (fun x => fst x = t /\ inner (snd x) = true) l.
Lemma calm_app t a b : calm t (a ++ b) <-> calm t a /\ calm t b. Proof. apply Forall_app. Qed.
Lemma flat_calm {A} (g : Z * event -> list A) t l :
  (forall x, inner (snd x) = true -> g x = []) -> calm t l -> flat_map g l = [].
Proof. intros H. induction 1 as [|x l [_ Hx] _ IH]; simpl; [reflexivity|]. now rewrite (H x Hx), IH. Qed.
Ltac quiet := intros [? []]; simpl; unfold inner; simpl; congruence.
Lemma calm_ticks t l : calm t l -> ticks l = []. Proof. apply flat_calm. quiet. Qed.
Lemma calm_tocks t l : calm t l -> tocks l = []. Proof. apply flat_calm. quiet. Qed.
Lemma calm_decides t l : calm t l -> decides l = []. Proof. apply flat_calm. quiet. Qed.
Lemma calm_qbuilds t l : calm t l -> qbuilds l = []. Proof. apply flat_calm. quiet. Qed.
Lemma calm_qdecoms t l : calm t l -> qdecoms l = []. Proof. apply flat_calm. quiet. Qed.

Lemma ext_calm s s' : ext s s' -> exists suf, log s' = log s ++ suf /\ calm (tm (ti s)) suf.
Proof. intros [(suf & L & F & _) _ _ _ _]. exists suf. split; [exact L|]. eapply Forall_impl; [|exact F]. simpl. tauto. Qed.

Lemma bind_normal {A B} (m : M A) (k : A -> M B) s b s' : bind m k s = (Normal b, s') ->
  exists a s1, m s = (Normal a, s1) /\ k a s1 = (Normal b, s').
Proof. unfold bind. destruct (m s) as [[a|e| |] s1] eqn:E; intros H; try discriminate. eauto. Qed.

Lemma each_pieces {A} (J : sim -> Prop) (P : A -> history -> Prop) (f : A -> M unit) l : forall s s', J s ->
  (forall x s s', J s -> f x s = (Normal tt, s') -> J s' /\ exists pc, log s' = log s ++ pc /\ P x pc) ->
  each f l s = (Normal tt, s') ->
  J s' /\ exists pcs, log s' = log s ++ concat pcs /\ Forall2 P l pcs.
Proof.
  induction l as [|x l IH]; intros s s' Js Hf H.
  - simpl in H. injection H as <-. split; [exact Js|]. exists []. simpl. rewrite app_nil_r. auto.
  - simpl in H. apply bind_normal in H. destruct H as ([] & s1 & E1 & E2).
    destruct (Hf _ _ _ Js E1) as (J1 & pc & L1 & P1). destruct (IH _ _ J1 Hf E2) as (J2 & pcs & L2 & P2).
    split; [exact J2|]. exists (pc :: pcs). simpl. rewrite L2, L1, app_assoc. auto.
Qed.

(** ** A finer decomposition of the atomic operations *)
Section Micro.
Context (R : sim -> sim -> Prop) (Rrefl : forall s, R s s) (Rtrans : forall a b c, R a b -> R b c -> R a c).
Record micro : Prop := {
  mi_emit : forall e s, inner e = true -> R s (emit e s);
  mi_timer : forall f s, tm (f (ti s)) = tm (ti s) -> R s (with_ti f s);
  mi_world : forall f s, heap (f (w s)) = heap (w s) -> nid (f (w s)) = nid (w s) -> R s (with_w f s);
  mi_new : forall k sh pr sp l, keeps R (construct k sh pr sp l);
  mi_set : forall s a x y, get s a = Some x ->
    (exists p pid, y = set_parent p pid x) \/ (exists l, y = set_kids l x) \/ (exists n, y = set_life n x) \/
    y = set_enter (tm (ti s)) x \/ y = set_dead x -> R s (set_agent a y s) }.
Context (H : micro).
Local Notation K := (keeps R).
Lemma mb {A B} (m : M A) (k : A -> M B) : K m -> (forall a, K (k a)) -> K (bind m k).
Proof. apply keeps_bind; auto. Qed.
Lemma mret {A} (a : A) : K (ret a). Proof. now apply keeps_ret. Qed.
Lemma mraise {A} e : K (@raise A e). Proof. now apply keeps_raise. Qed.
Lemma mgets {A} (f : sim -> A) : K (gets f). Proof. now apply keeps_gets. Qed.
Lemma mderef a : K (deref a). Proof. now apply keeps_deref. Qed.
Lemma memit e : inner e = true -> K (modify (emit e)). Proof. intros E. apply keeps_modify. intros s. now apply (mi_emit H). Qed.
Lemma mboth e f : inner e = true -> (forall x, tm (f x) = tm x) -> K (modify (fun s => emit e (with_ti f s))).
Proof. intros E F. apply keeps_modify. intros s. eapply Rtrans; [apply (mi_timer H); auto|now apply (mi_emit H)]. Qed.
Lemma mset a f : (forall x, (exists p pid, f x = set_parent p pid x) \/ (exists l, f x = set_kids l x) \/ (exists n, f x = set_life n x) \/ f x = set_dead x) ->
  K (modify_agent a f).
Proof.
  intros F s o s' E N. unfold modify_agent, bind, deref in E. destruct (get s a) as [x|] eqn:G; [|congruence].
  unfold modify in E. injection E as <- <-. apply (mi_set H) with (x := x); auto. destruct (F x) as [A|[A|[A|A]]]; auto.
Qed.
Lemma m_register a : K (register a).
Proof. apply mb; [apply mderef|]. intros x. apply mboth; auto. Qed.
Lemma m_unregister a : K (unregister a).
Proof. apply mb; [apply mderef|]. intros x. apply mboth; auto. Qed.
Lemma m_sched_build p n t : K (sched_build p n t).
Proof.
  apply mb; [apply mgets|]. intros now. apply mb.
  - destruct p; [|apply mret]. apply mb; [apply mderef|]. intros; apply mret.
  - intros pid. apply mb; [|intros _; now apply memit].
    intros s o s' E N. unfold timer_sched_build in E. destruct (Z.leb _ _); injection E as <- <-; [apply Rrefl|].
    now apply (mi_timer H).
Qed.
Lemma m_sched_decom a t : K (sched_decom a t).
Proof.
  apply mb; [apply mgets|]. intros now. apply mb.
  - intros s o s' E N. unfold timer_sched_decom in E. destruct (Z.ltb _ _); injection E as <- <-; [apply Rrefl|].
    now apply (mi_timer H).
  - intros _. apply mb; [apply mderef|]. intros _. now apply memit.
Qed.
Lemma m_count x d : K (count_agent x d). Proof. apply keeps_modify. intros s. now apply (mi_world H). Qed.
Lemma m_traders f : K (set_traders f). Proof. apply keeps_modify. intros s. now apply (mi_world H). Qed.
Lemma m_each {A} (f : A -> M unit) l : (forall x, K (f x)) -> K (each f l). Proof. apply keeps_each; auto. Qed.
Lemma m_del a : K (del_agent a).
Proof.
  apply mb; [apply mgets|]. intros [|]; [|apply mret]. apply mb; [apply keeps_modify; intros s; now apply (mi_world H)|].
  intros _. apply mb; [apply mderef|]. intros x. apply mb.
  - destruct (a_parent x); [|apply mret]. apply mset. eauto.
  - intros _. apply mb; [apply m_each; intros c; apply mset; eauto|]. intros _. apply mb; [apply mset; auto|].
    intros _. now apply memit.
Qed.
Lemma m_create want n : K (create_agent want n).
Proof.
  apply mb; [apply mgets|]. intros [p|]; [|apply mraise]. apply mb; [apply mderef|]. intros x.
  apply mb; [apply (mi_new H)|]. intros a. destruct want as [k|].
  - destruct (kind_eqb _ _).
    + apply mb; [now apply memit|]. intros; apply mret.
    + apply mb; [apply m_del|]. intros; apply mraise.
  - apply mb; [now apply memit|]. intros; apply mret.
Qed.
Lemma m_add n a o : K (add_prototype n a o).
Proof.
  apply mb; [apply mgets|]. intros known. destruct (_ && _); [apply mraise|]. apply mb; [apply mderef|]. intros _.
  apply keeps_modify. intros s. eapply Rtrans; [|apply (mi_emit H); reflexivity]. now apply (mi_world H).
Qed.
Lemma m_life a n : K (set_lifetime a n).
Proof.
  intros s o s' E N. unfold set_lifetime, bind, deref in E. destruct (get s a) as [x|] eqn:G; [|congruence].
  destruct (Z.eqb _ _); injection E as <- <-; [|apply Rrefl]. apply (mi_set H) with (x := x); eauto.
Qed.
Lemma m_force a n : K (lifetime_force a n).
Proof.
  intros s o s' E N. unfold lifetime_force, bind at 1, deref in E. destruct (get s a) as [x|] eqn:G; [|congruence].
  destruct (Z.eqb _ _); [injection E as <- <-; apply (mi_set H) with (x := x); eauto|].
  unfold bind, gets in E. destruct (Z.leb _ _); [now apply (m_life _ _ _ _ _ E)|].
  injection E as <- <-. apply (mi_set H) with (x := x); eauto.
Qed.
Lemma m_connect a p : K (connect a p).
Proof.
  destruct p as [p|]; simpl; [|apply mret]. destruct (Nat.eqb p a); [apply mraise|].
  apply mb; [apply mderef|]. intros y. apply mb; [apply mset; eauto|]. intros _. apply mset; eauto.
Qed.
Lemma m_enter a : K (enter_notify a).
Proof.
  apply mb; [apply mderef|]. intros x. destruct (a_kind x).
  - apply mb; [apply m_count|]. intros _. apply mb; [apply m_traders|]. intros _. apply m_register.
  - apply m_register.
  - apply m_register.
  - apply m_count.
Qed.
Lemma m_set_enter a : K (now <- gets (fun s => tm (ti s)) ;; modify_agent a (set_enter now)).
Proof.
  intros s o s' E N. unfold bind, gets, modify_agent, bind, deref in E. destruct (get s a) as [x|] eqn:G; [|congruence].
  unfold modify in E. injection E as <- <-. apply (mi_set H) with (x := x); auto.
Qed.
Lemma m_front a p : K (build_front a p).
Proof.
  apply mb; [now apply memit|]. intros _. apply mb; [apply mderef|]. intros _. apply mb; [apply m_connect|]. intros _.
  eapply keeps_ext; [intros s; apply bind_assoc|]. apply mb; [apply m_set_enter|]. intros _. apply m_enter.
Qed.
Lemma m_back a : K (build_back a).
Proof. apply mb; [apply mderef|]. intros x. now apply memit. Qed.
Lemma m_base a : K (base_decom a).
Proof.
  apply mb; [apply mderef|]. intros x. apply mb; [apply mgets|]. intros now. apply mb; [now apply memit|]. intros _.
  apply mb; [apply m_count|]. intros _. apply m_del.
Qed.
Lemma m_kind_decom cond a : K (kind_decom cond a).
Proof.
  apply mb; [apply mderef|]. intros x. destruct (a_kind x).
  - apply mb; [apply mgets|]. intros [|]; [|apply mraise]. apply mb; [apply m_traders|]. intros _.
    apply mb; [apply m_unregister|]. intros _. apply m_base.
  - apply mb; [apply m_unregister|]. intros _. apply m_base.
  - apply mb; [apply m_unregister|]. intros _. apply m_base.
  - apply m_base.
Qed.
Lemma micro_atoms cond : atoms R cond.
Proof.
  constructor; auto using m_register, m_unregister, m_sched_build, m_sched_decom, m_create, m_add, m_life, m_force,
    m_front, m_back, m_kind_decom.
  - apply keeps_modify. intros s. eapply Rtrans; [|apply (mi_emit H); reflexivity]. now apply (mi_timer H).
  - apply keeps_modify. intros s. now apply (mi_timer H).
  - apply (mi_new H).
Qed.
End Micro.

Section P.
Context (beh : hook -> sim -> prog) (cond : nat -> sim -> bool) (fuel : nat).

(** ** Entry times *)
Definition enters (s s' : sim) : Prop := tm (ti s') = tm (ti s) /\ (length (heap (w s)) <= length (heap (w s')))%nat /\
  forall a x', nth_error (heap (w s')) a = Some x' ->
    a_enter x' = tm (ti s) \/ (exists x, nth_error (heap (w s)) a = Some x /\ a_enter x' = a_enter x) \/
    (length (heap (w s)) <= a)%nat.
Lemma enters_refl s : enters s s.
Proof. split; [reflexivity|]. split; [lia|]. intros a x' H. right; left. eauto. Qed.
Lemma enters_trans a b c : enters a b -> enters b c -> enters a c.
Proof.
  intros (T1 & L1 & H1) (T2 & L2 & H2). split; [congruence|]. split; [lia|]. intros i x' Hx.
  destruct (H2 _ _ Hx) as [E|[(y & Hy & E)|E]].
  - left. congruence.
  - destruct (H1 _ _ Hy) as [E1|[(z & Hz & E1)|E1]].
    + left. congruence.
    + right; left. exists z. split; [exact Hz|congruence].
    + right; right. exact E1.
  - right; right. lia.
Qed.
Lemma enters_same s s' : tm (ti s') = tm (ti s) -> heap (w s') = heap (w s) -> enters s s'.
Proof. intros T E. split; [exact T|]. rewrite E. split; [lia|]. intros a x' H. right; left. eauto. Qed.
Lemma enters_set s a x y : get s a = Some x -> a_enter y = a_enter x \/ a_enter y = tm (ti s) -> enters s (set_agent a y s).
Proof.
  intros G E. apply get_nth in G. destruct G as [G _]. split; [reflexivity|]. simpl. rewrite upd_length. split; [lia|].
  intros b z Hz. destruct (Nat.eq_dec a b) as [<-|N].
  - rewrite nth_upd_same in Hz by (apply nth_error_Some; congruence). injection Hz as <-.
    destruct E as [E|E]; [right; left; eauto|left; exact E].
  - rewrite nth_upd_other in Hz by congruence. right; left. eauto.
Qed.
Lemma enters_micro : micro enters.
Proof.
  constructor.
  - intros. now apply enters_same.
  - intros. now apply enters_same.
  - intros. now apply enters_same.
  - intros k sh pr sp l s o s' [= <- <-] _. split; [reflexivity|]. simpl. rewrite app_length. split; [lia|].
    intros a x' Hx. destruct (Nat.lt_ge_cases a (length (heap (w s)))) as [L|L]; [|auto].
    rewrite nth_error_app1 in Hx by exact L. right; left. eauto.
  - intros s a x y G C. eapply enters_set; [exact G|].
    destruct C as [(p & pid & ->)|[(l & ->)|[(n & ->)|[->| ->]]]]; simpl; auto.
Qed.
Lemma enters_atoms : atoms enters cond.
Proof. apply micro_atoms; [apply enters_refl|apply enters_trans|apply enters_micro]. Qed.

(** ** Building *)
Lemma create_log n s a s' : create_agent None n s = (Normal a, s') ->
  log s' = log s ++ [(tm (ti s), ENew a); (tm (ti s), ECreate n a)] /\ tm (ti s') = tm (ti s).
Proof.
  intros H. unfold create_agent in H. apply bind_normal in H. destruct H as (f & s0 & E0 & H).
  unfold gets in E0. injection E0 as <- <-. destruct (sfind n _) as [p|]; [|discriminate].
  apply bind_normal in H. destruct H as (x & s1 & E1 & H). unfold deref in E1. destruct (get s p); [|discriminate].
  injection E1 as <- <-. apply bind_normal in H. destruct H as (b & s2 & E2 & H). unfold construct in E2.
  injection E2 as <- <-. unfold bind, modify, ret in H. injection H as <- <-. simpl. rewrite <- app_assoc. auto.
Qed.

Lemma do_cmd_normal c s s' : do_cmd beh cond fuel c s = (Normal tt, s') ->
  exists f v, fuel = S f /\
  match c with
  | CBuild a p => (build_front a p ;; prg <- gets (beh (HEnter a)) ;; exec beh cond f prg ;; build_back a) s = (Normal v, s')
  | CDecom a => (deref a ;; prg <- gets (beh (HDecom a)) ;; exec beh cond f prg ;; kind_decom cond a) s = (Normal v, s')
  | _ => True
  end.
Proof.
  intros H. unfold do_cmd in H. destruct fuel as [|f]; [discriminate|]. exists f.
  destruct c; try (exists tt; now auto).
  - cbn [exec] in H.
    match type of H with (match (bind ?m ?k) s with _ => _ end) = _ => destruct (bind m k s) as [[v|e| |] s1] eqn:E end;
      try discriminate; [|destruct f; discriminate].
    apply bind_normal in E. destruct E as ([] & s2 & E & Er). unfold ret in Er. injection Er as <- <-.
    rewrite build_split in E. destruct f; [discriminate|]. simpl in H. injection H as <-. exists tt.
    split; [reflexivity|exact E].
  - cbn [exec] in H.
    match type of H with (match (bind ?m ?k) s with _ => _ end) = _ => destruct (bind m k s) as [[v|e| |] s1] eqn:E end;
      try discriminate; [|destruct f; discriminate].
    apply bind_normal in E. destruct E as ([] & s2 & E & Er). unfold ret in Er. injection Er as <- <-.
    destruct f; [discriminate|]. simpl in H. injection H as <-. exists tt. split; [reflexivity|exact E].
Qed.

Definition at_t (t : Z) (s : sim) : Prop := inv s /\ tm (ti s) = t.
Lemma at_ext t s s' : at_t t s -> ext s s' -> at_t t s'.
Proof. intros [I T] E. split; [now apply (x_inv _ _ _ E)|]. rewrite (x_tm _ _ _ E). exact T. Qed.
Lemma step_calm {A} t (m : M A) s a s' : keeps ext m -> at_t t s -> m s = (Normal a, s') ->
  at_t t s' /\ exists suf, log s' = log s ++ suf /\ calm t suf.
Proof.
  intros K J E. assert (X : ext s s') by (eapply K; eauto; congruence). split; [eapply at_ext; eauto|].
  destruct J as [_ <-]. now apply ext_calm.
Qed.
Lemma at_emit t e s : at_t t s -> neutral e = true -> at_t t (emit e s).
Proof.
  intros [I T] N. assert (E : exto (fun _ => true) s (emit e s)) by (apply ext_emit; auto).
  split; [now apply (x_inv _ _ _ E)|exact T].
Qed.
Lemma inv_id s a x : inv s -> get s a = Some x -> a_id x = Z.of_nat a.
Proof. intros I G. apply get_nth in G. destruct G as [G _]. apply (i_ids _ I) in G. exact G. Qed.

Lemma front_log a p s s' t : at_t t s -> build_front a p s = (Normal tt, s') ->
  at_t t s' /\ (exists suf, log s' = log s ++ (t, EBuild a p) :: suf /\ calm t suf) /\
  exists x, nth_error (heap (w s')) a = Some x /\ a_enter x = t.
Proof.
  intros J H. unfold build_front in H. unfold bind at 1, modify in H.
  assert (J1 : at_t t (emit (EBuild a p) s)) by now apply at_emit.
  match type of H with ?m ?s0 = _ => assert (K : keeps ext m) end.
  { apply k_bind; [apply k_deref|]. intros _. apply k_bind; [apply k_connect|]. intros _. apply k_bind; [apply k_gets|].
    intros now. apply k_bind; [apply k_modify_agent; intros x; unfold same_ident; simpl; tauto|]. intros _. apply k_enter. }
  destruct (step_calm _ _ _ _ _ K J1 H) as (J2 & suf & L & C). split; [exact J2|]. split.
  - exists suf. split; [|exact C]. rewrite L. simpl. rewrite (proj2 J), <- app_assoc. reflexivity.
  - apply bind_normal in H. destruct H as (x0 & s1 & E1 & H). apply bind_normal in H. destruct H as ([] & s2 & E2 & H).
    apply bind_normal in H. destruct H as (now & s3 & E3 & H). unfold gets in E3. injection E3 as <- <-.
    apply bind_normal in H. destruct H as ([] & s4 & E4 & H).
    unfold modify_agent, bind, deref in E4. destruct (get s2 a) as [x|] eqn:G; [|discriminate].
    unfold modify in E4. injection E4 as <-.
    assert (T2 : tm (ti s2) = t).
    { unfold deref in E1. destruct (get _ a); [|discriminate]. injection E1 as <- <-.
      assert (Y : ext (emit (EBuild a p) s) s2) by (eapply k_connect; eauto; congruence). rewrite (x_tm _ _ _ Y). apply J1. }
    assert (G' := G). apply get_nth in G'. destruct G' as [G' _].
    assert (E5 : enters (set_agent a (set_enter (tm (ti s2)) x) s2) s').
    { apply (m_enter enters enters_refl enters_trans enters_micro _ _ _ _ H). congruence. }
    destruct E5 as (T5 & L5 & H5). simpl in *. rewrite upd_length in *.
    assert (La : (a < length (heap (w s2)))%nat) by (apply nth_error_Some; congruence).
    destruct (nth_error (heap (w s')) a) as [z|] eqn:Ez; [|apply nth_error_None in Ez; lia].
    exists z. split; [reflexivity|]. destruct (H5 _ _ Ez) as [E|[(y & Hy & E)|E]]; [congruence| |lia].
    rewrite nth_upd_same in Hy by exact La. injection Hy as <-. simpl in E. congruence.
Qed.
Lemma back_log a s s' t : at_t t s -> (exists x, nth_error (heap (w s)) a = Some x /\ a_enter x = t) ->
  build_back a s = (Normal tt, s') -> at_t t s' /\ exists pr pid life, log s' = log s ++ [(t, EEntry a (Z.of_nat a) pr pid life t)].
Proof.
  intros J (x & Hx & En) H. unfold build_back, bind, deref in H. destruct (get s a) as [y|] eqn:G; [|discriminate].
  unfold modify in H. injection H as <-. split; [now apply at_emit|]. simpl. rewrite (inv_id _ _ _ (proj1 J) G), (proj2 J).
  apply get_nth in G. destruct G as [G _]. assert (y = x) by congruence. subst y. rewrite En. eauto.
Qed.

Lemma build_piece t x s s' : at_t t s ->
  (modify (emit (EQBuild (fst x) (snd x))) ;;
    a <- create_agent None (fst x) ;;
    do_cmd beh cond fuel (CBuild a (snd x)) ;;
    match snd x with
    | Some p => deref p ;; modify (emit (EBuildNotify p a)) ;; call beh cond fuel p (HBuildNotify p a)
    | None => ret tt
    end) s = (Normal tt, s') -> at_t t s' /\ exists pc, log s' = log s ++ pc /\ built_as t x pc.
Proof.
  intros J H. unfold bind at 1, modify at 1 in H.
  assert (J1 : at_t t (emit (EQBuild (fst x) (snd x)) s)) by now apply at_emit.
  apply bind_normal in H. destruct H as (a & s2 & E2 & H).
  assert (L2 := create_log _ _ _ _ E2). destruct (step_calm _ _ _ _ _ (k_create _ _) J1 E2) as (J2 & _).
  destruct L2 as [L2 _]. rewrite (proj2 J1) in L2. simpl in L2. rewrite (proj2 J), <- app_assoc in L2.
  apply bind_normal in H. destruct H as ([] & s3 & E3 & H).
  apply do_cmd_normal in E3. destruct E3 as (f & [] & Ef & E3).
  apply bind_normal in E3. destruct E3 as ([] & s4 & E4 & E3).
  destruct (front_log _ _ _ _ _ J2 E4) as (J4 & (suf4 & L4 & C4) & (y & Hy & En)).
  unfold bind at 1, gets in E3. apply bind_normal in E3. destruct E3 as ([] & s5 & E5 & E6).
  destruct (step_calm _ _ _ _ _ (k_exec _ _ _ _) J4 E5) as (J5 & suf5 & L5 & C5).
  assert (X : enters s4 s5) by (eapply (keeps_exec enters); eauto using enters_refl, enters_trans, enters_atoms; congruence).
  destruct X as (T5 & Ln5 & X).
  assert (Hz : exists z, nth_error (heap (w s5)) a = Some z /\ a_enter z = t).
  { destruct (nth_error (heap (w s5)) a) as [z|] eqn:Ez.
    - exists z. split; [reflexivity|]. destruct (X _ _ Ez) as [E|[(y' & Hy' & E)|E]].
      + rewrite E. apply J4.
      + congruence.
      + assert (a < length (heap (w s4)))%nat by (apply nth_error_Some; congruence). lia.
    - apply nth_error_None in Ez. assert (a < length (heap (w s4)))%nat by (apply nth_error_Some; congruence). lia. }
  destruct (back_log _ _ _ _ J5 Hz E6) as (J6 & pr & pid & life & L6).
  assert (R : exists suf7, at_t t s' /\ log s' = log s3 ++ suf7 /\ qbuilds suf7 = [] /\ forall q, snd x = Some q -> In (t, EBuildNotify q a) suf7).
  { destruct (snd x) as [p|].
    - apply bind_normal in H. destruct H as (px & s7 & E7 & H). unfold deref in E7. destruct (get s3 p); [|discriminate].
      injection E7 as <- <-. unfold bind at 1, modify in H.
      assert (J7 : at_t t (emit (EBuildNotify p a) s3)) by now apply at_emit.
      destruct (step_calm _ _ _ _ _ (k_call _ _ _ _ _) J7 H) as (J8 & suf8 & L8 & C8).
      exists ((t, EBuildNotify p a) :: suf8). split; [exact J8|]. split; [|split].
      + rewrite L8. simpl. rewrite (proj2 J6), <- app_assoc. reflexivity.
      + simpl. eapply calm_qbuilds; eauto.
      + intros q [= <-]. simpl. auto.
    - unfold ret in H. injection H as <-. exists []. split; [exact J6|]. rewrite app_nil_r. split; [reflexivity|]. split; [reflexivity|discriminate]. }
  destruct R as (suf7 & J7 & L7 & Q7 & N7). split; [exact J7|].
  eexists. split. { rewrite L7, L6, L5, L4, L2, <- !app_assoc. reflexivity. }
  exists a. eexists. split; [simpl; reflexivity|]. split; [|split].
  - exists pr, pid, life. rewrite !in_app_iff. simpl. auto.
  - intros q Hq. apply N7 in Hq. rewrite !in_app_iff. simpl. rewrite ?in_app_iff. tauto.
  - unfold qbuilds in *. rewrite !flat_map_app. simpl. rewrite ?flat_map_app, Q7, ?app_nil_r.
    assert (Z4 := calm_qbuilds _ _ C4). assert (Z5 := calm_qbuilds _ _ C5). unfold qbuilds in Z4, Z5. now rewrite Z4, Z5.
Qed.

Lemma build_phase t s s' : at_t t s -> do_build beh cond fuel s = (Normal tt, s') ->
  exists pcs, log s' = log s ++ concat pcs /\ Forall2 (built_as t) (builds_for t (log s)) pcs.
Proof.
  intros J H. unfold do_build, bind at 1, gets in H. rewrite (proj2 J) in H.
  assert (E : match zfind t (bq (ti s)) with Some l => l | None => [] end = builds_for t (log s)).
  { rewrite <- (i_bq _ (proj1 J)). reflexivity. }
  rewrite E in H. apply (each_pieces (at_t t) (built_as t)) in H; auto; [tauto|].
  intros x a b Ja Hb. now apply build_piece.
Qed.

(** ** Decommissioning *)
Lemma base_exit a s s' t : at_t t s -> base_decom a s = (Normal tt, s') ->
  at_t t s' /\ exists suf, log s' = log s ++ suf /\ calm t suf /\ In (t, EExit a (Z.of_nat a) t) suf.
Proof.
  intros J H. destruct (step_calm _ _ _ _ _ (k_base_decom a) J H) as (J' & suf & L & C).
  split; [exact J'|]. exists suf. split; [exact L|]. split; [exact C|].
  unfold base_decom in H. apply bind_normal in H. destruct H as (x & s1 & E1 & H). unfold deref in E1.
  destruct (get s a) as [x'|] eqn:G; [|discriminate]. injection E1 as <- <-. unfold bind at 1, gets in H.
  unfold bind at 1, modify in H. rewrite (inv_id _ _ _ (proj1 J) G), (proj2 J) in H.
  match type of H with ?m ?s0 = _ => assert (K : keeps ext m) by (apply k_bind; [apply k_count|intros _; apply k_del_agent]) end.
  assert (J1 : at_t t (emit (EExit a (Z.of_nat a) t) s)) by now apply at_emit.
  destruct (step_calm _ _ _ _ _ K J1 H) as (_ & suf1 & L1 & _). simpl in L1. rewrite L, <- app_assoc in L1.
  apply app_inv_head in L1. rewrite L1, (proj2 J). simpl. auto.
Qed.
Lemma kind_exit a s s' t : at_t t s -> kind_decom cond a s = (Normal tt, s') ->
  at_t t s' /\ exists suf, log s' = log s ++ suf /\ calm t suf /\ In (t, EExit a (Z.of_nat a) t) suf.
Proof.
  intros J H. unfold kind_decom in H. apply bind_normal in H. destruct H as (x & s1 & E1 & H). unfold deref in E1.
  destruct (get s a) as [x'|] eqn:G; [|discriminate]. injection E1 as <- <-.
  assert (U : forall s, at_t t s -> (unregister a ;; base_decom a) s = (Normal tt, s') ->
     at_t t s' /\ exists suf, log s' = log s ++ suf /\ calm t suf /\ In (t, EExit a (Z.of_nat a) t) suf).
  { intros s0 J0 H0. apply bind_normal in H0. destruct H0 as ([] & s2 & E2 & H0).
    destruct (step_calm _ _ _ _ _ (k_unregister a) J0 E2) as (J2 & suf2 & L2 & C2).
    destruct (base_exit _ _ _ _ J2 H0) as (J3 & suf3 & L3 & C3 & I3). split; [exact J3|]. exists (suf2 ++ suf3).
    rewrite L3, L2, app_assoc, calm_app, in_app_iff. auto. }
  destruct (a_kind x').
  - unfold bind at 1, gets in H. destruct (cond a s); [|discriminate].
    apply bind_normal in H. destruct H as ([] & s2 & E2 & H).
    unfold set_traders, modify in E2. injection E2 as <-. apply U in H; [exact H|].
    eapply at_ext; [exact J|]. now apply ext_other_world.
  - now apply U.
  - now apply U.
  - now apply base_exit.
Qed.

Lemma decom_piece t a s s' : at_t t s ->
  (modify (emit (EQDecom a)) ;;
    x <- deref a ;;
    match a_parent x with
    | Some p => modify (emit (EDecomNotify p a)) ;; call beh cond fuel p (HDecomNotify p a)
    | None => ret tt
    end ;;
    do_cmd beh cond fuel (CDecom a)) s = (Normal tt, s') -> at_t t s' /\ exists pc, log s' = log s ++ pc /\ left_as t a pc.
Proof.
  intros J H. unfold bind at 1, modify at 1 in H.
  assert (J1 : at_t t (emit (EQDecom a) s)) by now apply at_emit.
  apply bind_normal in H. destruct H as (x & s1 & E1 & H). unfold deref in E1.
  destruct (get _ a) as [x'|] eqn:G; [|discriminate]. injection E1 as <- <-.
  apply bind_normal in H. destruct H as ([] & s2 & E2 & H).
  assert (C2 : at_t t s2 /\ exists suf, log s2 = log (emit (EQDecom a) s) ++ suf /\ calm t suf).
  { destruct (a_parent x') as [p|].
    - unfold bind at 1, modify in E2.
      assert (J2 : at_t t (emit (EDecomNotify p a) (emit (EQDecom a) s))) by now apply at_emit.
      destruct (step_calm _ _ _ _ _ (k_call _ _ _ _ _) J2 E2) as (J3 & suf & L & C). split; [exact J3|].
      exists ((t, EDecomNotify p a) :: suf). split.
      + rewrite L. cbn [emit log ti w]. rewrite (proj2 J), <- !app_assoc. reflexivity.
      + constructor; auto.
    - unfold ret in E2. injection E2 as <-. split; [exact J1|]. exists []. rewrite app_nil_r. split; [reflexivity|constructor]. }
  destruct C2 as (J2 & suf2 & L2 & C2).
  apply do_cmd_normal in H. destruct H as (f & [] & Ef & H).
  apply bind_normal in H. destruct H as (y & s3 & E3 & H). unfold deref in E3.
  destruct (get s2 a); [|discriminate]. injection E3 as <- <-. unfold bind at 1, gets in H.
  apply bind_normal in H. destruct H as ([] & s4 & E4 & H).
  destruct (step_calm _ _ _ _ _ (k_exec _ _ _ _) J2 E4) as (J4 & suf4 & L4 & C4).
  destruct (kind_exit _ _ _ _ J4 H) as (J5 & suf5 & L5 & C5 & I5).
  split; [exact J5|]. exists ((t, EQDecom a) :: suf2 ++ suf4 ++ suf5). split.
  - rewrite L5, L4, L2. cbn [emit log ti w]. rewrite (proj2 J), <- !app_assoc. reflexivity.
  - exists (suf2 ++ suf4 ++ suf5). split; [reflexivity|]. split; [rewrite !in_app_iff; auto|].
    apply (calm_qdecoms t). rewrite !calm_app. auto.
Qed.
Lemma decom_phase t s s' : at_t t s -> do_decom beh cond fuel s = (Normal tt, s') ->
  exists pcs, log s' = log s ++ concat pcs /\ Forall2 (left_as t) (decoms_for t (log s)) pcs.
Proof.
  intros J H. unfold do_decom, bind at 1, gets in H. rewrite (proj2 J) in H.
  assert (E : match zfind t (dq (ti s)) with Some l => l | None => [] end = decoms_for t (log s)).
  { rewrite <- (i_dq _ (proj1 J)). reflexivity. }
  rewrite E in H. apply (each_pieces (at_t t) (left_as t)) in H; auto; [tauto|].
  intros x a b Ja Hb. now apply decom_piece.
Qed.
End P.
