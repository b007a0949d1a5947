(** Rows of AgentEntry and snapshots. *)
From Coq Require Import String List ZArith Bool Arith Lia.
From Verif Require Import Base SimModel SimSpec SimProofs1 SimProofs2 SimProofs3 SimProofs4 SimProofs5 SimProofs6 SimProofs7 SimProofs8 SimProofs9.
Import ListNotations.
Local Open Scope Z_scope.

(** ** Relations kept when a whole build keeps them *)
Section Rel2.
Context (R : sim -> sim -> Prop) (Rrefl : forall s, R s s) (Rtrans : forall a b c, R a b -> R b c -> R a c).
Context (beh : hook -> sim -> prog) (cond : nat -> sim -> bool).
Let kb {A B} (m : M A) (k : A -> M B) : keeps R m -> (forall a, keeps R (k a)) -> keeps R (bind m k) := keeps_bind R Rtrans m k.
Let kret {A} (a : A) : keeps R (ret a) := keeps_ret R Rrefl a.
Let kraise {A} e : keeps R (@raise A e) := keeps_raise R Rrefl e.
Let kgets {A} (f : sim -> A) : keeps R (gets f) := keeps_gets R Rrefl f.
Let kderef a : keeps R (deref a) := keeps_deref R Rrefl a.
Let keach {A} (f : A -> M unit) l : (forall x, keeps R (f x)) -> keeps R (each f l) := keeps_each R Rrefl Rtrans f l.
Let kundef {A} : keeps R (@undef A) := keeps_undef R.
Record batoms : Prop := {
  bt_reg : forall a, keeps R (register a);
  bt_unreg : forall a, keeps R (unregister a);
  bt_schedb : forall p n t, keeps R (sched_build p n t);
  bt_schedd : forall a t, keeps R (sched_decom a t);
  bt_kill : keeps R kill_sim;
  bt_snap : keeps R want_snapshot;
  bt_new : forall k sh pr sp l, keeps R (construct k sh pr sp l);
  bt_create : forall want n, keeps R (create_agent want n);
  bt_proto : forall n a o, keeps R (add_prototype n a o);
  bt_life : forall a n, keeps R (set_lifetime a n);
  bt_force : forall a n, keeps R (lifetime_force a n);
  bt_build : forall a p (q : M unit), keeps R q -> keeps R (build_front a p ;; q ;; build_back a);
  bt_decom : forall a, keeps R (kind_decom cond a) }.
Lemma build_split2 f a p s :
  (modify (emit (EBuild a p)) ;;
   deref a ;;
   connect a p ;;
   now <- gets (fun s => tm (ti s)) ;;
   modify_agent a (set_enter now) ;;
   enter_notify a ;;
   prg <- gets (beh (HEnter a)) ;;
   exec beh cond f prg ;;
   x <- deref a ;;
   modify (emit (EEntry a (a_id x) (a_proto x) (a_pid x) (a_life x) (a_enter x)))) s
  = (build_front a p ;; (prg <- gets (beh (HEnter a)) ;; exec beh cond f prg) ;; build_back a) s.
Proof.
  unfold build_front.
  do 5 (rewrite bind_assoc; apply bind_cong; intros). apply bind_cong; intros. rewrite bind_assoc. reflexivity.
Qed.
Hypothesis At : batoms.

Lemma keeps_inst_tock2 i : keeps R (inst_tock cond i).
Proof.
  apply kb; [apply kderef|]. intros x. apply keach. intros c.
  apply kb; [apply kderef|]. intros y. apply kb; [apply kgets|]. intros now.
  destruct (_ && _); [|apply kret]. apply kb; [apply kgets|]. intros ok.
  destruct (_ || _); [apply (bt_schedd At)|apply kret].
Qed.

Lemma keeps_exec2 : forall f p, keeps R (exec beh cond f p).
Proof.
  induction f as [|f IH]; intros p.
  - intros s o s' H _. simpl in H. injection H as <- <-. apply Rrefl.
  - destruct p as [|e|c k]; [apply kret|apply kraise|].
    assert (K : forall m : M (option nat), keeps R m ->
      keeps R (fun s => match m s with
          | (Normal v, s1) => exec beh cond f (k (Ok v)) s1
          | (Raised e, s1) => exec beh cond f (k (Throw e)) s1
          | (Undef, s1) => (Undef, s1)
          | (NoFuel, s1) => (NoFuel, s1) end)).
    { intros m Hm s o s' H N. destruct (m s) as [[v|e| |] s1] eqn:E.
      - eapply Rtrans; [eapply Hm; eauto; congruence|eapply IH; eauto].
      - eapply Rtrans; [eapply Hm; eauto; congruence|eapply IH; eauto].
      - congruence.
      - injection H as <- <-. eapply Hm; eauto; congruence. }
    simpl. apply K. clear K.
    destruct c; try (apply kb; [|intros; apply kret]).
    + apply (bt_reg At). + apply (bt_unreg At). + apply (bt_schedb At). + apply (bt_schedd At).
    + apply (bt_kill At). + apply (bt_snap At). + apply (bt_new At). + apply (bt_create At). + apply (bt_proto At).
    + eapply keeps_ext; [intros s; symmetry; apply build_split2|].
      apply (bt_build At a parent (prg <- gets (beh (HEnter a)) ;; exec beh cond f prg)).
      apply kb; [apply kgets|]. intros prg. apply IH.
    + apply kb; [apply kderef|]. intros _. apply kb; [apply kgets|]. intros prg.
      apply kb; [apply IH|]. intros _. apply (bt_decom At).
    + apply (bt_life At). + apply (bt_force At). + apply keeps_inst_tock2.
Qed.
Lemma keeps_call2 f a h : keeps R (call beh cond f a h).
Proof.
  apply kb; [apply kderef|]. intros _. apply kb; [apply kgets|]. intros. apply keeps_exec2.
Qed.
Lemma keeps_do_cmd2 f c : keeps R (do_cmd beh cond f c).
Proof. apply keeps_exec2. Qed.

(** The phases, when the events they emit themselves are also harmless. *)
Lemma keeps_build2 f : marks R PBuild -> keeps R (do_build beh cond f).
Proof.
  intros Mk. apply kb; [apply kgets|]. intros l. apply keach. intros [n p]. simpl.
  apply kb; [now apply Mk|]. intros _. apply kb; [apply (bt_create At)|]. intros a.
  apply kb; [apply keeps_do_cmd2|]. intros _. destruct p as [p|]; [|apply kret].
  apply kb; [apply kderef|]. intros _. apply kb; [now apply Mk|]. intros _. apply keeps_call2.
Qed.
Lemma keeps_py2 f ev h : (forall a, keeps R (modify (emit (ev a)))) -> keeps R (py_loop beh cond f ev h).
Proof.
  intros He. apply kb; [apply kgets|]. intros l. apply keach. intros a.
  apply kb; [apply kderef|]. intros _. apply kb; [apply He|]. intros _.
  apply kb; [apply kgets|]. intros s0. apply kb; [apply keeps_call2|]. intros _.
  apply kb; [apply kgets|]. intros s1. destruct (_ && _); [apply kret|apply kundef].
Qed.
Lemma keeps_cpp2 f n ev h : (forall a, keeps R (modify (emit (ev a)))) -> forall i, keeps R (cpp_loop beh cond f n i ev h).
Proof.
  intros He. induction n as [|n IH]; intros i.
  - intros s o s' H _. simpl in H. injection H as <- <-. apply Rrefl.
  - simpl. apply kb; [apply kgets|]. intros [a|]; [|apply kret].
    apply kb; [apply kderef|]. intros _. apply kb; [apply He|]. intros _.
    apply kb; [apply keeps_call2|]. intros _. apply IH.
Qed.
Lemma keeps_decide_loop2 f n : marks R PDecide -> forall cur, keeps R (decide_loop beh cond f n cur).
Proof.
  intros Mk. induction n as [|n IH]; intros cur.
  - intros s o s' H _. simpl in H. injection H as <- <-. apply Rrefl.
  - simpl. destruct cur as [[k a]|]; [|apply kret].
    apply kb; [apply kderef|]. intros _. apply kb; [now apply Mk|]. intros _.
    apply kb; [apply kgets|]. intros s0. apply kb; [apply keeps_call2|]. intros _.
    apply kb; [apply kgets|]. intros s1. destruct (existsb _ _); [apply kundef|apply IH].
Qed.
Lemma keeps_decom2 f : marks R PDecom -> keeps R (do_decom beh cond f).
Proof.
  intros Mk.
  apply kb; [apply kgets|]. intros l. apply keach. intros a.
  apply kb; [now apply Mk|]. intros _. apply kb; [apply kderef|]. intros x.
  apply kb.
  - destruct (a_parent x); [|apply kret]. apply kb; [now apply Mk|]. intros _. apply keeps_call2.
  - intros _. apply keeps_do_cmd2.
Qed.
Lemma keeps_body2 p f : marks R p -> keeps R (body beh cond p f).
Proof.
  intros Mk. destruct p; simpl.
  - now apply keeps_build2.
  - apply kb; [apply keeps_py2|intros _; apply keeps_cpp2]; intros; now apply Mk.
  - apply kb; [now apply Mk|]. intros _. apply kb; [apply kgets|]. intros. apply keeps_exec2.
  - apply kb; [apply keeps_py2|intros _; apply keeps_cpp2]; intros; now apply Mk.
  - apply kb; [apply kgets|]. intros m. now apply keeps_decide_loop2.
  - now apply keeps_decom2.
Qed.

End Rel2.

(** ** Operations that write no row of AgentEntry *)
Definition is_entry (e : event) : bool := match e with EEntry _ _ _ _ _ _ => true | _ => false end.
Definition inner2 (e : event) : bool := inner e && negb (is_entry e).
Section Micro2.
Context (R : sim -> sim -> Prop) (Rrefl : forall s, R s s) (Rtrans : forall a b c, R a b -> R b c -> R a c).
Record micro2 : Prop := {
  mi_emit2 : forall e s, inner2 e = true -> R s (emit e s);
  mi_timer2 : forall f s, tm (f (ti s)) = tm (ti s) -> R s (with_ti f s);
  mi_world2 : forall f s, heap (f (w s)) = heap (w s) -> nid (f (w s)) = nid (w s) -> R s (with_w f s);
  mi_new2 : forall k sh pr sp l, keeps R (construct k sh pr sp l);
  mi_set2 : forall s a x y, get s a = Some x ->
    (exists p pid, y = set_parent p pid x) \/ (exists l, y = set_kids l x) \/ (exists n, y = set_life n x) \/
    y = set_enter (tm (ti s)) x \/ y = set_dead x -> R s (set_agent a y s) }.
Context (H : micro2).
Local Notation K := (keeps R).
Lemma mb {A B} (m : M A) (k : A -> M B) : K m -> (forall a, K (k a)) -> K (bind m k).
Proof. apply keeps_bind; auto. Qed.
Lemma mret {A} (a : A) : K (ret a). Proof. now apply keeps_ret. Qed.
Lemma mraise {A} e : K (@raise A e). Proof. now apply keeps_raise. Qed.
Lemma mgets {A} (f : sim -> A) : K (gets f). Proof. now apply keeps_gets. Qed.
Lemma mderef a : K (deref a). Proof. now apply keeps_deref. Qed.
Lemma memit e : inner2 e = true -> K (modify (emit e)). Proof. intros E. apply keeps_modify. intros s. now apply (mi_emit2 H). Qed.
Lemma mboth e f : inner2 e = true -> (forall x, tm (f x) = tm x) -> K (modify (fun s => emit e (with_ti f s))).
Proof. intros E F. apply keeps_modify. intros s. eapply Rtrans; [apply (mi_timer2 H); auto|now apply (mi_emit2 H)]. Qed.
Lemma mset a f : (forall x, (exists p pid, f x = set_parent p pid x) \/ (exists l, f x = set_kids l x) \/ (exists n, f x = set_life n x) \/ f x = set_dead x) ->
  K (modify_agent a f).
Proof.
  intros F s o s' E N. unfold modify_agent, bind, deref in E. destruct (get s a) as [x|] eqn:G; [|congruence].
  unfold modify in E. injection E as <- <-. apply (mi_set2 H) with (x := x); auto. destruct (F x) as [A|[A|[A|A]]]; auto.
Qed.
Lemma m_register a : K (register a).
Proof. apply mb; [apply mderef|]. intros x. apply mboth; auto. Qed.
Lemma m_unregister a : K (unregister a).
Proof. apply mb; [apply mderef|]. intros x. apply mboth; auto. Qed.
Lemma m_sched_build p n t : K (sched_build p n t).
Proof.
  apply mb; [apply mgets|]. intros now. apply mb.
  - destruct p; [|apply mret]. apply mb; [apply mderef|]. intros; apply mret.
  - intros pid. apply mb; [|intros _; now apply memit].
    intros s o s' E N. unfold timer_sched_build in E. destruct (Z.leb _ _); injection E as <- <-; [apply Rrefl|].
    now apply (mi_timer2 H).
Qed.
Lemma m_sched_decom a t : K (sched_decom a t).
Proof.
  apply mb; [apply mgets|]. intros now. apply mb.
  - intros s o s' E N. unfold timer_sched_decom in E. destruct (Z.ltb _ _); injection E as <- <-; [apply Rrefl|].
    now apply (mi_timer2 H).
  - intros _. apply mb; [apply mderef|]. intros _. now apply memit.
Qed.
Lemma m_count x d : K (count_agent x d). Proof. apply keeps_modify. intros s. now apply (mi_world2 H). Qed.
Lemma m_traders f : K (set_traders f). Proof. apply keeps_modify. intros s. now apply (mi_world2 H). Qed.
Lemma m_each {A} (f : A -> M unit) l : (forall x, K (f x)) -> K (each f l). Proof. apply keeps_each; auto. Qed.
Lemma m_del a : K (del_agent a).
Proof.
  apply mb; [apply mgets|]. intros [|]; [|apply mret]. apply mb; [apply keeps_modify; intros s; now apply (mi_world2 H)|].
  intros _. apply mb; [apply mderef|]. intros x. apply mb.
  - destruct (a_parent x); [|apply mret]. apply mset. eauto.
  - intros _. apply mb; [apply m_each; intros c; apply mset; eauto|]. intros _. apply mb; [apply mset; auto|].
    intros _. now apply memit.
Qed.
Lemma m_create want n : K (create_agent want n).
Proof.
  apply mb; [apply mgets|]. intros [p|]; [|apply mraise]. apply mb; [apply mderef|]. intros x.
  apply mb; [apply (mi_new2 H)|]. intros a. destruct want as [k|].
  - destruct (kind_eqb _ _).
    + apply mb; [now apply memit|]. intros; apply mret.
    + apply mb; [apply m_del|]. intros; apply mraise.
  - apply mb; [now apply memit|]. intros; apply mret.
Qed.
Lemma m_add n a o : K (add_prototype n a o).
Proof.
  apply mb; [apply mgets|]. intros known. destruct (_ && _); [apply mraise|]. apply mb; [apply mderef|]. intros _.
  apply keeps_modify. intros s. eapply Rtrans; [|apply (mi_emit2 H); reflexivity]. now apply (mi_world2 H).
Qed.
Lemma m_life a n : K (set_lifetime a n).
Proof.
  intros s o s' E N. unfold set_lifetime, bind, deref in E. destruct (get s a) as [x|] eqn:G; [|congruence].
  destruct (Z.eqb _ _); injection E as <- <-; [|apply Rrefl]. apply (mi_set2 H) with (x := x); eauto.
Qed.
Lemma m_force a n : K (lifetime_force a n).
Proof.
  intros s o s' E N. unfold lifetime_force, bind at 1, deref in E. destruct (get s a) as [x|] eqn:G; [|congruence].
  destruct (Z.eqb _ _); [injection E as <- <-; apply (mi_set2 H) with (x := x); eauto|].
  unfold bind, gets in E. destruct (Z.leb _ _); [now apply (m_life _ _ _ _ _ E)|].
  injection E as <- <-. apply (mi_set2 H) with (x := x); eauto.
Qed.
Lemma m_connect a p : K (connect a p).
Proof.
  destruct p as [p|]; simpl; [|apply mret]. destruct (Nat.eqb p a); [apply mraise|].
  apply mb; [apply mderef|]. intros y. apply mb; [apply mset; eauto|]. intros _. apply mset; eauto.
Qed.
Lemma m_enter a : K (enter_notify a).
Proof.
  apply mb; [apply mderef|]. intros x. destruct (a_kind x).
  - apply mb; [apply m_count|]. intros _. apply mb; [apply m_traders|]. intros _. apply m_register.
  - apply m_register.
  - apply m_register.
  - apply m_count.
Qed.
Lemma m_set_enter a : K (now <- gets (fun s => tm (ti s)) ;; modify_agent a (set_enter now)).
Proof.
  intros s o s' E N. unfold bind, gets, modify_agent, bind, deref in E. destruct (get s a) as [x|] eqn:G; [|congruence].
  unfold modify in E. injection E as <- <-. apply (mi_set2 H) with (x := x); auto.
Qed.
Lemma m_front a p : K (build_front a p).
Proof.
  apply mb; [now apply memit|]. intros _. apply mb; [apply mderef|]. intros _. apply mb; [apply m_connect|]. intros _.
  eapply keeps_ext; [intros s; apply bind_assoc|]. apply mb; [apply m_set_enter|]. intros _. apply m_enter.
Qed.
Lemma m_base a : K (base_decom a).
Proof.
  apply mb; [apply mderef|]. intros x. apply mb; [apply mgets|]. intros now. apply mb; [now apply memit|]. intros _.
  apply mb; [apply m_count|]. intros _. apply m_del.
Qed.
Lemma m_kind_decom cond a : K (kind_decom cond a).
Proof.
  apply mb; [apply mderef|]. intros x. destruct (a_kind x).
  - apply mb; [apply mgets|]. intros [|]; [|apply mraise]. apply mb; [apply m_traders|]. intros _.
    apply mb; [apply m_unregister|]. intros _. apply m_base.
  - apply mb; [apply m_unregister|]. intros _. apply m_base.
  - apply mb; [apply m_unregister|]. intros _. apply m_base.
  - apply m_base.
Qed.
End Micro2.
