(** Generic reasoning about the kernel: a relation between states kept by every atomic operation is kept by every
    execution of user code. *)
From Coq Require Import String List ZArith Bool Arith Lia.
From Verif Require Import Base SimModel.
Import ListNotations.
Local Open Scope Z_scope.

(** [keeps R m]: however [m] ends (undefined behaviour apart), its final state is [R]-related to its initial state. *)
Definition keeps {A} (R : sim -> sim -> Prop) (m : M A) : Prop :=
  forall s o s', m s = (o, s') -> o <> Undef -> R s s'.

Section Rel.
Context (R : sim -> sim -> Prop) (Rrefl : forall s, R s s) (Rtrans : forall a b c, R a b -> R b c -> R a c).

Lemma keeps_ret {A} (a : A) : keeps R (ret a).
Proof. intros s o s' [= <- <-] _. apply Rrefl. Qed.
Lemma keeps_raise {A} e : keeps R (@raise A e).
Proof. intros s o s' [= <- <-] _. apply Rrefl. Qed.
Lemma keeps_undef {A} : keeps R (@undef A).
Proof. intros s o s' [= <- <-] N. congruence. Qed.
Lemma keeps_gets {A} (f : sim -> A) : keeps R (gets f).
Proof. intros s o s' [= <- <-] _. apply Rrefl. Qed.
Lemma keeps_deref a : keeps R (deref a).
Proof. intros s o s' H _. unfold deref in H. destruct (get s a); injection H as <- <-; apply Rrefl. Qed.
Lemma keeps_bind {A B} (m : M A) (k : A -> M B) : keeps R m -> (forall a, keeps R (k a)) -> keeps R (bind m k).
Proof.
  intros Hm Hk s o s' H N. unfold bind in H. destruct (m s) as [[a|e| |] s1] eqn:E.
  - eapply Rtrans; [eapply Hm; eauto; congruence|eapply Hk; eauto].
  - injection H as <- <-. eapply Hm; eauto; congruence.
  - congruence.
  - injection H as <- <-. eapply Hm; eauto; congruence.
Qed.
Lemma keeps_each {A} (f : A -> M unit) l : (forall x, keeps R (f x)) -> keeps R (each f l).
Proof. intros H. induction l; simpl; [apply keeps_ret|apply keeps_bind; auto]. Qed.
Lemma keeps_modify f : (forall s, R s (f s)) -> keeps R (modify f).
Proof. intros H s o s' [= <- <-] _. apply H. Qed.

Context (beh : hook -> sim -> prog) (cond : nat -> sim -> bool).

(** The atomic operations. *)
Definition build_front (a : nat) (p : option nat) : M unit :=
  modify (emit (EBuild a p)) ;; deref a ;; connect a p ;;
  now <- gets (fun s => tm (ti s)) ;; modify_agent a (set_enter now) ;; enter_notify a.
Definition build_back (a : nat) : M unit :=
  x <- deref a ;; modify (emit (EEntry a (a_id x) (a_proto x) (a_pid x) (a_life x) (a_enter x))).
Record atoms : Prop := {
  at_reg : forall a, keeps R (register a);
  at_unreg : forall a, keeps R (unregister a);
  at_schedb : forall p n t, keeps R (sched_build p n t);
  at_schedd : forall a t, keeps R (sched_decom a t);
  at_kill : keeps R kill_sim;
  at_snap : keeps R want_snapshot;
  at_new : forall k sh pr sp l, keeps R (construct k sh pr sp l);
  at_create : forall want n, keeps R (create_agent want n);
  at_proto : forall n a o, keeps R (add_prototype n a o);
  at_life : forall a n, keeps R (set_lifetime a n);
  at_force : forall a n, keeps R (lifetime_force a n);
  at_front : forall a p, keeps R (build_front a p);
  at_back : forall a, keeps R (build_back a);
  at_decom : forall a, keeps R (kind_decom cond a) }.

Lemma bind_assoc {A B C} (m : M A) (k : A -> M B) (h : B -> M C) s :
  bind (bind m k) h s = bind m (fun a => bind (k a) h) s.
Proof. unfold bind. destruct (m s) as [[a|e| |] s1]; reflexivity. Qed.

Lemma bind_cong {A B} (m : M A) (k k' : A -> M B) s : (forall a s, k a s = k' a s) -> bind m k s = bind m k' s.
Proof. intros H. unfold bind. destruct (m s) as [[a|e| |] s1]; auto. Qed.
Lemma keeps_ext {A} (m m' : M A) : (forall s, m s = m' s) -> keeps R m -> keeps R m'.
Proof. intros E H s o s' Hs. apply H. now rewrite E. Qed.

Hypothesis At : atoms.

Lemma keeps_inst_tock i : keeps R (inst_tock cond i).
Proof.
  apply keeps_bind; [apply keeps_deref|]. intros x. apply keeps_each. intros c.
  apply keeps_bind; [apply keeps_deref|]. intros y. apply keeps_bind; [apply keeps_gets|]. intros now.
  destruct (_ && _); [|apply keeps_ret]. apply keeps_bind; [apply keeps_gets|]. intros ok.
  destruct (_ || _); [apply (at_schedd At)|apply keeps_ret].
Qed.

Lemma build_split f a p s :
  (modify (emit (EBuild a p)) ;;
   deref a ;;
   connect a p ;;
   now <- gets (fun s => tm (ti s)) ;;
   modify_agent a (set_enter now) ;;
   enter_notify a ;;
   prg <- gets (beh (HEnter a)) ;;
   exec beh cond f prg ;;
   x <- deref a ;;
   modify (emit (EEntry a (a_id x) (a_proto x) (a_pid x) (a_life x) (a_enter x)))) s
  = (build_front a p ;; prg <- gets (beh (HEnter a)) ;; exec beh cond f prg ;; build_back a) s.
Proof.
  unfold build_front.
  do 5 (rewrite bind_assoc; apply bind_cong; intros). reflexivity.
Qed.

Lemma keeps_exec : forall f p, keeps R (exec beh cond f p).
Proof.
  induction f as [|f IH]; intros p.
  - intros s o s' H _. simpl in H. injection H as <- <-. apply Rrefl.
  - destruct p as [|e|c k]; [apply keeps_ret|apply keeps_raise|].
    assert (K : forall m : M (option nat), keeps R m ->
      keeps R (fun s => match m s with
          | (Normal v, s1) => exec beh cond f (k (Ok v)) s1
          | (Raised e, s1) => exec beh cond f (k (Throw e)) s1
          | (Undef, s1) => (Undef, s1)
          | (NoFuel, s1) => (NoFuel, s1) end)).
    { intros m Hm s o s' H N. destruct (m s) as [[v|e| |] s1] eqn:E.
      - eapply Rtrans; [eapply Hm; eauto; congruence|eapply IH; eauto].
      - eapply Rtrans; [eapply Hm; eauto; congruence|eapply IH; eauto].
      - congruence.
      - injection H as <- <-. eapply Hm; eauto; congruence. }
    simpl. apply K. clear K.
    destruct c; try (apply keeps_bind; [|intros; apply keeps_ret]).
    + apply (at_reg At). + apply (at_unreg At). + apply (at_schedb At). + apply (at_schedd At).
    + apply (at_kill At). + apply (at_snap At). + apply (at_new At). + apply (at_create At). + apply (at_proto At).
    + eapply keeps_ext; [intros s; symmetry; apply build_split|].
      apply keeps_bind; [apply (at_front At)|]. intros _. apply keeps_bind; [apply keeps_gets|]. intros prg.
      apply keeps_bind; [apply IH|]. intros _. apply (at_back At).
    + apply keeps_bind; [apply keeps_deref|]. intros _. apply keeps_bind; [apply keeps_gets|]. intros prg.
      apply keeps_bind; [apply IH|]. intros _. apply (at_decom At).
    + apply (at_life At). + apply (at_force At). + apply keeps_inst_tock.
Qed.
Lemma keeps_call f a h : keeps R (call beh cond f a h).
Proof.
  apply keeps_bind; [apply keeps_deref|]. intros _. apply keeps_bind; [apply keeps_gets|]. intros. apply keeps_exec.
Qed.
Lemma keeps_do_cmd f c : keeps R (do_cmd beh cond f c).
Proof. apply keeps_exec. Qed.

(** The phases, when the events they emit themselves are also harmless. *)
Definition mark_of (p : phase) (e : event) : bool :=
  match p, e with
  | PBuild, EQBuild _ _ | PBuild, EBuildNotify _ _ | PTick, ETick _ | PExch, EExchange | PTock, ETock _
  | PDecide, EDecide _ | PDecom, EQDecom _ | PDecom, EDecomNotify _ _ => true
  | _, _ => false
  end.
Definition marks (p : phase) : Prop := forall e, mark_of p e = true -> keeps R (modify (emit e)).

Lemma keeps_build f : marks PBuild -> keeps R (do_build beh cond f).
Proof.
  intros Mk. apply keeps_bind; [apply keeps_gets|]. intros l. apply keeps_each. intros [n p]. simpl.
  apply keeps_bind; [now apply Mk|]. intros _. apply keeps_bind; [apply (at_create At)|]. intros a.
  apply keeps_bind; [apply keeps_do_cmd|]. intros _. destruct p as [p|]; [|apply keeps_ret].
  apply keeps_bind; [apply keeps_deref|]. intros _. apply keeps_bind; [now apply Mk|]. intros _. apply keeps_call.
Qed.
Lemma keeps_py f ev h : (forall a, keeps R (modify (emit (ev a)))) -> keeps R (py_loop beh cond f ev h).
Proof.
  intros He. apply keeps_bind; [apply keeps_gets|]. intros l. apply keeps_each. intros a.
  apply keeps_bind; [apply keeps_deref|]. intros _. apply keeps_bind; [apply He|]. intros _.
  apply keeps_bind; [apply keeps_gets|]. intros s0. apply keeps_bind; [apply keeps_call|]. intros _.
  apply keeps_bind; [apply keeps_gets|]. intros s1. destruct (_ && _); [apply keeps_ret|apply keeps_undef].
Qed.
Lemma keeps_cpp f n ev h : (forall a, keeps R (modify (emit (ev a)))) -> forall i, keeps R (cpp_loop beh cond f n i ev h).
Proof.
  intros He. induction n as [|n IH]; intros i.
  - intros s o s' H _. simpl in H. injection H as <- <-. apply Rrefl.
  - simpl. apply keeps_bind; [apply keeps_gets|]. intros [a|]; [|apply keeps_ret].
    apply keeps_bind; [apply keeps_deref|]. intros _. apply keeps_bind; [apply He|]. intros _.
    apply keeps_bind; [apply keeps_call|]. intros _. apply IH.
Qed.
Lemma keeps_decide_loop f n : marks PDecide -> forall cur, keeps R (decide_loop beh cond f n cur).
Proof.
  intros Mk. induction n as [|n IH]; intros cur.
  - intros s o s' H _. simpl in H. injection H as <- <-. apply Rrefl.
  - simpl. destruct cur as [[k a]|]; [|apply keeps_ret].
    apply keeps_bind; [apply keeps_deref|]. intros _. apply keeps_bind; [now apply Mk|]. intros _.
    apply keeps_bind; [apply keeps_gets|]. intros s0. apply keeps_bind; [apply keeps_call|]. intros _.
    apply keeps_bind; [apply keeps_gets|]. intros s1. destruct (existsb _ _); [apply keeps_undef|apply IH].
Qed.
Lemma keeps_decom f : marks PDecom -> keeps R (do_decom beh cond f).
Proof.
  intros Mk.
  apply keeps_bind; [apply keeps_gets|]. intros l. apply keeps_each. intros a.
  apply keeps_bind; [now apply Mk|]. intros _. apply keeps_bind; [apply keeps_deref|]. intros x.
  apply keeps_bind.
  - destruct (a_parent x); [|apply keeps_ret]. apply keeps_bind; [now apply Mk|]. intros _. apply keeps_call.
  - intros _. apply keeps_do_cmd.
Qed.
Lemma keeps_body p f : marks p -> keeps R (body beh cond p f).
Proof.
  intros Mk. destruct p; simpl.
  - now apply keeps_build.
  - apply keeps_bind; [apply keeps_py|intros _; apply keeps_cpp]; intros; now apply Mk.
  - apply keeps_bind; [now apply Mk|]. intros _. apply keeps_bind; [apply keeps_gets|]. intros. apply keeps_exec.
  - apply keeps_bind; [apply keeps_py|intros _; apply keeps_cpp]; intros; now apply Mk.
  - apply keeps_bind; [apply keeps_gets|]. intros m. now apply keeps_decide_loop.
  - now apply keeps_decom.
Qed.

(** The run, when the rest is harmless too. *)
Record rests : Prop := {
  rs_phase : forall p, keeps R (modify (emit (EPhase p)));
  rs_snap : keeps R (modify snapshot);
  rs_unsnap : keeps R (modify (with_ti (fun x => mkT (tm x) (dur x) (killf x) false (tmap x) (cpp x) (py x) (bq x) (dq x))));
  rs_time : keeps R (modify (with_ti (fun x => mkT (tm x + 1) (dur x) (killf x) (snapf x) (tmap x) (cpp x) (py x) (bq x) (dq x))));
  rs_fin : keeps R (modify (fun s => emit (EFinish (killf (ti s)) (tm (ti s) - 1)) s)) }.
Hypothesis Rs : rests.
Hypothesis Mk : forall p, marks p.
Lemma keeps_phase f p : keeps R (do_phase beh cond f p).
Proof. apply keeps_bind; [apply (rs_phase Rs)|]. intros _. apply keeps_body, Mk. Qed.
Lemma keeps_step f : keeps R (step beh cond f).
Proof.
  apply keeps_bind; [apply keeps_gets|]. intros sn. apply keeps_bind.
  - destruct sn; [|apply keeps_ret]. apply keeps_bind; [apply (rs_unsnap Rs)|]. intros _. apply (rs_snap Rs).
  - intros _. do 6 (apply keeps_bind; [apply keeps_phase|intros _]). apply (rs_time Rs).
Qed.
Lemma keeps_steps f n : keeps R (steps beh cond n f).
Proof.
  induction n as [|n IH]; simpl; [apply keeps_ret|].
  apply keeps_bind; [apply keeps_gets|]. intros [|]; [|apply keeps_ret].
  apply keeps_bind; [apply keeps_step|]. intros _. apply keeps_bind; [apply keeps_gets|]. intros [|]; [apply keeps_ret|apply IH].
Qed.
Lemma keeps_run f : keeps R (run_sim beh cond f).
Proof.
  apply keeps_bind; [apply keeps_gets|]. intros n. apply keeps_bind; [apply keeps_steps|]. intros _.
  apply keeps_bind; [apply (rs_fin Rs)|]. intros _. apply (rs_snap Rs).
Qed.
Lemma keeps_simulate f setup t0 d : forall o s', simulate beh cond f setup t0 d = (o, s') -> o <> Undef -> R (sim0 t0 d) s'.
Proof.
  intros o s' H N. unfold simulate in H.
  exact (keeps_bind _ _ (keeps_exec f setup) (fun _ => keeps_run f) _ _ _ H N).
Qed.
End Rel.
