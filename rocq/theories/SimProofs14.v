(** The identifiers in the rows of AgentExit and BuildSchedule. *)
From Coq Require Import String List ZArith Bool Arith Lia.
From Verif Require Import Base SimModel SimSpec SimProofs1 SimProofs2 SimProofs3 SimProofs4 SimProofs5 SimProofs6 SimProofs7 SimProofs8 SimProofs9 SimProofs11 SimProofs12 SimProofs13.
Import ListNotations.
Local Open Scope Z_scope.

Definition is_schedb (e : event) : bool := match e with ESchedB _ _ _ _ => true | _ => false end.
Definition plainx (e : event) : bool := plain e && negb (is_schedb e).
Section Micro3.
Context (R : sim -> sim -> Prop) (Rrefl : forall s, R s s) (Rtrans : forall a b c, R a b -> R b c -> R a c).
Record coarsex : Prop := {
  xz_emit : forall e s, plainx e = true -> R s (emit e s);
  xz_timer : forall f s, R s (with_ti f s);
  xz_traders : forall f, keeps R (set_traders f);
  xz_new : forall k sh pr sp l, keeps R (construct k sh pr sp l);
  xz_life : forall s a x n, get s a = Some x -> R s (set_agent a (set_life n x) s);
  xz_create : forall want n, keeps R (create_agent want n);
  xz_base : forall a, keeps R (base_decom a);
  xz_front : forall a p, keeps R (build_front a p);
  xz_add : forall n a o, keeps R (add_prototype n a o);
  xz_schedb : forall p n t, keeps R (sched_build p n t) }.
Context (H : coarsex).
Local Notation K := (keeps R).
Let mb {A B} (m : M A) (k : A -> M B) : K m -> (forall a, K (k a)) -> K (bind m k) := keeps_bind R Rtrans m k.
Let mret {A} (a : A) : K (ret a) := keeps_ret R Rrefl a.
Let mraise {A} e : K (@raise A e) := keeps_raise R Rrefl e.
Let mgets {A} (f : sim -> A) : K (gets f) := keeps_gets R Rrefl f.
Let mderef a : K (deref a) := keeps_deref R Rrefl a.
Lemma xzemit e : plainx e = true -> K (modify (emit e)). Proof. intros E. apply keeps_modify. intros s. now apply (xz_emit H). Qed.
Lemma xzboth e f : plainx e = true -> K (modify (fun s => emit e (with_ti f s))).
Proof. intros E. apply keeps_modify. intros s. eapply Rtrans; [apply (xz_timer H)|now apply (xz_emit H)]. Qed.
Lemma xz_register a : K (register a).
Proof. apply mb; [apply mderef|]. intros x. now apply xzboth. Qed.
Lemma xz_unregister a : K (unregister a).
Proof. apply mb; [apply mderef|]. intros x. now apply xzboth. Qed.
Lemma xz_sched_decom a t : K (sched_decom a t).
Proof.
  apply mb; [apply mgets|]. intros now. apply mb.
  - intros s o s' E N. unfold timer_sched_decom in E. destruct (Z.ltb _ _); injection E as <- <-; [apply Rrefl|apply (xz_timer H)].
  - intros _. apply mb; [apply mderef|]. intros _. now apply xzemit.
Qed.
Lemma xz_set_life a n : K (set_lifetime a n).
Proof.
  intros s o s' E N. unfold set_lifetime, bind, deref in E. destruct (get s a) as [x|] eqn:G; [|congruence].
  destruct (Z.eqb _ _); injection E as <- <-; [|apply Rrefl]. now apply (xz_life H).
Qed.
Lemma xz_force a n : K (lifetime_force a n).
Proof.
  intros s o s' E N. unfold lifetime_force, bind at 1, deref in E. destruct (get s a) as [x|] eqn:G; [|congruence].
  destruct (Z.eqb _ _); [injection E as <- <-; now apply (xz_life H)|].
  unfold bind, gets in E. destruct (Z.leb _ _); [now apply (xz_set_life _ _ _ _ _ E)|].
  injection E as <- <-. now apply (xz_life H).
Qed.
Lemma xz_kind_decom cond a : K (kind_decom cond a).
Proof.
  apply mb; [apply mderef|]. intros x. destruct (a_kind x).
  - apply mb; [apply mgets|]. intros [|]; [|apply mraise]. apply mb; [apply (xz_traders H)|]. intros _.
    apply mb; [apply xz_unregister|]. intros _. apply (xz_base H).
  - apply mb; [apply xz_unregister|]. intros _. apply (xz_base H).
  - apply mb; [apply xz_unregister|]. intros _. apply (xz_base H).
  - apply (xz_base H).
Qed.
Lemma coarsex_atoms cond : atoms R cond.
Proof.
  constructor; try apply (xz_schedb H); auto using xz_register, xz_unregister, xz_sched_decom, xz_set_life, xz_force, xz_kind_decom.
  - apply keeps_modify. intros s. eapply Rtrans; [apply (xz_timer H)|]. now apply (xz_emit H).
  - apply keeps_modify. intros s. apply (xz_timer H).
  - apply (xz_new H).
  - apply (xz_create H).
  - apply (xz_add H).
  - apply (xz_front H).
  - intros a. apply mb; [apply mderef|]. intros x. now apply xzemit.
Qed.
Lemma coarsex_rests : rests R.
Proof.
  constructor; intros; apply keeps_modify; intros s; try apply (xz_timer H); try now apply (xz_emit H).
Qed.
Lemma coarsex_simulate beh cond fuel setup t0 d o s' :
  simulate beh cond fuel setup t0 d = (o, s') -> o <> Undef -> R (sim0 t0 d) s'.
Proof.
  intros Hs N. eapply keeps_simulate; eauto using coarsex_atoms, coarsex_rests.
  intros p e He. apply xzemit. destruct p, e; try discriminate; reflexivity.
Qed.
End Micro3.

Definition row_ok (x : Z * event) : Prop :=
  match snd x with
  | EExit a id u => id = Z.of_nat a /\ u = fst x
  | ESchedB p pid _ _ => pid = match p with Some q => Z.of_nat q | None => -1 end
  | _ => True
  end.
Definition rower (s s' : sim) : Prop := ip s -> ip s' /\ exists suf, log s' = log s ++ suf /\ Forall row_ok suf.
Lemma rower_refl s : rower s s. Proof. intros I. split; [exact I|]. exists []. rewrite app_nil_r. auto. Qed.
Lemma rower_trans a b c : rower a b -> rower b c -> rower a c.
Proof.
  intros H1 H2 I. destruct (H1 I) as [I1 (m1 & L1 & F1)]. destruct (H2 I1) as [I2 (m2 & L2 & F2)]. split; [exact I2|].
  exists (m1 ++ m2). rewrite L2, L1, app_assoc. split; [reflexivity|]. apply Forall_app. auto.
Qed.
Lemma rower_of s s' suf : pider s s' -> log s' = log s ++ suf -> (ip s -> Forall row_ok suf) -> rower s s'.
Proof. intros P L F I. split; [now apply P|]. exists suf. auto. Qed.
Lemma rower_emit e s : plainx e = true -> rower s (emit e s).
Proof.
  intros P. apply (rower_of _ _ [(tm (ti s), e)]); [apply pid_emit|reflexivity|]. intros _. constructor; [|constructor].
  unfold row_ok. simpl. destruct e; auto; discriminate.
Qed.
Lemma rower_timer f s : rower s (with_ti f s).
Proof. apply (rower_of _ _ []); [apply (z_timer _ pid_coarse)|simpl; now rewrite app_nil_r|constructor]. Qed.
Lemma rower_coarse : coarsex rower.
Proof.
  constructor.
  - apply rower_emit.
  - apply rower_timer.
  - intros f s o s' H N. assert (P := z_traders _ pid_coarse _ _ _ _ H N). injection H as <- <-.
    apply (rower_of _ _ []); [exact P|simpl; now rewrite app_nil_r|constructor].
  - intros k sh pr sp l s o s' H N. assert (P := z_new _ pid_coarse _ _ _ _ _ _ _ _ H N). injection H as <- <-.
    eapply rower_of; [exact P|reflexivity|]. intros _. repeat constructor.
  - intros s a x n G. apply (rower_of _ _ []); [now apply (z_life _ pid_coarse)|simpl; now rewrite app_nil_r|constructor].
  - intros want n s o s' H N. assert (P := z_create _ pid_coarse _ _ _ _ _ H N). destruct o as [a|e| |]; try congruence.
    + apply create_normal in H. destruct H as (p & x & _ & _ & Ea & _ & Eh & _ & _ & El & _).
      eapply rower_of; [exact P|exact El|]. intros _. repeat constructor.
    + apply create_cast in H. destruct H as [(_ & -> & _)|(_ & p & x & k & _ & _ & _ & _ & Eh & _ & _ & El & _)]; [apply rower_refl|].
      eapply rower_of; [exact P|exact El|]. intros _. repeat constructor.
    + exfalso. unfold create_agent, bind at 1, gets in H. destruct (sfind n _) as [p|]; [|discriminate]. unfold bind at 1, deref in H.
      destruct (get s p) as [x|]; [|discriminate]. unfold bind at 1, construct in H. destruct want as [k|]; [|discriminate].
      destruct (kind_eqb _ _); [discriminate|]. unfold bind in H.
      match type of H with context [del_agent ?a ?s] => destruct (del_agent a s) as [o1 s1] eqn:D end.
      destruct o1; try discriminate. apply del_normal in D; [|discriminate]. destruct D as [D _]. discriminate.
  - intros a s o s' H N. assert (P := z_base _ pid_coarse _ _ _ _ H N). apply base_normal in H; [|exact N].
    destruct H as (_ & x & [L _] & T & Ln & Nn & _ & _ & _ & [(Ni & El & Eh & Ea)|(Ia & El & E3 & F)]).
    + eapply rower_of; [exact P|exact El|]. intros [[_ I] _]. constructor; [|constructor]. split; [exact (I a x L)|reflexivity].
    + eapply rower_of; [exact P|exact El|]. intros [[_ I] _]. constructor; [|constructor; [exact Logic.I|constructor]].
      split; [exact (I a x L)|reflexivity].
  - intros a p s o s' H N. assert (P := z_front _ pid_coarse _ _ _ _ _ H N). apply front_normal in H; [|exact N].
    destruct H as [(-> & _ & ->)|(_ & Nq & x & pid & L & Lq & El & _)].
    + eapply rower_of; [exact P|reflexivity|]. intros _. repeat constructor.
    + eapply rower_of; [exact P|exact El|]. intros _. destruct (a_kind x); repeat constructor.
  - intros n a ov s o s' H N. assert (P := z_add _ pid_coarse _ _ _ _ _ _ H N).
    unfold add_prototype, bind at 1, gets in H. destruct (_ && _); [injection H as <- <-; apply rower_refl|].
    apply deref_inv in H; [|exact N]. destruct H as (x & G & H). injection H as <- <-.
    eapply rower_of; [exact P|reflexivity|]. intros _. repeat constructor.
  - intros p n t s o s' H N. assert (P := z_sched_build _ pid_refl pid_trans pid_coarse _ _ _ _ _ _ H N).
    unfold sched_build, bind at 1, gets in H.
    assert (X : exists pid, (ids_ok (w s) -> pid = match p with Some q => Z.of_nat q | None => -1 end) /\
      (timer_sched_build p n (if Z.eqb t (-1) then tm (ti s) + 1 else t) ;;
       modify (emit (ESchedB p pid n (if Z.eqb t (-1) then tm (ti s) + 1 else t)))) s = (o, s')).
    { destruct p as [q|].
      - rewrite bind_assoc in H. apply deref_inv in H; [|exact N]. destruct H as (x & G & H). apply get_nth in G. destruct G as [G _].
        unfold bind at 1, ret in H. exists (a_id x). split; [|exact H]. intros [_ I]. now apply I.
      - unfold bind at 1, ret in H. exists (-1). auto. }
    destruct X as (pid & Hp & H1). unfold timer_sched_build, bind in H1. destruct (Z.leb _ _).
    + injection H1 as <- <-. apply rower_refl.
    + unfold modify in H1. injection H1 as <- <-. eapply rower_of; [exact P|reflexivity|]. intros [I _]. constructor; [|constructor]. exact (Hp I).
Qed.
Lemma run_rows_ids beh cond fuel setup t0 d o s' : simulate beh cond fuel setup t0 d = (o, s') -> o <> Undef -> Forall row_ok (log s').
Proof.
  intros H N. destruct (ir_sim0 t0 d) as [I _].
  destruct (coarsex_simulate rower rower_refl rower_trans rower_coarse _ _ _ _ _ _ _ _ H N I) as [_ (suf & L & F)]. simpl in L. rewrite L. exact F.
Qed.
