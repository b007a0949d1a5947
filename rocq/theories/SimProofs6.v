(** Agents: identity, life and death, links, counters, prototypes. *)
From Coq Require Import String List ZArith Bool Arith Lia.
From Verif Require Import Base SimModel SimSpec SimProofs1 SimProofs2 SimProofs3 SimProofs4 SimProofs5.
Import ListNotations.
Local Open Scope Z_scope.

Definition plain (e : event) : bool :=
  match e with EExit _ _ _ | EBuild _ _ | EProto _ _ => false | _ => true end.

Section Create.
Context (R : sim -> sim -> Prop) (Rrefl : forall s, R s s) (Rtrans : forall a b c, R a b -> R b c -> R a c).
Lemma create_from_del : (forall e s, plain e = true -> R s (emit e s)) -> (forall k sh pr sp l, keeps R (construct k sh pr sp l)) ->
  (forall a, keeps R (del_agent a)) -> forall want n, keeps R (create_agent want n).
Proof.
  intros He Hn Hd want n. assert (mb := fun A B m k => @keeps_bind R Rtrans A B m k).
  apply mb; [now apply keeps_gets|]. intros [p|]; [|now apply keeps_raise]. apply mb; [now apply keeps_deref|]. intros x.
  apply mb; [apply Hn|]. intros a.
  assert (Km : keeps R (modify (emit (ECreate n a)) ;; ret a)).
  { apply mb; [|intros; now apply keeps_ret]. apply keeps_modify. intros s. now apply He. }
  destruct want as [k|]; [|exact Km]. destruct (kind_eqb _ _); [exact Km|]. apply mb; [apply Hd|]. intros; now apply keeps_raise.
Qed.
End Create.

Section Micro.
Context (R : sim -> sim -> Prop) (Rrefl : forall s, R s s) (Rtrans : forall a b c, R a b -> R b c -> R a c).
Record coarse : Prop := {
  z_emit : forall e s, plain e = true -> R s (emit e s);
  z_timer : forall f s, R s (with_ti f s);
  z_traders : forall f, keeps R (set_traders f);
  z_new : forall k sh pr sp l, keeps R (construct k sh pr sp l);
  z_life : forall s a x n, get s a = Some x -> R s (set_agent a (set_life n x) s);
  z_create : forall want n, keeps R (create_agent want n);
  z_base : forall a, keeps R (base_decom a);
  z_front : forall a p, keeps R (build_front a p);
  z_add : forall n a o, keeps R (add_prototype n a o) }.
Context (H : coarse).
Local Notation K := (keeps R).
Let mb {A B} (m : M A) (k : A -> M B) : K m -> (forall a, K (k a)) -> K (bind m k) := keeps_bind R Rtrans m k.
Let mret {A} (a : A) : K (ret a) := keeps_ret R Rrefl a.
Let mraise {A} e : K (@raise A e) := keeps_raise R Rrefl e.
Let mgets {A} (f : sim -> A) : K (gets f) := keeps_gets R Rrefl f.
Let mderef a : K (deref a) := keeps_deref R Rrefl a.
Lemma zemit e : plain e = true -> K (modify (emit e)). Proof. intros E. apply keeps_modify. intros s. now apply (z_emit H). Qed.
Lemma zboth e f : plain e = true -> K (modify (fun s => emit e (with_ti f s))).
Proof. intros E. apply keeps_modify. intros s. eapply Rtrans; [apply (z_timer H)|now apply (z_emit H)]. Qed.
Lemma z_register a : K (register a).
Proof. apply mb; [apply mderef|]. intros x. now apply zboth. Qed.
Lemma z_unregister a : K (unregister a).
Proof. apply mb; [apply mderef|]. intros x. now apply zboth. Qed.
Lemma z_sched_build p n t : K (sched_build p n t).
Proof.
  apply mb; [apply mgets|]. intros now. apply mb.
  - destruct p; [|apply mret]. apply mb; [apply mderef|]. intros; apply mret.
  - intros pid. apply mb; [|intros _; now apply zemit].
    intros s o s' E N. unfold timer_sched_build in E. destruct (Z.leb _ _); injection E as <- <-; [apply Rrefl|apply (z_timer H)].
Qed.
Lemma z_sched_decom a t : K (sched_decom a t).
Proof.
  apply mb; [apply mgets|]. intros now. apply mb.
  - intros s o s' E N. unfold timer_sched_decom in E. destruct (Z.ltb _ _); injection E as <- <-; [apply Rrefl|apply (z_timer H)].
  - intros _. apply mb; [apply mderef|]. intros _. now apply zemit.
Qed.
Lemma z_set_life a n : K (set_lifetime a n).
Proof.
  intros s o s' E N. unfold set_lifetime, bind, deref in E. destruct (get s a) as [x|] eqn:G; [|congruence].
  destruct (Z.eqb _ _); injection E as <- <-; [|apply Rrefl]. now apply (z_life H).
Qed.
Lemma z_force a n : K (lifetime_force a n).
Proof.
  intros s o s' E N. unfold lifetime_force, bind at 1, deref in E. destruct (get s a) as [x|] eqn:G; [|congruence].
  destruct (Z.eqb _ _); [injection E as <- <-; now apply (z_life H)|].
  unfold bind, gets in E. destruct (Z.leb _ _); [now apply (z_set_life _ _ _ _ _ E)|].
  injection E as <- <-. now apply (z_life H).
Qed.
Lemma z_kind_decom cond a : K (kind_decom cond a).
Proof.
  apply mb; [apply mderef|]. intros x. destruct (a_kind x).
  - apply mb; [apply mgets|]. intros [|]; [|apply mraise]. apply mb; [apply (z_traders H)|]. intros _.
    apply mb; [apply z_unregister|]. intros _. apply (z_base H).
  - apply mb; [apply z_unregister|]. intros _. apply (z_base H).
  - apply mb; [apply z_unregister|]. intros _. apply (z_base H).
  - apply (z_base H).
Qed.
Lemma coarse_atoms cond : atoms R cond.
Proof.
  constructor; auto using z_register, z_unregister, z_sched_build, z_sched_decom, z_set_life, z_force, z_kind_decom.
  - apply keeps_modify. intros s. eapply Rtrans; [apply (z_timer H)|]. now apply (z_emit H).
  - apply keeps_modify. intros s. apply (z_timer H).
  - apply (z_new H).
  - apply (z_create H).
  - apply (z_add H).
  - apply (z_front H).
  - intros a. apply mb; [apply mderef|]. intros x. now apply zemit.
Qed.
Lemma coarse_rests : rests R.
Proof.
  constructor; intros; apply keeps_modify; intros s; try apply (z_timer H); try now apply (z_emit H).
Qed.
Lemma coarse_simulate beh cond fuel setup t0 d o s' :
  simulate beh cond fuel setup t0 d = (o, s') -> o <> Undef -> R (sim0 t0 d) s'.
Proof.
  intros Hs N. eapply keeps_simulate; eauto using coarse_atoms, coarse_rests.
  intros p e He. apply zemit. destruct p, e; try discriminate; reflexivity.
Qed.
End Micro.

(** ** Destruction, in closed form *)
Definition same_rest (x y : agent) : Prop :=
  a_id y = a_id x /\ a_kind y = a_kind x /\ a_shim y = a_shim x /\ a_proto y = a_proto x /\ a_spec y = a_spec x.
Lemma same_rest_trans x y z : same_rest x y -> same_rest y z -> same_rest x z.
Proof. unfold same_rest. intuition congruence. Qed.

Lemma modify_agent_normal a f s s' : modify_agent a f s = (Normal tt, s') ->
  exists x, nth_error (heap (w s)) a = Some x /\ a_alive x = true /\ s' = set_agent a (f x) s.
Proof.
  unfold modify_agent, bind, deref. destruct (get s a) as [x|] eqn:G; [|discriminate]. unfold modify. intros [= <-].
  apply get_nth in G. exists x. tauto.
Qed.
Lemma set_agent_nth a x s b : (a < length (heap (w s)))%nat ->
  nth_error (heap (w (set_agent a x s))) b = if Nat.eqb b a then Some x else nth_error (heap (w s)) b.
Proof.
  intros L. simpl. destruct (Nat.eqb_spec b a) as [->|N]; [now rewrite nth_upd_same|]. rewrite nth_upd_other by auto. reflexivity.
Qed.
Definition eqw (s s' : sim) : Prop :=
  ti s' = ti s /\ log s' = log s /\ length (heap (w s')) = length (heap (w s)) /\ nid (w s') = nid (w s) /\
  alist (w s') = alist (w s) /\ protos (w s') = protos (w s) /\ nproto (w s') = nproto (w s) /\ nspec (w s') = nspec (w s) /\
  traders (w s') = traders (w s).
Lemma eqw_set a x s : eqw s (set_agent a x s).
Proof. unfold eqw. simpl. rewrite upd_length. repeat (split; [reflexivity|]). reflexivity. Qed.
Lemma eqw_refl s : eqw s s. Proof. unfold eqw. tauto. Qed.
Lemma eqw_trans a b c : eqw a b -> eqw b c -> eqw a c.
Proof. unfold eqw. intuition congruence. Qed.

Lemma orphan_loop l : forall s s',
  each (fun c => modify_agent c (set_parent None (-1))) l s = (Normal tt, s') ->
  eqw s s' /\ forall b, nth_error (heap (w s')) b =
    option_map (fun x => if existsb (Nat.eqb b) l then set_parent None (-1) x else x) (nth_error (heap (w s)) b).
Proof.
  induction l as [|c l IH]; intros s s' H.
  - simpl in H. injection H as <-. split; [apply eqw_refl|]. intros b. simpl. now destruct (nth_error _ b).
  - cbn [each] in H. apply bind_normal in H. destruct H as ([] & s1 & E1 & H).
    apply modify_agent_normal in E1. destruct E1 as (x & Hx & Ax & ->).
    destruct (IH _ _ H) as [E F]. split; [eapply eqw_trans; [apply eqw_set|exact E]|]. intros b. rewrite F.
    rewrite set_agent_nth by (apply nth_error_Some; congruence). cbn [existsb].
    destruct (Nat.eqb_spec b c) as [->|N]; simpl.
    + rewrite Hx. simpl. destruct (existsb _ l); reflexivity.
    + reflexivity.
Qed.

(** What destroying [a] (the object [x]) does to object [y] at [b]. *)
Definition destroyed (a : nat) (x : agent) (b : nat) (y : agent) : agent :=
  let y1 := if match a_parent x with Some p => Nat.eqb b p | None => false end then set_kids (pdel a (a_kids y)) y else y in
  let y2 := if existsb (Nat.eqb b) (a_kids x) then set_parent None (-1) y1 else y1 in
  if Nat.eqb b a then set_dead y2 else y2.
Lemma destroy_normal a s o s' : destroy a s = (o, s') -> o <> Undef ->
  o = Normal tt /\ exists x s1, live s a x /\ eqw s s1 /\ s' = emit (EDelete a) s1 /\
    forall b, nth_error (heap (w s')) b = option_map (destroyed a x b) (nth_error (heap (w s)) b).
Proof.
  intros H N. unfold destroy in H. apply deref_inv in H; [|exact N]. destruct H as (x & G & H).
  assert (L := get_nth _ _ _ G).
  assert (P1 : exists s1, (match a_parent x with Some p => modify_agent p (fun y => set_kids (pdel a (a_kids y)) y) | None => ret tt end) s = (Normal tt, s1)
     /\ (each (fun c => modify_agent c (set_parent None (-1))) (a_kids x) ;; modify_agent a set_dead ;; modify (emit (EDelete a))) s1 = (o, s')).
  { destruct (bind_inv _ _ _ _ _ H) as [([] & s1 & E1 & E2)|(No & o1 & E1 & N1 & U)]; [eauto|]. exfalso.
    destruct (a_parent x) as [p|]; [|injection E1 as <- _; eapply N1; eauto].
    unfold modify_agent, bind, deref in E1. destruct (get s p); [|injection E1 as <- _; apply N, U; reflexivity].
    injection E1 as <- _. eapply N1; eauto. }
  destruct P1 as (s1 & E1 & H1).
  assert (F1 : eqw s s1 /\ forall b, nth_error (heap (w s1)) b = option_map (fun y => if match a_parent x with Some p => Nat.eqb b p | None => false end then set_kids (pdel a (a_kids y)) y else y) (nth_error (heap (w s)) b)).
  { destruct (a_parent x) as [p|].
    - apply modify_agent_normal in E1. destruct E1 as (y & Hy & Ay & ->). split; [apply eqw_set|]. intros b.
      rewrite set_agent_nth by (apply nth_error_Some; congruence).
      destruct (Nat.eqb_spec b p) as [->|Np]; [rewrite Hy; reflexivity|now destruct (nth_error _ b)].
    - injection E1 as <-. split; [apply eqw_refl|]. intros b. now destruct (nth_error _ b). }
  destruct F1 as [Q1 F1].
  assert (P2 : exists s2, each (fun c => modify_agent c (set_parent None (-1))) (a_kids x) s1 = (Normal tt, s2)
     /\ (modify_agent a set_dead ;; modify (emit (EDelete a))) s2 = (o, s')).
  { destruct (bind_inv _ _ _ _ _ H1) as [([] & s2 & E2 & E3)|(No & o1 & E2 & N1 & U)]; [eauto|]. exfalso.
    assert (X : forall l s o1 s2, each (fun c => modify_agent c (set_parent None (-1))) l s = (o1, s2) -> o1 = Normal tt \/ o1 = Undef).
    { clear. induction l as [|c l IH]; intros s o1 s2 E; [injection E as <- _; auto|]. cbn [each] in E. unfold bind at 1 in E.
      unfold modify_agent at 1, bind at 1, deref in E. destruct (get s c); [|injection E as <- _; auto]. unfold modify at 1 in E. eapply IH; eauto. }
    destruct (X _ _ _ _ E2) as [->| ->]; [eapply N1; eauto|apply N, U; reflexivity]. }
  destruct P2 as (s2 & E2 & H2). destruct (orphan_loop _ _ _ E2) as [Q2 F2].
  unfold bind, modify_agent, bind, deref, modify in H2. destruct (get s2 a) as [z|] eqn:G2; [|congruence].
  injection H2 as <- <-. split; [reflexivity|]. exists x, (set_agent a (set_dead z) s2).
  split; [exact L|]. split; [eapply eqw_trans; [exact Q1|]; eapply eqw_trans; [exact Q2|apply eqw_set]|]. split; [reflexivity|].
  intros b. apply get_nth in G2. destruct G2 as [G2 _].
  change (heap (w (emit (EDelete a) (set_agent a (set_dead z) s2)))) with (heap (w (set_agent a (set_dead z) s2))).
  rewrite set_agent_nth by (apply nth_error_Some; congruence).
  assert (Fb : nth_error (heap (w s2)) b = option_map (fun y => let y1 := if match a_parent x with Some p => Nat.eqb b p | None => false end then set_kids (pdel a (a_kids y)) y else y in
     if existsb (Nat.eqb b) (a_kids x) then set_parent None (-1) y1 else y1) (nth_error (heap (w s)) b)).
  { rewrite F2, F1. destruct (nth_error (heap (w s)) b); reflexivity. }
  unfold destroyed. destruct (Nat.eqb_spec b a) as [->|Nb]; [|exact Fb].
  rewrite G2 in Fb. destruct (nth_error (heap (w s)) a); [|discriminate]. simpl in *. injection Fb as ->. reflexivity.
Qed.
Lemma destroyed_rest a x b y : same_rest y (destroyed a x b y).
Proof.
  unfold destroyed. destruct (match a_parent x with Some p => _ | None => _ end), (existsb _ _), (Nat.eqb b a); unfold same_rest; simpl; tauto.
Qed.
Lemma destroyed_alive a x b y : a_alive (destroyed a x b y) = a_alive y && negb (Nat.eqb b a).
Proof.
  unfold destroyed. destruct (match a_parent x with Some p => _ | None => _ end), (existsb _ _), (Nat.eqb b a); simpl; rewrite ?andb_true_r, ?andb_false_r; reflexivity.
Qed.
Lemma destroyed_parent a x b y : a_parent (destroyed a x b y) = if existsb (Nat.eqb b) (a_kids x) then None else a_parent y.
Proof.
  unfold destroyed. destruct (match a_parent x with Some p => _ | None => _ end), (existsb _ _), (Nat.eqb b a); reflexivity.
Qed.
Lemma destroyed_pid a x b y : a_pid (destroyed a x b y) = if existsb (Nat.eqb b) (a_kids x) then -1 else a_pid y.
Proof.
  unfold destroyed. destruct (match a_parent x with Some p => _ | None => _ end), (existsb _ _), (Nat.eqb b a); reflexivity.
Qed.
Lemma destroyed_kids a x b y : a_kids (destroyed a x b y) = if match a_parent x with Some p => Nat.eqb b p | None => false end then pdel a (a_kids y) else a_kids y.
Proof.
  unfold destroyed. destruct (match a_parent x with Some p => _ | None => _ end), (existsb _ _), (Nat.eqb b a); reflexivity.
Qed.

Lemma del_normal a s o s' : del_agent a s = (o, s') -> o <> Undef ->
  o = Normal tt /\
  ((~ In a (alist (w s)) /\ s' = s) \/
   (In a (alist (w s)) /\ exists x, live s a x /\ log s' = log s ++ [(tm (ti s), EDelete a)] /\ ti s' = ti s /\
      alist (w s') = pdel a (alist (w s)) /\ length (heap (w s')) = length (heap (w s)) /\ nid (w s') = nid (w s) /\
      protos (w s') = protos (w s) /\ nproto (w s') = nproto (w s) /\ nspec (w s') = nspec (w s) /\
      forall b, nth_error (heap (w s')) b = option_map (destroyed a x b) (nth_error (heap (w s)) b))).
Proof.
  intros H N. unfold del_agent, bind at 1, gets in H. destruct (existsb _ _) eqn:E.
  - apply existsb_nat in E. unfold bind at 1, modify in H. apply destroy_normal in H; [|exact N].
    destruct H as (-> & x & s1 & L & Q & -> & F). split; [reflexivity|]. right. split; [exact E|]. exists x.
    unfold eqw in Q. simpl in *. destruct Q as (Q1 & Q2 & Q3 & Q4 & Q5 & Q6 & Q7 & Q8 & Q9).
    rewrite Q2, Q1. repeat (split; [assumption || reflexivity|]). exact F.
  - injection H as <- <-. split; [reflexivity|]. left. split; [|reflexivity]. intros I. apply existsb_nat in I. congruence.
Qed.

(** Entering, in closed form. *)
Definition joined (now : Z) (a : nat) (p : option nat) (pid : Z) (b : nat) (y : agent) : agent :=
  if Nat.eqb b a then set_enter now (match p with Some q => set_parent (Some q) pid y | None => y end)
  else if match p with Some q => Nat.eqb b q | None => false end then set_kids (pins a (a_kids y)) y else y.
Lemma front_normal a p s o s' : build_front a p s = (o, s') -> o <> Undef ->
  (p = Some a /\ o = Raised KeyError /\ s' = emit (EBuild a p) s) \/
  (o = Normal tt /\ p <> Some a /\ exists x pid, live s a x /\
    (forall q, p = Some q -> exists y, live s q y /\ pid = a_id y) /\
    log s' = log s ++ (tm (ti s), EBuild a p) :: (match a_kind x with KOther => [] | _ => [(tm (ti s), EReg a)] end) /\
    alist (w s') = alist (w s) /\ length (heap (w s')) = length (heap (w s)) /\ nid (w s') = nid (w s) /\ protos (w s') = protos (w s) /\
    (forall n, nproto (w s') n = nproto (w s) n + (if match a_kind x with KFac | KOther => String.eqb n (a_proto x) | _ => false end then 1 else 0)) /\
    (forall n, nspec (w s') n = nspec (w s) n + (if match a_kind x with KFac | KOther => String.eqb n (a_spec x) | _ => false end then 1 else 0)) /\
    forall b, nth_error (heap (w s')) b = option_map (joined (tm (ti s)) a p pid b) (nth_error (heap (w s)) b)).
Proof.
  intros H N. unfold build_front, bind at 1, modify in H. set (s0 := emit (EBuild a p) s) in *.
  apply deref_inv in H; [|exact N]. destruct H as (x & G & H). apply get_nth in G. destruct G as [Hx Ax].
  assert (C : (p = Some a /\ connect a p s0 = (Raised KeyError, s0)) \/
    exists s1 pid, connect a p s0 = (Normal tt, s1) /\ eqw s0 s1 /\ p <> Some a /\ (forall q, p = Some q -> exists y, live s q y /\ pid = a_id y) /\
    forall b, nth_error (heap (w s1)) b = option_map (fun y => if Nat.eqb b a then match p with Some q => set_parent (Some q) pid y | None => y end
      else if match p with Some q => Nat.eqb b q | None => false end then set_kids (pins a (a_kids y)) y else y) (nth_error (heap (w s)) b)).
  { destruct p as [q|]; simpl.
    - destruct (Nat.eqb_spec q a) as [->|Nq]; [left; auto|]. right.
      destruct (bind_inv _ _ _ _ _ H) as [([] & s1 & E1 & E2)|(No & o1 & E1 & N1 & U)].
      + unfold connect in E1. destruct (Nat.eqb_spec q a); [contradiction|]. assert (E1' := E1).
        apply bind_normal in E1. destruct E1 as (y & s2 & E3 & E1). unfold deref in E3. destruct (get s0 q) as [y'|] eqn:Gq; [|discriminate].
        injection E3 as <- <-. apply get_nth in Gq. apply bind_normal in E1. destruct E1 as ([] & s2 & E3 & E1).
        apply modify_agent_normal in E3. destruct E3 as (x' & Hx' & Ax' & ->).
        apply modify_agent_normal in E1. destruct E1 as (z & Hz & Az & ->).
        exists (set_agent q (set_kids (pins a (a_kids z)) z) (set_agent a (set_parent (Some q) (a_id y') x') s0)), (a_id y').
        split; [exact E1'|]. split; [eapply eqw_trans; apply eqw_set|]. split; [congruence|]. split; [intros q' [= <-]; exists y'; split; [exact Gq|reflexivity]|].
        intros b. rewrite set_agent_nth by (apply nth_error_Some; congruence).
        rewrite set_agent_nth in Hz by (apply nth_error_Some; congruence).
        rewrite set_agent_nth by (apply nth_error_Some; congruence).
        destruct (Nat.eqb_spec q a); [contradiction|]. destruct (Nat.eqb_spec b q) as [->|Nb].
        * destruct (Nat.eqb_spec q a); [contradiction|]. change (heap (w s0)) with (heap (w s)) in Hz. rewrite Hz. reflexivity.
        * destruct (Nat.eqb_spec b a) as [->|Na].
          -- change (heap (w s0)) with (heap (w s)) in Hx'. rewrite Hx'. reflexivity.
          -- change (heap (w s0)) with (heap (w s)). now destruct (nth_error _ b).
      + exfalso. unfold connect in E1. destruct (Nat.eqb_spec q a); [contradiction|]. unfold bind at 1, deref in E1.
        destruct (get s0 q) as [y|] eqn:Gq; [|injection E1 as <- _; apply N, U; reflexivity].
        unfold bind at 1, modify_agent at 1, bind at 1, deref in E1.
        destruct (get s0 a) as [x'|]; [|injection E1 as <- _; apply N, U; reflexivity]. unfold modify at 1 in E1.
        unfold modify_agent, bind, deref, modify in E1. cbv beta iota in E1.
        match type of E1 with context [get ?u ?v] => destruct (get u v) as [x''|] end;
          injection E1 as <- _; [eapply N1; eauto|apply N, U; reflexivity].
    - right. exists s0, 0. split; [reflexivity|]. split; [apply eqw_refl|]. split; [congruence|]. split; [congruence|]. intros b.
      change (heap (w s0)) with (heap (w s)). destruct (Nat.eqb b a); now destruct (nth_error _ b). }
  destruct C as [[-> E1]|(s1 & pid & E1 & Q1 & Np & Lq & F1)].
  - left. unfold bind at 1 in H. rewrite E1 in H. injection H as <- <-. auto.
  - right. unfold bind at 1 in H. rewrite E1 in H. unfold bind at 1, gets in H.
    unfold bind at 1, modify_agent, bind at 1, deref in H.
    assert (T1 : tm (ti s1) = tm (ti s)) by (destruct Q1 as [-> _]; reflexivity).
    destruct (get s1 a) as [x1|] eqn:G1; [|congruence]. unfold modify at 1 in H. apply get_nth in G1. destruct G1 as [Hx1 Ax1].
    set (s2 := set_agent a (set_enter (tm (ti s1)) x1) s1) in *.
    assert (La : (a < length (heap (w s1)))%nat) by (apply nth_error_Some; congruence).
    assert (F2 : forall b, nth_error (heap (w s2)) b = option_map (joined (tm (ti s)) a p pid b) (nth_error (heap (w s)) b)).
    { intros b. unfold s2. rewrite set_agent_nth by exact La. unfold joined. rewrite T1. specialize (F1 b).
      destruct (Nat.eqb_spec b a) as [Eb|Nb]; [rewrite Eb in *; clear Eb|exact F1]. rewrite Hx1 in F1. change (heap (w s0)) with (heap (w s)) in *.
      rewrite Hx in F1 |- *. simpl in F1 |- *. injection F1 as ->. reflexivity. }
    assert (Q2 : eqw s0 s2) by (eapply eqw_trans; [exact Q1|apply eqw_set]). clearbody s2. clear Q1 F1 E1 Hx1 Ax1 La.
    unfold enter_notify in H. apply deref_inv in H; [|exact N]. destruct H as (x2 & G2 & H). apply get_nth in G2. destruct G2 as [Hx2 Ax2].
    change (heap (w s0)) with (heap (w s)) in *.
    assert (Sr : a_kind x2 = a_kind x /\ a_proto x2 = a_proto x /\ a_spec x2 = a_spec x).
    { specialize (F2 a). rewrite Hx2, Hx in F2. simpl in F2. injection F2 as ->. unfold joined. rewrite Nat.eqb_refl. destruct p; simpl; auto. }
    destruct Sr as (Sk & Sp & Ss). rewrite Sk in H.
    unfold eqw in Q2. destruct Q2 as (R1 & R2 & R3 & R4 & R5 & R6 & R7 & R8 & R9).
    assert (L2 : log s2 = log s ++ [(tm (ti s), EBuild a p)]) by (rewrite R2; reflexivity).
    assert (T2 : tm (ti s2) = tm (ti s)) by (rewrite R1; reflexivity).
    assert (Fin : forall s3, o = Normal tt -> w s3 = w s2 -> True) by auto. clear Fin.
    destruct (a_kind x) eqn:Ek.
    + unfold bind, count_agent, set_traders, modify, register, bind, deref in H.
      destruct (get _ a); [|congruence]. unfold modify in H. injection H as <- <-.
      split; [reflexivity|]. split; [exact Np|]. exists x, pid. rewrite Ek. cbn [log w ti emit with_ti with_w heap nid alist protos nproto nspec].
      split; [split; assumption|]. split; [exact Lq|]. split; [rewrite L2, <- app_assoc, T2; reflexivity|].
      do 4 (split; [assumption|]). rewrite Sp, Ss, R7, R8. unfold bump. split; [|split].
      * intros n. cbn [nproto w emit s0]. destruct (String.eqb n (a_proto x)); lia.
      * intros n. cbn [nspec w emit s0]. destruct (String.eqb n (a_spec x)); lia.
      * exact F2.
    + unfold register, bind, deref in H. destruct (get _ a); [|congruence]. unfold modify in H. injection H as <- <-.
      split; [reflexivity|]. split; [exact Np|]. exists x, pid. rewrite Ek. cbn [log w ti emit with_ti with_w heap nid alist protos nproto nspec].
      split; [split; assumption|]. split; [exact Lq|]. split; [rewrite L2, <- app_assoc, T2; reflexivity|].
      do 4 (split; [assumption|]). rewrite R7, R8. split; [intros n; cbn [nproto w emit s0]; lia|]. split; [intros n; cbn [nspec w emit s0]; lia|exact F2].
    + unfold register, bind, deref in H. destruct (get _ a); [|congruence]. unfold modify in H. injection H as <- <-.
      split; [reflexivity|]. split; [exact Np|]. exists x, pid. rewrite Ek. cbn [log w ti emit with_ti with_w heap nid alist protos nproto nspec].
      split; [split; assumption|]. split; [exact Lq|]. split; [rewrite L2, <- app_assoc, T2; reflexivity|].
      do 4 (split; [assumption|]). rewrite R7, R8. split; [intros n; cbn [nproto w emit s0]; lia|]. split; [intros n; cbn [nspec w emit s0]; lia|exact F2].
    + unfold count_agent, modify in H. injection H as <- <-.
      split; [reflexivity|]. split; [exact Np|]. exists x, pid. rewrite Ek. cbn [log w ti emit with_ti with_w heap nid alist protos nproto nspec].
      split; [split; assumption|]. split; [exact Lq|]. split; [exact L2|].
      do 4 (split; [assumption|]). rewrite Sp, Ss, R7, R8. unfold bump. split; [|split].
      * intros n. cbn [nproto w emit s0]. destruct (String.eqb n (a_proto x)); lia.
      * intros n. cbn [nspec w emit s0]. destruct (String.eqb n (a_spec x)); lia.
      * exact F2.
Qed.
Lemma joined_alive now a p pid b y : a_alive (joined now a p pid b y) = a_alive y.
Proof. unfold joined. destruct (Nat.eqb b a); [destruct p; reflexivity|]. destruct (match p with Some q => _ | None => _ end); reflexivity. Qed.
Lemma joined_rest now a p pid b y : same_rest y (joined now a p pid b y).
Proof. unfold joined, same_rest. destruct (Nat.eqb b a); [destruct p; simpl; tauto|]. destruct (match p with Some q => _ | None => _ end); simpl; tauto. Qed.

(** Leaving, in closed form. *)
Lemma base_normal a s o s' : base_decom a s = (o, s') -> o <> Undef ->
  o = Normal tt /\ exists x, live s a x /\ ti s' = ti s /\ length (heap (w s')) = length (heap (w s)) /\ nid (w s') = nid (w s) /\
    protos (w s') = protos (w s) /\
    (forall n, nproto (w s') n = nproto (w s) n - (if String.eqb n (a_proto x) then 1 else 0)) /\
    (forall n, nspec (w s') n = nspec (w s) n - (if String.eqb n (a_spec x) then 1 else 0)) /\
    ((~ In a (alist (w s)) /\ log s' = log s ++ [(tm (ti s), EExit a (a_id x) (tm (ti s)))] /\ heap (w s') = heap (w s) /\ alist (w s') = alist (w s)) \/
     (In a (alist (w s)) /\ log s' = log s ++ [(tm (ti s), EExit a (a_id x) (tm (ti s))); (tm (ti s), EDelete a)] /\
      alist (w s') = pdel a (alist (w s)) /\
      forall b, nth_error (heap (w s')) b = option_map (destroyed a x b) (nth_error (heap (w s)) b))).
Proof.
  intros H N. unfold base_decom in H. apply deref_inv in H; [|exact N]. destruct H as (x & G & H). apply get_nth in G.
  unfold bind at 1, gets in H. unfold bind at 1, modify in H. unfold bind at 1, count_agent, modify in H.
  apply del_normal in H; [|exact N]. destruct H as [-> [[Ni ->]|(Ia & x' & L & E1 & E2 & E3 & E4 & E5 & E6 & E7 & E8 & E9)]].
  - split; [reflexivity|]. exists x. cbn [log w ti emit with_ti with_w heap nid alist protos nproto nspec] in *.
    split; [exact G|]. do 4 (split; [reflexivity|]). unfold bump.
    split; [intros n; destruct (String.eqb n (a_proto x)); lia|]. split; [intros n; destruct (String.eqb n (a_spec x)); lia|].
    left. auto.
  - unfold live in L. cbn [log w ti emit with_ti with_w heap nid alist protos nproto nspec] in *.
    assert (x' = x) by (destruct L as [L _], G as [G _]; congruence). subst x'.
    split; [reflexivity|]. exists x. split; [exact G|]. split; [exact E2|]. split; [exact E4|]. split; [exact E5|]. split; [exact E6|].
    rewrite E7, E8. unfold bump.
    split; [intros n; destruct (String.eqb n (a_proto x)); lia|]. split; [intros n; destruct (String.eqb n (a_spec x)); lia|].
    right. split; [exact Ia|]. split; [rewrite E1, <- app_assoc; reflexivity|]. auto.
Qed.
