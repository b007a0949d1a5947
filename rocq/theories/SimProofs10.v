(** The theorems about the kernel, assembled. *)
From Coq Require Import String List ZArith Bool Arith Lia Sorted.
From Verif Require Import Base SimModel SimSpec SimProofs1 SimProofs2 SimProofs3 SimProofs4 SimProofs5 SimProofs6 SimProofs7 SimProofs8 SimProofs9 SimExamples.
Import ListNotations.
Local Open Scope Z_scope.

(** ** C26 *)
Lemma run_phases_in_order beh cond fuel setup t0 d o s' :
  simulate beh cond fuel setup t0 d = (o, s') -> o <> Undef ->
  exists m k,
    phases (log s') = flat_map step_phases (steps_from t0 m) ++ firstn k (step_phases (t0 + Z.of_nat m)) /\
    (m <= Z.to_nat (d - t0))%nat /\
    (forall z, In (z, EKill) (log s') -> t0 + Z.of_nat m - 1 <= z) /\
    (o = Normal tt -> k = 0%nat /\ (m = Z.to_nat (d - t0) \/ (0 < m)%nat /\ In (t0 + Z.of_nat m - 1, EKill) (log s'))).
Proof.
  intros H N. destruct (good_run _ _ _ _ _ _ _ _ H N) as (_ & m & k & A & B & C & D).
  exists m, k. split; [exact A|]. split; [exact B|]. split; [exact C|]. intros E. destruct (D E) as (D1 & D2 & _). auto.
Qed.
Lemma run_placed beh cond fuel setup t0 d o s' :
  simulate beh cond fuel setup t0 d = (o, s') -> o <> Undef ->
  forall pre x post p, log s' = pre ++ x :: post -> own_phase (snd x) = Some p -> phase_now pre = Some (fst x, p).
Proof. intros H N. destruct (good_run _ _ _ _ _ _ _ _ H N) as (G & _). exact (g_placed _ _ _ _ _ G). Qed.
Lemma phases_app a b : phases (a ++ b) = phases a ++ phases b. Proof. apply flat_map_app. Qed.
Lemma nodup_consts t k l : ~ In t l -> (0 < k)%nat -> nodup Z.eq_dec (repeat t k ++ l) = t :: nodup Z.eq_dec l.
Proof.
  intros Nl. induction k as [|[|k] IH]; intros H; [lia| |].
  - simpl. destruct (in_dec Z.eq_dec t l); [contradiction|reflexivity].
  - change (repeat t (S (S k)) ++ l) with (t :: (repeat t (S k) ++ l)).
    change (nodup Z.eq_dec (t :: ?m)) with (if in_dec Z.eq_dec t m then nodup Z.eq_dec m else t :: nodup Z.eq_dec m).
    destruct (in_dec Z.eq_dec t (repeat t (S k) ++ l)) as [_|Ni]; [apply IH; lia|]. exfalso. apply Ni. simpl. now left.
Qed.
Lemma steps_from_S t n : steps_from t (S n) = t :: steps_from (t + 1) n.
Proof.
  unfold steps_from. cbn [seq map]. f_equal; [simpl; lia|]. rewrite <- seq_shift, map_map. apply map_ext. intros i. lia.
Qed.
Lemma steps_from_ge t n z : In z (steps_from t n) -> t <= z.
Proof. intros H. apply in_map_iff in H. destruct H as (i & <- & _). lia. Qed.
Lemma times_of_steps n : forall t, nodup Z.eq_dec (map fst (flat_map step_phases (steps_from t n))) = steps_from t n.
Proof.
  induction n as [|n IH]; intros t; [reflexivity|]. rewrite steps_from_S. cbn [flat_map]. rewrite map_app.
  change (map fst (step_phases t)) with (repeat t 6). rewrite nodup_consts; [now rewrite IH| |lia].
  intros Hi. apply in_map_iff in Hi. destruct Hi as ([z p] & <- & Hz). simpl in *. apply in_flat_map in Hz. destruct Hz as (y & Hy & Hz).
  apply steps_from_ge in Hy. unfold step_phases in Hz. simpl in Hz.
  repeat (destruct Hz as [Hz|Hz]; [injection Hz as Hz _; lia|]). destruct Hz.
Qed.
Lemma kill_in l : existsb is_kill l = true <-> exists z, In (z, EKill) l.
Proof.
  rewrite existsb_exists. split.
  - intros ([z e] & I & K). destruct e; try discriminate. eauto.
  - intros (z & I). exists (z, EKill). auto.
Qed.
Definition finishing (x : Z * event) : bool := match snd x with EFinish _ _ => true | _ => false end.
Lemma run_finish beh cond fuel setup t0 d s' :
  simulate beh cond fuel setup t0 d = (Normal tt, s') ->
  exists l last early snap n, log s' = l ++ [(last + 1, EFinish early last); (last + 1, ESnap snap n)] /\
    (early = true <-> exists z, In (z, EKill) l) /\ steps_from t0 (Z.to_nat (last + 1 - t0)) = nodup Z.eq_dec (map fst (phases l)).
Proof.
  intros H. destruct (good_run _ _ _ _ _ _ _ _ H ltac:(discriminate)) as (_ & m & k & A & B & C & D).
  destruct (D eq_refl) as (-> & _ & l & sn & n & E). exists l, (t0 + Z.of_nat m - 1), (existsb is_kill l), sn, n.
  replace (t0 + Z.of_nat m - 1 + 1) with (t0 + Z.of_nat m) by lia. split; [exact E|]. split; [apply kill_in|].
  rewrite E, phases_app in A. simpl in A. rewrite !app_nil_r in A. rewrite A, times_of_steps. f_equal. lia.
Qed.

(** ** C27 *)
Lemma run_ticks beh cond fuel setup t0 d o s' pre seg t :
  simulate beh cond fuel setup t0 d = (o, s') -> o <> Undef ->
  whole_phase (log s') pre seg t PTick -> unregs seg = [] ->
  ticks seg = filter (shim_of s') (standing pre) ++ filter (fun a => negb (shim_of s' a)) (standing (pre ++ seg)).
Proof.
  intros H N. eapply (whole_calls _ _ _ _ _ _ _ _ H N ticks ETick HTick); auto.
  - left. reflexivity.
  - intros l m. apply flat_map_app.
  - intros m. apply calm_ticks.
Qed.
Lemma run_tocks beh cond fuel setup t0 d o s' pre seg t :
  simulate beh cond fuel setup t0 d = (o, s') -> o <> Undef ->
  whole_phase (log s') pre seg t PTock -> unregs seg = [] ->
  tocks seg = filter (shim_of s') (standing pre) ++ filter (fun a => negb (shim_of s' a)) (standing (pre ++ seg)).
Proof.
  intros H N. eapply (whole_calls _ _ _ _ _ _ _ _ H N tocks ETock HTock); auto.
  - right. reflexivity.
  - intros l m. apply flat_map_app.
  - intros m. apply calm_tocks.
Qed.
Lemma count_parts (P : nat -> bool) l m a : ~ In a m ->
  count_occ Nat.eq_dec (filter P l ++ filter (fun x => negb (P x)) (l ++ m)) a = count_occ Nat.eq_dec l a.
Proof.
  intros Na. rewrite filter_app, !count_occ_app.
  replace (count_occ Nat.eq_dec (filter (fun x => negb (P x)) m) a) with 0%nat.
  2:{ symmetry. apply count_occ_not_In. intros I. apply filter_In in I. tauto. }
  induction l as [|x l IH]; [reflexivity|]. simpl. destruct (P x); simpl; destruct (Nat.eq_dec x a); lia.
Qed.
Lemma run_once beh cond fuel setup t0 d o s' pre seg t p a :
  simulate beh cond fuel setup t0 d = (o, s') -> o <> Undef ->
  whole_phase (log s') pre seg t p -> unregs seg = [] -> ~ In a (regs seg) ->
  (p = PTick -> count_occ Nat.eq_dec (ticks seg) a = count_occ Nat.eq_dec (standing pre) a) /\
  (p = PTock -> count_occ Nat.eq_dec (tocks seg) a = count_occ Nat.eq_dec (standing pre) a).
Proof.
  intros H N W U R. split; intros ->.
  - rewrite (run_ticks _ _ _ _ _ _ _ _ _ _ _ H N W U), standing_no_unreg by exact U. now apply count_parts.
  - rewrite (run_tocks _ _ _ _ _ _ _ _ _ _ _ H N W U), standing_no_unreg by exact U. now apply count_parts.
Qed.
Lemma run_decides beh cond fuel setup t0 d o s' pre seg t :
  simulate beh cond fuel setup t0 d = (o, s') -> o <> Undef ->
  whole_phase (log s') pre seg t PDecide ->
  StronglySorted lt (decides seg) /\ forall a, In a (standing pre) -> ~ In a (unregs seg) -> In a (decides seg).
Proof. intros H N W. exact (whole_decides _ _ _ _ _ _ _ _ H N _ _ _ W). Qed.
Lemma run_only_listeners beh cond fuel setup t0 d o s' :
  simulate beh cond fuel setup t0 d = (o, s') -> o <> Undef -> calls_listeners (log s').
Proof. intros H N. exact (proj2 (run_calls _ _ _ _ _ _ _ _ H N)). Qed.
Definition twice_log : history := Eval vm_compute in log (snd twice).
Lemma twice_ticks : exists pre seg,
  fst twice = Normal tt /\ whole_phase (log (snd twice)) pre seg 0 PTick /\ In 0%nat (standing pre) /\ ticks seg = [0; 0]%nat.
Proof.
  exists (before_phase 0 PTick twice_log), (in_phase 0 PTick twice_log). split; [vm_compute; reflexivity|]. split; [|split].
  - assert (E : log (snd twice) = twice_log) by (vm_compute; reflexivity). rewrite E. apply cut_whole; [reflexivity|discriminate].
  - vm_compute. auto.
  - reflexivity.
Qed.
Definition leave_log : history := Eval vm_compute in log (snd leave).
Lemma leave_skips : exists pre seg,
  fst leave = Normal tt /\ whole_phase (log (snd leave)) pre seg 0 PTick /\ In 1%nat (standing pre) /\ unregs seg = [0%nat] /\ ticks seg = [0%nat].
Proof.
  exists (before_phase 0 PTick leave_log), (in_phase 0 PTick leave_log). split; [vm_compute; reflexivity|]. split; [|split; [|split]].
  - assert (E : log (snd leave) = leave_log) by (vm_compute; reflexivity). rewrite E. apply cut_whole; [reflexivity|discriminate].
  - vm_compute. auto.
  - reflexivity.
  - reflexivity.
Qed.

(** ** C28 *)
Lemma run_builds beh cond fuel setup t0 d o s' pre seg t :
  simulate beh cond fuel setup t0 d = (o, s') -> o <> Undef -> whole_phase (log s') pre seg t PBuild ->
  builds_for t (log s') = builds_for t pre /\
  exists pieces, seg = concat pieces /\ Forall2 (built_as t) (builds_for t (log s')) pieces.
Proof.
  intros H N W. assert (E := builds_before _ _ _ _ _ _ _ _ H N _ _ _ W). split; [exact E|]. rewrite E.
  exact (whole_builds _ _ _ _ _ _ _ _ H N _ _ _ W).
Qed.
Lemma run_qbuilds beh cond fuel setup t0 d o s' pre seg t :
  simulate beh cond fuel setup t0 d = (o, s') -> o <> Undef -> whole_phase (log s') pre seg t PBuild ->
  qbuilds seg = builds_for t (log s').
Proof.
  intros H N W. destruct (run_builds _ _ _ _ _ _ _ _ _ _ _ H N W) as (_ & pcs & -> & F). eapply qbuilds_concat. exact F.
Qed.
Lemma run_future_builds beh cond fuel setup t0 d o s' z p pid n t :
  simulate beh cond fuel setup t0 d = (o, s') -> o <> Undef -> In (z, ESchedB p pid n t) (log s') -> z < t.
Proof.
  intros H N I. assert (F := i_future _ (run_inv _ _ _ _ _ _ _ _ H N)). rewrite Forall_forall in F. exact (F _ I).
Qed.
Lemma live_get s a x : live s a x -> get s a = Some x.
Proof. intros [A B]. unfold get. now rewrite A, B. Qed.
Lemma sched_build_past p n t s :
  (forall q, p = Some q -> exists x, live s q x) -> t <= tm (ti s) -> t <> -1 ->
  sched_build p n t s = (Raised ValueError, s).
Proof.
  intros Hp Ht Nt. unfold sched_build, bind at 1, gets. destruct (Z.eqb_spec t (-1)); [contradiction|].
  assert (E : timer_sched_build p n t s = (Raised ValueError, s)).
  { unfold timer_sched_build. destruct (Z.leb_spec t (tm (ti s))); [reflexivity|lia]. }
  destruct p as [q|].
  - destruct (Hp q eq_refl) as (x & L). unfold bind at 1, bind at 1, deref. rewrite (live_get _ _ _ L). unfold ret. unfold bind. now rewrite E.
  - unfold bind at 1, ret. unfold bind. now rewrite E.
Qed.
Lemma sched_build_ok p n t s :
  (forall q, p = Some q -> exists x, live s q x) -> tm (ti s) < t -> t <> -1 ->
  exists s', sched_build p n t s = (Normal tt, s') /\
    exists pid, log s' = log s ++ [(tm (ti s), ESchedB p pid n t)].
Proof.
  intros Hp Ht Nt. unfold sched_build, bind at 1, gets. destruct (Z.eqb_spec t (-1)); [contradiction|].
  assert (E : fst (timer_sched_build p n t s) = Normal tt /\ log (snd (timer_sched_build p n t s)) = log s /\ tm (ti (snd (timer_sched_build p n t s))) = tm (ti s)).
  { unfold timer_sched_build. destruct (Z.leb_spec t (tm (ti s))); [lia|auto]. }
  destruct (timer_sched_build p n t s) as [o1 s1] eqn:E1. simpl in E. destruct E as (-> & L1 & T1).
  destruct p as [q|].
  - destruct (Hp q eq_refl) as (x & L). unfold bind at 1, bind at 1, deref. rewrite (live_get _ _ _ L). unfold ret, bind. rewrite E1.
    eexists. split; [reflexivity|]. exists (a_id x). simpl. now rewrite L1, T1.
  - unfold bind at 1, ret. unfold bind. rewrite E1. eexists. split; [reflexivity|]. exists (-1). simpl. now rewrite L1, T1.
Qed.
Lemma orphan_undef : fst orphan = Undef.
Proof. vm_compute. reflexivity. Qed.

(** ** C29 *)
Lemma run_decoms beh cond fuel setup t0 d o s' pre seg t :
  simulate beh cond fuel setup t0 d = (o, s') -> o <> Undef -> whole_phase (log s') pre seg t PDecom ->
  NoDup (decoms_for t pre) /\ (forall a, In a (decoms_for t pre) <-> pending a pre = Some t) /\
  exists pieces, seg = concat pieces /\ Forall2 (left_as t) (decoms_for t pre) pieces.
Proof.
  intros H N W. split; [apply decoms_nodup|]. split; [intros a; apply decoms_pending|].
  exact (whole_decoms _ _ _ _ _ _ _ _ H N _ _ _ W).
Qed.
Lemma run_leaves beh cond fuel setup t0 d o s' pre seg t a :
  simulate beh cond fuel setup t0 d = (o, s') -> o <> Undef -> whole_phase (log s') pre seg t PDecom ->
  pending a pre = Some t -> In (t, EExit a (Z.of_nat a) t) seg.
Proof. intros H N W P. exact (decommissioned _ _ _ _ _ _ _ _ H N _ _ _ _ W P). Qed.
Lemma run_last_order beh cond fuel setup t0 d o s' pre seg t a :
  simulate beh cond fuel setup t0 d = (o, s') -> o <> Undef -> whole_phase (log s') pre seg t PDecom ->
  (pending a pre = Some t -> In (t, EExit a (Z.of_nat a) t) seg) /\ (In a (qdecoms seg) -> pending a pre = Some t).
Proof.
  intros H N W. split; [now apply (run_leaves _ _ _ _ _ _ _ _ _ _ _ _ H N W)|].
  destruct (run_decoms _ _ _ _ _ _ _ _ _ _ _ H N W) as (_ & P & pcs & -> & F). rewrite (qdecoms_concat _ _ _ F). apply P.
Qed.
Lemma run_exits beh cond fuel setup t0 d o s' :
  simulate beh cond fuel setup t0 d = (o, s') -> o <> Undef ->
  NoDup (exits (log s')) /\ forall a, In a (exits (log s')) -> ~ exists x, live s' a x.
Proof.
  intros H N. destruct (run_life _ _ _ _ _ _ _ _ H N) as [_ G O]. split; [exact O|]. intros a I (x & L1 & L2).
  destruct (G a I) as (y & E & D). congruence.
Qed.
Lemma sched_decom_past a t s : t < tm (ti s) -> t <> -1 -> sched_decom a t s = (Raised ValueError, s).
Proof.
  intros Ht Nt. unfold sched_decom, bind at 1, gets. destruct (Z.eqb_spec t (-1)); [contradiction|].
  unfold bind at 1, timer_sched_decom. destruct (Z.ltb_spec t (tm (ti s))); [reflexivity|lia].
Qed.
Lemma late_lost :
  fst late = Normal tt /\ In (1, ESchedD 1 1) (log (snd late)) /\ pending 1 (log (snd late)) = Some 1 /\ ~ In 1%nat (exits (log (snd late))).
Proof.
  split; [vm_compute; reflexivity|]. split; [vm_compute; tauto|]. split; [vm_compute; reflexivity|].
  assert (E : exits (log (snd late)) = [0%nat]) by (vm_compute; reflexivity). rewrite E. simpl. intuition discriminate.
Qed.
Lemma postpone_ignored :
  fst postpone = Normal tt /\ pending 1 (log (snd postpone)) = Some 9 /\ In (1, EExit 1 1 1) (log (snd postpone)).
Proof. split; [vm_compute; reflexivity|]. split; [vm_compute; reflexivity|vm_compute; tauto]. Qed.

(** ** C30 *)
Lemma build_times beh cond fuel a p s s' :
  do_cmd beh cond fuel (CBuild a p) s = (Normal tt, s') ->
  exists x, nth_error (heap (w s')) a = Some x /\ a_enter x = tm (ti s) /\
    exit_time x = (if Z.eqb (a_life x) (-1) then -1 else tm (ti s) + a_life x - 1).
Proof.
  intros H. destruct (build_enters _ _ _ _ _ _ _ H) as (x & A & B & _). exists x. split; [exact A|]. split; [exact B|].
  unfold exit_time. now rewrite B.
Qed.
Lemma run_stays beh cond fuel setup t0 d o s' a :
  simulate beh cond fuel setup t0 d = (o, s') -> o <> Undef ->
  In a (entered (log s')) -> ~ In a (exits (log s')) -> exists x, live s' a x.
Proof. intros H N. exact (p_live _ (run_present _ _ _ _ _ _ _ _ H N) a). Qed.
Lemma set_lifetime_late a x n s : live s a x -> a_enter x <> -1 -> set_lifetime a n s = (Raised ValueError, s).
Proof. intros L E. unfold set_lifetime, bind, deref. rewrite (live_get _ _ _ L). destruct (Z.eqb_spec (a_enter x) (-1)); [contradiction|reflexivity]. Qed.
Lemma lifetime_force_late a x n s : live s a x -> 0 <= a_enter x <= tm (ti s) -> a_enter x + n <= tm (ti s) ->
  lifetime_force a n s = (Raised ValueError, s).
Proof.
  intros L E T. unfold lifetime_force, bind at 1, deref. rewrite (live_get _ _ _ L). destruct (Z.eqb_spec (a_enter x) (-1)); [lia|].
  unfold bind, gets. destruct (Z.leb_spec (a_enter x + n) (tm (ti s))); [|lia]. eapply set_lifetime_late; [exact L|lia].
Qed.

(** ** C31 *)
Lemma run_ids beh cond fuel setup t0 d o s' a x :
  simulate beh cond fuel setup t0 d = (o, s') -> o <> Undef -> nth_error (heap (w s')) a = Some x -> a_id x = Z.of_nat a.
Proof. intros H N E. exact (proj2 (i_ids _ (run_inv _ _ _ _ _ _ _ _ H N)) _ _ E). Qed.
Lemma run_mutual beh cond fuel setup t0 d o s' :
  simulate beh cond fuel setup t0 d = (o, s') -> o <> Undef -> orderly (log s') ->
  (forall p a, is_parent s' p a <-> is_child s' p a) /\
  (forall a x, live s' a x -> match a_parent x with Some p => exists y, live s' p y /\ a_pid x = a_id y | None => a_pid x = -1 end).
Proof.
  intros H N O. destruct (run_links _ _ _ _ _ _ _ _ H N O) as [U D E _]. split.
  - intros p a. split.
    + intros (x & L & P). destruct (U _ _ _ L P) as (y & Ly & I & _). exists y. auto.
    + intros (y & L & I). destruct (D _ _ _ L I) as (x & Lx & P). exists x. auto.
  - intros a x L. destruct (a_parent x) as [p|] eqn:P; [|eauto]. destruct (U _ _ _ L P) as (y & Ly & _ & Ip). eauto.
Qed.
Lemma run_acyclic beh cond fuel setup t0 d o s' a :
  simulate beh cond fuel setup t0 d = (o, s') -> o <> Undef -> orderly (log s') -> ~ ancestor s' a a.
Proof. intros H N O. apply links_acyclic; [exact (run_links _ _ _ _ _ _ _ _ H N O)|now apply orderly_nodup]. Qed.
Lemma run_net beh cond fuel setup t0 d o s' n :
  simulate beh cond fuel setup t0 d = (o, s') -> o <> Undef ->
  nproto (w s') n = Z.of_nat (length (filter (fun a => counted s' a && proto_is s' n a) (entered (log s')))) -
                    Z.of_nat (length (filter (proto_is s' n) (exits (log s')))) /\
  nspec (w s') n = Z.of_nat (length (filter (fun a => counted s' a && spec_is s' n a) (entered (log s')))) -
                   Z.of_nat (length (filter (spec_is s' n) (exits (log s')))).
Proof. intros H N. destruct (run_count _ _ _ _ _ _ _ _ H N) as [_ _ A B]. split; [apply A|apply B]. Qed.
Lemma run_counts beh cond fuel setup t0 d o s' :
  simulate beh cond fuel setup t0 d = (o, s') -> o <> Undef -> orderly (log s') ->
  (forall a, In a (exits (log s')) -> In a (entered (log s')) /\ counted s' a = true) ->
  (forall n, nproto (w s') n = Z.of_nat (length (filter (fun a => counted s' a && proto_is s' n a && negb (existsb (Nat.eqb a) (exits (log s'))))
                                                      (entered (log s'))))) /\
  (forall n, nspec (w s') n = Z.of_nat (length (filter (fun a => counted s' a && spec_is s' n a && negb (existsb (Nat.eqb a) (exits (log s'))))
                                                     (entered (log s'))))).
Proof.
  intros H N O X. assert (E := orderly_nodup _ O). assert (L := l_once _ (run_life _ _ _ _ _ _ _ _ H N)).
  destruct (run_count _ _ _ _ _ _ _ _ H N) as [_ _ A B]. split; intros n.
  - rewrite A. now apply net_present.
  - rewrite B. now apply net_present.
Qed.
(** Deciding [orderly]. *)
Fixpoint orderlyb (pre l : history) : bool :=
  match l with
  | [] => true
  | x :: r =>
      (match snd x with
       | EBuild a p => negb (existsb (Nat.eqb a) (entered pre)) && match p with Some q => existsb (Nat.eqb q) (entered pre) | None => true end
       | _ => true
       end) && orderlyb (pre ++ [x]) r
  end.
Lemma existsb_in a l : existsb (Nat.eqb a) l = true <-> In a l.
Proof.
  rewrite existsb_exists. split; [intros (y & I & E); apply Nat.eqb_eq in E; now subst|intros I; exists a; split; [exact I|apply Nat.eqb_refl]].
Qed.
Lemma orderlyb_ok l : forall pre0, orderlyb pre0 l = true -> forall pre t a p post, l = pre ++ (t, EBuild a p) :: post ->
  ~ In a (entered (pre0 ++ pre)) /\ match p with Some q => In q (entered (pre0 ++ pre)) | None => True end.
Proof.
  induction l as [|x l IH]; intros pre0 H pre t a p post E; [destruct pre; discriminate|].
  simpl in H. apply andb_prop in H. destruct H as [H1 H2]. destruct pre as [|y pre]; simpl in E; injection E as -> E.
  - rewrite app_nil_r. simpl in H1. apply andb_prop in H1. destruct H1 as [H1 H3]. split.
    + intros I. apply existsb_in in I. rewrite I in H1. discriminate.
    + destruct p; [now apply existsb_in|exact I].
  - specialize (IH _ H2 _ _ _ _ _ E). rewrite <- app_assoc in IH. exact IH.
Qed.
Lemma orderly_by l : orderlyb [] l = true -> orderly l.
Proof. intros H pre t a p post E. exact (orderlyb_ok l [] H pre t a p post E). Qed.
Lemma demo_orderly : orderly (log (snd demo)) /\ entered demo_log = [3; 4; 5; 6]%nat /\ exits demo_log = [5; 6]%nat /\
  (forall a, In a (exits (log (snd demo))) -> In a (entered (log (snd demo))) /\ counted (snd demo) a = true) /\
  is_parent (snd demo) 3 4 /\ is_child (snd demo) 3 4.
Proof.
  split; [apply orderly_by; rewrite demo_logs; reflexivity|]. split; [reflexivity|]. split; [reflexivity|]. split; [|split].
  - rewrite demo_logs. change (exits demo_log) with [5; 6]%nat. change (entered demo_log) with [3; 4; 5; 6]%nat.
    intros a [<-|[<-|[]]]; (split; [simpl; tauto|vm_compute; reflexivity]).
  - eexists. split; [split; vm_compute; reflexivity|vm_compute; reflexivity].
  - eexists. split; [split; vm_compute; reflexivity|vm_compute; auto].
Qed.
Lemma inst_gone_negative : fst inst_gone = Normal tt /\ orderly (log (snd inst_gone)) /\ nproto (w (snd inst_gone)) "A" = -1.
Proof. split; [vm_compute; reflexivity|]. split; [apply orderly_by; vm_compute; reflexivity|vm_compute; reflexivity]. Qed.
Lemma tangle_tangled : fst tangle = Normal tt /\
  is_child (snd tangle) 0 2 /\ is_parent (snd tangle) 1 2 /\ ~ is_parent (snd tangle) 0 2 /\ ancestor (snd tangle) 3 3.
Proof.
  split; [vm_compute; reflexivity|].
  assert (P : forall a p x, nth_error (heap (w (snd tangle))) a = Some x -> a_alive x = true -> a_parent x = Some p -> is_parent (snd tangle) p a)
    by (intros a p x A B C; exists x; split; [split; assumption|assumption]).
  split; [eexists; split; [split; vm_compute; reflexivity|vm_compute; auto]|].
  split; [eapply P; vm_compute; reflexivity|]. split.
  - intros (x & [A _] & C). assert (E : option_map a_parent (nth_error (heap (w (snd tangle))) 2) = Some (Some 1%nat)) by (vm_compute; reflexivity).
    rewrite A in E. simpl in E. congruence.
  - apply anc_more with 4%nat; [|apply anc_one]; eapply P; vm_compute; reflexivity.
Qed.

(** ** C32 *)
Lemma create_fresh want n s a s' : create_agent want n s = (Normal a, s') ->
  exists p x, sfind n (protos (w s)) = Some p /\ live s p x /\ a = length (heap (w s)) /\
    match want with Some k => k = a_kind x | None => True end /\
    heap (w s') = heap (w s) ++ [mkA (nid (w s)) (a_kind x) (a_shim x) (a_proto x) (a_spec x) (a_life x) (-1) None (-1) [] true] /\
    ti s' = ti s /\ protos (w s') = protos (w s) /\ nproto (w s') = nproto (w s) /\ nspec (w s') = nspec (w s) /\ traders (w s') = traders (w s) /\
    log s' = log s ++ [(tm (ti s), ENew a); (tm (ti s), ECreate n a)].
Proof.
  intros H. apply create_normal in H. destruct H as (p & x & A & B & C & D & E & _ & F & G & H1 & H2 & H3 & H4 & _). exists p, x.
  split; [exact A|]. split; [exact B|]. split; [exact C|]. split; [exact D|]. split; [exact E|]. split; [exact F|]. auto.
Qed.
Lemma create_fails want n s e s' : create_agent want n s = (Raised e, s') ->
  (e = KeyError /\ s' = s /\ sfind n (protos (w s)) = None) \/
  (e = CastError /\ exists p x k, sfind n (protos (w s)) = Some p /\ live s p x /\ want = Some k /\ k <> a_kind x /\
    firstn (length (heap (w s))) (heap (w s')) = heap (w s) /\ (forall b y, live s' b y -> (b < length (heap (w s)))%nat) /\
    ti s' = ti s /\ protos (w s') = protos (w s) /\ nproto (w s') = nproto (w s) /\ nspec (w s') = nspec (w s)).
Proof.
  intros H. apply create_cast in H. destruct H as [H|(He & p & x & k & A & B & C & D & E & _ & F & _ & G1 & G2 & G3)]; [now left|right].
  split; [exact He|]. exists p, x, k. split; [exact A|]. split; [exact B|]. split; [exact C|]. split; [exact D|]. split; [|split; [|auto]].
  - rewrite E, firstn_app, firstn_all, Nat.sub_diag. simpl. apply app_nil_r.
  - intros b y [L1 L2]. rewrite E in L1. apply nth_app_split in L1. destruct L1 as [L1|[_ <-]]; [|discriminate].
    apply nth_error_Some. congruence.
Qed.
Lemma run_prototypes beh cond fuel setup t0 d o s' n :
  simulate beh cond fuel setup t0 d = (o, s') -> o <> Undef -> sfind n (protos (w s')) = proto_of n (log s').
Proof. intros H N. exact (run_proto _ _ _ _ _ _ _ _ H N n). Qed.
Lemma add_taken n a s p : sfind n (protos (w s)) = Some p -> add_prototype n a false s = (Raised KeyError, s).
Proof. intros H. unfold add_prototype, bind, gets. now rewrite H. Qed.
