(** Theorems about the simulation kernel: time steps, listeners, schedules, lifetimes, hierarchy, prototypes (C26-C32).
    [simulate beh cond fuel setup t0 d = (o, s')]: user code [beh] and [cond] and the setup program are arbitrary; the run
    ended with [o] in state [s']; runs with undefined behaviour are excluded by [o <> Undef]. *)
From Coq Require Import String List ZArith Bool Arith Lia Sorted.
From Verif Require Import Base SimModel SimSpec SimProofs2 SimProofs3 SimProofs7 SimProofs8 SimProofs9 SimProofs10 SimExamples.
Import ListNotations.
Local Open Scope Z_scope.

(** ** C26 *)
Theorem C26_phases_in_order : forall beh cond fuel setup t0 d o s',
  simulate beh cond fuel setup t0 d = (o, s') -> o <> Undef ->
  exists m k,
    phases (log s') = flat_map step_phases (steps_from t0 m) ++ firstn k (step_phases (t0 + Z.of_nat m)) /\
    (m <= Z.to_nat (d - t0))%nat /\
    (forall z, In (z, EKill) (log s') -> t0 + Z.of_nat m - 1 <= z) /\
    (o = Normal tt -> k = 0%nat /\ (m = Z.to_nat (d - t0) \/ (0 < m)%nat /\ In (t0 + Z.of_nat m - 1, EKill) (log s'))).
Proof. exact run_phases_in_order. Qed.
Print Assumptions C26_phases_in_order.
Theorem C26_actions_in_their_phase : forall beh cond fuel setup t0 d o s',
  simulate beh cond fuel setup t0 d = (o, s') -> o <> Undef ->
  forall pre x post p, log s' = pre ++ x :: post -> own_phase (snd x) = Some p -> phase_now pre = Some (fst x, p).
Proof. exact run_placed. Qed.
Print Assumptions C26_actions_in_their_phase.
Theorem C26_finish_row : forall beh cond fuel setup t0 d s',
  simulate beh cond fuel setup t0 d = (Normal tt, s') ->
  exists l last early snap n, log s' = l ++ [(last + 1, EFinish early last); (last + 1, ESnap snap n)] /\
    (early = true <-> exists z, In (z, EKill) l) /\ steps_from t0 (Z.to_nat (last + 1 - t0)) = nodup Z.eq_dec (map fst (phases l)).
Proof. exact run_finish. Qed.
Print Assumptions C26_finish_row.
Theorem C26_time_never_decreases : forall beh cond fuel setup t0 d o s',
  simulate beh cond fuel setup t0 d = (o, s') -> o <> Undef -> StronglySorted Z.le (map fst (log s')).
Proof. exact run_stamps. Qed.
Print Assumptions C26_time_never_decreases.
Example C26_case : demo = (Normal tt, snd demo) /\ phases (log (snd demo)) = flat_map step_phases [0; 1; 2; 3; 4].
Proof. split; [exact demo_runs|rewrite demo_logs; reflexivity]. Qed.

(** ** C27 *)
Theorem C27_ticks : forall beh cond fuel setup t0 d o s' pre seg t,
  simulate beh cond fuel setup t0 d = (o, s') -> o <> Undef ->
  whole_phase (log s') pre seg t PTick -> unregs seg = [] ->
  ticks seg = filter (shim_of s') (standing pre) ++ filter (fun a => negb (shim_of s' a)) (standing (pre ++ seg)).
Proof. exact run_ticks. Qed.
Print Assumptions C27_ticks.
Theorem C27_tocks : forall beh cond fuel setup t0 d o s' pre seg t,
  simulate beh cond fuel setup t0 d = (o, s') -> o <> Undef ->
  whole_phase (log s') pre seg t PTock -> unregs seg = [] ->
  tocks seg = filter (shim_of s') (standing pre) ++ filter (fun a => negb (shim_of s' a)) (standing (pre ++ seg)).
Proof. exact run_tocks. Qed.
Print Assumptions C27_tocks.
Theorem C27_once_per_step : forall beh cond fuel setup t0 d o s' pre seg t p a,
  simulate beh cond fuel setup t0 d = (o, s') -> o <> Undef ->
  whole_phase (log s') pre seg t p -> unregs seg = [] -> ~ In a (regs seg) ->
  (p = PTick -> count_occ Nat.eq_dec (ticks seg) a = count_occ Nat.eq_dec (standing pre) a) /\
  (p = PTock -> count_occ Nat.eq_dec (tocks seg) a = count_occ Nat.eq_dec (standing pre) a).
Proof. exact run_once. Qed.
Print Assumptions C27_once_per_step.
Theorem C27_decisions : forall beh cond fuel setup t0 d o s' pre seg t,
  simulate beh cond fuel setup t0 d = (o, s') -> o <> Undef ->
  whole_phase (log s') pre seg t PDecide ->
  StronglySorted lt (decides seg) /\ forall a, In a (standing pre) -> ~ In a (unregs seg) -> In a (decides seg).
Proof. exact run_decides. Qed.
Print Assumptions C27_decisions.
Theorem C27_only_listeners : forall beh cond fuel setup t0 d o s',
  simulate beh cond fuel setup t0 d = (o, s') -> o <> Undef -> calls_listeners (log s').
Proof. exact run_only_listeners. Qed.
Print Assumptions C27_only_listeners.
(** A whole tick phase in which five agents are listening. *)
Example C27_case : whole_phase (log (snd demo)) (before_phase 2 PTick demo_log) (in_phase 2 PTick demo_log) 2 PTick /\
  unregs (in_phase 2 PTick demo_log) = [] /\ ticks (in_phase 2 PTick demo_log) = [3; 4; 5; 6]%nat /\
  standing (before_phase 2 PTick demo_log) = [3; 4; 5; 6]%nat.
Proof. split; [rewrite demo_logs; apply cut_whole; [reflexivity|discriminate]|repeat split]. Qed.
(** Registering twice means two ticks per step. *)
Theorem C27_registered_twice_refuted : exists pre seg,
  fst twice = Normal tt /\ whole_phase (log (snd twice)) pre seg 0 PTick /\ In 0%nat (standing pre) /\ ticks seg = [0; 0]%nat.
Proof. exact twice_ticks. Qed.
Print Assumptions C27_registered_twice_refuted.
(** A listener that unregisters in its own tick makes the next one miss its tick. *)
Theorem C27_unregistering_skips_refuted : exists pre seg,
  fst leave = Normal tt /\ whole_phase (log (snd leave)) pre seg 0 PTick /\ In 1%nat (standing pre) /\ unregs seg = [0%nat] /\ ticks seg = [0%nat].
Proof. exact leave_skips. Qed.
Print Assumptions C27_unregistering_skips_refuted.

(** ** C28 *)
Theorem C28_builds_executed_once : forall beh cond fuel setup t0 d o s' pre seg t,
  simulate beh cond fuel setup t0 d = (o, s') -> o <> Undef -> whole_phase (log s') pre seg t PBuild ->
  builds_for t (log s') = builds_for t pre /\
  exists pieces, seg = concat pieces /\ Forall2 (built_as t) (builds_for t (log s')) pieces.
Proof. exact run_builds. Qed.
Print Assumptions C28_builds_executed_once.
Theorem C28_nothing_else_is_built : forall beh cond fuel setup t0 d o s' pre seg t,
  simulate beh cond fuel setup t0 d = (o, s') -> o <> Undef -> whole_phase (log s') pre seg t PBuild ->
  qbuilds seg = builds_for t (log s').
Proof. exact run_qbuilds. Qed.
Print Assumptions C28_nothing_else_is_built.
Theorem C28_only_future_orders : forall beh cond fuel setup t0 d o s' z p pid n t,
  simulate beh cond fuel setup t0 d = (o, s') -> o <> Undef -> In (z, ESchedB p pid n t) (log s') -> z < t.
Proof. exact run_future_builds. Qed.
Print Assumptions C28_only_future_orders.
Theorem C28_past_rejected : forall p n t s,
  (forall q, p = Some q -> exists x, live s q x) -> t <= tm (ti s) -> t <> -1 ->
  sched_build p n t s = (Raised ValueError, s).
Proof. exact sched_build_past. Qed.
Print Assumptions C28_past_rejected.
Theorem C28_order_accepted : forall p n t s,
  (forall q, p = Some q -> exists x, live s q x) -> tm (ti s) < t -> t <> -1 ->
  exists s', sched_build p n t s = (Normal tt, s') /\
    exists pid, log s' = log s ++ [(tm (ti s), ESchedB p pid n t)].
Proof. exact sched_build_ok. Qed.
Print Assumptions C28_order_accepted.
Example C28_case : whole_phase (log (snd demo)) (before_phase 2 PBuild demo_log) (in_phase 2 PBuild demo_log) 2 PBuild /\
  builds_for 2 demo_log = [("F"%string, Some 4%nat)].
Proof. split; [rewrite demo_logs; apply cut_whole; [reflexivity|discriminate]|reflexivity]. Qed.
(** The queue keeps a pointer to the parent: if it has left in the meantime the build is undefined behaviour. *)
Theorem C28_parent_gone_refuted : fst orphan = Undef.
Proof. exact orphan_undef. Qed.
Print Assumptions C28_parent_gone_refuted.

(** ** C29 *)
Theorem C29_decommissions_executed_once : forall beh cond fuel setup t0 d o s' pre seg t,
  simulate beh cond fuel setup t0 d = (o, s') -> o <> Undef -> whole_phase (log s') pre seg t PDecom ->
  NoDup (decoms_for t pre) /\ (forall a, In a (decoms_for t pre) <-> pending a pre = Some t) /\
  exists pieces, seg = concat pieces /\ Forall2 (left_as t) (decoms_for t pre) pieces.
Proof. exact run_decoms. Qed.
Print Assumptions C29_decommissions_executed_once.
Theorem C29_last_order_wins : forall beh cond fuel setup t0 d o s' pre seg t a,
  simulate beh cond fuel setup t0 d = (o, s') -> o <> Undef -> whole_phase (log s') pre seg t PDecom ->
  (pending a pre = Some t -> In (t, EExit a (Z.of_nat a) t) seg) /\ (In a (qdecoms seg) -> pending a pre = Some t).
Proof. exact run_last_order. Qed.
Print Assumptions C29_last_order_wins.
Theorem C29_left_at_most_once : forall beh cond fuel setup t0 d o s',
  simulate beh cond fuel setup t0 d = (o, s') -> o <> Undef ->
  NoDup (exits (log s')) /\ forall a, In a (exits (log s')) -> ~ exists x, live s' a x.
Proof. exact run_exits. Qed.
Print Assumptions C29_left_at_most_once.
Theorem C29_past_rejected : forall a t s, t < tm (ti s) -> t <> -1 -> sched_decom a t s = (Raised ValueError, s).
Proof. exact sched_decom_past. Qed.
Print Assumptions C29_past_rejected.
Example C29_case : whole_phase (log (snd demo)) (before_phase 3 PDecom demo_log) (in_phase 3 PDecom demo_log) 3 PDecom /\
  decoms_for 3 (before_phase 3 PDecom demo_log) = [6%nat].
Proof. split; [rewrite demo_logs; apply cut_whole; [reflexivity|discriminate]|reflexivity]. Qed.
(** An order given for the current step by an agent being decommissioned is accepted and never executed. *)
Theorem C29_order_during_decommissioning_refuted :
  fst late = Normal tt /\ In (1, ESchedD 1 1) (log (snd late)) /\ pending 1 (log (snd late)) = Some 1 /\ ~ In 1%nat (exits (log (snd late))).
Proof. exact late_lost. Qed.
Print Assumptions C29_order_during_decommissioning_refuted.
(** An order that postpones a decommissioning of the current step is accepted, but does not postpone it. *)
Theorem C29_postponing_refuted :
  fst postpone = Normal tt /\ pending 1 (log (snd postpone)) = Some 9 /\ In (1, EExit 1 1 1) (log (snd postpone)).
Proof. exact postpone_ignored. Qed.
Print Assumptions C29_postponing_refuted.

(** ** C30 *)
Theorem C30_entry_and_exit_time : forall beh cond fuel a p s s',
  do_cmd beh cond fuel (CBuild a p) s = (Normal tt, s') ->
  exists x, nth_error (heap (w s')) a = Some x /\ a_enter x = tm (ti s) /\
    exit_time x = (if Z.eqb (a_life x) (-1) then -1 else tm (ti s) + a_life x - 1).
Proof. exact build_times. Qed.
Print Assumptions C30_entry_and_exit_time.
Theorem C30_institution_orders : forall cond i s o s', cond_of_agents cond -> inst_tock cond i s = (o, s') -> o <> Undef ->
  o = Normal tt /\ exists x, live s i x /\ w s' = w s /\ tm (ti s') = tm (ti s) /\
  log s' = log s ++ map (fun c => (tm (ti s), ESchedD c (tm (ti s)))) (filter (due cond s) (a_kids x)).
Proof. exact tock_orders. Qed.
Print Assumptions C30_institution_orders.
Theorem C30_leaves_in_the_ordered_step : forall beh cond fuel setup t0 d o s' pre seg t a,
  simulate beh cond fuel setup t0 d = (o, s') -> o <> Undef -> whole_phase (log s') pre seg t PDecom ->
  pending a pre = Some t -> In (t, EExit a (Z.of_nat a) t) seg.
Proof. exact run_leaves. Qed.
Print Assumptions C30_leaves_in_the_ordered_step.
Theorem C30_present_until_exit : forall beh cond fuel setup t0 d o s' a,
  simulate beh cond fuel setup t0 d = (o, s') -> o <> Undef ->
  In a (entered (log s')) -> ~ In a (exits (log s')) -> exists x, live s' a x.
Proof. exact run_stays. Qed.
Print Assumptions C30_present_until_exit.
Theorem C30_lifetime_fixed_after_entry : forall a x n s, live s a x -> a_enter x <> -1 -> set_lifetime a n s = (Raised ValueError, s).
Proof. exact set_lifetime_late. Qed.
Print Assumptions C30_lifetime_fixed_after_entry.
Example C30_case :
  In (1, EEntry 5 5 "F" 4 2 1) demo_log /\ In (2, ESchedD 5 2) demo_log /\ In (2, EExit 5 5 2) demo_log /\
  filter (due yes (snd demo)) [3; 4]%nat = [].
Proof. repeat split; try (vm_compute; tauto). Qed.
(** lifetime_force is documented to cut the lifetime of an agent that would already have expired to the current step; it raises instead,
    and it cannot make a deployed agent immortal. *)
Theorem C30_lifetime_force_refuted : forall a x n s, live s a x -> 0 <= a_enter x <= tm (ti s) -> a_enter x + n <= tm (ti s) ->
  lifetime_force a n s = (Raised ValueError, s).
Proof. exact lifetime_force_late. Qed.
Print Assumptions C30_lifetime_force_refuted.

(** ** C31 *)
Theorem C31_ids : forall beh cond fuel setup t0 d o s' a x,
  simulate beh cond fuel setup t0 d = (o, s') -> o <> Undef -> nth_error (heap (w s')) a = Some x -> a_id x = Z.of_nat a.
Proof. exact run_ids. Qed.
Print Assumptions C31_ids.
Theorem C31_links_mutual : forall beh cond fuel setup t0 d o s',
  simulate beh cond fuel setup t0 d = (o, s') -> o <> Undef -> orderly (log s') ->
  (forall p a, is_parent s' p a <-> is_child s' p a) /\
  (forall a x, live s' a x -> match a_parent x with Some p => exists y, live s' p y /\ a_pid x = a_id y | None => a_pid x = -1 end).
Proof. exact run_mutual. Qed.
Print Assumptions C31_links_mutual.
Theorem C31_acyclic : forall beh cond fuel setup t0 d o s' a,
  simulate beh cond fuel setup t0 d = (o, s') -> o <> Undef -> orderly (log s') -> ~ ancestor s' a a.
Proof. exact run_acyclic. Qed.
Print Assumptions C31_acyclic.
Theorem C31_counts : forall beh cond fuel setup t0 d o s',
  simulate beh cond fuel setup t0 d = (o, s') -> o <> Undef -> orderly (log s') ->
  (forall a, In a (exits (log s')) -> In a (entered (log s')) /\ counted s' a = true) ->
  (forall n, nproto (w s') n = Z.of_nat (length (filter (fun a => counted s' a && proto_is s' n a && negb (existsb (Nat.eqb a) (exits (log s'))))
                                                      (entered (log s'))))) /\
  (forall n, nspec (w s') n = Z.of_nat (length (filter (fun a => counted s' a && spec_is s' n a && negb (existsb (Nat.eqb a) (exits (log s'))))
                                                     (entered (log s'))))).
Proof. exact run_counts. Qed.
Print Assumptions C31_counts.
Theorem C31_counts_without_discipline : forall beh cond fuel setup t0 d o s' n,
  simulate beh cond fuel setup t0 d = (o, s') -> o <> Undef ->
  nproto (w s') n = Z.of_nat (length (filter (fun a => counted s' a && proto_is s' n a) (entered (log s')))) -
                    Z.of_nat (length (filter (proto_is s' n) (exits (log s')))) /\
  nspec (w s') n = Z.of_nat (length (filter (fun a => counted s' a && spec_is s' n a) (entered (log s')))) -
                   Z.of_nat (length (filter (spec_is s' n) (exits (log s')))).
Proof. exact run_net. Qed.
Print Assumptions C31_counts_without_discipline.
Example C31_case : orderly (log (snd demo)) /\ entered demo_log = [3; 4; 5; 6]%nat /\ exits demo_log = [5; 6]%nat /\
  (forall a, In a (exits (log (snd demo))) -> In a (entered (log (snd demo))) /\ counted (snd demo) a = true) /\
  is_parent (snd demo) 3 4 /\ is_child (snd demo) 3 4.
Proof. exact demo_orderly. Qed.
(** Institutions and regions are not counted when they enter but are when they leave. *)
Theorem C31_institutions_refuted : fst inst_gone = Normal tt /\ orderly (log (snd inst_gone)) /\ nproto (w (snd inst_gone)) "A" = -1.
Proof. exact inst_gone_negative. Qed.
Print Assumptions C31_institutions_refuted.
(** Building an agent again leaves it among the children of its former parent, and building in a circle is not refused. *)
Theorem C31_rebuilding_refuted : fst tangle = Normal tt /\
  is_child (snd tangle) 0 2 /\ is_parent (snd tangle) 1 2 /\ ~ is_parent (snd tangle) 0 2 /\ ancestor (snd tangle) 3 3.
Proof. exact tangle_tangled. Qed.
Print Assumptions C31_rebuilding_refuted.

(** ** C32 *)
Theorem C32_fresh_clone : forall want n s a s', create_agent want n s = (Normal a, s') ->
  exists p x, sfind n (protos (w s)) = Some p /\ live s p x /\ a = length (heap (w s)) /\
    match want with Some k => k = a_kind x | None => True end /\
    heap (w s') = heap (w s) ++ [mkA (nid (w s)) (a_kind x) (a_shim x) (a_proto x) (a_spec x) (a_life x) (-1) None (-1) [] true] /\
    ti s' = ti s /\ protos (w s') = protos (w s) /\ nproto (w s') = nproto (w s) /\ nspec (w s') = nspec (w s) /\ traders (w s') = traders (w s) /\
    log s' = log s ++ [(tm (ti s), ENew a); (tm (ti s), ECreate n a)].
Proof. exact create_fresh. Qed.
Print Assumptions C32_fresh_clone.
Theorem C32_failure : forall want n s e s', create_agent want n s = (Raised e, s') ->
  (e = KeyError /\ s' = s /\ sfind n (protos (w s)) = None) \/
  (e = CastError /\ exists p x k, sfind n (protos (w s)) = Some p /\ live s p x /\ want = Some k /\ k <> a_kind x /\
    firstn (length (heap (w s))) (heap (w s')) = heap (w s) /\ (forall b y, live s' b y -> (b < length (heap (w s)))%nat) /\
    ti s' = ti s /\ protos (w s') = protos (w s) /\ nproto (w s') = nproto (w s) /\ nspec (w s') = nspec (w s)).
Proof. exact create_fails. Qed.
Print Assumptions C32_failure.
Theorem C32_unknown_name : forall want n s, sfind n (protos (w s)) = None -> create_agent want n s = (Raised KeyError, s).
Proof. exact create_none. Qed.
Print Assumptions C32_unknown_name.
Theorem C32_latest_prototype : forall beh cond fuel setup t0 d o s' n,
  simulate beh cond fuel setup t0 d = (o, s') -> o <> Undef -> sfind n (protos (w s')) = proto_of n (log s').
Proof. exact run_prototypes. Qed.
Print Assumptions C32_latest_prototype.
Theorem C32_name_taken : forall n a s p, sfind n (protos (w s)) = Some p -> add_prototype n a false s = (Raised KeyError, s).
Proof. exact add_taken. Qed.
Print Assumptions C32_name_taken.
Example C32_case : exists s', create_agent (Some KFac) "F" (snd demo) = (Normal 7%nat, s') /\
  fst (create_agent (Some KInst) "F" (snd demo)) = Raised CastError.
Proof. eexists. split; vm_compute; reflexivity. Qed.
