(** C42: a restart from a snapshot brings back the simulation of that time. *)
From Coq Require Import String List ZArith Bool Arith.
From Verif Require Import Base SimModel SimSpec SimExamples RestartModel RestartSpec RestartExamples RestartProofs4.
Import ListNotations.
Local Open Scope Z_scope.

(** ** C42 *)
(** The database of a run, written up to any point after the snapshot of time [t], read back: see [restored]. *)
Theorem C42_restart : forall (C : Type) (content : nat -> Z -> C) inv counter beh cond fuel setup d o s' pre mid rest t snap n ids,
  simulate beh cond fuel setup 0 d = (o, s') -> o <> Undef -> orderly (log s') ->
  log s' = pre ++ (t, ESnap snap n) :: mid ++ rest ->
  settled t pre mid -> entered pre <> [] -> all_recorded pre -> parents_alive pre ->
  orders_known t pre (pre ++ (t, ESnap snap n) :: mid) -> orders_current t (pre ++ (t, ESnap snap n) :: mid) ->
  exists f r, (forall k, (f <= k)%nat -> init_base k t (db_of content inv counter (pre ++ (t, ESnap snap n) :: mid)) ids = Ok (Some r)) /\
    restored content inv counter t pre (pre ++ (t, ESnap snap n) :: mid) n r.
Proof.
  intros C content inv counter beh cond fuel setup d o s' pre mid rest t snap n ids H1 H2 H3 H4.
  exact (restart_ok content inv counter beh cond fuel setup d o s' pre mid rest t snap n H1 H2 H3 H4 ids).
Qed.
Print Assumptions C42_restart.
Example C42_case : exists snap n,
  simulate beh_ex yes 40 (setup_ex (-1) [1; 4; 6] Done) 0 6 = (Normal tt, snd stay) /\ orderly (log (snd stay)) /\
  log (snd stay) = stay_pre ++ (2, ESnap snap n) :: stay_mid ++ [] /\
  settled 2 stay_pre stay_mid /\ entered stay_pre <> [] /\ all_recorded stay_pre /\ parents_alive stay_pre /\
  orders_known 2 stay_pre (stay_pre ++ (2, ESnap snap n) :: stay_mid) /\ orders_current 2 (stay_pre ++ (2, ESnap snap n) :: stay_mid) /\
  alive stay_pre 5 /\ recorded stay_pre 5 "F" 4 1 /\ recorded stay_pre 4 "I" 3 0 /\ NoDup (map fst (inv_ex 4 2)) /\
  builds_for 4 stay_log = [("F"%string, Some 4%nat)] /\ decoms_for 8 stay_log = [4%nat].
Proof. exact stay_case. Qed.

(** An agent that outlives its parent makes the restart loop forever, for every run. *)
Theorem C42_orphan_hangs : forall (C : Type) (content : nat -> Z -> C) inv counter beh cond fuel setup d o s' pre mid rest t snap n ids a pr q en,
  simulate beh cond fuel setup 0 d = (o, s') -> o <> Undef -> orderly (log s') ->
  log s' = pre ++ (t, ESnap snap n) :: mid ++ rest ->
  settled t pre mid -> all_recorded pre ->
  alive pre a -> recorded pre a pr (Z.of_nat q) en -> ~ alive pre q ->
  forall k, init_base k t (db_of content inv counter (pre ++ (t, ESnap snap n) :: mid)) ids = Ok None.
Proof.
  intros C content inv counter beh cond fuel setup d o s' pre mid rest t snap n ids a pr q en H1 H2 H3 H4 H5 H6.
  exact (restart_orphan content inv counter beh cond fuel setup d o s' pre mid rest t snap n H1 H2 H3 H4 ids a pr q en H5 H6).
Qed.
Print Assumptions C42_orphan_hangs.
(** ... and there is such a run: the parent leaves at time 1, the child stays. *)
Theorem C42_parents_alive_refuted : exists mid, fst lone = Normal tt /\ orderly (log (snd lone)) /\ log (snd lone) = lone_pre ++ (3, ESnap [1%nat] 2) :: mid /\
  settled 3 lone_pre mid /\ all_recorded lone_pre /\ alive lone_pre 1 /\ recorded lone_pre 1 "A" 0 0 /\ ~ alive lone_pre 0.
Proof. exact lone_orphan. Qed.
Print Assumptions C42_parents_alive_refuted.

(** An order for [t] or later, given at any time, to decommission an agent that is not alive at the snapshot, makes
    the restart dereference a null pointer. *)
Theorem C42_unknown_agent_crashes : forall (C : Type) (content : nat -> Z -> C) inv counter beh cond fuel setup d o s' pre mid rest t snap n ids v a u,
  simulate beh cond fuel setup 0 d = (o, s') -> o <> Undef -> orderly (log s') ->
  log s' = pre ++ (t, ESnap snap n) :: mid ++ rest ->
  settled t pre mid -> entered pre <> [] -> all_recorded pre -> parents_alive pre ->
  In (v, ESchedD a u) (pre ++ (t, ESnap snap n) :: mid) -> t <= u -> ~ alive pre a ->
  exists f, forall k, (f <= k)%nat -> init_base k t (db_of content inv counter (pre ++ (t, ESnap snap n) :: mid)) ids = UB.
Proof.
  intros C content inv counter beh cond fuel setup d o s' pre mid rest t snap n ids v a u H1 H2 H3 H4 H5 H6 H7 H8.
  exact (restart_null content inv counter beh cond fuel setup d o s' pre mid rest t snap n H1 H2 H3 H4 ids v a u H5 H6 H7 H8).
Qed.
Print Assumptions C42_unknown_agent_crashes.
(** ... as when a facility built after the snapshot of time 2 reaches the end of its lifetime and the restart is made
    from the complete database. *)
Theorem C42_later_lifetimes_refuted : exists mid, fst brief = Normal tt /\ orderly (log (snd brief)) /\ log (snd brief) = brief_pre ++ (2, ESnap [3; 4; 5]%nat 6) :: mid /\
  settled 2 brief_pre mid /\ entered brief_pre <> [] /\ all_recorded brief_pre /\ parents_alive brief_pre /\
  In (3, ESchedD 6 3) mid /\ ~ alive brief_pre 6 /\ load_ex 2 brief_log = UB.
Proof. exact brief_null. Qed.
Print Assumptions C42_later_lifetimes_refuted.

(** The build ordered for the time of the snapshot is not restored, although it had not been executed. *)
Theorem C42_build_due_refuted : exists r, fst brief = Normal tt /\ orderly (log (snd brief)) /\
  builds_for 2 brief_pre = [("F"%string, Some 4%nat)] /\
  load_ex 2 (brief_pre ++ [(2, ESnap [3; 4; 5]%nat 6)]) = Ok (Some r) /\
  (exists post, log (snd brief) = brief_pre ++ (2, ESnap [3; 4; 5]%nat 6) :: (2, EPhase PBuild) :: (2, EQBuild "F" (Some 4%nat)) :: post) /\
  ld_builds r = [].
Proof. exact brief_lost. Qed.
Print Assumptions C42_build_due_refuted.
(** An order given after the snapshot is restored, so that the restarted simulation, giving it again, has it twice. *)
Theorem C42_later_order_refuted : exists r, fst stay = Normal tt /\ builds_for 7 stay_pre = [] /\ load_ex 2 stay_log = Ok (Some r) /\
  queued 7 (ld_builds r) = [("F"%string, Some 4%nat)].
Proof. exact stay_double. Qed.
Print Assumptions C42_later_order_refuted.
(** An agent decommissioned before the snapshot of time 0 makes reading that snapshot fail. *)
Theorem C42_early_exit_refuted : fst early = Normal tt /\ orderly (log (snd early)) /\ (exists pre post, early_log = pre ++ (0, ESnap [1%nat] 2) :: post /\ alive pre 1 /\
  load_ex 0 (pre ++ [(0, ESnap [1%nat] 2)]) = Throw StateError).
Proof. exact early_throws. Qed.
Print Assumptions C42_early_exit_refuted.
