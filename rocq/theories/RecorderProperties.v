(** C33: what backends receive. *)
From Coq Require Import String List ZArith Bool Arith Lia.
From Verif Require Import Base RecorderModel RecorderSpec RecorderProofs.
Import ListNotations.
Local Open Scope nat_scope.

(** A backend registered before anything is recorded has, after a final flush or close, received exactly the recorded data in order. *)
Theorem C33_everything_delivered : forall V (bad : nat -> list (@bcall V) -> @bcall V -> bool), no_failure bad ->
  forall n id inj b ops last, 1 <= n -> ~ In (OReg b) ops -> stays_open ops -> last = OFlush \/ last = OClose ->
  exists r, run_ops bad (OReg b :: ops ++ [last]) (new_recorder n id inj) = (Ok tt, r) /\
    received b (calls r) = recorded id inj ops.
Proof. exact @everything_delivered. Qed.
Print Assumptions C33_everything_delivered.
(** At any time, fewer than the dump count are still missing. *)
Theorem C33_at_any_time : forall V (bad : nat -> list (@bcall V) -> @bcall V -> bool), no_failure bad ->
  forall n id inj b ops, 1 <= n -> ~ In (OReg b) ops -> stays_open ops ->
  exists r pend, run_ops bad (OReg b :: ops) (new_recorder n id inj) = (Ok tt, r) /\ length pend < n /\
    received b (calls r) ++ pend = recorded id inj ops.
Proof. exact @at_any_time. Qed.
Print Assumptions C33_at_any_time.
(** A backend registered later receives what is still in the buffer, then everything recorded from then on. *)
Theorem C33_late_backend : forall V (bad : nat -> list (@bcall V) -> @bcall V -> bool), no_failure bad ->
  forall n id inj ops1 b ops2 last, 1 <= n -> ~ In (OReg b) ops1 -> ~ In (OReg b) ops2 -> stays_open ops2 -> last = OFlush \/ last = OClose ->
  exists r old early, run_ops bad (ops1 ++ OReg b :: ops2 ++ [last]) (new_recorder n id inj) = (Ok tt, r) /\
    recorded id inj ops1 = early ++ old /\ length old < n /\
    received b (calls r) = old ++ recorded id (injecting inj ops1) ops2.
Proof. exact @delivered. Qed.
Print Assumptions C33_late_backend.
(** Nothing is delivered after Close. *)
Theorem C33_after_close : forall V (bad : nat -> list (@bcall V) -> @bcall V -> bool), no_failure bad ->
  forall n id inj ops1 ops2 b, 1 <= n -> ~ In (OReg b) ops2 ->
  exists r1 r2, run_ops bad (ops1 ++ [OClose]) (new_recorder n id inj) = (Ok tt, r1) /\
    run_ops bad (ops1 ++ OClose :: ops2) (new_recorder n id inj) = (Ok tt, r2) /\
    received b (calls r2) = received b (calls r1).
Proof. exact @after_close. Qed.
Print Assumptions C33_after_close.

Definition never {V} (b : nat) (l : list (@bcall V)) (c : @bcall V) : bool := false.
Definition some_ops : list (@rop nat) :=
  [OPut "A" [("x"%string, 1, [])]; OReg 7; OPut "B" []; OPut "A" [("x"%string, 2, [3%Z])]; OInject false; OPut "C" [("y"%string, 5, [])]].
Example C33_case : no_failure (@never nat) /\ ~ In (OReg 4) some_ops /\ stays_open some_ops /\
  recorded 99 true some_ops = [mkDatum "A" [("SimId"%string, 99, []); ("x"%string, 1, [])]; mkDatum "B" [("SimId"%string, 99, [])];
    mkDatum "A" [("SimId"%string, 99, []); ("x"%string, 2, [3%Z])]; mkDatum "C" [("y"%string, 5, [])]].
Proof.
  split; [intros b l c; reflexivity|]. split; [simpl; intuition discriminate|]. split; [unfold stays_open; simpl; intuition discriminate|reflexivity].
Qed.

(** Changing the dump count while data are in the buffer loses them: blank data are delivered in their place. *)
Theorem C33_set_dump_count_refuted : exists r r1 r2 : @recorder nat,
  put never "A" [("x"%string, 1, [])] (register_backend 4 (new_recorder 5 99 true)) = (Ok tt, r) /\
  set_dump_count 3 r = r1 /\ flush never r1 = (Ok tt, r2) /\
  received 4 (calls r2) = [mkDatum "" [("SimId"%string, 99, [])]].
Proof. exact set_dump_loses. Qed.
Print Assumptions C33_set_dump_count_refuted.
(** Reducing it below the number of buffered data makes the next NewDatum read past the end of the buffer. *)
Theorem C33_reduced_dump_count_refuted : exists r : @recorder nat,
  run_ops never [OPut "A" []; OPut "B" []] (new_recorder 5 99 true) = (Ok tt, r) /\ fst (put never "C" [] (set_dump_count 1 r)) = UB.
Proof. exact reduced_dump_ub. Qed.
Print Assumptions C33_reduced_dump_count_refuted.
(** A dump count of 0 makes every NewDatum read past the end. *)
Theorem C33_dump_count_zero_refuted : forall V bad (id : V) inj t l, fst (put bad t l (new_recorder 0 id inj)) = UB.
Proof. exact @zero_dump_ub. Qed.
Print Assumptions C33_dump_count_zero_refuted.
(** A datum that was created but not yet recorded is delivered, incomplete, with the batch another datum completes. *)
Theorem C33_unfinished_datum_refuted : exists (h1 h2 : nat * nat) (r1 r2 r3 : @recorder nat),
  new_datum "A" (register_backend 4 (new_recorder 2 99 true)) = (Ok h1, r1) /\ new_datum "B" r1 = (Ok h2, r2) /\
  record never h2 r2 = (Ok tt, r3) /\
  received 4 (calls r3) = [mkDatum "A" [("SimId"%string, 99, [])]; mkDatum "B" [("SimId"%string, 99, [])]].
Proof. exact unfinished_delivered. Qed.
Print Assumptions C33_unfinished_datum_refuted.
(** If one backend throws, the batch is lost for the backends after it, although those never fail. *)
Theorem C33_failing_backend_refuted : exists r : @recorder nat,
  run_ops (fun b _ _ => Nat.eqb b 4) [OReg 4; OReg 7; OPut "A" []; OFlush; OFlush; OPut "B" []; OClose] (new_recorder 5 99 true) = (Ok tt, r) /\
  received 7 (calls r) = [].
Proof. exact failing_loses. Qed.
Print Assumptions C33_failing_backend_refuted.
