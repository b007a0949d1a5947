(** Vocabulary for histories of a simulation: everything here is a function of the log. *)
From Coq Require Import String List ZArith Bool Arith Lia.
From Verif Require Import Base SimModel.
Import ListNotations.
Local Open Scope Z_scope.

Definition history := list (Z * event).

(** The boundaries between phases. *)
Definition marker (e : event) : bool :=
  match e with EPhase _ | ESnap _ _ | EFinish _ _ => true | _ => false end.
Definition no_marker (l : history) : Prop := Forall (fun x => marker (snd x) = false) l.
Definition phases (l : history) : list (Z * phase) :=
  flat_map (fun x => match snd x with EPhase p => [(fst x, p)] | _ => [] end) l.
(** The phase in progress after the history [l]. *)
Definition phase_now (l : history) : option (Z * phase) :=
  fold_left (fun acc x => match snd x with EPhase p => Some (fst x, p) | _ => acc end) l None.
(** The phase to which an action of the kernel belongs. *)
Definition own_phase (e : event) : option phase :=
  match e with
  | EQBuild _ _ => Some PBuild
  | ETick _ => Some PTick
  | EExchange => Some PExch
  | ETock _ => Some PTock
  | EDecide _ => Some PDecide
  | EQDecom _ => Some PDecom
  | _ => None
  end.
(** The order of the phases in a step, and a run of steps. *)
Definition step_phases (t : Z) : list (Z * phase) :=
  [(t, PBuild); (t, PTick); (t, PExch); (t, PTock); (t, PDecide); (t, PDecom)].
Definition steps_from (t : Z) (n : nat) : list Z := map (fun i => t + Z.of_nat i) (seq 0 n).
Definition kill_at (l : history) (t : Z) : Prop := exists s, In (s, EKill) l /\ s <= t.

(** Listeners: registered and not unregistered since, one entry per registration, in order of registration. *)
Definition standing (l : history) : list nat :=
  fold_left (fun acc x => match snd x with
    | EReg a => acc ++ [a]
    | EUnreg a => filter (fun b => negb (Nat.eqb b a)) acc
    | _ => acc end) l [].
(** Builds ordered for time [t], in the order they were ordered. *)
Definition builds_for (t : Z) (l : history) : list (string * option nat) :=
  flat_map (fun x => match snd x with
    | ESchedB p _ n t' => if Z.eqb t' t then [(n, p)] else []
    | _ => [] end) l.
(** The time of the last decommissioning ordered for [a]. *)
Definition pending (a : nat) (l : history) : option Z :=
  fold_left (fun acc x => match snd x with
    | ESchedD b t => if Nat.eqb b a then Some t else acc
    | _ => acc end) l None.
(** The agents whose last ordered decommissioning is for [t], in the order of those orders. *)
Definition decoms_for (t : Z) (l : history) : list nat :=
  fold_left (fun acc x => match snd x with
    | ESchedD a t' => filter (fun b => negb (Nat.eqb b a)) acc ++ (if Z.eqb t' t then [a] else [])
    | _ => acc end) l [].

(** The actions of one kind in a stretch of history. *)
Definition ticks (l : history) : list nat := flat_map (fun x => match snd x with ETick a => [a] | _ => [] end) l.
Definition tocks (l : history) : list nat := flat_map (fun x => match snd x with ETock a => [a] | _ => [] end) l.
Definition decides (l : history) : list nat := flat_map (fun x => match snd x with EDecide a => [a] | _ => [] end) l.
Definition qbuilds (l : history) : list (string * option nat) :=
  flat_map (fun x => match snd x with EQBuild n p => [(n, p)] | _ => [] end) l.
Definition qdecoms (l : history) : list nat := flat_map (fun x => match snd x with EQDecom a => [a] | _ => [] end) l.
Definition regs (l : history) : list nat := flat_map (fun x => match snd x with EReg a => [a] | _ => [] end) l.
Definition unregs (l : history) : list nat := flat_map (fun x => match snd x with EUnreg a => [a] | _ => [] end) l.
Definition exits (l : history) : list nat := flat_map (fun x => match snd x with EExit a _ _ => [a] | _ => [] end) l.

(** The record of one queued build in step [t]: a fresh agent is created from the prototype, built under the parent
    and entered, and the parent is told. *)
Definition built_as (t : Z) (o : string * option nat) (piece : history) : Prop :=
  exists a rest, piece = (t, EQBuild (fst o) (snd o)) :: (t, ENew a) :: (t, ECreate (fst o) a) :: (t, EBuild a (snd o)) :: rest /\
    (exists pr pid life, In (t, EEntry a (Z.of_nat a) pr pid life t) rest) /\
    (forall q, snd o = Some q -> In (t, EBuildNotify q a) rest) /\
    qbuilds rest = [].
(** The record of one queued decommissioning in step [t]: the agent leaves. *)
Definition left_as (t : Z) (a : nat) (piece : history) : Prop :=
  exists rest, piece = (t, EQDecom a) :: rest /\ In (t, EExit a (Z.of_nat a) t) rest /\ qdecoms rest = [].
(** Only registered listeners are called. *)
Definition calls_listeners (l : history) : Prop := forall pre t e post a, l = pre ++ (t, e) :: post ->
  e = ETick a \/ e = ETock a \/ e = EDecide a -> In a (standing pre).

(** [seg] is the complete record of phase [p] of step [t], which started after [pre]. *)
Definition whole_phase (l pre seg : history) (t : Z) (p : phase) : Prop :=
  exists post, l = pre ++ (t, EPhase p) :: seg ++ post /\ no_marker seg /\
    match post with [] => False | x :: _ => marker (snd x) = true end.

(** The agent object with this number is a Python shim. *)
Definition shim_of (s : sim) (a : nat) : bool :=
  match nth_error (heap (w s)) a with Some x => a_shim x | None => false end.

(** The agents for which Build was called (a call naming the agent as its own parent is refused), in order. *)
Definition entered (l : history) : list nat :=
  flat_map (fun x => match snd x with
    | EBuild a (Some p) => if Nat.eqb p a then [] else [a]
    | EBuild a None => [a]
    | _ => [] end) l.
(** No agent is built twice, and parents are built before their children. *)
Definition orderly (l : history) : Prop := forall pre t a p post, l = pre ++ (t, EBuild a p) :: post ->
  ~ In a (entered pre) /\ match p with Some q => In q (entered pre) | None => True end.

Definition live (s : sim) (a : nat) (x : agent) : Prop := nth_error (heap (w s)) a = Some x /\ a_alive x = true.
Definition is_parent (s : sim) (p a : nat) : Prop := exists x, live s a x /\ a_parent x = Some p.
Definition is_child (s : sim) (p a : nat) : Prop := exists y, live s p y /\ In a (a_kids y).
Inductive ancestor (s : sim) : nat -> nat -> Prop :=
| anc_one p a : is_parent s p a -> ancestor s p a
| anc_more p q a : is_parent s p q -> ancestor s q a -> ancestor s p a.

(** The class and names of an agent object. *)
Definition kind_of (s : sim) (a : nat) : option kind := option_map a_kind (nth_error (heap (w s)) a).
Definition proto_is (s : sim) (n : string) (a : nat) : bool :=
  match nth_error (heap (w s)) a with Some x => String.eqb n (a_proto x) | None => false end.
Definition spec_is (s : sim) (n : string) (a : nat) : bool :=
  match nth_error (heap (w s)) a with Some x => String.eqb n (a_spec x) | None => false end.
Definition counted (s : sim) (a : nat) : bool :=
  match kind_of s a with Some KFac | Some KOther => true | _ => false end.

(** The agent last registered as prototype [n]. *)
Definition proto_of (n : string) (l : history) : option nat :=
  fold_left (fun acc x => match snd x with EProto m a => if String.eqb n m then Some a else acc | _ => acc end) l None.

(** The agent's lifetime is over in the current step, and if it is a facility it agrees to leave. *)
Definition due (cond : nat -> sim -> bool) (s : sim) (c : nat) : bool :=
  match nth_error (heap (w s)) c with
  | Some y => negb (Z.eqb (a_life y) (-1)) && Z.leb (a_enter y + a_life y - 1) (tm (ti s)) &&
              (match a_kind y with KFac => cond c s | _ => true end)
  | None => false
  end.
(** CheckDecommissionCondition does not depend on the schedule. *)
Definition cond_of_agents (cond : nat -> sim -> bool) : Prop :=
  forall c s1 s2, w s1 = w s2 -> tm (ti s1) = tm (ti s2) -> cond c s1 = cond c s2.
