(** Vocabulary for snapshots and restarts. *)
From Coq Require Import String List ZArith Bool Arith Lia.
From Verif Require Import Base SimModel SimSpec RestartModel.
Import ListNotations.
Local Open Scope Z_scope.

(** The agents alive after the history [l]: built and not decommissioned. *)
Definition alive (l : history) (a : nat) : Prop := In a (entered l) /\ ~ In a (exits l).
(** AgentEntry has a row for agent [a], with this prototype, parent and time. *)
Definition recorded (l : history) (a : nat) (proto : string) (pid enter : Z) : Prop :=
  exists z life, In (z, EEntry a (Z.of_nat a) proto pid life enter) l.
(** Build ran to its end for every agent: each has its row. *)
Definition all_recorded (l : history) : Prop := forall a, In a (entered l) -> exists pr pid en, recorded l a pr pid en.
(** No agent outlives its parent: the parent on record is alive too. *)
Definition parents_alive (l : history) : Prop := forall a pr pid en, alive l a -> recorded l a pr pid en ->
  pid = -1 \/ exists q, pid = Z.of_nat q /\ alive l q.
(** Entries of the database made after a snapshot at time 0 do not concern the agents at time 0 (there is no such
    restriction for later snapshots). *)
Definition settled (t : Z) (before after : history) : Prop :=
  0 < t \/ (exits before = [] /\ forall x, In x after -> match snd x with EEntry _ _ _ _ _ _ => False | _ => True end).
(** The parent comes before the child. *)
Definition parents_first (parent : Z -> option Z) (l : list Z) : Prop := forall l1 id l2, l = l1 ++ id :: l2 ->
  match parent id with Some p => In p l1 | None => True end.
Definition inventory (n : string) (l : list (string * list Z)) : list Z :=
  match find (fun p => String.eqb (fst p) n) l with Some p => snd p | None => [] end.
(** An agent whose order in force was for a time before [t] never had one for [t] or later. *)
Definition orders_current (t : Z) (l : history) : Prop := forall a u, pending a l = Some u -> u < t ->
  forall v u', In (v, ESchedD a u') l -> u' < t.
(** Orders for [t] or later concern agents that were alive when the snapshot was taken. *)
Definition orders_known (t : Z) (before l : history) : Prop := forall v a u, In (v, ESchedD a u) l -> t <= u -> alive before a.
(** The queue entries for time [u]. *)
Definition queued {A} (u : Z) (q : zmap (list A)) : list A := match zfind u q with Some l => l | None => [] end.
(** A build as ordered, and as restored: a parent that has left meanwhile is dropped. *)
Definition same_build (before : history) (b b' : string * option nat) : Prop :=
  fst b' = fst b /\
  match snd b with
  | Some q => (alive before q /\ snd b' = Some q) \/ (~ alive before q /\ snd b' = None)
  | None => snd b' = None
  end.

(** What a restart from the snapshot taken at time [t] after the history [before] has to bring back; [whole] is the
    history up to which the database was written, [n] the agent counter in the snapshot. *)
Record restored {C : Type} (content : nat -> Z -> C) (inv : nat -> Z -> list (string * list Z)) (counter : string -> Z -> Z)
    (t : Z) (before whole : history) (n : Z) (r : loaded C) : Prop := {
  (* every agent alive, with its prototype, entry time, parent and state, and no other *)
  r_agents : forall a pr pid en, alive before a -> recorded before a pr pid en ->
    zfind (Z.of_nat a) (ld_agents r) = Some (mkL (Z.of_nat a) pr en (if Z.eqb pid (-1) then None else Some pid) (content a t));
  r_only : forall id x, zfind id (ld_agents r) = Some x -> exists a, id = Z.of_nat a /\ alive before a;
  (* EnterNotify once for each, parents first *)
  r_enter : NoDup (ld_enter r) /\ (forall id, In id (ld_enter r) <-> exists a, id = Z.of_nat a /\ alive before a);
  r_first : parents_first (fun id => match zfind id (ld_agents r) with Some x => l_parent x | None => None end) (ld_enter r);
  (* the resources in each of its inventories, in order *)
  r_inv : forall a k, alive before a -> NoDup (map fst (inv a t)) -> inventory k (ld_inv r (Z.of_nat a)) = inventory k (inv a t);
  (* builds ordered for later times, decommissionings ordered for [t] or later *)
  r_builds : forall u, if Z.ltb t u then Forall2 (same_build before) (builds_for u whole) (queued u (ld_builds r)) else queued u (ld_builds r) = [];
  r_decoms : forall u, queued u (ld_decoms r) = if Z.leb t u then decoms_for u whole else [];
  (* the counters: ids of agents are not used again *)
  r_next : ld_next r "Agent"%string = n /\ (forall a, In a (entered before) -> Z.of_nat a < ld_next r "Agent"%string) /\
    forall o, In o ["Transaction"; "Composition"; "ResourceState"; "ResourceObj"; "Product"]%string -> ld_next r o = counter o t }.
