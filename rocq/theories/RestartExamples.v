(** Concrete simulations and their restarts. *)
From Coq Require Import String List ZArith Bool Arith Lia.
From Verif Require Import Base SimModel SimSpec SimExamples RestartModel RestartSpec.
Import ListNotations.
Local Open Scope Z_scope.
Local Open Scope string_scope.
Local Open Scope list_scope.

(** Every agent has recorded its number and the time; agent 4 holds resources. *)
Definition content_ex (a : nat) (t : Z) : nat * Z := (a, t).
Definition inv_ex (a : nat) (t : Z) : list (string * list Z) := match a with 4%nat => [("in", [7; 8]); ("out", []); ("stock", [9])] | _ => [] end.
Definition counter_ex (o : string) (t : Z) : Z := if String.eqb o "ResourceState" then 20 else 10.
Definition db_ex := db_of content_ex inv_ex counter_ex.
Definition load_ex (t : Z) (l : history) := init_base 100 t (db_ex l) (fun _ => 0).

(** The history up to the snapshot at time [t]. *)
Fixpoint before_snap (t : Z) (l : history) : history :=
  match l with
  | [] => []
  | x :: r => if match snd x with ESnap _ _ => Z.eqb t (fst x) | _ => false end then [] else x :: before_snap t r
  end.
Definition after_snap (t : Z) (l : history) : history := skipn (S (length (before_snap t l))) l.

(** As in SimExamples: prototypes 0-2, a region (3) and an institution (4); facilities of lifetime [life] are
    ordered for the times [bs] and the institution's end for 8. *)
Fixpoint order_all (ins : nat) (bs : list Z) (rest : prog) : prog :=
  match bs with [] => rest | b :: bs => Do (CSchedB (Some ins) "F" b) (fun _ => order_all ins bs rest) end.
Definition setup_ex (life : Z) (bs : list Z) (rest : prog) : prog :=
  Do (CNew KRegion false "R" ":r:R" (-1)) (fun r => let a0 := answer r in
  Do (CAddProto "R" a0 false) (fun _ =>
  Do (CNew KInst false "I" ":i:I" (-1)) (fun r => let a1 := answer r in
  Do (CAddProto "I" a1 false) (fun _ =>
  Do (CNew KFac false "F" ":f:F" life) (fun r => let a2 := answer r in
  Do (CAddProto "F" a2 false) (fun _ =>
  Do (CCreate (Some KRegion) "R") (fun r => let reg := answer r in
  Do (CBuild reg None) (fun _ =>
  Do (CCreate (Some KInst) "I") (fun r => let ins := answer r in
  Do (CBuild ins (Some reg)) (fun _ =>
  order_all ins bs (Do (CSchedD ins 8) (fun _ => rest)))))))))))).
(** The region asks for a snapshot in step 1, to be taken at time 2; in step 3 it orders one more facility for time 7. *)
Definition beh_ex (h : hook) (s : sim) : prog :=
  match h with
  | HTick 3%nat => if Z.eqb (tm (ti s)) 1 then Do CSnap (fun _ => Done)
                   else if Z.eqb (tm (ti s)) 3 then Do (CSchedB (Some 4%nat) "F" 7) (fun _ => Done) else Done
  | _ => demo_beh h s
  end.
(** Facilities that stay. *)
Definition stay : out unit * sim := simulate beh_ex yes 40 (setup_ex (-1) [1; 4; 6] Done) 0 6.
Definition stay_log : history := Eval vm_compute in log (snd stay).
Definition stay_pre : history := Eval vm_compute in before_snap 2 stay_log.
Definition stay_mid : history := Eval vm_compute in after_snap 2 stay_log.
(** A facility ordered for the very time of the snapshot; facilities live two steps. *)
Definition brief : out unit * sim := simulate beh_ex yes 40 (setup_ex 2 [1; 2] Done) 0 6.
Definition brief_log : history := Eval vm_compute in log (snd brief).
Definition brief_pre : history := Eval vm_compute in before_snap 2 brief_log.
(** Agent 1 is built under agent 0, which leaves at time 1. *)
Definition lone : out unit * sim := simulate quiet yes 40
  (build_all KOther 1 (Do (CNew KOther false "A" ":a:A" (-1)) (fun _ => Do (CBuild 1%nat (Some 0%nat)) (fun _ => Do (CSchedD 0%nat 1) (fun _ => Done))))) 0 3.
Definition lone_log : history := Eval vm_compute in log (snd lone).
Definition lone_pre : history := Eval vm_compute in before_snap 3 lone_log.
(** Of two agents, the first is decommissioned during the setup; then a snapshot at time 0. *)
Definition early : out unit * sim := simulate quiet yes 40 (build_all KOther 2 (Do (CDecom 0%nat) (fun _ => Do CSnap (fun _ => Done)))) 0 3.
Definition early_log : history := Eval vm_compute in log (snd early).
