(** Concrete simulations: a regular one, and misuses the kernel does not survive. *)
From Coq Require Import String List ZArith Bool Arith Lia.
From Verif Require Import Base SimModel SimSpec.
Import ListNotations.
Local Open Scope Z_scope.
Local Open Scope string_scope.
Local Open Scope list_scope.

(** The setup makes prototypes "R", "I", "F" (agents 0, 1, 2; facilities live two steps), builds a region (3) and an institution (4)
    under it, and orders one facility for time 1 and another for time 2. *)
Definition answer (r : result (option nat)) : nat := match r with Ok (Some a) => a | _ => 0%nat end.
Definition demo_setup : prog :=
  Do (CNew KRegion false "R" ":r:R" (-1)) (fun r => let a0 := answer r in
  Do (CAddProto "R" a0 false) (fun _ =>
  Do (CNew KInst false "I" ":i:I" (-1)) (fun r => let a1 := answer r in
  Do (CAddProto "I" a1 false) (fun _ =>
  Do (CNew KFac false "F" ":f:F" 2) (fun r => let a2 := answer r in
  Do (CAddProto "F" a2 false) (fun _ =>
  Do (CCreate (Some KRegion) "R") (fun r => let reg := answer r in
  Do (CBuild reg None) (fun _ =>
  Do (CCreate (Some KInst) "I") (fun r => let ins := answer r in
  Do (CBuild ins (Some reg)) (fun _ =>
  Do (CSchedB (Some ins) "F" 1) (fun _ =>
  Do (CSchedB (Some ins) "F" 2) (fun _ => Done)))))))))))).
(** Institutions keep the default Tock; nothing else happens. *)
Definition demo_beh (h : hook) (s : sim) : prog :=
  match h with
  | HTock a => match get s a with
               | Some x => if kind_eqb (a_kind x) KInst then Do (CInstTock a) (fun _ => Done) else Done
               | None => Done
               end
  | _ => Done
  end.
Definition yes : nat -> sim -> bool := fun _ _ => true.
Definition demo : out unit * sim := simulate demo_beh yes 40 demo_setup 0 5.
Definition demo_log : history := Eval vm_compute in log (snd demo).
Lemma demo_runs : demo = (Normal tt, snd demo).
Proof. vm_compute. reflexivity. Qed.
Lemma demo_logs : log (snd demo) = demo_log.
Proof. vm_compute. reflexivity. Qed.

(** Cutting a phase out of a history: what precedes it, and its record. *)
Definition phase_eqb (p q : phase) : bool :=
  match p, q with
  | PBuild, PBuild | PTick, PTick | PExch, PExch | PTock, PTock | PDecide, PDecide | PDecom, PDecom => true
  | _, _ => false
  end.
Fixpoint before_phase (t : Z) (p : phase) (l : history) : history :=
  match l with
  | [] => []
  | (t', e) :: r =>
      if match e with EPhase q => Z.eqb t t' && phase_eqb p q | _ => false end then [] else (t', e) :: before_phase t p r
  end.
Fixpoint until_marker (l : history) : history :=
  match l with [] => [] | x :: r => if marker (snd x) then [] else x :: until_marker r end.
Definition in_phase (t : Z) (p : phase) (l : history) : history :=
  until_marker (skipn (S (length (before_phase t p l))) l).
Lemma until_split l : exists post, l = until_marker l ++ post /\ no_marker (until_marker l) /\
  match post with [] => True | x :: _ => marker (snd x) = true end.
Proof.
  induction l as [|x l IH]; simpl; [exists []; repeat split; constructor|]. destruct (marker (snd x)) eqn:E.
  - exists (x :: l). repeat split; [constructor|exact E].
  - destruct IH as (post & A & B & C). exists post. split; [simpl; congruence|]. split; [constructor; assumption|exact C].
Qed.
Lemma cut_whole t p l : nth_error l (length (before_phase t p l)) = Some (t, EPhase p) ->
  length (until_marker (skipn (S (length (before_phase t p l))) l)) <> length (skipn (S (length (before_phase t p l))) l) ->
  whole_phase l (before_phase t p l) (in_phase t p l) t p.
Proof.
  intros H L. destruct (until_split (skipn (S (length (before_phase t p l))) l)) as (post & A & B & C). exists post. split; [|split; [exact B|]].
  - unfold in_phase. rewrite <- A.
    assert (F : forall m, firstn (length (before_phase t p m)) m = before_phase t p m).
    { induction m as [|[t' e] m IH]; [reflexivity|]. simpl. destruct (match e with EPhase q => _ | _ => _ end); [reflexivity|]. simpl. now f_equal. }
    rewrite <- (firstn_skipn (length (before_phase t p l)) l) at 1. rewrite F. f_equal.
    revert H. generalize (length (before_phase t p l)). clear. induction l as [|x l IH]; intros [|n] H; simpl in H; try discriminate.
    + injection H as ->. reflexivity.
    + simpl. now apply IH.
  - destruct post; [|exact C]. apply L. rewrite A at 2. now rewrite app_nil_r.
Qed.

(** *** Misuse *)
Definition quiet (h : hook) (s : sim) : prog := Done.
(** Agents "A" and so on of kind [k], numbered from 0 and built at the start without parent; then [rest]. *)
Fixpoint build_all (k : kind) (n : nat) (rest : prog) : prog :=
  match n with
  | O => rest
  | S m => Do (CNew k false "A" ":a:A" (-1)) (fun r => Do (CBuild (answer r) None) (fun _ => build_all k m rest))
  end.
(** A facility that registers itself again on entry. *)
Definition twice_beh (h : hook) (s : sim) : prog := match h with HEnter a => Do (CReg a) (fun _ => Done) | _ => Done end.
Definition twice : out unit * sim := simulate twice_beh yes 20 (build_all KFac 1 Done) 0 1.
(** Of two facilities, the first unregisters itself in its Tick. *)
Definition leave_beh (h : hook) (s : sim) : prog := match h with HTick 0%nat => Do (CUnreg 0%nat) (fun _ => Done) | _ => Done end.
Definition leave : out unit * sim := simulate leave_beh yes 20 (build_all KFac 2 Done) 0 1.
(** A build ordered under a parent that is decommissioned before. *)
Definition orphan : out unit * sim := simulate quiet yes 20
  (build_all KOther 1 (Do (CAddProto "A" 0%nat false) (fun _ => Do (CSchedB (Some 0%nat) "A" 2) (fun _ => Do (CSchedD 0%nat 1) (fun _ => Done))))) 0 3.
(** During its decommissioning, agent 0 orders the decommissioning of agent 1 for the same step. *)
Definition late_beh (h : hook) (s : sim) : prog := match h with HDecom 0%nat => Do (CSchedD 1%nat (-1)) (fun _ => Done) | _ => Done end.
Definition late : out unit * sim := simulate late_beh yes 20 (build_all KOther 2 (Do (CSchedD 0%nat 1) (fun _ => Done))) 0 4.
(** During its decommissioning, agent 0 postpones that of agent 1. *)
Definition postpone_beh (h : hook) (s : sim) : prog := match h with HDecom 0%nat => Do (CSchedD 1%nat 9) (fun _ => Done) | _ => Done end.
Definition postpone : out unit * sim := simulate postpone_beh yes 20
  (build_all KOther 2 (Do (CSchedD 0%nat 1) (fun _ => Do (CSchedD 1%nat 1) (fun _ => Done)))) 0 4.
(** An institution comes and goes. *)
Definition inst_gone : out unit * sim := simulate quiet yes 20 (build_all KInst 1 (Do (CSchedD 0%nat 1) (fun _ => Done))) 0 3.
(** Agent 2 is built under agent 0, then under agent 1; agents 3 and 4 are built under each other. *)
Definition tangle : out unit * sim := simulate quiet yes 40
  (build_all KOther 2
    (Do (CNew KOther false "A" ":a:A" (-1)) (fun _ => Do (CBuild 2%nat (Some 0%nat)) (fun _ => Do (CBuild 2%nat (Some 1%nat)) (fun _ =>
     Do (CNew KOther false "A" ":a:A" (-1)) (fun _ => Do (CNew KOther false "A" ":a:A" (-1)) (fun _ =>
     Do (CBuild 3%nat (Some 4%nat)) (fun _ => Do (CBuild 4%nat (Some 3%nat)) (fun _ => Done))))))))) 0 1.
