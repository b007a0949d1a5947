(** Concrete histories of the SQLite backend. *)
From Coq Require Import String Ascii QArith List Bool Arith ZArith Lia.
From Verif Require Import Base SqlModel SqlSpec.
Import ListNotations.
Open Scope list_scope.
Open Scope string_scope.

Definition calmly : nat -> option bool := fun _ => None.
Definition anyname : string -> bool := fun _ => true.
Definition ser1 : nat -> unit -> string := fun _ _ => "<x/>".
Definition deser1 : nat -> string -> option unit := fun _ s => if String.eqb s "<x/>" then Some tt else None.
Definition conv1 : affinity -> cell -> cell := fun _ c => c.
Definition int1 : cell -> Z := fun _ => 0%Z.
Definition dbl1 : cell -> dbl := fun _ => Fin 0.
Definition text1 : cell -> string := fun _ => "".
Notation dat := (mkDatum unit).
Definition d1 := dat "Agents" [("Id", SInt 1); ("Kind", SStr "Region"); ("Share", SDbl (Fin (1 # 2)))].
Definition d2 := dat "Agents" [("Id", SInt 2); ("Kind", SStr "Inst"); ("Share", SDbl (Inf true))].
Definition d3 := dat "Log" [("What", SObj 3 tt); ("Done", SBool true)].
Definition d4 := dat "Log" [("What", SOther); ("Done", SBool true)].
Definition d5 := dat "Agents" [("Id", SStr "three"); ("Kind", SStr "Inst"); ("Share", SDbl (Fin 1))].
Definition note1 := notify unit anyname calmly ser1 conv1.
Definition run1 (b : back) (l : list (datum unit)) : back := snd (note1 l b).
Definition ask1 := query unit deser1 int1 dbl1 text1.
Definition start := open_back db0 0.
Definition b1 := run1 start [d1; d3].
Definition b2 := run1 b1 [d2].
Definition b3 := open_back (k_disk (b_conn b2)) 0.
Definition went1 := went unit anyname calmly ser1 conv1.
Definition h3 : list (event unit) := [Reopened; Recorded [d2] (Ok tt); Recorded [d1; d3] (Ok tt)].

Lemma went_step h b l r : went1 h b -> fst (note1 l b) = r -> r <> UB -> went1 (Recorded l r :: h) (run1 b l).
Proof. intros W E N. eapply went_put; eauto. unfold run1. rewrite <- E. unfold note1. now destruct notify. Qed.
Lemma h3_went : went1 h3 b3.
Proof.
  unfold h3, b3. apply went_open. apply went_step; [apply went_step; [apply went_new| |discriminate]| |discriminate]; vm_compute; reflexivity.
Qed.
Lemma h3_delivered d : delivered h3 d -> d = d1 \/ d = d2 \/ d = d3.
Proof.
  intros (l & r & I & J). unfold h3 in I. cbn in I. destruct I as [I|[I|[I|[]]]]; [discriminate| |]; injection I as <- _.
  - destruct J as [<-|[]]. auto.
  - destruct J as [<-|[<-|[]]]; auto.
Qed.
Lemma h3_apart : titles_apart h3.
Proof.
  intros d d' D D'. apply h3_delivered in D, D'. destruct D as [->|[->| ->]], D' as [->|[->| ->]]; cbn; intros E; try discriminate; reflexivity.
Qed.
Lemma h3_steady t : steady h3 t.
Proof.
  intros d D T. split.
  - apply h3_delivered in D. intros f I. destruct D as [->|[->| ->]]; cbn in I; repeat destruct I as [I|I]; try discriminate; exact I.
  - intros d' D' T'. apply h3_delivered in D, D'. destruct D as [->|[->| ->]], D' as [->|[->| ->]]; cbn in *; subst; try discriminate; reflexivity.
Qed.
Lemma h3_clean d : In d (kept h3) -> Forall (fun p => clean ser1 deser1 (snd p)) (dt_vals unit d).
Proof.
  intros I. cbn in I. destruct I as [<-|[<-|[<-|[]]]]; repeat constructor; cbn; try discriminate; try easy.
Qed.
