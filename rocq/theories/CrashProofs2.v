(** * Packaging is a valid call for packages within their limits (C51). *)
From Coq Require Import String List.
From Verif Require Import Base CompModel PackageModel PackageProofs2 ResourceModel CrashSpec.
Import ListNotations.
Open Scope Q_scope.

Lemma packaging_valid E w i r e name fmin fmax strategy p samples :
  nth_error (w_res w) i = Some r -> pkg_create e name fmin fmax strategy = Ok p -> 0 < e_eps E -> 0 < r_qty r ->
  (strategy = "first"%string /\ r_qty r < inject_Z split_limit * fmax \/
   strategy <> "first"%string /\ 0 < fmin /\ r_qty r < inject_Z split_limit * fmin /\
   Forall (fun s => fmin <= s <= fmax) samples /\
   r_qty r <= inject_Z (Z.of_nat (length samples)) * fmin) ->
  valid_op E w (OPackage i p samples).
Proof.
  intros Hr HP He Hq HS. destruct (C13_no_failure_lemma e name fmin fmax strategy p (e_eps E) samples (r_qty r) HP He Hq HS) as (fills & rest & H).
  exists r. split; [exact Hr|]. exists (Ok fills), rest. split; [exact H|discriminate].
Qed.
