(** * Specification vocabulary for compositions: what a composition map means. *)
From Verif Require Import Base.
Open Scope Q_scope.

(** A well-formed std::map: keys strictly ascending. *)
Definition wf_comp (v : zmap Q) : Prop := zsorted v.

(** Amount of nuclide [n] in [v]; absent means zero. *)
Definition amount (n : Z) (v : zmap Q) : Q :=
  match zfind n v with Some x => x | None => 0 end.

(** Total of a composition vector. *)
Definition total (v : zmap Q) : Q := qsum (map snd v).

(** Mathematical absolute value. *)
Definition absq (x : Q) : Q := Qabs.Qabs x.

(** Relative closeness as documented in comp_math.h: both values within [t] relative tolerance of
    the other; if one of them is zero the other must be too (for [t < 1]). *)
Definition close (t a b : Q) : Prop :=
  (a == 0 \/ b == 0) /\ absq (a - b) <= absq (a - b) * t
  \/ ~ a == 0 /\ ~ b == 0 /\ absq (a - b) <= absq a * t /\ absq (a - b) <= absq b * t.
