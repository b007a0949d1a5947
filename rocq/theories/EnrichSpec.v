(** * EnrichSpec: the textbook vocabulary of enrichment, for C46. *)
From Coq Require Import Reals.
From Verif Require Import EnrichModel.
Local Open Scope R_scope.

(** A quantity [f] of feed separates into [p] of product and [t] of tails: no uranium is lost, and no U-235. *)
Definition separates (a : assays) (f p t : R) : Prop := f = p + t /\ a_feed a * f = a_product a * p + a_tails a * t.

(** The value of uranium per unit at assay [x]. *)
Definition value (x : R) : R := (1 - 2 * x) * (ln (1 - x) - ln x).

(** Real enrichment: the tails are poorer than the feed, the product is not, and no stream is pure. *)
Definition enriches (a : assays) : Prop := 0 < a_tails a /\ a_tails a < a_feed a /\ a_feed a <= a_product a /\ a_product a < 1.
