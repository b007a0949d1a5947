(** * EnrichProperties: C46, enrichment balances mass. *)
From Verif Require Import Base EnrichModel EnrichSpec EnrichProofs.
From Coq Require Import Reals Lra.
Local Open Scope R_scope.

(** Feed and tails quantities balance, and are the only ones that do. *)
Theorem C46_balance : forall q a, a_feed a <> a_tails a ->
  exists f t, feed_qty q a = Some f /\ tails_qty q a = Some t /\ separates a f q t /\
    (forall f' t', separates a f' q t' -> f' = f /\ t' = t).
Proof. exact e_balance. Qed.
Print Assumptions C46_balance.

(** Without a difference between feed and tails no finite answer is given. *)
Theorem C46_no_contrast : forall q a, a_feed a = a_tails a -> feed_qty q a = None /\ tails_qty q a = None.
Proof. exact no_balance. Qed.
Print Assumptions C46_no_contrast.

(** Enriching needs at least as much feed as it gives product, and never a negative amount of tails. *)
Theorem C46_amounts : forall q a f t, feed_qty q a = Some f -> tails_qty q a = Some t -> 0 <= q -> enriches a ->
  0 <= t <= f /\ q <= f.
Proof. exact e_amounts. Qed.
Print Assumptions C46_amounts.

(** The value function: refused outside [0, 1); inside (0, 1) it is the textbook one, never negative and symmetric. *)
Theorem C46_value : forall x,
  (value_func x = Throw ValueError <-> x < 0 \/ 1 <= x) /\
  (0 < x < 1 -> value_func x = Ok (Some (value x)) /\ 0 <= value x /\ value (1 - x) = value x).
Proof. exact e_value. Qed.
Print Assumptions C46_value.

(** The documentation promises a value on the whole of [0, 1), but at 0 there is none: a tails assay of 0 gives no
    finite amount of separative work. *)
Theorem C46_value_at_zero_refuted :
  value_func 0 = Ok None /\
  (forall q f p, 0 < f < 1 -> 0 < p < 1 -> swu_required q (mkAssays f p 0) = Ok None).
Proof. exact e_zero. Qed.
Print Assumptions C46_value_at_zero_refuted.

(** Separative work is what the balance of values says. *)
Theorem C46_swu_is_value_added : forall q a f t, 0 < a_tails a < 1 -> 0 < a_feed a < 1 -> 0 < a_product a < 1 ->
  a_feed a <> a_tails a -> separates a f q t ->
  swu_required q a = Ok (Some (q * value (a_product a) + t * value (a_tails a) - f * value (a_feed a))).
Proof. exact e_swu. Qed.
Print Assumptions C46_swu_is_value_added.

(** It is never negative, zero exactly when nothing is enriched, and proportional to the product. *)
Theorem C46_swu : forall q a, 0 <= q -> enriches a ->
  exists s, swu_required q a = Ok (Some s) /\ 0 <= s /\ (s = 0 <-> q = 0 \/ a_product a = a_feed a) /\
    (forall k, swu_required (k * q) a = Ok (Some (k * s))).
Proof. exact e_swu_nonneg. Qed.
Print Assumptions C46_swu.

(** Natural uranium to reactor grade. *)
Example C46_ex : enriches (mkAssays (711/100000) (4/100) (2/1000)) /\
  feed_qty 10 (mkAssays (711/100000) (4/100) (2/1000)) = Some (38000/511) /\
  (exists s, swu_required 10 (mkAssays (711/100000) (4/100) (2/1000)) = Ok (Some s) /\ 0 < s).
Proof.
  assert (enriches (mkAssays (711/100000) (4/100) (2/1000))) as E by (unfold enriches; cbn; lra).
  split; [exact E|]. split.
  - unfold feed_qty. rewrite fdiv_some by (cbn; lra). cbn. f_equal. field.
  - destruct (C46_swu 10 _ ltac:(lra) E) as [s [S [P [Z _]]]]. exists s. split; [exact S|]. destruct P as [P|P]; [exact P|].
    symmetry in P. apply Z in P. cbn in P. lra.
Qed.
