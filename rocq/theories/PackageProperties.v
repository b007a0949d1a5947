(** * C13, C16: package fills and transport units (src/package.cc). *)
From Verif Require Import Base PackageModel PackageProofs PackageProofs2.
Open Scope Q_scope.

(** ** C13.  [samples] are the values the package's random distribution yields; the hypothesis on them
    is the contract of boost's uniform_real and of the truncated normal (they stay within the limits). *)
Theorem C13_fills_within_limits : forall e name fmin fmax strategy p eps samples qty fills rest,
  pkg_create e name fmin fmax strategy = Ok p ->
  0 < eps -> 0 < qty ->
  Forall (fun s => fmin <= s <= fmax) samples ->
  get_fill_mass eps p samples qty = Some (Ok fills, rest) ->
  Forall (fun f => fmin - eps <= f <= fmax) fills /\
  (fmin <= qty -> Forall (fun f => fmin <= f) fills) /\
  qsum fills <= qty /\
  qty - qsum fills < qmax eps fmin.
Proof. exact C13_fills_lemma. Qed.
Print Assumptions C13_fills_within_limits.

(** No package is produced only if the quantity is below the minimum (or below eps). *)
Theorem C13_empty_only_if_too_little : forall e name fmin fmax strategy p eps samples qty rest,
  pkg_create e name fmin fmax strategy = Ok p -> 0 < eps -> 0 < qty ->
  Forall (fun s => fmin <= s <= fmax) samples ->
  get_fill_mass eps p samples qty = Some (Ok [], rest) -> qty < qmax eps fmin.
Proof. exact C13_empty_lemma. Qed.
Print Assumptions C13_empty_only_if_too_little.

(** Strategy "equal": when enough minimum fills fit, everything is packaged, in equal packages. *)
Theorem C13_equal_leaves_nothing : forall e name fmin fmax p eps samples qty fills rest,
  pkg_create e name fmin fmax "equal" = Ok p -> 0 < eps -> 0 < qty ->
  (Qceiling (qty / fmax) <= Qfloor (qty / fmin))%Z ->
  get_fill_mass eps p samples qty = Some (Ok fills, rest) ->
  qsum fills == qty /\
  exists f, fills = repeat f (Z.to_nat (Qceiling (qty / fmax))) /\
            f == qty / inject_Z (Qceiling (qty / fmax)).
Proof. exact C13_equal_lemma. Qed.
Print Assumptions C13_equal_leaves_nothing.

(** The call returns normally for every quantity of less than SplitLimit() minimum (resp. maximum)
    fills, provided the minimum is positive (resp. for "first": any limits); the random strategies
    need no more samples than minimum fills fit in the quantity. *)
Theorem C13_no_failure : forall e name fmin fmax strategy p eps samples qty,
  pkg_create e name fmin fmax strategy = Ok p -> 0 < eps -> 0 < qty ->
  (strategy = "first"%string /\ qty < inject_Z split_limit * fmax \/
   strategy <> "first"%string /\ 0 < fmin /\ qty < inject_Z split_limit * fmin /\
   Forall (fun s => fmin <= s <= fmax) samples /\
   qty <= inject_Z (Z.of_nat (length samples)) * fmin) ->
  exists fills rest, get_fill_mass eps p samples qty = Some (Ok fills, rest).
Proof. exact C13_no_failure_lemma. Qed.
Print Assumptions C13_no_failure.

Example C13_ex_equal : exists p,
  pkg_create true "drum" 3 4 "equal" = Ok p /\
  get_fill_mass (1#1000000) p [] 7 = Some (Ok [7#2; 7#2], []) /\
  get_fill_mass (1#1000000) p [] 5 = Some (Ok [4], []).
Proof. eexists. repeat split. Qed.
Example C13_ex_uniform : exists p,
  pkg_create true "drum" 1 10 "uniform" = Ok p /\
  get_fill_mass (1#1000000) p [4; 5] 13 = Some (Ok [4; 9], [5]).
Proof. eexists. repeat split. Qed.
Example C13_ex_hyp : exists p, pkg_create true "drum" 3 4 "first" = Ok p /\
  (Forall (fun s => 3 <= s <= 4) [7#2; 4]) /\ get_fill_mass (1#1000000) p [7#2; 4] 9 = Some (Ok [4; 4], [7#2; 4]).
Proof. eexists. repeat split; repeat constructor; compute; discriminate. Qed.

(** Findings: with the default minimum 0, strategy "equal" converts an infinite double to int for
    every quantity; and packaging a zero quantity does so for strategy "first". *)
Theorem C13_equal_default_min_refuted : forall eps name fmax samples qty,
  0 < eps -> 0 < fmax -> 0 < qty -> qty < inject_Z split_limit * fmax ->
  name <> unpackaged_name ->
  exists p, pkg_create true name 0 fmax "equal" = Ok p /\
    get_fill_mass eps p samples qty = Some (UB, samples).
Proof. exact C13_equal_UB_lemma. Qed.
Print Assumptions C13_equal_default_min_refuted.
Theorem C13_zero_quantity_refuted : forall samples,
  get_fill_mass (1#1000000) pkg_unpackaged samples 0 = Some (UB, samples).
Proof. exact C13_zero_lemma. Qed.
Print Assumptions C13_zero_quantity_refuted.

(** ** C16 *)
Open Scope Z_scope.
Theorem C16_shippable_is_legal_loads : forall e name fmin fmax strategy t n,
  tu_create e name fmin fmax strategy = Ok t -> name <> unrestricted_name ->
  1 <= fmin -> 0 <= n -> n + fmax <= INT_MAX ->
  exists s, max_shippable (S (Z.to_nat n)) t n = Some (Some s) /\ 0 <= s <= n /\
    exists loads, Forall (fun l => fmin <= l <= fmax) loads /\ zsum loads = s.
Proof. exact C16_legal_lemma. Qed.
Print Assumptions C16_shippable_is_legal_loads.

(** "hybrid" is optimal: no collection of legal loads ships more. *)
Theorem C16_hybrid_optimal : forall e name fmin fmax t n,
  tu_create e name fmin fmax "hybrid" = Ok t -> name <> unrestricted_name ->
  1 <= fmin -> 0 <= n -> n + fmax <= INT_MAX ->
  exists s, max_shippable (S (Z.to_nat n)) t n = Some (Some s) /\
    forall loads, Forall (fun l => fmin <= l <= fmax) loads -> zsum loads <= n -> zsum loads <= s.
Proof. exact C16_optimal_lemma. Qed.
Print Assumptions C16_hybrid_optimal.

Theorem C16_unrestricted : forall fuel n, 0 <= n -> max_shippable fuel tu_unrestricted n = Some (Some n).
Proof. exact unrestricted_ships_all. Qed.
Print Assumptions C16_unrestricted.

Example C16_ex : exists t, tu_create true "cask" 3 4 "hybrid" = Ok t /\
  max_shippable (S (Z.to_nat 11)) t 11 = Some (Some 11) /\ max_shippable (S (Z.to_nat 5)) t 5 = Some (Some 4).
Proof. eexists. repeat split. Qed.

(** Strategy "first" may ship nothing although a legal load exists. *)
Theorem C16_first_maximal_refuted : exists t, tu_create true "cask" 3 10 "first" = Ok t /\
  max_shippable 6 t 5 = Some (Some 0).
Proof. exact C16_first_lemma. Qed.
Print Assumptions C16_first_maximal_refuted.

(** Findings: with the default minimum (0) every use of "equal" or "hybrid" divides by zero, and with
    the default maximum (INT_MAX) it overflows from two packages on. *)
Theorem C16_default_min_refuted : forall fuel name fmax n s,
  1 <= n -> n + fmax <= INT_MAX -> 0 <= fmax -> name <> unrestricted_name ->
  s = "equal"%string \/ s = "hybrid"%string ->
  exists t, tu_create true name 0 fmax s = Ok t /\ max_shippable (S fuel) t n = Some None.
Proof. exact C16_default_min_lemma. Qed.
Print Assumptions C16_default_min_refuted.
Theorem C16_default_max_refuted : forall fuel name fmin n s,
  1 <= fmin <= n -> 2 <= n <= INT_MAX -> name <> unrestricted_name ->
  s = "equal"%string \/ s = "hybrid"%string ->
  exists t, tu_create true name fmin INT_MAX s = Ok t /\ max_shippable (S fuel) t n = Some None.
Proof. exact C16_default_max_lemma. Qed.
Print Assumptions C16_default_max_refuted.
