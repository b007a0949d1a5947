(** * Model of toolkit::MatQuery and of the uranium queries built on it.  Definitions only. *)
From Coq Require Import String List.
From Verif Require Import Base CompModel GreedyModel PackageModel ResourceModel.
Import ListNotations.
Open Scope Q_scope.
Open Scope m_scope.

(** CMakeLists.txt 19, CY_LARGE_DOUBLE. *)
Definition LARGE_DOUBLE : Q := inject_Z (10 ^ 299).

(** nuclide numbers used by src/toolkit/enrichment.cc 40-82. *)
Definition U235 : Z := 922350000.
Definition U238 : Z := 922380000.

Section Query.
Context (E : env).

(** src/toolkit/mat_query.cc 11-13, qty. *)
Definition mq_qty (i : nat) : M Q := r <- rget i; ret (r_qty r).

(** src/toolkit/mat_query.cc 24-25: the (lazily decayed) composition's mass vector, normalised;
    the caller's copy, the composition itself is not touched. *)
Definition mq_mass_vec (i : nat) : M compmap :=
  c <- mat_comp E i; x <- cref c; ret (normalize (comp_mass E x) 1).
(** src/toolkit/mat_query.cc 39-40. *)
Definition mq_atom_vec (i : nat) : M compmap :=
  c <- mat_comp E i; x <- cref c; ret (normalize (comp_atom E x) 1).

(** src/toolkit/mat_query.cc 23-27, mass_frac(Nuc). *)
Definition mq_mass_frac (i : nat) (n : Z) : M Q :=
  v <- mq_mass_vec i; ret (cget n v).
(** src/toolkit/mat_query.cc 38-42, atom_frac(Nuc). *)
Definition mq_atom_frac (i : nat) (n : Z) : M Q :=
  v <- mq_atom_vec i; ret (cget n v).
(** src/toolkit/mat_query.cc 15-17, mass(Nuc). *)
Definition mq_mass (i : nat) (n : Z) : M Q :=
  f <- mq_mass_frac i n; q <- mq_qty i; ret (f * q).
(** src/toolkit/mat_query.cc 19-21, moles(Nuc); units::g = 1e-3 kg (pyne). *)
Definition mq_moles (i : nat) (n : Z) : M Q :=
  m <- mq_mass i n; ret (m / (e_amass E n * (1#1000))).

(** src/toolkit/mat_query.cc 29-36, mass_frac(std::set<Nuc>): sum of the masses over the quantity
    (a double division: an emptied material divides by 0).  The set is given as the list of its
    elements, in iteration order. *)
Fixpoint mq_sum_mass (i : nat) (nucs : list Z) (total : Q) : M Q :=
  match nucs with
  | [] => ret total
  | n :: t => m <- mq_mass i n; mq_sum_mass i t (total + m)
  end.
Definition mq_mass_frac_set (i : nat) (nucs : list Z) : M num :=
  total <- mq_sum_mass i nucs 0; q <- mq_qty i; ret (ndiv total q).
(** src/toolkit/mat_query.cc 44-56, atom_frac(std::set<Nuc>): reading v[nuc] inserts a 0 for an
    absent nuclide, which later reads do not see as anything else. *)
Definition mq_atom_frac_set (i : nat) (nucs : list Z) : M Q :=
  v <- mq_atom_vec i; ret (fold_left (fun total n => total + cget n v) nucs 0).

(** src/toolkit/mat_query.cc 74-80, AlmostEq(other, threshold). *)
Definition mq_almost_eq (i j : nat) (threshold : Q) : M bool :=
  n1 <- mq_mass_vec i; n2 <- mq_mass_vec j; lift (almost_eq n1 n2 threshold).

(** src/toolkit/mat_query.cc 89-102, the loop of Amount: [None] is the early "return 0". *)
Fixpoint mq_min_ratio (m other : compmap) (min_ratio : num) : option num :=
  match other with
  | [] => Some min_ratio
  | (n, qty_other) :: t =>
      match zfind n m, Qltb 0 qty_other with
      | None, true => None
      | _, _ =>
          let qty := cget n m in
          let m := match zfind n m with None => zset n 0 m | Some _ => m end in
          let ratio := ndiv qty qty_other in
          mq_min_ratio m t (if nlt ratio min_ratio then ratio else min_ratio)
      end
  end.
(** src/toolkit/mat_query.cc 82-114, Amount(Composition).  [min_ratio] starts at CY_LARGE_DOUBLE and only
    decreases; it is minus infinity only if a composition has a negative entry, modelled as [UB]. *)
Definition mq_amount (i c : nat) : M Q :=
  cp <- mat_comp E i; x <- cref cp;
  let m := normalize (comp_mass E x) 1 in
  o <- cref c;
  let m_other := normalize (comp_mass E o) 1 in
  match mq_min_ratio m m_other (Fin LARGE_DOUBLE) with
  | None => ret 0
  | Some (Fin r) =>
      q <- mq_qty i;
      let m_other := normalize m_other (r * q) in
      ret (fold_left (fun acc p => acc + snd p) m_other 0)
  | Some _ => ub
  end.

(** src/toolkit/enrichment.cc 60-76, UraniumAssayMass. *)
Definition uranium_assay_mass (i : nat) : M Q :=
  u235 <- mq_mass_frac i U235;
  u238 <- mq_mass_frac i U238;
  ret (if Qltb 0 (u235 + u238) then u235 / (u235 + u238) else 0).
(** src/toolkit/enrichment.cc 40-57, UraniumAssayAtom. *)
Definition uranium_assay_atom (i : nat) : M Q :=
  u235 <- mq_atom_frac i U235;
  u238 <- mq_atom_frac i U238;
  ret (if Qltb 0 (u235 + u238) then u235 / (u235 + u238) else 0).
(** src/toolkit/enrichment.cc 79-82, UraniumQty. *)
Definition uranium_qty (i : nat) : M Q :=
  a <- mq_mass i U235; b <- mq_mass i U238; ret (a + b).
End Query.
