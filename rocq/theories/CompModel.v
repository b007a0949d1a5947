(** * Model of compmath and KahanSum.  Definitions only. *)
From Verif Require Import Base.
Open Scope Q_scope.

(** [CompMap] = std::map<Nuc, double> (src/composition.h 12-13). *)
Definition compmap := zmap Q.

(** [out[nuc]] read on a map that default-constructs missing entries to 0. *)
Definition cget (n : Z) (m : compmap) : Q :=
  match zfind n m with Some v => v | None => 0 end.

(** src/comp_math.cc 18-25, compmath::Add. *)
Definition comp_add (v1 v2 : compmap) : compmap :=
  fold_left (fun out p => zset (fst p) (cget (fst p) out + snd p) out) v2 v1.

(** src/comp_math.cc 27-34, compmath::Sub. *)
Definition comp_sub (v1 v2 : compmap) : compmap :=
  fold_left (fun out p => zset (fst p) (cget (fst p) out - snd p) out) v2 v1.

(** std::sort on doubles (src/cyc_arithmetic.cc 37-39), as insertion sort. *)
Fixpoint qinsert (x : Q) (l : list Q) : list Q :=
  match l with
  | [] => [x]
  | y :: t => if Qleb x y then x :: l else y :: qinsert x t
  end.
Definition qsort (l : list Q) : list Q := fold_right qinsert [] l.

(** One iteration of the compensated loop (src/cyc_arithmetic.cc 20-31); state is (sum, c). *)
Definition kahan_step (st : Q * Q) (x : Q) : Q * Q :=
  let '(sum, c) := st in
  let y := x - c in
  let t := sum + y in
  (t, (t - sum) - y).

(** src/cyc_arithmetic.cc 13-34, CycArithmetic::KahanSum. *)
Definition kahan_sum (input : list Q) : Q :=
  fst (fold_left kahan_step (qsort input) (0, 0)).

(** src/comp_math.cc 36-43, compmath::Sum. *)
Definition comp_sum (v : compmap) : Q := kahan_sum (map snd v).

(** src/comp_math.cc 45-61, compmath::ApplyThreshold. *)
Definition qabs (x : Q) : Q := if Qltb x 0 then - x else x.
Definition apply_threshold (v : compmap) (threshold : Q) : result compmap :=
  if Qltb threshold 0 then Throw ValueError
  else Ok (filter (fun p => negb (Qleb (qabs (snd p)) threshold)) v).

(** src/comp_math.cc 63-71, compmath::Normalize. *)
Definition normalize (v : compmap) (val : Q) : compmap :=
  let sum := comp_sum v in
  if negb (Qeqb sum val) && negb (Qeqb sum 0) then
    let mult := val / sum in
    map (fun p => (fst p, snd p * mult)) v
  else v.

(** src/comp_math.cc 73-81, compmath::ValidNucs; [isnuclide] is pyne::nucname::isnuclide. *)
Definition valid_nucs (isnuclide : Z -> bool) (v : compmap) : bool :=
  forallb (fun p => isnuclide (fst p)) v.

(** src/comp_math.cc 83-91, compmath::AllPositive. *)
Definition all_positive (v : compmap) : bool :=
  forallb (fun p => negb (Qltb (snd p) 0)) v.

(** Body of the loop of compmath::AlmostEq (src/comp_math.cc 116-132) for one nuclide:
    [true] means the loop goes on. *)
Definition almost_eq_entry (n2 : compmap) (threshold : Q) (p : Z * Q) : bool :=
  match zfind (fst p) n2 with
  | None => false
  | Some minuend =>
      let subtrahend := snd p in
      let diff := minuend - subtrahend in
      if Qeqb (qabs minuend) 0 || Qeqb (qabs subtrahend) 0 then
        negb (Qltb (qabs diff * threshold) (qabs diff))
      else
        negb (Qltb (qabs minuend * threshold) (qabs diff)
              || Qltb (qabs subtrahend * threshold) (qabs diff))
  end.

(** src/comp_math.cc 93-134, compmath::AlmostEq. *)
Definition almost_eq (v1 v2 : compmap) (threshold : Q) : result bool :=
  if Qltb threshold 0 then Throw ValueError
  else if negb (Nat.eqb (length v1) (length v2)) then Ok false
  else if Nat.eqb (length v1) 0 && Nat.eqb (length v2) 0 then Ok true
  else Ok (forallb (almost_eq_entry v2 threshold) v1).
