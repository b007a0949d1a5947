(** * Model of Package and TransportUnit (src/package.h, src/package.cc).  Definitions only. *)
From Verif Require Import Base.
Open Scope Q_scope.

Definition INT_MAX : Z := 2147483647.
Definition INT_MIN : Z := -2147483648.

(** std::numeric_limits<double>::max() = (2^53 - 1) * 2^971. *)
Definition DBL_MAX : Q := inject_Z ((2 ^ 53 - 1) * 2 ^ 971).

(** Conversion double -> int (C++ [conv.fpint]): truncation; undefined when the truncated value does
    not fit.  [None] is undefined behaviour. *)
Definition qtrunc (x : Q) : Z := if Qltb x 0 then Qceiling x else Qfloor x.
Definition to_int (x : Q) : option Z :=
  let z := qtrunc x in
  if (INT_MIN <=? z)%Z && (z <=? INT_MAX)%Z then Some z else None.

(** Double division; [None] stands for the non-finite results of a division by zero. *)
Definition qdiv (a b : Q) : option Q := if Qeqb b 0 then None else Some (a / b).

Definition obind {A B} (o : option A) (f : A -> option B) : option B :=
  match o with Some a => f a | None => None end.

(** The Package object (src/package.h 113-120; [dist_] is represented by the oracle of samples). *)
Record package := mkPackage {
  p_name : string;
  p_fill_min : Q;
  p_fill_max : Q;
  p_strategy : string
}.

Definition unpackaged_name : string := "unpackaged".  (* src/package.h 113 *)

(** src/package.h 98-103, IsValidStrategy. *)
Definition pkg_valid_strategy (s : string) : bool :=
  String.eqb s "first" || String.eqb s "equal" || String.eqb s "uniform" || String.eqb s "normal".

(** src/package.cc 101-113 (constructor) and 33-43 (SetDistribution): NormalDoubleDist's constructor
    throws when min = max (src/random_number_generator.h 135-138).  [unpackaged_exists] tells whether
    the static [unpackaged_] singleton has been created.  boost's uniform_real_distribution asserts
    min <= max, which Create has checked. *)
Definition pkg_ctor (unpackaged_exists : bool) (name : string) (fmin fmax : Q) (strategy : string)
  : result package :=
  if String.eqb name unpackaged_name && unpackaged_exists then Throw ValueError
  else if negb (pkg_valid_strategy strategy) then Throw ValueError
  else if String.eqb strategy "normal" && Qeqb fmin fmax then Throw ValueError
  else Ok (mkPackage name fmin fmax strategy).

(** src/package.cc 9-19, Package::Create. *)
Definition pkg_create (unpackaged_exists : bool) (name : string) (fmin fmax : Q) (strategy : string)
  : result package :=
  if Qltb fmin 0 || Qltb fmax 0 then Throw ValueError
  else if Qltb fmax fmin then Throw ValueError
  else pkg_ctor unpackaged_exists name fmin fmax strategy.

(** src/package.cc 24-31, Package::unpackaged(): default limits 0, DBL_MAX, "first". *)
Definition pkg_unpackaged : package := mkPackage unpackaged_name 0 DBL_MAX "first".

(** src/package.h 94-96, SplitLimit. *)
Definition split_limit : Z := (INT_MAX / 10)%Z.

(** src/package.h 73-86, ExceedsSplitLimits, on an int (the warning is not modelled). *)
Definition exceeds_split_limits (pkgs : Z) : bool :=
  (split_limit <? pkgs)%Z || Qltb (inject_Z pkgs) ((9#10) * inject_Z INT_MIN).

(** The loop at src/package.cc 84-88.  [samples] are the values successive calls of [dist_->sample()]
    return; [None] means that the loop would need more samples than given. *)
Fixpoint sample_loop (eps fmax : Q) (samples : list Q) (qty : Q) (packages : list Q)
  : option (list Q * Q * list Q) :=
  if Qleb (qmax eps fmax) qty then
    match samples with
    | [] => None
    | s :: rest => sample_loop eps fmax rest (qty - s) (packages ++ [s])
    end
  else Some (packages, qty, samples).

(** src/package.cc 91-98: the trailing partial package and the final check. *)
Definition fill_tail (eps fmin : Q) (packages : list Q) (qty : Q) : result (list Q) :=
  let packages := if Qleb (qmax eps fmin) qty then packages ++ [qty] else packages in
  if exceeds_split_limits (Z.of_nat (length packages)) then Throw ValueError else Ok packages.

(** src/package.cc 58-70: the fill mass chosen by "first" and "equal"; [None] is an int conversion of
    an out-of-range double or a non-finite value. *)
Definition choose_fill (p : package) (qty : Q) : option Q :=
  let fmin := p_fill_min p in
  let fmax := p_fill_max p in
  if String.eqb (p_strategy p) "first" then Some fmax
  else
    obind (obind (qdiv qty fmin) (fun x => to_int (inject_Z (Qfloor x)))) (fun num_min_fill =>
    obind (obind (qdiv qty fmax) (fun x => to_int (inject_Z (Qceiling x)))) (fun num_max_fill =>
      if (num_max_fill <=? num_min_fill)%Z then qdiv qty (inject_Z num_max_fill)
      else Some fmax)).

(** src/package.cc 73-78 and 91-98. *)
Definition fill_fixed (eps fmin qty fm : Q) : result (list Q) :=
  let fm := qmin qty fm in
  match obind (qdiv qty fm) (fun x => to_int (inject_Z (Qfloor x))) with
  | None => UB
  | Some n =>
    if exceeds_split_limits n then Throw ValueError
    else if (n <? 0)%Z then UB  (* vector::assign with a huge size_t *)
    else fill_tail eps fmin (repeat fm (Z.to_nat n)) (qty - inject_Z n * fm)
  end.

(** src/package.cc 45-99, Package::GetFillMass.  [eps] is eps_rsrc().  The second component is the
    unused part of the samples.  A result [UB] is an int conversion of an out-of-range double or a
    non-finite intermediate value. *)
Definition get_fill_mass (eps : Q) (p : package) (samples : list Q) (qty : Q)
  : option (result (list Q) * list Q) :=
  let fmin := p_fill_min p in
  let fmax := p_fill_max p in
  let str := p_strategy p in
  if Qltb (qty - fmin) (- eps) then Some (Ok [], samples)
  else
    match obind (qdiv qty fmax) to_int with
    | None => Some (UB, samples)
    | Some n0 =>
      if exceeds_split_limits n0 then Some (Throw ValueError, samples)
      else if String.eqb str "first" || String.eqb str "equal" then
        match choose_fill p qty with
        | None => Some (UB, samples)
        | Some fm => Some (fill_fixed eps fmin qty fm, samples)
        end
      else if String.eqb str "uniform" || String.eqb str "normal" then
        match sample_loop eps fmax samples qty [] with
        | None => None
        | Some (packages, remain, rest) => Some (fill_tail eps fmin packages remain, rest)
        end
      else Some (fill_tail eps fmin [] qty, samples)
    end.

(** ** TransportUnit (src/package.h 134-187, src/package.cc 115-204); ints, so overflow matters *)
Record transport_unit := mkTU {
  tu_name : string;
  tu_fill_min : Z;
  tu_fill_max : Z;
  tu_strategy : string
}.

Definition unrestricted_name : string := "unrestricted".  (* src/package.h 178 *)

(** src/package.cc 117-126 and 194-204, TransportUnit::Create and constructor. *)
Definition tu_create (unrestricted_exists : bool) (name : string) (fmin fmax : Z) (strategy : string)
  : result transport_unit :=
  if (fmin <? 0)%Z || (fmax <? 0)%Z then Throw ValueError
  else if (fmax <? fmin)%Z then Throw ValueError
  else if String.eqb name unrestricted_name && unrestricted_exists then Throw ValueError
  else if negb (String.eqb strategy "first" || String.eqb strategy "equal"
                || String.eqb strategy "hybrid") then Throw ValueError
  else Ok (mkTU name fmin fmax strategy).

(** src/package.cc 131-136: the singleton, with the private constructor's default "hybrid". *)
Definition tu_unrestricted : transport_unit := mkTU unrestricted_name 0 INT_MAX "hybrid".

(** C++ int division truncates towards zero and is undefined for a zero divisor or INT_MIN / -1. *)
Definition int_div (a b : Z) : option Z :=
  if (b =? 0)%Z then None
  else if (a =? INT_MIN)%Z && (b =? -1)%Z then None
  else Some (Z.quot a b).
Definition int_ok (z : Z) : bool := (INT_MIN <=? z)%Z && (z <=? INT_MAX)%Z.
Definition int_arith (z : Z) : option Z := if int_ok z then Some z else None.

(** src/package.cc 138-163, GetTransportUnitFill; [None] is undefined behaviour (division by a zero
    [fill_min_], overflow of [qty + fill_max_ - 1], division by a zero [fill_max_]). *)
Definition tu_fill (t : transport_unit) (qty : Z) : option Z :=
  let fmin := tu_fill_min t in
  let fmax := tu_fill_max t in
  if (qty <? fmin)%Z then Some 0%Z
  else if String.eqb (tu_strategy t) "first" then Some fmax
  else if String.eqb (tu_strategy t) "equal" || String.eqb (tu_strategy t) "hybrid" then
    match int_div qty fmin,
          obind (int_arith (qty + fmax)) (fun s => obind (int_arith (s - 1)) (fun s' => int_div s' fmax)) with
    | Some num_at_min_fill, Some num_at_max_fill =>
        if (num_at_max_fill <=? num_at_min_fill)%Z then
          obind (qdiv (inject_Z qty) (inject_Z num_at_max_fill)) (fun x => to_int (inject_Z (Qfloor x)))
        else Some fmax
    | _, _ => None
    end
  else Some fmax.

(** The loop at src/package.cc 184-188; out of fuel is [None] in the outer option. *)
Fixpoint tu_hybrid (fuel : nat) (t : transport_unit) (pkgs shippable : Z) : option (option Z) :=
  match fuel with
  | O => None
  | S f =>
      if (0 <? pkgs)%Z && (tu_fill_min t <=? pkgs)%Z then
        match tu_fill t pkgs with
        | None => Some None
        | Some fill =>
          match int_arith (shippable + fill), int_arith (pkgs - fill) with
          | Some s', Some p' => tu_hybrid f t p' s'
          | _, _ => Some None
          end
        end
      else Some (Some shippable)
  end.

(** src/package.cc 165-192, MaxShippablePackages. Outer [None]: fuel exhausted; inner [None]: UB. *)
Definition max_shippable (fuel : nat) (t : transport_unit) (pkgs : Z) : option (option Z) :=
  if (pkgs =? 0)%Z || (pkgs <? tu_fill_min t)%Z then Some (Some 0%Z)
  else if String.eqb (tu_name t) unrestricted_name then Some (Some pkgs)
  else if String.eqb (tu_strategy t) "first" || String.eqb (tu_strategy t) "equal" then
    match tu_fill t pkgs with
    | None => Some None
    | Some fill =>
        if (fill =? 0)%Z then Some (Some 0%Z)
        else
          match obind (int_div pkgs fill) (fun d => int_arith (d * fill)) with
          | None => Some None
          | Some s => Some (Some (Z.min pkgs s))
          end
    end
  else if String.eqb (tu_strategy t) "hybrid" then tu_hybrid fuel t pkgs 0
  else Some (Some 0%Z).
