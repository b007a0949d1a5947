(** * PosModel: geographic positions.

    Models src/toolkit/position.h and .cc, without the text representation but for its signs.
    Doubles are rational numbers for what is stored and real numbers for distances. *)
From Coq Require Import Reals.
From Coq Require Export Qreals.
From Verif Require Import Base.
Open Scope Q_scope.

(** SetPrecision, position.cc 106-111. *)
Definition set_precision (v : Q) (p : nat) : Q :=
  match p with
  | O => inject_Z (Qfloor v)
  | _ => inject_Z (Qfloor (v * inject_Z (10 ^ Z.of_nat p) + (1 # 2))) / inject_Z (10 ^ Z.of_nat p)
  end.

(** The stored seconds, position.h; the default constructor, position.cc 10. *)
Record pos := mkPos { lat_s : Q; lon_s : Q }.
Definition origin : pos := mkPos 0 0.

(** LatCheck and LonCheck, position.cc 46-64. *)
Definition lat_check (x : Q) : result unit :=
  if negb (Qle_bool x 90) || negb (Qle_bool (-90) x) then Throw ValueError else Ok tt.
Definition lon_check (x : Q) : result unit :=
  if negb (Qle_bool x 180) || negb (Qle_bool (-180) x) then Throw ValueError else Ok tt.

Definition seconds (x : Q) : Q := set_precision (x * 3600) 1.

(** latitude and longitude, position.cc 21-27. *)
Definition latitude (p : pos) : Q := set_precision (lat_s p / 3600) 6.
Definition longitude (p : pos) : Q := set_precision (lon_s p / 3600) 6.

(** The setters, position.cc 29-44, and the constructor, position.cc 12-17, which is [set_position]
    on a new object. *)
Definition set_latitude (x : Q) (p : pos) : result pos :=
  match lat_check x with Ok _ => Ok (mkPos (seconds x) (lon_s p)) | Throw e => Throw e | UB => UB end.
Definition set_longitude (x : Q) (p : pos) : result pos :=
  match lon_check x with Ok _ => Ok (mkPos (lat_s p) (seconds x)) | Throw e => Throw e | UB => UB end.
Definition set_position (x y : Q) (p : pos) : result pos :=
  match lat_check x with
  | Ok _ => match lon_check y with Ok _ => Ok (mkPos (seconds x) (seconds y)) | Throw e => Throw e | UB => UB end
  | Throw e => Throw e
  | UB => UB
  end.

(** A sequence of calls; one that throws leaves the position as it is. *)
Inductive call := SetLatitude (x : Q) | SetLongitude (x : Q) | SetPosition (x y : Q).
Definition perform (c : call) (p : pos) : result pos :=
  match c with
  | SetLatitude x => set_latitude x p
  | SetLongitude x => set_longitude x p
  | SetPosition x y => set_position x y p
  end.
Definition after (p : pos) (c : call) : pos := match perform c p with Ok p' => p' | _ => p end.
Definition run (h : list call) : pos := fold_left after h origin.

(** The C library's atan2. *)
Definition atan2 (y x : R) : R :=
  if Rlt_dec 0 x then atan (y / x)
  else if Rlt_dec x 0 then (if Rle_dec 0 y then atan (y / x) + PI else atan (y / x) - PI)%R
  else if Rlt_dec 0 y then (PI / 2)%R
  else if Rlt_dec y 0 then (- PI / 2)%R else 0%R.

(** Distance, position.cc 66-82. *)
Definition earth_radius : R := (63728 / 10)%R.
Definition radians (x : Q) : R := (Q2R x * PI / 180)%R.
Definition half_chord_sq (lat1 lon1 lat2 lon2 : R) : R :=
  (sin ((lat2 - lat1) / 2) ^ 2 + sin ((lon2 - lon1) / 2) ^ 2 * cos lat1 * cos lat2)%R.
Definition distance (p target : pos) : R :=
  let h := half_chord_sq (radians (latitude p)) (radians (longitude p))
                         (radians (latitude target)) (radians (longitude target)) in
  (earth_radius * (2 * atan2 (sqrt h) (sqrt (1 - h))))%R.

(** ToStringHelper, position.cc 161-169: the sign written before a coordinate. *)
Definition sign_of (x : Q) : string := if negb (Qle_bool x 0) then "+"%string else "-"%string.
