(** * PosSpec: positions on a sphere. *)
From Coq Require Import Reals.
From Verif Require Import Base PosModel.

(** Latitudes and longitudes that exist. *)
Definition lat_ok (x : Q) : Prop := (-90 <= x <= 90)%Q.
Definition lon_ok (x : Q) : Prop := (-180 <= x <= 180)%Q.
Definition call_ok (c : call) : Prop :=
  match c with
  | SetLatitude x => lat_ok x
  | SetLongitude x => lon_ok x
  | SetPosition x y => lat_ok x /\ lon_ok y
  end.

(** The latitude (longitude) is as the last call that set it said, calls out of range not counting. *)
Inductive last_lat : list call -> Q -> Prop :=
| lat_none : last_lat [] 0
| lat_set h x : lat_ok x -> last_lat (h ++ [SetLatitude x]) x
| lat_pos h x y : lat_ok x -> lon_ok y -> last_lat (h ++ [SetPosition x y]) x
| lat_lon h x y : last_lat h x -> last_lat (h ++ [SetLongitude y]) x
| lat_bad h x c : last_lat h x -> ~ call_ok c -> last_lat (h ++ [c]) x.
Inductive last_lon : list call -> Q -> Prop :=
| lon_none : last_lon [] 0
| lon_set h x : lon_ok x -> last_lon (h ++ [SetLongitude x]) x
| lon_pos h x y : lat_ok x -> lon_ok y -> last_lon (h ++ [SetPosition x y]) y
| lon_lat h x y : last_lon h x -> last_lon (h ++ [SetLatitude y]) x
| lon_bad h x c : last_lon h x -> ~ call_ok c -> last_lon (h ++ [c]) x.

(** Half of a tenth of a second and half of a millionth of a degree, in degrees. *)
Definition rounding : Q := (1 # 72000) + (1 # 2000000).

(** The point of the unit sphere at that latitude and longitude, in radians, and the inner product. *)
Definition on_sphere (lat lon : R) : R * R * R := (cos lat * cos lon, cos lat * sin lon, sin lat)%R.
Definition inner (u v : R * R * R) : R :=
  match u, v with (a, b, c), (x, y, z) => (a * x + b * y + c * z)%R end.
Definition degrees (x : Q) : R := (Q2R x * (PI / 180))%R.
Definition direction (p : pos) : R * R * R := on_sphere (degrees (latitude p)) (degrees (longitude p)).

(** The radius of the earth, in kilometres. *)
Definition radius : R := (63728 / 10)%R.
