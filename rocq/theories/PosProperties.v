(** * PosProperties: C65, geographic positions. *)
From Coq Require Import Reals.
From Verif Require Import Base PosModel PosSpec PosProofs1 PosProofs2.
From Coq Require Import Lra.
Open Scope Q_scope.

(** A call succeeds when what it is given exists on earth and throws otherwise; then nothing changes. *)
Theorem C65_range : forall h c,
  (call_ok c -> exists p, perform c (run h) = Ok p /\ run (h ++ [c]) = p) /\
  (~ call_ok c -> perform c (run h) = Throw ValueError /\ run (h ++ [c]) = run h) /\
  lat_ok (latitude (run h)) /\ lon_ok (longitude (run h)).
Proof.
  intros h c. rewrite run_snoc. unfold after. split; [|split; [|split]].
  - intro K. destruct (good_call c (run h) K) as [p E]. exists p. now rewrite E.
  - intro K. now rewrite (bad_call c (run h) K).
  - apply good_lat, good_run.
  - apply good_lon, good_run.
Qed.
Print Assumptions C65_range.

(** What is read is what was last set, up to the rounding to a tenth of a second and a millionth of a degree. *)
Theorem C65_stored : forall h x y, last_lat h x -> last_lon h y ->
  Qabs (latitude (run h) - x) <= rounding /\ Qabs (longitude (run h) - y) <= rounding.
Proof.
  intros h x y X Y. apply last_lat_stored in X. apply last_lon_stored in Y. unfold latitude, longitude.
  change (Qabs (read (lat_s (run h)) - x) <= rounding /\ Qabs (read (lon_s (run h)) - y) <= rounding).
  rewrite (read_comp _ _ X), (read_comp _ _ Y). split; apply read_near.
Qed.
Print Assumptions C65_stored.

(** Setting what was read changes nothing: a position goes through any number of copies by its coordinates. *)
Theorem C65_again : forall h, exists p,
  set_position (latitude (run h)) (longitude (run h)) origin = Ok p /\
  lat_s p == lat_s (run h) /\ lon_s p == lon_s (run h) /\
  latitude p == latitude (run h) /\ longitude p == longitude (run h).
Proof.
  intro h. pose proof (good_run h) as G. unfold set_position.
  rewrite (lat_check_ok _ (good_lat _ G)), (lon_check_ok _ (good_lon _ G)). eexists. split; [reflexivity|].
  destruct G as [A B]. apply set_read in A, B. cbn [lat_s lon_s].
  split; [exact A|]. split; [exact B|]. split; apply read_comp; [exact A|exact B].
Qed.
Print Assumptions C65_again.

(** The distance of two positions is the radius times the angle between their directions from the centre. *)
Theorem C65_great_circle : forall h h', let p := run h in let q := run h' in
  exists angle, distance p q = (radius * angle)%R /\ (0 <= angle <= PI)%R /\
    cos angle = inner (direction p) (direction q).
Proof.
  intros h h' p q. exists (apart p q). destruct (apart_spec p q (good_run h) (good_run h')) as [A B].
  rewrite distance_apart. auto.
Qed.
Print Assumptions C65_great_circle.

(** Distances are a metric: symmetric, never negative, zero just for the same place, and no detour is
    shorter. *)
Theorem C65_metric : forall h1 h2 h3, let p := run h1 in let q := run h2 in let r := run h3 in
  distance p q = distance q p /\ (0 <= distance p q <= radius * PI)%R /\
  (distance p q = 0%R <-> direction p = direction q) /\
  (distance p r <= distance p q + distance q r)%R.
Proof.
  intros h1 h2 h3 p q r. rewrite !distance_apart.
  assert (E : (0 < radius)%R) by (unfold radius; lra).
  pose proof (good_run h1) as G1. pose proof (good_run h2) as G2. pose proof (good_run h3) as G3.
  fold p in G1. fold q in G2. fold r in G3.
  destruct (apart_spec p q G1 G2) as [[A B] _].
  split; [now rewrite apart_sym|]. split; [|split].
  - split; [apply Rmult_le_pos; lra|apply Rmult_le_compat_l; lra].
  - rewrite <- (apart_zero p q G1 G2). split; intro H; [|rewrite H; ring].
    destruct (Rmult_integral _ _ H) as [K|K]; [lra|exact K].
  - rewrite <- Rmult_plus_distr_l. apply Rmult_le_compat_l; [lra|]. now apply apart_triangle.
Qed.
Print Assumptions C65_metric.

(** A history with a call out of range: both coordinates are read as set. *)
Example C65_example :
  last_lat [SetPosition (434 # 10) (-5); SetLatitude 91; SetLongitude (1 # 3)] (434 # 10) /\
  last_lon [SetPosition (434 # 10) (-5); SetLatitude 91; SetLongitude (1 # 3)] (1 # 3) /\
  latitude (run [SetPosition (434 # 10) (-5); SetLatitude 91; SetLongitude (1 # 3)]) == 434 # 10 /\
  longitude (run [SetPosition (434 # 10) (-5); SetLatitude 91; SetLongitude (1 # 3)]) == 333333 # 1000000.
Proof.
  assert (A : lat_ok (434 # 10)) by (split; discriminate). assert (B : lon_ok (-5)) by (split; discriminate).
  assert (C : lon_ok (1 # 3)) by (split; discriminate).
  split; [|split; [|split; vm_compute; reflexivity]].
  - apply (lat_lon [SetPosition (434 # 10) (-5); SetLatitude 91]).
    apply (lat_bad [SetPosition (434 # 10) (-5)]); [now apply (lat_pos [])|]. intros [_ K]. now apply K.
  - now apply (lon_set [SetPosition (434 # 10) (-5); SetLatitude 91]).
Qed.

(** A coordinate of zero is written with a minus sign, though it is neither south nor west. *)
Theorem C65_sign_refuted : sign_of (latitude (run [])) = "-"%string /\ sign_of (longitude (run [])) = "-"%string.
Proof. split; vm_compute; reflexivity. Qed.
Print Assumptions C65_sign_refuted.
