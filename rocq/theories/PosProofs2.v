(** * PosProofs2: calls and distances *)
From Coq Require Import Reals.
From Verif Require Import Base PosModel PosSpec PosProofs1.
From Coq Require Import Lra.
Open Scope Q_scope.

Lemma lat_check_ok x : lat_ok x -> lat_check x = Ok tt.
Proof. intros [A B]. unfold lat_check. apply Qle_bool_iff in A, B. now rewrite A, B. Qed.
Lemma lon_check_ok x : lon_ok x -> lon_check x = Ok tt.
Proof. intros [A B]. unfold lon_check. apply Qle_bool_iff in A, B. now rewrite A, B. Qed.
Lemma lat_check_bad x : ~ lat_ok x -> lat_check x = Throw ValueError.
Proof.
  intro N. unfold lat_check. destruct (Qle_bool x 90) eqn:A; [|reflexivity]. destruct (Qle_bool (-90) x) eqn:B; [|reflexivity].
  apply Qle_bool_iff in A, B. now contradiction N.
Qed.
Lemma lon_check_bad x : ~ lon_ok x -> lon_check x = Throw ValueError.
Proof.
  intro N. unfold lon_check. destruct (Qle_bool x 180) eqn:A; [|reflexivity]. destruct (Qle_bool (-180) x) eqn:B; [|reflexivity].
  apply Qle_bool_iff in A, B. now contradiction N.
Qed.
Lemma lat_dec x : {lat_ok x} + {~ lat_ok x}.
Proof.
  unfold lat_ok. destruct (Qle_bool (-90) x) eqn:A, (Qle_bool x 90) eqn:B.
  - left. now rewrite <- !Qle_bool_iff.
  - right. rewrite <- !Qle_bool_iff. intuition congruence.
  - right. rewrite <- !Qle_bool_iff. intuition congruence.
  - right. rewrite <- !Qle_bool_iff. intuition congruence.
Qed.

Lemma bad_call c p : ~ call_ok c -> perform c p = Throw ValueError.
Proof.
  destruct c; cbn; intro N.
  - unfold set_latitude. now rewrite lat_check_bad.
  - unfold set_longitude. now rewrite lon_check_bad.
  - unfold set_position. destruct (lat_dec x) as [L|L].
    + rewrite lat_check_ok by exact L. rewrite lon_check_bad; [reflexivity|tauto].
    + now rewrite lat_check_bad.
Qed.

Lemma good_call c p : call_ok c -> exists p', perform c p = Ok p'.
Proof.
  destruct c; cbn; intro N.
  - unfold set_latitude. rewrite lat_check_ok by exact N. eauto.
  - unfold set_longitude. rewrite lon_check_ok by exact N. eauto.
  - unfold set_position. rewrite lat_check_ok, lon_check_ok by tauto. eauto.
Qed.

Lemma run_snoc h c : run (h ++ [c]) = after (run h) c.
Proof. unfold run. now rewrite fold_left_app. Qed.

Lemma last_lat_stored h x : last_lat h x -> lat_s (run h) == seconds x.
Proof.
  induction 1; rewrite ?run_snoc; unfold after, perform, set_latitude, set_longitude, set_position.
  - reflexivity.
  - rewrite lat_check_ok by assumption. reflexivity.
  - rewrite lat_check_ok, lon_check_ok by assumption. reflexivity.
  - destruct (lon_check y); exact IHlast_lat.
  - change (lat_s (match perform c (run h) with Ok p' => p' | _ => run h end) == seconds x). now rewrite bad_call.
Qed.
Lemma last_lon_stored h x : last_lon h x -> lon_s (run h) == seconds x.
Proof.
  induction 1; rewrite ?run_snoc; unfold after, perform, set_latitude, set_longitude, set_position.
  - reflexivity.
  - rewrite lon_check_ok by assumption. reflexivity.
  - rewrite lat_check_ok, lon_check_ok by assumption. reflexivity.
  - destruct (lat_check y); exact IHlast_lon.
  - change (lon_s (match perform c (run h) with Ok p' => p' | _ => run h end) == seconds x). now rewrite bad_call.
Qed.

Definition good (p : pos) : Prop := stored 90 (lat_s p) /\ stored 180 (lon_s p).

Lemma good_origin : good origin.
Proof. split; exists 0%Z; split; try reflexivity; lia. Qed.

Lemma good_after p c : good p -> good (after p c).
Proof.
  intros [A B]. destruct c; unfold after, perform, set_latitude, set_longitude, set_position, lat_check, lon_check.
  - destruct (Qle_bool x 90) eqn:X; cbn; [|split; assumption]. destruct (Qle_bool (-90) x) eqn:Y; cbn; [|split; assumption].
    apply Qle_bool_iff in X, Y. split; [|exact B]. apply seconds_stored. split; assumption.
  - destruct (Qle_bool x 180) eqn:X; cbn; [|split; assumption]. destruct (Qle_bool (-180) x) eqn:Y; cbn; [|split; assumption].
    apply Qle_bool_iff in X, Y. split; [exact A|]. apply seconds_stored. split; assumption.
  - destruct (Qle_bool x 90) eqn:X; cbn; [|split; assumption]. destruct (Qle_bool (-90) x) eqn:Y; cbn; [|split; assumption].
    destruct (Qle_bool y 180) eqn:X'; cbn; [|split; assumption]. destruct (Qle_bool (-180) y) eqn:Y'; cbn; [|split; assumption].
    apply Qle_bool_iff in X, Y, X', Y'. split; apply seconds_stored; split; assumption.
Qed.

Lemma good_run h : good (run h).
Proof. unfold run. generalize good_origin. generalize origin. induction h; cbn; auto. intros p G. apply IHh. now apply good_after. Qed.

Lemma good_lat p : good p -> lat_ok (latitude p).
Proof. intros [A _]. exact (read_range 90 _ A). Qed.
Lemma good_lon p : good p -> lon_ok (longitude p).
Proof. intros [_ A]. exact (read_range 180 _ A). Qed.

(** ** The angle *)
Local Open Scope R_scope.
Definition angle (h : R) : R := 2 * atan2 (sqrt h) (sqrt (1 - h)).

Lemma angle_spec h : 0 <= h <= 1 -> (0 <= angle h <= PI) /\ cos (angle h) = 1 - 2 * h.
Proof.
  intros [A B]. unfold angle, atan2. pose proof PI_RGT_0 as P. destruct (Rlt_dec 0 (sqrt (1 - h))) as [S|S].
  - assert (H1 : 0 < 1 - h).
    { destruct (Req_dec h 1) as [->|N]; [|lra]. rewrite Rminus_eq_0, sqrt_0 in S. lra. }
    pose proof (sqrt_pos h) as S2. set (z := sqrt h / sqrt (1 - h)).
    assert (Z : 0 <= z) by (apply Rmult_le_pos; [exact S2|left; now apply Rinv_0_lt_compat]).
    assert (Z2 : z² = h / (1 - h)).
    { unfold z. rewrite Rsqr_div'. rewrite !Rsqr_sqrt by lra. reflexivity. }
    assert (A0 : 0 <= atan z).
    { destruct Z as [Z|<-]; [|rewrite atan_0; lra]. left. rewrite <- atan_0. now apply atan_increasing. }
    pose proof (atan_bound z) as [_ A1]. split; [lra|].
    rewrite cos_2a_cos, cos_atan. rewrite Z2.
    replace (1 + h / (1 - h)) with (/ (1 - h)) by (field; lra).
    assert (Q : 0 < / (1 - h)) by now apply Rinv_0_lt_compat.
    assert (R0 : sqrt (/ (1 - h)) <> 0) by (apply Rgt_not_eq; now apply sqrt_lt_R0).
    replace (2 * (1 / sqrt (/ (1 - h))) * (1 / sqrt (/ (1 - h)))) with (2 * / (sqrt (/ (1 - h)) * sqrt (/ (1 - h)))) by (field; exact R0).
    rewrite sqrt_sqrt by lra. rewrite Rinv_inv. lra.
  - assert (H1 : h = 1).
    { destruct (Rlt_dec h 1) as [L|L]; [|lra]. exfalso. apply S. apply sqrt_lt_R0. lra. }
    subst h. rewrite Rminus_eq_0, sqrt_0, sqrt_1. destruct (Rlt_dec 0 0) as [N|_]; [lra|].
    destruct (Rlt_dec 0 1) as [_|N]; [|lra]. replace (2 * (PI / 2)) with PI by field. rewrite cos_PI. lra.
Qed.

Lemma half_sq x : sin (x / 2) ^ 2 = (1 - cos x) / 2.
Proof. pose proof (cos_2a_sin (x / 2)) as E. replace (2 * (x / 2)) with x in E by field. rewrite E. field. Qed.

Lemma chord_inner a l b m : 1 - 2 * half_chord_sq a l b m = inner (on_sphere a l) (on_sphere b m).
Proof.
  unfold half_chord_sq, inner, on_sphere. rewrite !half_sq, !cos_minus. field.
Qed.

Lemma chord_range a l b m : 0 <= cos a -> 0 <= cos b -> 0 <= half_chord_sq a l b m <= 1.
Proof.
  intros A B. unfold half_chord_sq.
  pose proof (pow2_ge_0 (sin ((b - a) / 2))) as S1. pose proof (pow2_ge_0 (sin ((m - l) / 2))) as S2.
  assert (C : 0 <= cos a * cos b) by now apply Rmult_le_pos.
  assert (S3 : sin ((m - l) / 2) ^ 2 <= 1).
  { rewrite half_sq. pose proof (COS_bound (m - l)). lra. }
  assert (M : 0 <= sin ((m - l) / 2) ^ 2 * (cos a * cos b) <= 1 * (cos a * cos b)).
  { split; [now apply Rmult_le_pos|]. apply Rmult_le_compat_r; assumption. }
  rewrite Rmult_assoc. split; [lra|].
  assert (D : cos a * cos b <= (1 + cos (b - a)) / 2).
  { pose proof (COS_bound (b + a)) as X. pose proof (cos_minus b a) as Y. pose proof (cos_plus b a) as W. lra. }
  rewrite (half_sq (b - a)). lra.
Qed.

(** ** Unit vectors *)
Lemma unit_on a l : inner (on_sphere a l) (on_sphere a l) = 1.
Proof.
  unfold inner, on_sphere. pose proof (sin2_cos2 a) as A. pose proof (sin2_cos2 l) as B. unfold Rsqr in *.
  replace (cos a * cos l * (cos a * cos l) + cos a * sin l * (cos a * sin l) + sin a * sin a)
    with (cos a * cos a * (sin l * sin l + cos l * cos l) + sin a * sin a) by ring. rewrite B. lra.
Qed.

Lemma inner_sym u v : inner u v = inner v u.
Proof. destruct u as [[? ?] ?], v as [[? ?] ?]. unfold inner. ring. Qed.

Lemma triangle_inner u v w : inner u u = 1 -> inner v v = 1 -> inner w w = 1 ->
  forall sa sb, 0 <= sa -> 0 <= sb -> sa * sa + inner u v * inner u v = 1 -> sb * sb + inner v w * inner v w = 1 ->
  inner u v * inner v w - sa * sb <= inner u w.
Proof.
  destruct u as [[u1 u2] u3], v as [[v1 v2] v3], w as [[w1 w2] w3]. unfold inner. intros U V W sa sb A B SA SB.
  set (p := u1 * v1 + u2 * v2 + u3 * v3) in *. set (q := v1 * w1 + v2 * w2 + v3 * w3) in *.
  set (x1 := u1 - p * v1). set (x2 := u2 - p * v2). set (x3 := u3 - p * v3).
  set (y1 := w1 - q * v1). set (y2 := w2 - q * v2). set (y3 := w3 - q * v3).
  assert (XX : x1 * x1 + x2 * x2 + x3 * x3 = sa * sa).
  { transitivity ((u1 * u1 + u2 * u2 + u3 * u3) - 2 * p * p + p * p * (v1 * v1 + v2 * v2 + v3 * v3));
      [unfold x1, x2, x3, p; ring|rewrite U, V; lra]. }
  assert (YY : y1 * y1 + y2 * y2 + y3 * y3 = sb * sb).
  { transitivity ((w1 * w1 + w2 * w2 + w3 * w3) - 2 * q * q + q * q * (v1 * v1 + v2 * v2 + v3 * v3));
      [unfold y1, y2, y3, q; ring|rewrite W, V; lra]. }
  set (d := x1 * y1 + x2 * y2 + x3 * y3).
  assert (D : u1 * w1 + u2 * w2 + u3 * w3 = p * q + d).
  { transitivity (d + 2 * p * q - p * q * (v1 * v1 + v2 * v2 + v3 * v3));
      [unfold d, x1, x2, x3, y1, y2, y3, p, q; ring|rewrite V; ring]. }
  assert (CS : d * d <= (sa * sb) * (sa * sb)).
  { replace ((sa * sb) * (sa * sb)) with ((sa * sa) * (sb * sb)) by ring. rewrite <- XX, <- YY. unfold d.
    pose proof (pow2_ge_0 (x1 * y2 - x2 * y1)) as G1. pose proof (pow2_ge_0 (x1 * y3 - x3 * y1)) as G2.
    pose proof (pow2_ge_0 (x2 * y3 - x3 * y2)) as G3.
    assert (LI : (x1 * x1 + x2 * x2 + x3 * x3) * (y1 * y1 + y2 * y2 + y3 * y3) -
      (x1 * y1 + x2 * y2 + x3 * y3) * (x1 * y1 + x2 * y2 + x3 * y3) =
      (x1 * y2 - x2 * y1) ^ 2 + (x1 * y3 - x3 * y1) ^ 2 + (x2 * y3 - x3 * y2) ^ 2) by ring. lra. }
  assert (SS : 0 <= sa * sb) by now apply Rmult_le_pos.
  assert (- (sa * sb) <= d).
  { destruct (Rle_dec (- (sa * sb)) d) as [L|L]; [exact L|]. exfalso. apply Rnot_le_lt in L.
    assert ((sa * sb) * (sa * sb) < (- d) * (- d)) by (apply Rmult_le_0_lt_compat; lra). lra. }
  rewrite D. lra.
Qed.

(** ** Distances *)
Lemma radius_eq : earth_radius = radius. Proof. reflexivity. Qed.
Lemma radians_eq x : radians x = degrees x.
Proof. unfold radians, degrees. field. Qed.
Lemma direction_eq p : direction p = on_sphere (radians (latitude p)) (radians (longitude p)).
Proof. now rewrite !radians_eq. Qed.
Lemma unit_dir p : inner (direction p) (direction p) = 1.
Proof. apply unit_on. Qed.

Definition apart (p q : pos) : R :=
  angle (half_chord_sq (radians (latitude p)) (radians (longitude p)) (radians (latitude q)) (radians (longitude q))).

Lemma distance_apart p q : distance p q = radius * apart p q.
Proof. rewrite <- radius_eq. reflexivity. Qed.

Lemma radians_cos p : good p -> 0 <= cos (radians (latitude p)).
Proof.
  intro G. apply good_lat in G. destruct G as [A B]. apply Qle_Rle in A, B. pose proof PI_RGT_0 as P.
  assert (E1 : Q2R (-90) = -90) by (unfold Q2R; cbn; lra). assert (E2 : Q2R 90 = 90) by (unfold Q2R; cbn; lra).
  rewrite E1 in A. rewrite E2 in B. unfold radians.
  assert (-90 * PI <= Q2R (latitude p) * PI <= 90 * PI) by (split; apply Rmult_le_compat_r; lra).
  apply cos_ge_0; lra.
Qed.

Lemma apart_spec p q : good p -> good q -> (0 <= apart p q <= PI) /\ cos (apart p q) = inner (direction p) (direction q).
Proof.
  intros P Q. unfold apart. pose proof (chord_range _ (radians (longitude p)) _ (radians (longitude q)) (radians_cos p P) (radians_cos q Q)) as C.
  destruct (angle_spec _ C) as [A B]. split; [exact A|]. rewrite B, !direction_eq. apply chord_inner.
Qed.

Lemma apart_sym p q : apart p q = apart q p.
Proof.
  unfold apart. f_equal. unfold half_chord_sq. set (a := radians (latitude p)). set (b := radians (latitude q)).
  set (l := radians (longitude p)). set (m := radians (longitude q)).
  rewrite !half_sq. replace (b - a) with (- (a - b)) by ring. replace (m - l) with (- (l - m)) by ring. rewrite !cos_neg. ring.
Qed.

Lemma apart_same p q : latitude p = latitude q -> longitude p = longitude q -> apart p q = 0.
Proof.
  intros A B. unfold apart. rewrite A, B. unfold half_chord_sq. rewrite !Rminus_eq_0. unfold Rdiv at 1 2. rewrite !Rmult_0_l, sin_0.
  unfold angle. replace (0 ^ 2 + 0 ^ 2 * cos (radians (latitude q)) * cos (radians (latitude q))) with 0 by ring.
  rewrite Rminus_0_r, sqrt_0, sqrt_1. unfold atan2. destruct (Rlt_dec 0 1); [|lra]. unfold Rdiv. rewrite Rmult_0_l, atan_0. ring.
Qed.

Lemma apart_triangle p q r : good p -> good q -> good r -> apart p r <= apart p q + apart q r.
Proof.
  intros P Q R. destruct (apart_spec p q P Q) as [[A0 A1] A2]. destruct (apart_spec q r Q R) as [[B0 B1] B2].
  destruct (apart_spec p r P R) as [[C0 C1] C2].
  destruct (Rle_dec (apart p q + apart q r) PI) as [L|L]; [|lra].
  apply Rnot_lt_le. intro N.
  assert (K : cos (apart p r) < cos (apart p q + apart q r)) by (apply cos_decreasing_1; lra).
  rewrite cos_plus, A2, B2, C2 in K.
  pose proof (triangle_inner (direction p) (direction q) (direction r) (unit_dir _) (unit_dir _) (unit_dir _)
    (sin (apart p q)) (sin (apart q r)) (sin_ge_0 _ A0 A1) (sin_ge_0 _ B0 B1)) as T.
  pose proof (sin2_cos2 (apart p q)) as S1. pose proof (sin2_cos2 (apart q r)) as S2. unfold Rsqr in *.
  rewrite A2 in S1. rewrite B2 in S2. specialize (T S1 S2). lra.
Qed.

Lemma inner_one u v : inner u u = 1 -> inner v v = 1 -> inner u v = 1 -> u = v.
Proof.
  destruct u as [[u1 u2] u3], v as [[v1 v2] v3]. unfold inner. intros U V W.
  assert (E : (u1 - v1) ^ 2 + (u2 - v2) ^ 2 + (u3 - v3) ^ 2 = 0).
  { transitivity ((u1 * u1 + u2 * u2 + u3 * u3) - 2 * (u1 * v1 + u2 * v2 + u3 * v3) + (v1 * v1 + v2 * v2 + v3 * v3)); [ring|lra]. }
  pose proof (pow2_ge_0 (u1 - v1)) as A. pose proof (pow2_ge_0 (u2 - v2)) as B. pose proof (pow2_ge_0 (u3 - v3)) as C.
  assert (Z : forall x, x ^ 2 = 0 -> x = 0) by (intros x X; apply Rsqr_0_uniq; unfold Rsqr; lra).
  assert (X1 : u1 - v1 = 0) by (apply Z; lra). assert (X2 : u2 - v2 = 0) by (apply Z; lra). assert (X3 : u3 - v3 = 0) by (apply Z; lra).
  replace u1 with v1 by lra. replace u2 with v2 by lra. replace u3 with v3 by lra. reflexivity.
Qed.

Lemma apart_zero p q : good p -> good q -> (apart p q = 0 <-> direction p = direction q).
Proof.
  intros P Q. destruct (apart_spec p q P Q) as [[A0 A1] A2]. split.
  - intro Z. rewrite Z, cos_0 in A2. apply inner_one; [apply unit_dir|apply unit_dir|now symmetry].
  - intro E. rewrite E, unit_dir in A2. destruct A0 as [A0|A0]; [|now symmetry].
    exfalso. pose proof PI_RGT_0. assert (K : cos (apart p q) < cos 0) by (apply cos_decreasing_1; lra). rewrite cos_0 in K. lra.
Qed.
