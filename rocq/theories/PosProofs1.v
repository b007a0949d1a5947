(** * PosProofs1: what is stored *)
From Verif Require Import Base PosModel PosSpec.
From Coq Require Import Qfield.
Open Scope Q_scope.

(** ** Rounding *)
Definition rounded (n : positive) (v : Q) : Q := inject_Z (Qfloor (v * inject_Z (Zpos n) + (1 # 2))) / inject_Z (Zpos n).

Lemma sp1 v : set_precision v 1 = rounded 10 v. Proof. reflexivity. Qed.
Lemma sp6 v : set_precision v 6 = rounded 1000000 v. Proof. reflexivity. Qed.

Lemma pos_q n : 0 < inject_Z (Zpos n). Proof. reflexivity. Qed.

Lemma floor_near v : inject_Z (Qfloor (v + (1 # 2))) - v <= 1 # 2 /\ -(1 # 2) < inject_Z (Qfloor (v + (1 # 2))) - v.
Proof.
  pose proof (Qfloor_le (v + (1 # 2))) as A. pose proof (Qlt_floor (v + (1 # 2))) as B.
  rewrite inject_Z_plus in B. change (inject_Z 1) with 1 in B. split; lra.
Qed.

Lemma rounded_mul n v : rounded n v * inject_Z (Zpos n) == inject_Z (Qfloor (v * inject_Z (Zpos n) + (1 # 2))).
Proof. unfold rounded. field. intro E. pose proof (pos_q n). lra. Qed.

Lemma rounded_near n v : Qabs (rounded n v - v) <= 1 # (2 * n).
Proof.
  pose proof (floor_near (v * inject_Z (Zpos n))) as [A B]. pose proof (rounded_mul n v) as E. pose proof (pos_q n) as P.
  assert (K : (1 # (2 * n)) * inject_Z (Zpos n) == 1 # 2).
  { unfold Qeq. cbn [Qmult Qnum Qden inject_Z]. rewrite !Pos2Z.inj_mul. lia. }
  apply Qabs_Qle_condition. split; apply (Qmult_le_r _ _ (inject_Z (Zpos n)) P); lra.
Qed.

Lemma floor_half k : Qfloor (inject_Z k + (1 # 2)) = k.
Proof. unfold inject_Z, Qplus, Qfloor. cbn [Qnum Qden]. rewrite Z.mul_1_r. symmetry. apply (Z.div_unique _ _ _ 1); lia. Qed.

Lemma rounded_comp n v w : v == w -> rounded n v == rounded n w.
Proof. intro E. unfold rounded. now rewrite E. Qed.

Lemma rounded_mono n v w : v <= w -> rounded n v <= rounded n w.
Proof.
  intro H. pose proof (pos_q n) as P. apply (Qmult_le_r _ _ (inject_Z (Zpos n)) P). rewrite !rounded_mul.
  rewrite <- Zle_Qle. apply Qfloor_resp_le.
  assert (v * inject_Z (Zpos n) <= w * inject_Z (Zpos n)) by (apply Qmult_le_compat_r; lra). lra.
Qed.

Lemma rounded_int n k : rounded n (inject_Z k) == inject_Z k.
Proof.
  pose proof (pos_q n) as P. unfold rounded. rewrite <- inject_Z_mult, floor_half, inject_Z_mult. field. lra.
Qed.

(** A value near a multiple of the precision is rounded to it. *)
Lemma rounded_snap n k v : Qabs (v - inject_Z k / inject_Z (Zpos n)) < 1 # (2 * n) -> rounded n v == inject_Z k / inject_Z (Zpos n).
Proof.
  intro H. pose proof (pos_q n) as P. apply Qabs_Qlt_condition in H. destruct H as [A B].
  assert (K : (1 # (2 * n)) * inject_Z (Zpos n) == 1 # 2).
  { unfold Qeq. cbn [Qmult Qnum Qden inject_Z]. rewrite !Pos2Z.inj_mul. lia. }
  assert (E : (inject_Z k / inject_Z (Zpos n)) * inject_Z (Zpos n) == inject_Z k) by (field; lra).
  assert (L : inject_Z k < v * inject_Z (Zpos n) + (1 # 2)).
  { assert (X : (- (1 # (2 * n))) * inject_Z (Zpos n) < (v - inject_Z k / inject_Z (Zpos n)) * inject_Z (Zpos n)) by (apply Qmult_lt_compat_r; assumption). lra. }
  assert (U : v * inject_Z (Zpos n) + (1 # 2) < inject_Z (k + 1)).
  { assert (X : (v - inject_Z k / inject_Z (Zpos n)) * inject_Z (Zpos n) < (1 # (2 * n)) * inject_Z (Zpos n)) by (apply Qmult_lt_compat_r; assumption).
    rewrite inject_Z_plus. change (inject_Z 1) with 1. lra. }
  unfold rounded. enough (Qfloor (v * inject_Z (Zpos n) + (1 # 2)) = k) as -> by reflexivity.
  pose proof (Qfloor_le (v * inject_Z (Zpos n) + (1 # 2))) as F. pose proof (Qlt_floor (v * inject_Z (Zpos n) + (1 # 2))) as G.
  assert (k < Qfloor (v * inject_Z (Zpos n) + (1 # 2)) + 1)%Z by (rewrite Zlt_Qlt; lra).
  assert (Qfloor (v * inject_Z (Zpos n) + (1 # 2)) < k + 1)%Z by (rewrite Zlt_Qlt; lra).
  lia.
Qed.

(** ** Reading what was set *)
Definition read (s : Q) : Q := set_precision (s / 3600) 6.

Lemma read_near x : Qabs (read (seconds x) - x) <= rounding.
Proof.
  unfold read, seconds. rewrite sp1, sp6. pose proof (rounded_near 10 (x * 3600)) as A.
  pose proof (rounded_near 1000000 (rounded 10 (x * 3600) / 3600)) as B.
  apply Qabs_Qle_condition in A, B. apply Qabs_Qle_condition. unfold rounding. cbn [Pos.mul] in *.
  assert (E : rounded 10 (x * 3600) / 3600 == rounded 10 (x * 3600) * (1 # 3600)) by reflexivity.
  set (r := rounded 1000000 (rounded 10 (x * 3600) / 3600)) in *. lra.
Qed.

Lemma read_comp s t : s == t -> read s == read t.
Proof. intro E. unfold read. rewrite !sp6. apply rounded_comp. now rewrite E. Qed.

(** Stored seconds are whole tenths in range. *)
Definition stored (m : Z) (s : Q) : Prop := exists k, s == inject_Z k / 10 /\ (- (m * 36000) <= k <= m * 36000)%Z.

Lemma seconds_stored m x : inject_Z (- m) <= x <= inject_Z m -> stored m (seconds x).
Proof.
  intros [A B]. unfold stored, seconds. rewrite sp1. exists (Qfloor (x * 3600 * inject_Z 10 + (1 # 2))).
  split; [reflexivity|].
  assert (E : x * 3600 * inject_Z 10 == x * inject_Z 36000) by (change (inject_Z 36000) with (3600 * 10); change (inject_Z 10) with 10; ring).
  split.
  - rewrite <- (floor_half (- (m * 36000))). apply Qfloor_resp_le. rewrite E, <- Z.mul_opp_l, inject_Z_mult.
    assert (inject_Z (- m) * inject_Z 36000 <= x * inject_Z 36000) by (apply Qmult_le_compat_r; [exact A|discriminate]). lra.
  - rewrite <- (floor_half (m * 36000)). apply Qfloor_resp_le. rewrite E, inject_Z_mult.
    assert (x * inject_Z 36000 <= inject_Z m * inject_Z 36000) by (apply Qmult_le_compat_r; [exact B|discriminate]). lra.
Qed.

Lemma read_range m s : stored m s -> inject_Z (- m) <= read s <= inject_Z m.
Proof.
  intros (k & E & A & B). unfold read. rewrite sp6. rewrite Zle_Qle in A, B. rewrite inject_Z_opp, inject_Z_mult in A. rewrite inject_Z_mult in B.
  change (inject_Z 36000) with 36000 in A, B.
  assert (X : s / 3600 == inject_Z k * (1 # 36000)) by (rewrite E; field).
  split; [rewrite <- (rounded_int 1000000 (- m))|rewrite <- (rounded_int 1000000 m)]; apply rounded_mono; rewrite X, ?inject_Z_opp; lra.
Qed.

Lemma set_read m s : stored m s -> seconds (read s) == s.
Proof.
  intros (k & E & _). unfold seconds, read. rewrite sp1, sp6.
  pose proof (rounded_near 1000000 (s / 3600)) as B.
  assert (Y : inject_Z k / inject_Z 10 == s) by (symmetry; exact E).
  set (r := rounded 1000000 (s / 3600)) in *.
  transitivity (inject_Z k / inject_Z 10); [|exact Y]. apply rounded_snap.
  apply Qabs_Qle_condition in B. apply Qabs_Qlt_condition. cbn [Pos.mul] in *.
  assert (X : s / 3600 == s * (1 # 3600)) by reflexivity. lra.
Qed.
