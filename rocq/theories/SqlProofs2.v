(** The SQLite backend: deliveries and histories. *)
From Coq Require Import String Ascii QArith List Bool Arith ZArith Lia.
From Verif Require Import Base SqlModel SqlSpec SqlProofs.
Import ListNotations.
Open Scope list_scope.

Section Proofs.
Variable X : Type.
Variable plain : string -> bool.
Variable trouble : nat -> option bool.
Variable ser : nat -> X -> string.
Variable deser : nat -> string -> option X.
Variable conv : affinity -> cell -> cell.
Variable as_int : cell -> Z.
Variable as_dbl : cell -> dbl.
Variable as_text : cell -> string.
Notation datum := (datum X).
Notation title := (dt_title X).
Notation vals := (dt_vals X).
Notation Put := (put X plain trouble ser conv).
Notation PutAll := (put_all X plain trouble ser conv).
Notation Notify := (notify X plain trouble ser conv).
Notation Went := (went X plain trouble ser conv).
Notation Query := (query_db X deser as_int as_dbl as_text).

(** Data that were written have values. *)
Notation full := (Forall (fun d : datum => vals d <> [])).
Lemma put_some d b b' u : Put d b = (Ok u, b') -> vals d <> [].
Proof. unfold put. destruct (vals d); [discriminate|]. intros _ A. discriminate. Qed.

Section Inv.
Variable U : string -> Prop.
Variable sch : string -> option (list (string * dbtype)).
Hypothesis U_apart : forall a b, U a -> U b -> lower a = lower b -> a = b.
Notation ok_datum := (ok_datum X U sch).
Notation holds := (holds X ser U sch).
Notation cached := (cached sch).
Notation inside := (inside X ser U sch).

Lemma put_all_spec ds : forall b r b' l, PutAll ds b = (r, b') -> inside b l -> Forall ok_datum ds ->
  k_disk (b_conn b') = k_disk (b_conn b) /\ incl (b_names b) (b_names b') /\ cached b' /\
  match r with
  | Ok _ => inside b' (l ++ ds) /\ full ds
  | Throw ValueError => inside b' (l ++ before_bad ds) /\ full (before_bad ds)
  | _ => True
  end.
Proof.
  induction ds as [|d ds IH]; cbn; intros b r b' l H I F.
  - inversion H; subst. rewrite app_nil_r. split; [auto|]. split; [apply incl_refl|]. split; [|split; [exact I|constructor]].
    destruct I as (w & _ & _ & _ & C). exact C.
  - apply Forall_cons_iff in F. destruct F as [F1 F2].
    destruct (Put d b) as [r1 b1] eqn:P.
    destruct (put_spec _ _ _ _ _ _ _ U_apart _ _ _ _ _ P I F1) as (D & N & C & R).
    destruct r1 as [u|e|].
    + destruct R as [R S]. destruct (IH _ _ _ _ H R F2) as (D2 & N2 & C2 & R2). rewrite S.
      split; [congruence|]. split; [eapply incl_tran; eauto|]. split; [exact C2|].
      rewrite <- app_assoc in R2. cbn in R2. pose proof (put_some _ _ _ _ P) as PS.
      destruct r as [|e|]; auto; [destruct R2; auto|]. destruct e; auto.
      rewrite <- app_assoc in R2. destruct R2. split; auto.
    + inversion H; subst. split; [exact D|]. split; [exact N|]. split; [exact C|]. destruct e; auto. destruct R as [R S]. rewrite S, app_nil_r. auto.
    + inversion H; subst. auto.
Qed.

(** Between calls. *)
Definition resting (b : back) (l : list datum) : Prop :=
  holds (k_disk (b_conn b)) l /\ named b (k_disk (b_conn b)) /\ cached b /\ full l.
Definition kept_now (l : list datum) (r : result unit) (old : list datum) : list datum :=
  match r with Ok _ => old ++ l | Throw ValueError => old ++ before_bad l | _ => old end.

Lemma end_txn_in c r c' w : end_txn trouble c = (r, c') -> k_txn c = Some w ->
  match r with Ok _ => k_disk c' = w /\ k_txn c' = None | Throw e => k_disk c' = k_disk c /\ e = IOError | UB => False end.
Proof.
  unfold end_txn, stmt. intros H E. destruct (trouble (k_n c)) as [[|]|].
  - inversion H; subst. auto.
  - inversion H; subst. auto.
  - cbn in H. rewrite E in H. inversion H; subst. auto.
Qed.

Lemma notify_spec l b r b' old : Notify l b = (r, b') -> resting b old -> Forall ok_datum l ->
  resting b' (kept_now l r old).
Proof.
  intros H (HO & NM & CA & FU) F. unfold notify in H.
  destruct (begin_txn trouble (b_conn b)) as [r0 c0] eqn:B.
  assert (B0 : k_disk c0 = k_disk (b_conn b) /\ match r0 with Ok _ => k_txn c0 = Some (k_disk (b_conn b)) | Throw e => e = IOError | UB => False end).
  { unfold begin_txn, stmt in B. destruct (trouble (k_n (b_conn b))) as [[|]|]; [inversion B; subst; auto..|].
    cbn in B. destruct (k_txn (b_conn b)); inversion B; subst; auto. }
  destruct B0 as [D0 R0]. destruct r0 as [u|e|]; [|subst e; inversion H; subst; cbn; unfold resting; cbn; rewrite D0; auto|contradiction].
  2:{ split; [exact HO|]. split; [exact NM|]. split; [constructor; apply CA|exact FU]. }
  assert (IN : inside (set_conn b c0) old).
  { exists (k_disk (b_conn b)). cbn. split; [exact R0|]. split; [exact HO|]. split; [exact NM|]. constructor; apply CA. }
  destruct (PutAll l (set_conn b c0)) as [r1 b1] eqn:P.
  destruct (put_all_spec _ _ _ _ _ P IN F) as (D1 & N1 & C1 & R1). cbn in D1, N1. rewrite D0 in D1.
  assert (KEEP : forall c, k_disk c = k_disk (b_conn b1) -> resting (set_conn b1 c) old).
  { intros c Ec. unfold resting. cbn. rewrite Ec, D1. split; [exact HO|]. split; [|split; [constructor; apply C1|exact FU]].
    intros t I. cbn. apply N1. auto. }
  assert (MOVE : forall c x, inside b1 x -> full x -> k_txn (b_conn b1) = Some (k_disk c) -> resting (set_conn b1 c) x).
  { intros c x (w & E & HW & NW & CW) FX Ec. unfold resting. cbn. rewrite E in Ec. injection Ec as <-. split; [exact HW|]. split; [exact NW|]. split; [constructor; apply CW|exact FX]. }
  destruct r1 as [u1|e|].
  - destruct (end_txn trouble (b_conn b1)) as [r2 c2] eqn:ET. inversion H; subst.
    destruct R1 as [R1 F1]. assert (R1' := R1). destruct R1' as (w & E & _). pose proof (end_txn_in _ _ _ _ ET E) as A.
    destruct r as [u2|e|]; [|destruct A as [A ->]; cbn; now apply KEEP|contradiction].
    destruct A as [A _]. cbn. apply MOVE; [exact R1|apply Forall_app; auto|]. now rewrite A.
  - assert (SAME : forall e', e' <> ValueError -> (r, b') = (Throw e', b1) -> resting b' (kept_now l r old)).
    { intros e' NE Q. inversion Q; subst. replace (kept_now l (Throw e') old) with old by (destruct e'; auto; contradiction).
      specialize (KEEP (b_conn b1) eq_refl). destruct b1; exact KEEP. }
    destruct e; try (eapply SAME; [|symmetry; exact H]; discriminate).
    destruct (end_txn trouble (b_conn b1)) as [r2 c2] eqn:ET. inversion H; subst.
    destruct R1 as [R1 F1]. assert (R1' := R1). destruct R1' as (w & E & _). pose proof (end_txn_in _ _ _ _ ET E) as A.
    destruct r2 as [u2|e|]; [|destruct A as [A ->]; cbn; now apply KEEP|contradiction].
    destruct A as [A _]. cbn. apply MOVE; [exact R1|apply Forall_app; auto|]. now rewrite A.
  - inversion H; subst. cbn. specialize (KEEP (b_conn b') eq_refl). destruct b'; exact KEEP.
Qed.

Lemma holds_db0 : holds db0 [].
Proof.
  constructor; cbn; try easy. constructor.
Qed.
Lemma resting_open w n l : holds w l -> full l -> resting (open_back w n) l.
Proof.
  intros H F. unfold resting. cbn. split; [exact H|]. split; [intros t I; exact I|]. split; [|exact F]. constructor; cbn; discriminate.
Qed.

Lemma history h b : Went h b -> (forall d, delivered h d -> ok_datum d) -> resting b (kept h).
Proof.
  induction 1 as [n|h b l r b' W IH N R|h b n W IH]; intros OK.
  - apply resting_open; [apply holds_db0|constructor].
  - assert (A : resting b (kept h)).
    { apply IH. intros d (l' & r' & I & J). apply OK. exists l', r'. split; [now right|exact J]. }
    assert (B := notify_spec _ _ _ _ _ N A). cbn [kept]. unfold kept_now in B.
    assert (F : Forall ok_datum l). { apply Forall_forall. intros d I. apply OK. exists l, r. split; [now left|exact I]. }
    specialize (B F). destruct r as [|e|]; [exact B| |exact B]. destruct e; exact B.
  - cbn. destruct IH as (A & _ & _ & F).
    { intros d (l' & r' & I & J). apply OK. exists l', r'. split; [now right|exact J]. }
    now apply resting_open.
Qed.
End Inv.

End Proofs.
