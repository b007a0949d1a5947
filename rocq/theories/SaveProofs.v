(** * SaveProofs: emptying a buffer and filling it again. *)
From Coq Require Import String.
From Verif Require Import Base CompModel CompSpec PackageModel ResourceModel ResourceSpec ResourceProofs1 BufModel BufSpec
  BufProofs1 BufProofs2 BufProofs6 BufProofs7 SaveModel SaveSpec.
Open Scope Q_scope.

(** ** Association lists *)
Lemma find_assign {A} x (a : A) l y :
  find y (assign x a l) = if String.eqb x y then (match find y l with Some _ => Some a | None => None end) else find y l.
Proof.
  induction l as [|[k b] l IH]; simpl.
  - destruct (String.eqb x y); auto.
  - destruct (String.eqb_spec k x) as [->|N]; simpl.
    + destruct (String.eqb_spec x y); auto.
    + destruct (String.eqb_spec k y) as [->|N2]; auto.
      destruct (String.eqb_spec x y); congruence.
Qed.
Lemma find_assign_same {A} x (a b : A) l : find x l = Some b -> find x (assign x a l) = Some a.
Proof. intros H. now rewrite find_assign, String.eqb_refl, H. Qed.
Lemma find_assign_other {A} x (a : A) l y : x <> y -> find y (assign x a l) = find y l.
Proof. intros N. rewrite find_assign. destruct (String.eqb_spec x y); congruence. Qed.
Lemma find_app {A} x (l l' : list (string * A)) :
  find x (l ++ l') = match find x l with Some a => Some a | None => find x l' end.
Proof. induction l as [|[k a] l IH]; simpl; auto. destruct (String.eqb k x); auto. Qed.
Lemma find_In {A} x (l : list (string * A)) a : find x l = Some a -> In (x, a) l.
Proof.
  induction l as [|[k b] l IH]; simpl; [discriminate|]. destruct (String.eqb_spec k x) as [->|N]; [|auto].
  intros H. injection H as ->. auto.
Qed.
Lemma find_none {A} x (l : list (string * A)) : find x l = None <-> ~ In x (map fst l).
Proof.
  induction l as [|[k b] l IH]; simpl; [tauto|]. destruct (String.eqb_spec k x) as [->|N].
  - split; [discriminate|tauto].
  - rewrite IH. tauto.
Qed.

Lemma inv_at_put_same x l i : inv_at x (inv_put x l i) = l.
Proof.
  unfold inv_at, inv_put. destruct (find x i) eqn:F.
  - now rewrite (find_assign_same _ _ _ _ F).
  - rewrite find_app, F. simpl. now rewrite String.eqb_refl.
Qed.
Lemma inv_at_put_other x l i y : x <> y -> inv_at y (inv_put x l i) = inv_at y i.
Proof.
  intros N. unfold inv_at, inv_put. destruct (find x i) eqn:F.
  - now rewrite find_assign_other.
  - rewrite find_app. destruct (find y i); auto. simpl. destruct (String.eqb_spec x y); congruence.
Qed.

(** ** Taking everything out *)
Lemma rget_some w i r : nth_error (w_res w) i = Some r -> rget i w = (Ok r, w).
Proof. intros H. unfold rget, bind, get. simpl. now rewrite H. Qed.

Lemma popn_all w : forall rs b, b_rs b = rs -> (forall i, In i rs -> exists r, nth_error (w_res w) i = Some r) ->
  exists q, popn_loop (length rs) (w, b) =
    (Ok rs, (w, mkBuf q (b_cap b) (b_bulk b) (b_keep b) [] (fold_left (fun l i => erase i l) rs (b_present b)))).
Proof.
  induction rs as [|i rs IH]; intros b R V.
  - exists (b_qty b). simpl. unfold bret. destruct b; simpl in *; subst. reflexivity.
  - simpl. destruct (V i (or_introl eq_refl)) as [r Hr].
    unfold bbind at 1, bget. simpl. rewrite R.
    unfold bbind at 1, call at 1. simpl. rewrite (rget_some _ _ _ Hr).
    unfold bbind at 1 2 3, bmod. simpl.
    destruct (IH (mkBuf (b_qty b - r_qty r) (b_cap b) (b_bulk b) (b_keep b) rs (erase i (b_present b))) eq_refl) as [q Hq].
    { intros j Hj. apply V. now right. }
    exists q. unfold bbind. simpl in Hq. unfold set_b_present, set_b_rs, set_b_qty. simpl. rewrite Hq. reflexivity.
Qed.
Lemma erase_all : forall rs l, (forall i, In i l -> In i rs) -> fold_left (fun l i => erase i l) rs l = [].
Proof.
  induction rs as [|i rs IH]; intros l H; simpl.
  - destruct l as [|a l]; auto. destruct (H a (or_introl eq_refl)).
  - apply IH. intros j Hj. apply erase_In in Hj as [Hj N]. destruct (H j Hj) as [Eq|Hr]; [congruence|auto].
Qed.
Lemma pop_everything w b : BI w b ->
  buf_pop_n (count b) (w, b) = (Ok (b_rs b), (w, mkBuf 0 (b_cap b) (b_bulk b) (b_keep b) [] [])).
Proof.
  intros HB. unfold buf_pop_n, bbind at 1, bget. cbn [snd].
  replace (count b <? count b)%Z with false by (symmetry; apply Z.ltb_ge; lia).
  replace (count b <? 0)%Z with false by (symmetry; apply Z.ltb_ge; unfold count; lia). cbn [orb].
  unfold count. rewrite Nat2Z.id.
  destruct (popn_all w (b_rs b) b eq_refl) as [q Hq].
  { intros i Hi. apply (bi_valid _ _ HB) in Hi. destruct (nth_error (w_res w) i) eqn:X; eauto.
    apply nth_error_None in X. lia. }
  unfold bbind at 1. rewrite Hq. rewrite erase_all by (intros i; apply (bi_pres _ _ HB)). reflexivity.
Qed.

(** ** Putting resources into an empty buffer *)
Definition kept_ok (w : world) (T : elem) (keep : bool) (i : nat) : Prop :=
  exists r, nth_error (w_res w) i = Some r /\ casts T r = true /\ (keep = true \/ r_pkg r = unpackaged_name).

Lemma cast_all_ok T w : forall is, (forall i, In i is -> exists r, nth_error (w_res w) i = Some r /\ casts T r = true) ->
  cast_all T is w = (Ok tt, w).
Proof.
  induction is as [|i is IH]; intros H; simpl; auto.
  destruct (H i (or_introl eq_refl)) as [r [Hr Hc]]. unfold bind. rewrite (rget_some _ _ _ Hr), Hc. apply IH.
  intros j Hj. apply H. now right.
Qed.
Lemma sum_all_ok w : forall is acc, (forall i, In i is -> exists r, nth_error (w_res w) i = Some r) ->
  exists q, sum_all is acc w = (Ok q, w) /\ q == acc + sumv (vw w) is.
Proof.
  induction is as [|i is IH]; intros acc H; simpl.
  - exists acc. split; auto. rewrite sumv_nil. lra.
  - destruct (H i (or_introl eq_refl)) as [r Hr]. unfold bind. rewrite (rget_some _ _ _ Hr).
    destruct (IH (acc + r_qty r)) as [q [Hq Eq]]; [intros j Hj; apply H; now right|].
    exists q. split; auto. rewrite Eq, (sumv_cons _ i is), (qv_nth _ _ _ Hr). lra.
Qed.

(** Unpackaging what is unpackaged changes nothing. *)
Lemma unpackage_same E w i r : nth_error (w_res w) i = Some r -> r_pkg r = unpackaged_name ->
  change_package E i unpackaged_name w = (Ok tt, w).
Proof.
  intros Hr Hp. unfold change_package, bind at 1. rewrite (rget_some _ _ _ Hr). destruct (r_qual r) eqn:Q.
  - unfold mat_change_package, bind at 1. rewrite (rget_some _ _ _ Hr). destruct (negb (r_ctx r)); auto.
    rewrite String.eqb_refl. unfold rmod, bind. rewrite (rget_some _ _ _ Hr). unfold modify, with_pkg.
    f_equal. rewrite <- Hp. destruct r, w; simpl in *. unfold set_res. simpl. f_equal. now apply upd_same.
  - unfold prod_change_package, bind at 1. rewrite (rget_some _ _ _ Hr), Hp, String.eqb_refl. reflexivity.
Qed.

Lemma put_one E T w b i : kept_ok w T (b_keep b) i -> (b_bulk b = true -> b_rs b = []) -> ~ In i (b_present b) ->
  put E T i (w, b) =
    (Ok tt, (w, mkBuf (b_qty b) (b_cap b) (b_bulk b) (b_keep b) (b_rs b ++ [i]) (b_present b ++ [i]))).
Proof.
  intros [r [Hr [_ Hk]]] Hb Np.
  assert (K : (if b_keep b then bret tt else call (change_package E i unpackaged_name)) (w, b) = (Ok tt, (w, b))).
  { destruct (b_keep b); [reflexivity|]. destruct Hk as [|Hk]; [discriminate|].
    unfold call. simpl. now rewrite (unpackage_same E w i r Hr Hk). }
  assert (I : insert i (b_present b) = b_present b ++ [i]).
  { unfold insert. destruct (existsb (Nat.eqb i) (b_present b)) eqn:X; auto.
    exfalso. apply Np. apply present_spec. exact X. }
  unfold put, bbind at 1, bget. cbn [snd]. destruct (b_rs b) as [|f l] eqn:R.
  - unfold bbind at 1. rewrite K. unfold bbind, bmod. simpl. rewrite R, I. reflexivity.
  - destruct (b_bulk b) eqn:B; [discriminate (Hb eq_refl)|].
    unfold bbind at 1. rewrite K. unfold bbind, bmod. simpl. rewrite R, I. unfold set_b_present, set_b_rs. simpl.
    rewrite B. reflexivity.
Qed.
Lemma put_many E T w : forall is b, (forall i, In i is -> kept_ok w T (b_keep b) i) -> NoDup is ->
  (b_bulk b = true -> is = [] \/ b_rs b = [] /\ (length is <= 1)%nat) -> (forall i, In i is -> ~ In i (b_present b)) ->
  put_all E T is (w, b) =
    (Ok tt, (w, mkBuf (b_qty b) (b_cap b) (b_bulk b) (b_keep b) (b_rs b ++ is) (b_present b ++ is))).
Proof.
  induction is as [|i is IH]; intros b H Nd Hb Np; simpl.
  - rewrite !app_nil_r. destruct b; reflexivity.
  - inversion Nd as [|? ? Ni Nd']; subst. unfold bbind.
    assert (Hb1 : b_bulk b = true -> b_rs b = []) by (intros B; destruct (Hb B) as [X|[X _]]; [discriminate|auto]).
    rewrite (put_one E T w b i) by auto using in_eq.
    rewrite IH; simpl.
    + now rewrite <- !app_assoc.
    + intros j Hj. apply H. now right.
    + auto.
    + intros B. destruct (Hb B) as [X|[_ L]]; [discriminate|]. destruct is; simpl in *; [auto|lia].
    + intros j Hj Hx. apply in_app_iff in Hx as [Hx|[->|[]]]; [|contradiction]. apply (Np j); [now right|auto].
Qed.

(** A buffer that is empty and has room takes the resources in their order. *)
Lemma push_into_empty E T w b is : b_rs b = [] -> b_present b = [] -> b_qty b == 0 -> NoDup is ->
  (forall i, In i is -> kept_ok w T (b_keep b) i) -> (b_bulk b = true -> (length is <= 1)%nat) ->
  (forall q, b_cap b = Some q -> 0 <= q /\ sumv (vw w) is <= q + e_eps E) ->
  exists q, q == sumv (vw w) is /\
    buf_push_vector E T is (w, b) = (Ok tt, (w, mkBuf q (b_cap b) (b_bulk b) (b_keep b) is is)).
Proof.
  intros R P Q0 Nd H Hb Hc. unfold buf_push_vector, bbind at 1, call at 1. cbn [fst snd].
  rewrite cast_all_ok by (intros i Hi; destruct (H i Hi) as [r [? [? _]]]; eauto).
  destruct (sum_all_ok w is 0) as [tot [Ht Et]]; [intros i Hi; destruct (H i Hi) as [r [? _]]; eauto|].
  unfold bbind at 1, call. cbn [fst snd]. rewrite Ht. unfold bbind at 1, bget. cbn [snd].
  assert (Eb : too_big (e_eps E) tot b = false).
  { apply too_big_fits. unfold fits, space. destruct (b_cap b) as [q|]; auto. destruct (Hc q eq_refl) as [Hq Hs].
    unfold qmax. destruct (Qltb_spec 0 (q - b_qty b)) as [L|L]; rewrite ?Et, ?Q0; lra. }
  rewrite Eb.
  assert (Ep : existsb (fun i => present i b) is = false).
  { apply not_true_is_false. intros X. apply existsb_exists in X as [i [_ X]]. unfold present in X. rewrite P in X. discriminate. }
  rewrite Ep. unfold bbind. rewrite put_many; auto.
  - cbn. exists (b_qty b + tot). split; [rewrite Et, Q0; lra|]. rewrite R, P. reflexivity.
  - intros i Hi. rewrite P. auto.
Qed.
