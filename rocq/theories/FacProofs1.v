(** The resources the facilities make and store. *)
From Coq Require Import String QArith List Bool Arith ZArith Lia.
From Verif Require Import Base CompModel PackageModel ResourceModel BufModel GreedyModel ExchangeModel FacModel.
Import ListNotations.
Open Scope Q_scope.

(** Nothing that exists disappears or changes quantity, kind or context. *)
Record keeps (w w' : world) : Prop := mkKeeps {
  kp_comps : (length (w_comps w) <= length (w_comps w'))%nat;
  kp_len : (length (w_res w) <= length (w_res w'))%nat;
  kp_time : w_time w' = w_time w;
  kp_res : forall i r, nth_error (w_res w) i = Some r ->
    exists r', nth_error (w_res w') i = Some r' /\ r_qty r' = r_qty r /\ r_qual r' = r_qual r /\ r_ctx r' = r_ctx r }.
Lemma keeps_refl w : keeps w w.
Proof. split; auto. intros; eauto. Qed.
Lemma keeps_trans a b c : keeps a b -> keeps b c -> keeps a c.
Proof.
  intros [H1 H2 H3 H4] [K1 K2 K3 K4]. split; try lia; try congruence.
  intros i r N. destruct (H4 i r N) as (r1 & N1 & Q1 & U1 & C1). destruct (K4 i r1 N1) as (r2 & N2 & Q2 & U2 & C2).
  exists r2. repeat split; congruence.
Qed.

(** [i] is a new resource of quantity [q] and composition [c]. *)
Record made (w : world) (i : nat) (q : Q) (c : nat) (cx : bool) (w1 : world) : Prop := mkMade {
  md_keeps : keeps w w1;
  md_id : i = length (w_res w);
  md_len : length (w_res w1) = S (length (w_res w));
  md_comp : (c < length (w_comps w1))%nat;
  md_res : exists r, nth_error (w_res w1) i = Some r /\ r_qty r = q /\ r_qual r = QMat c /\ r_ctx r = cx }.

Lemma nth_app_end {A} (l : list A) x : nth_error (l ++ [x]) (length l) = Some x.
Proof. rewrite nth_error_app2, Nat.sub_diag by lia. auto. Qed.
Lemma nth_app_old {A} (l l' : list A) i x : nth_error l i = Some x -> nth_error (l ++ l') i = Some x.
Proof. intros H. rewrite nth_error_app1; auto. apply nth_error_Some. congruence. Qed.

Lemma untracked_made q c w : (c < length (w_comps w))%nat ->
  exists w1, mat_create_untracked q c w = (Ok (length (w_res w)), w1) /\ made w (length (w_res w)) q c false w1 /\
    length (w_comps w1) = length (w_comps w).
Proof.
  intros L. unfold mat_create_untracked, new_resource. eexists; split; [reflexivity|].
  split; [|reflexivity]. split; simpl; auto.
  - split; simpl; auto; [rewrite app_length; lia|].
    intros i r N. exists r. split; [now apply nth_app_old|auto].
  - rewrite app_length; simpl; lia.
  - eexists. split; [apply nth_app_end|auto].
Qed.
Lemma blank_made E q w : exists w1 c, blank E q w = (Ok (length (w_res w)), w1) /\ made w (length (w_res w)) q c false w1.
Proof.
  unfold blank, bind, create_from_mass, valid_nucs, all_positive. simpl.
  eexists; eexists; split; [reflexivity|]. split; simpl; auto.
  - split; simpl; auto; [rewrite app_length; lia|rewrite app_length; lia|].
    intros i r N. exists r. split; [now apply nth_app_old|auto].
  - rewrite app_length; simpl; lia.
  - instantiate (1 := length (w_comps w)). rewrite app_length; simpl; lia.
  - eexists. split; [apply nth_app_end|auto].
Qed.

Lemma upd_end {A} (l : list A) x y : upd (l ++ [x]) (length l) y = l ++ [y].
Proof. induction l; simpl; congruence. Qed.
Lemma upd_len {A} (l : list A) : forall i x, length (upd l i x) = length l.
Proof. intros. apply upd_length. Qed.

Lemma tracked_made E a q c pkg w : (c < length (w_comps w))%nat ->
  exists w1, mat_create E a q c pkg w = (Ok (length (w_res w)), w1) /\ made w (length (w_res w)) q c true w1 /\
    length (w_comps w1) = length (w_comps w).
Proof.
  intros L. destruct (nth_error (w_comps w) c) as [x|] eqn:C; [|apply nth_error_None in C; lia].
  unfold mat_create, new_resource, tr_create, tr_record, res_record, comp_record, qual_id, cmod, rmod, emit,
    rget, cref, get, modify, bind, deref, ret.
  repeat (cbn; first [rewrite nth_app_end | rewrite upd_end | rewrite C]).
  destruct (c_recorded x); repeat (cbn; first [rewrite nth_app_end | rewrite upd_end | rewrite C]).
  - eexists; split; [reflexivity|]. split; [|reflexivity].
    split; simpl; auto.
    + split; simpl; auto; [rewrite app_length; lia|].
      intros i r N. exists r. split; [now apply nth_app_old|auto].
    + rewrite app_length; simpl; lia.
    + eexists. split; [apply nth_app_end|auto].
  - eexists; split; [reflexivity|].
    split; [|cbn; now rewrite upd_length].
    split; simpl; auto.
    + split; simpl; auto; [rewrite upd_length; lia|rewrite app_length; lia|].
      intros i r N. exists r. split; [now apply nth_app_old|auto].
    + rewrite app_length; simpl; lia.
    + now rewrite upd_length.
    + eexists. split; [apply nth_app_end|auto].
Qed.

Lemma comp_of_target E i w r c : nth_error (w_res w) i = Some r -> r_qual r = QMat c -> r_ctx r = false ->
  mat_comp E i w = (Ok c, w).
Proof.
  intros N Q C. unfold mat_comp, bind, rget, deref. rewrite N. cbn. rewrite C. cbn. rewrite N. cbn.
  unfold mat_comp_ptr. rewrite Q. reflexivity.
Qed.

(** *** Inventories *)
Record tidy (w : world) (b : buf) : Prop := mkTidy {
  ti_bulk : b_bulk b = false;
  ti_empty : b_rs b = [] -> b_qty b == 0;
  ti_old : forall i, In i (b_present b) -> (i < length (w_res w))%nat }.
Lemma tidy_keeps w w' b : tidy w b -> keeps w w' -> tidy w' b.
Proof. intros [B M O] K. split; auto. intros i I. apply O in I. pose proof (kp_len _ _ K). lia. Qed.

Lemma change_unpackaged E i w r c : nth_error (w_res w) i = Some r -> r_qual r = QMat c ->
  exists w1, change_package E i unpackaged_name w = (Ok tt, w1) /\ keeps w w1 /\
    length (w_res w1) = length (w_res w) /\ length (w_comps w1) = length (w_comps w).
Proof.
  intros N Q. unfold change_package, bind, rget, deref. rewrite N. cbn. rewrite Q. unfold mat_change_package, bind, rget, deref.
  rewrite N. cbn -[String.eqb unpackaged_name]. destruct (r_ctx r) eqn:CX; cbn -[String.eqb unpackaged_name].
  - rewrite String.eqb_refl. unfold rmod, bind, rget, deref. rewrite N. cbn. eexists; split; [reflexivity|].
    split; [|split; cbn; auto; now rewrite upd_length].
    split; cbn; auto; [rewrite upd_length; auto|].
    intros j r' N'. destruct (Nat.eq_dec i j) as [->|D].
    + rewrite nth_upd_same by (apply nth_error_Some; congruence). eexists; split; [reflexivity|].
      rewrite N in N'. injection N' as <-. auto.
    + rewrite nth_upd_other by auto. eauto.
  - exists w. split; auto. split; [apply keeps_refl|auto].
Qed.

(** Whether a buffer takes one more resource of quantity [q]. *)
Lemma push_one E w b i r c : nth_error (w_res w) i = Some r -> r_qual r = QMat c -> tidy w b -> ~ In i (b_present b) ->
  if too_big (e_eps E) (r_qty r) b then buf_push E EResource i (w, b) = (Throw ValueError, (w, b))
  else exists w1 b1, buf_push E EResource i (w, b) = (Ok tt, (w1, b1)) /\ keeps w w1 /\
    length (w_res w1) = length (w_res w) /\ length (w_comps w1) = length (w_comps w) /\ tidy w1 b1 /\
    b_qty b1 == b_qty b + r_qty r /\ b_cap b1 = b_cap b /\ b_rs b1 = b_rs b ++ [i] /\
    (forall j, In j (b_present b1) -> j = i \/ In j (b_present b)).
Proof.
  intros N Q [TB TE TO] NI.
  assert (PR : present i b = false).
  { unfold present. destruct (existsb _ _) eqn:X; auto. apply existsb_exists in X. destruct X as (j & I & X).
    apply Nat.eqb_eq in X. subst. contradiction. }
  assert (LI : (i < length (w_res w))%nat) by (apply nth_error_Some; congruence).
  unfold buf_push, bbind, call, bget, rget, deref. cbn [fst snd]. rewrite N. cbn -[too_big put update_qty].
  unfold casts. destruct (too_big (e_eps E) (r_qty r) b) eqn:TBG.
  - reflexivity.
  - rewrite PR. cbn -[update_qty put].
    assert (PUT : exists w1, put E EResource i (w, b) =
        (Ok tt, (w1, set_b_present (insert i (b_present b)) (set_b_rs (b_rs b ++ [i]) b))) /\ keeps w w1 /\
        length (w_res w1) = length (w_res w) /\ length (w_comps w1) = length (w_comps w)).
    { destruct (change_unpackaged E i w r c N Q) as (w1 & CH & K & L1 & L2).
      unfold put, bbind, bget. cbn [fst snd]. rewrite TB.
      destruct (b_rs b) eqn:RS, (b_keep b) eqn:KP; cbn -[change_package unpackaged_name insert];
        try (exists w; rewrite RS; cbn; split; [reflexivity|split; [apply keeps_refl|auto]]);
        unfold call; cbn -[change_package unpackaged_name insert]; rewrite CH; exists w1; cbn; rewrite RS; cbn;
        (split; [reflexivity|auto]). }
    destruct PUT as (w1 & PUT & K & L1 & L2). rewrite PUT.
    destruct (kp_res _ _ K i r N) as (r1 & N1 & Q1 & U1 & C1). cbn -[update_qty]. rewrite N1. cbn -[update_qty].
    match goal with |- context [update_qty (w1, ?x)] => set (b1 := x) end.
    assert (UP : exists b2, update_qty (w1, b1) = (Ok tt, (w1, b2)) /\ b_qty b2 == b_qty b + r_qty r /\
        b_cap b2 = b_cap b /\ b_bulk b2 = b_bulk b /\ b_rs b2 = b_rs b ++ [i] /\ b_present b2 = insert i (b_present b)).
    { unfold update_qty, bbind, bget. cbn [snd fst]. subst b1; cbn [b_rs set_b_qty set_b_present set_b_rs].
      destruct (b_rs b) as [|x l] eqn:RS.
      - cbn. unfold call, rget, deref. cbn. rewrite N1. cbn. eexists; split; [reflexivity|]. cbn. rewrite Q1, (TE eq_refl).
        repeat split; auto. ring.
      - destruct (l ++ [i]) eqn:LA; [destruct l; discriminate|]. cbn. rewrite LA. eexists; split; [reflexivity|]. cbn.
        rewrite Q1, <- LA. repeat split; auto. }
    destruct UP as (b2 & UP & B1 & B2 & B3 & B4 & B5). rewrite UP.
    assert (INS : forall j, In j (insert i (b_present b)) -> j = i \/ In j (b_present b)).
    { intros j. unfold insert. destruct (existsb _ _); auto. rewrite in_app_iff. cbn. intuition. }
    exists w1, b2. split; [reflexivity|]. split; [auto|]. split; [auto|]. split; [auto|]. split; [|].
    { split.
      - congruence.
      - rewrite B4. destruct (b_rs b); discriminate.
      - rewrite B5. intros j J. apply INS in J. destruct J as [->|J]; [lia|]. apply TO in J. lia. }
    repeat split; auto. rewrite B5. auto.
Qed.
