(** * ServerProofs1: the queues of the server, for every schedule. *)
From Coq Require Import Sorting.Sorted.
From Verif Require Import Base ServerModel ServerSpec.

(** ** Lists of tasks *)
Section Put.
Context {A : Type}.
Definition put (i : nat) (x : A) (l : list A) := firstn i l ++ x :: skipn (S i) l.

Lemma split_nth (l : list A) i x : nth_error l i = Some x -> l = firstn i l ++ x :: skipn (S i) l.
Proof.
  revert l. induction i; intros [|y l] H; cbn in *; try discriminate.
  - now injection H as ->.
  - f_equal. apply IHi. exact H.
Qed.

Lemma nth_put_eq (l : list A) i x y : nth_error l i = Some x -> nth_error (put i y l) i = Some y.
Proof.
  unfold put. revert l. induction i; intros [|z l] H; cbn in *; try discriminate; auto.
Qed.

Lemma nth_put_ne (l : list A) i j x y : nth_error l i = Some x -> j <> i ->
  nth_error (put i y l) j = nth_error l j.
Proof.
  unfold put. revert l j. induction i; intros [|z l] j H N; cbn in *; try discriminate; auto.
  - destruct j; [congruence|reflexivity].
  - destruct j; [reflexivity|]. cbn. apply IHi; [exact H|congruence].
Qed.

Lemma put_len (l : list A) i x y : nth_error l i = Some x -> length (put i y l) = length l.
Proof.
  unfold put. revert l. induction i; intros [|z l] H; cbn in *; try discriminate; auto.
Qed.

Lemma put_flat {B} (f : A -> list B) (l : list A) i x y : nth_error l i = Some x ->
  Permutation (f x ++ flat_map f (put i y l)) (f y ++ flat_map f l).
Proof.
  intro H. rewrite (split_nth l i x H) at 2. unfold put. rewrite !flat_map_app. cbn [flat_map].
  generalize (f x) (f y) (flat_map f (firstn i l)) (flat_map f (skipn (S i) l)). intros a b c d.
  apply Permutation_trans with (a ++ b ++ c ++ d).
  - apply Permutation_app_head. rewrite !app_assoc. apply Permutation_app_tail, Permutation_app_comm.
  - apply Permutation_trans with (b ++ a ++ c ++ d).
    + rewrite !app_assoc. do 2 apply Permutation_app_tail. apply Permutation_app_comm.
    + apply Permutation_app_head. rewrite !app_assoc. apply Permutation_app_tail, Permutation_app_comm.
Qed.

Lemma put_map {B} (f : A -> B) (l : list A) i x y : nth_error l i = Some x -> f y = f x ->
  map f (put i y l) = map f l.
Proof.
  intros H E. rewrite (split_nth l i x H) at 2. unfold put. rewrite !map_app. cbn. now rewrite E.
Qed.
End Put.

Ltac kill :=
  repeat match goal with
  | H : Some _ = Some _ |- _ => injection H as H
  | H : None = Some _ |- _ => discriminate H
  | H : (_, _) = (_, _) |- _ => injection H as ?; subst
  end.

(** Case analysis of one step. *)
Ltac brk H :=
  repeat match type of H with
  | context [match ?x with _ => _ end] => destruct x eqn:?; try discriminate H
  end.

Ltac stepcases H :=
  unfold step, task_step, work_step, mon_step, sim_step in H; brk H;
  injection H as ? ?; subst.

Section S.
Variable names : nat -> list string.
Variable work : nat -> act -> option string.
Variable loads : bool.
Variable rep : list act.
Variable dur : nat.
Notation step := (step names work loads rep dur).
Notation run := (run names work loads rep dur).

(** ** Runs *)
Lemma run_app s l1 l2 s' es : run s (l1 ++ l2) = Some (s', es) <->
  exists s1 e1 e2, run s l1 = Some (s1, e1) /\ run s1 l2 = Some (s', e2) /\ es = e1 ++ e2.
Proof.
  revert s es. induction l1 as [|l r IH]; intros s es; cbn.
  - split.
    + intro H. exists s, [], es. auto.
    + intros (s1 & e1 & e2 & H1 & H2 & ->). injection H1 as <- <-. exact H2.
  - destruct (step s l) as [[s1 e1]|].
    2:{ split; [discriminate|]. intros (? & ? & ? & H & _). discriminate. }
    split.
    + intro H. destruct (run s1 (r ++ l2)) as [[s2 e2]|] eqn:R; [|discriminate].
      injection H as <- <-. apply IH in R. destruct R as (t & f1 & f2 & R1 & R2 & ->).
      exists t, (e1 ++ f1), f2. rewrite R1, <- app_assoc. auto.
    + intros (t & f1 & f2 & R1 & R2 & ->).
      destruct (run s1 r) as [[s2 e2]|] eqn:R; [|discriminate]. injection R1 as <- <-.
      assert (X : run s1 (r ++ l2) = Some (s', e2 ++ f2)) by (apply IH; exists s2, e2, f2; auto).
      rewrite X, <- app_assoc. reflexivity.
Qed.

(** An invariant of the state and of what has been observed. *)
Lemma run_inv (P : srv -> list event -> Prop) :
  (forall s es l s' e, P s es -> step s l = Some (s', e) -> P s' (es ++ e)) ->
  forall ls s es0 s' es, P s es0 -> run s ls = Some (s', es) -> P s' (es0 ++ es).
Proof.
  intros ST. induction ls as [|l r IH]; intros s es0 s' es H R; cbn in R.
  - injection R as <- <-. now rewrite app_nil_r.
  - destruct (step s l) as [[s1 e1]|] eqn:E; [|discriminate].
    destruct (run s1 r) as [[s2 e2]|] eqn:R1; [|discriminate]. injection R as <- <-.
    rewrite app_assoc. eapply IH; [eapply ST; eassumption|exact R1].
Qed.

(** One step makes at most one observable event. *)
Lemma step_one s l s' e : step s l = Some (s', e) -> e = [] \/ exists x, e = [x].
Proof.
  intro H. stepcases H; eauto.
Qed.

(** So the run can be cut at any event. *)
Lemma run_split ls : forall s s' pre x post, run s ls = Some (s', pre ++ x :: post) ->
  exists l1 l l2 s1 s2, ls = l1 ++ l :: l2 /\ run s l1 = Some (s1, pre) /\
    step s1 l = Some (s2, [x]) /\ run s2 l2 = Some (s', post).
Proof.
  induction ls as [|l r IH]; intros s s' pre x post R; cbn in R.
  - injection R as _ R. destruct pre; discriminate.
  - destruct (step s l) as [[s1 e1]|] eqn:E; [|discriminate].
    destruct (run s1 r) as [[s2 e2]|] eqn:R1; [|discriminate]. injection R as <- R.
    destruct (step_one _ _ _ _ E) as [->|[y ->]].
    + cbn in R. subst e2. destruct (IH _ _ _ _ _ R1) as (l1 & k & l2 & t1 & t2 & -> & A & B & C).
      exists (l :: l1), k, l2, t1, t2. cbn. rewrite E, A. auto.
    + destruct pre as [|y' pre].
      * cbn in R. injection R as -> ->. exists [], l, r, s, s1. cbn. auto.
      * cbn in R. injection R as -> ->. rename y' into z.
        destruct (IH _ _ _ _ _ R1) as (l1 & k & l2 & t1 & t2 & -> & A & B & C).
        exists (l :: l1), k, l2, t1, t2. cbn. rewrite E, A. auto.
Qed.

(** ** The action queue *)
Lemma queued_app a b : queued (a ++ b) = queued a ++ queued b.
Proof. apply flat_map_app. Qed.
Lemma started_app a b : started (a ++ b) = started a ++ started b.
Proof. apply flat_map_app. Qed.
Lemma puts_app a b : puts (a ++ b) = puts a ++ puts b.
Proof. apply flat_map_app. Qed.
Lemma takens_app a b : takens (a ++ b) = takens a ++ takens b.
Proof. apply flat_map_app. Qed.
Lemma losts_app a b : losts (a ++ b) = losts a ++ losts b.
Proof. apply flat_map_app. Qed.
Lemma sents_app a b : sents (a ++ b) = sents a ++ sents b.
Proof. apply flat_map_app. Qed.
Lemma repeated_app a b : repeated (a ++ b) = repeated a ++ repeated b.
Proof. apply flat_map_app. Qed.
Lemma steps_app a b : steps (a ++ b) = (steps a + steps b)%nat.
Proof. unfold steps. now rewrite filter_app, app_length. Qed.
Lemma closes_app a b : closes (a ++ b) = (closes a + closes b)%nat.
Proof. unfold closes. now rewrite filter_app, app_length. Qed.
Lemma unpauses_app a b : unpauses (a ++ b) = (unpauses a + unpauses b)%nat.
Proof. unfold unpauses. now rewrite filter_app, app_length. Qed.

Definition queue_inv (initial : list act) (s : srv) (es : list event) : Prop :=
  initial ++ queued es = map fst (tasks s) ++ aq s /\ started es = map fst (tasks s).

Lemma unpause_same s : aq (unpause s) = aq s /\ tasks (unpause s) = tasks s /\ mq (unpause s) = mq s /\
  staged (unpause s) = staged s /\ cons (unpause s) = cons s /\ sendq (unpause s) = sendq s /\
  registry (unpause s) = registry s /\ loaded (unpause s) = loaded s /\ sim (unpause s) = sim s /\
  ndone (unpause s) = ndone s /\ orphans (unpause s) = orphans s /\ conn (unpause s) = conn s /\
  mon (unpause s) = mon s /\ pausek (unpause s) = None /\ stopped (unpause s) = stopped s /\
  stopping (unpause s) = stopping s.
Proof. unfold unpause. destruct (pausek s) eqn:E; cbn; rewrite ?E; repeat split; auto. Qed.

Lemma fst_put l i (a : act) (p q : pc) : nth_error l i = Some (a, p) ->
  map fst (firstn i l ++ (a, q) :: skipn (S i) l) = map fst l.
Proof. intro H. apply (put_map fst l i (a, p) (a, q) H). reflexivity. Qed.

Ltac up :=
  repeat match goal with
  | |- context [aq (unpause ?s)] => rewrite (proj1 (unpause_same s))
  | |- context [tasks (unpause ?s)] => rewrite (proj1 (proj2 (unpause_same s)))
  end.

Lemma queue_step initial s es l s' e : queue_inv initial s es -> step s l = Some (s', e) ->
  queue_inv initial s' (es ++ e).
Proof.
  intros [Q T] H. unfold queue_inv. rewrite queued_app, started_app, app_assoc, Q, T.
  stepcases H; cbn [queued started flat_map app]; rewrite ?app_nil_r; try (split; assumption);
    unfold quiet_end, end_with, set_task; cbn; up; cbn;
    repeat match goal with
    | E : nth_error (tasks s) _ = Some _ |- _ => rewrite (fst_put _ _ _ _ _ E); clear E
    | E : aq s = _ |- _ => rewrite E; clear E
    end; rewrite ?map_app; cbn; rewrite ?app_nil_r, <- ?app_assoc; auto.
Qed.

Theorem queue_run ld initial ls s es : run (start ld initial) ls = Some (s, es) ->
  queue_inv initial s es.
Proof.
  intro R. change es with ([] ++ es).
  refine (run_inv (queue_inv initial) _ ls _ [] _ _ _ R).
  - intros. eapply queue_step; eassumption.
  - split; cbn; auto. apply app_nil_r.
Qed.

(** ** The send queue *)
Definition send_inv (s : srv) (es : list event) : Prop :=
  puts es = takens es ++ sendq s /\ (length (losts es) + orphans s)%nat = closes es.

Lemma send_step s es l s' e : send_inv s es -> step s l = Some (s', e) -> send_inv s' (es ++ e).
Proof.
  intros [Q T] H. unfold send_inv. rewrite puts_app, takens_app, losts_app, app_length, closes_app, <- T, Q.
  assert (U : forall x, sendq (unpause x) = sendq x) by (intro; apply unpause_same).
  assert (V : forall x, orphans (unpause x) = orphans x) by (intro; apply unpause_same).
  stepcases H; cbn; rewrite ?app_nil_r; unfold quiet_end, end_with, set_task; cbn; rewrite ?U, ?V; cbn;
    repeat match goal with
    | E : sendq s = _ |- _ => rewrite E; clear E
    | E : orphans s = _ |- _ => rewrite E; clear E
    end; rewrite ?app_nil_r, <- ?app_assoc; cbn; split; auto; lia.
Qed.

Theorem send_run ld initial ls s es : run (start ld initial) ls = Some (s, es) -> send_inv s es.
Proof.
  intro R. change es with ([] ++ es).
  refine (run_inv send_inv _ ls _ [] _ _ _ R).
  - intros. eapply send_step; eassumption.
  - split; reflexivity.
Qed.

(** Without a lost connection nothing is lost. *)
Lemma takens_sents es : losts es = [] -> takens es = sents es.
Proof.
  unfold takens, sents, losts.
  induction es as [|x r IH]; intro H; [reflexivity|].
  destruct x; cbn in *; try discriminate; auto. f_equal. auto.
Qed.

(** ** The simulation thread *)
Definition sim_inv (s : srv) (es : list event) : Prop :=
  steps es = ndone s /\ (ndone s <= dur)%nat /\
  match sim s with
  | SReady | SFail => True
  | SCompute => (ndone s < dur)%nat /\ repeated es = concat (repeat rep (ndone s))
  | SQueue todo => (ndone s < dur)%nat /\
      exists did, rep = did ++ todo /\ repeated es = concat (repeat rep (ndone s)) ++ did
  | SPause | SEmpty => (ndone s < dur)%nat /\ repeated es = concat (repeat rep (S (ndone s)))
  | SDone => repeated es = concat (repeat rep (ndone s))
  end /\
  (sim s = SReady -> repeated es = [] /\ ndone s = O).

Lemma concat_S (n : nat) : concat (repeat rep (S n)) = concat (repeat rep n) ++ rep.
Proof.
  induction n; cbn; [now rewrite app_nil_r|]. cbn in IHn. rewrite IHn at 1. now rewrite app_assoc.
Qed.

Lemma steps_nil : steps [] = O. Proof. reflexivity. Qed.

Lemma sim_keep s s' es e : sim s' = sim s -> ndone s' = ndone s -> steps e = O -> repeated e = [] ->
  sim_inv s es -> sim_inv s' (es ++ e).
Proof.
  unfold sim_inv. intros A B C D I. rewrite A, B, steps_app, C, repeated_app, D, app_nil_r, Nat.add_0_r.
  exact I.
Qed.

Lemma sim_step_inv s es l s' e : sim_inv s es -> step s l = Some (s', e) -> sim_inv s' (es ++ e).
Proof.
  intros I H.
  assert (U : forall x, sim (unpause x) = sim x) by (intro; apply unpause_same).
  assert (V : forall x, ndone (unpause x) = ndone x) by (intro; apply unpause_same).
  destruct l; try (stepcases H; (apply (sim_keep s); [| | | |exact I]);
    unfold quiet_end, end_with, set_task; cbn; rewrite ?U, ?V; reflexivity).
  destruct I as (A & B & C & D).
  unfold ServerModel.step, sim_step in H. brk H; injection H as <- <-; unfold sim_inv; cbn [sim ndone w_sim w_aq];
    rewrite ?app_nil_r; rewrite ?steps_app, ?repeated_app; cbn [steps repeated flat_map filter length];
    rewrite ?app_nil_r, ?Nat.add_0_r;
    repeat match goal with E : sim s = _ |- _ => rewrite E in C, D; cbn in C end.
  - destruct (D eq_refl) as [D1 D2]. rewrite D1, D2 in *. repeat split; auto; try lia; try discriminate.
  - destruct (D eq_refl) as [D1 D2]. rewrite D1, D2 in *. repeat split; auto; try lia; try discriminate.
  - repeat split; auto; try lia; try discriminate.
  - destruct C as [C1 C2]. split; [auto|]. split; [auto|]. split; [|discriminate].
    split; [exact C1|]. exists []. split; [reflexivity|]. now rewrite C2, app_nil_r.
  - destruct C as [C1 (did & C2 & C3)]. split; [auto|]. split; [auto|]. split; [|discriminate].
    split; [exact C1|]. rewrite concat_S, C3. f_equal. now rewrite C2, app_nil_r.
  - destruct C as [C1 (did & C2 & C3)]. split; [auto|]. split; [auto|]. split; [|discriminate].
    split; [exact C1|]. exists (did ++ [a]). split; [now rewrite <- app_assoc|].
    rewrite C3. cbn [app]. now rewrite <- app_assoc.
  - repeat split; auto; try lia; try discriminate.
  - unfold sim_inv. rewrite Heqs0. repeat split; auto; try apply C; try discriminate.
  - repeat split; auto; try apply C; try discriminate.
  - destruct C as [C1 C2]. apply Nat.ltb_lt in Heqb. repeat split; auto; try lia; try discriminate.
  - destruct C as [C1 C2]. repeat split; auto; try lia; try discriminate.
  - repeat split; auto; try apply C; try discriminate.
Qed.

Theorem sim_run ld initial ls s es : run (start ld initial) ls = Some (s, es) -> sim_inv s es.
Proof.
  intro R. change es with ([] ++ es).
  refine (run_inv sim_inv _ ls _ [] _ _ _ R).
  - intros. eapply sim_step_inv; eassumption.
  - unfold sim_inv. cbn. repeat split; auto. lia.
Qed.

(** When a time step ends, everything put on the queue has been taken from it, and the repeating
    actions have been put there once for each time step. *)
Theorem at_step ld initial ls s pre post :
  run (start ld initial) ls = Some (s, pre ++ EvStep :: post) ->
  started pre = initial ++ queued pre /\
  repeated pre = concat (repeat rep (S (steps pre))) /\ (S (steps pre) <= dur)%nat.
Proof.
  intro R. destruct (run_split _ _ _ _ _ _ R) as (l1 & l & l2 & s1 & s2 & -> & R1 & ST & R2).
  destruct (queue_run _ _ _ _ _ R1) as [Q T].
  destruct (sim_run _ _ _ _ _ R1) as (A & B & C & D).
  assert (X : sim s1 = SEmpty /\ aq s1 = []).
  { unfold ServerModel.step, task_step, work_step, mon_step, sim_step in ST. brk ST; try discriminate; auto. }
  destruct X as [X Y]. rewrite X in C. rewrite Y, app_nil_r in Q. rewrite A. split; [congruence|].
  split; [apply C|apply C].
Qed.

End S.
