(** * ServerProofs5: once every pause has been performed and lifted, nothing holds the server. *)
From Verif Require Import Base ServerModel ServerSpec ServerProofs1 ServerProofs2 ServerProofs3.

Section S.
Variable names : nat -> list string.
Variable work : nat -> act -> option string.
Variable loads : bool.
Variable rep : list act.
Variable dur : nat.
Notation step := (step names work loads rep dur).
Notation run := (run names work loads rep dur).

Lemma after_app a : forall o b, after_pauses o (a ++ b) =
  match after_pauses o a with Some o' => after_pauses o' b | None => None end.
Proof.
  induction a as [|x r IH]; intros o b; [reflexivity|].
  destruct x; cbn; try apply IH. destruct o; [reflexivity|apply IH].
Qed.

(** ** The pause in force is the one not lifted, and the others have been cancelled *)
Definition pause_inv (s : srv) (es : list event) : Prop :=
  forall o, after_pauses false es = Some o ->
    (o = false -> pausek s = None) /\ (o = true -> pausek s <> None) /\
    (forall i a, nth_error (tasks s) i = Some (a, PPaused) -> pausek s = Some i \/ In i (cancelled s)).

Lemma put_paused (l : list (act * pc)) i x y j a : nth_error l i = Some x -> snd y <> PPaused ->
  nth_error (firstn i l ++ y :: skipn (S i) l) j = Some (a, PPaused) -> nth_error l j = Some (a, PPaused).
Proof.
  intros H N E. change (nth_error (put i y l) j = Some (a, PPaused)) in E.
  destruct (Nat.eq_dec j i) as [->|D].
  - rewrite (nth_put_eq _ _ _ _ H) in E. injection E as ->. now contradiction N.
  - now rewrite (nth_put_ne _ _ _ _ _ H D) in E.
Qed.

Lemma app_paused (l : list (act * pc)) b j a :
  nth_error (l ++ [(b, PNew)]) j = Some (a, PPaused) -> nth_error l j = Some (a, PPaused).
Proof.
  intro E. destruct (Nat.lt_ge_cases j (length l)) as [L|L].
  - now rewrite nth_error_app1 in E.
  - rewrite nth_error_app2 in E by exact L. destruct (j - length l)%nat as [|[|k]]; discriminate.
Qed.

Lemma pause_keep s s' es e : pausek s' = pausek s -> cancelled s' = cancelled s ->
  (forall o, after_pauses o e = Some o) ->
  (forall j a, nth_error (tasks s') j = Some (a, PPaused) -> nth_error (tasks s) j = Some (a, PPaused)) ->
  pause_inv s es -> pause_inv s' (es ++ e).
Proof.
  intros A B C D I o E. rewrite after_app in E.
  destruct (after_pauses false es) as [o1|] eqn:F; [|discriminate]. rewrite C in E. injection E as <-.
  destruct (I o1 F) as (I1 & I2 & I3). rewrite A, B. split; [exact I1|]. split; [exact I2|].
  intros j a N. exact (I3 j a (D j a N)).
Qed.

Lemma pause_lift s s' es : pausek s' = None ->
  (forall i, pausek s = Some i \/ In i (cancelled s) -> In i (cancelled s')) ->
  (forall j a, nth_error (tasks s') j = Some (a, PPaused) -> nth_error (tasks s) j = Some (a, PPaused)) ->
  pause_inv s es -> pause_inv s' (es ++ [EvUnpaused]).
Proof.
  intros A B D I o E. rewrite after_app in E.
  destruct (after_pauses false es) as [o1|] eqn:F; [|discriminate]. cbn in E. injection E as <-.
  destruct (I o1 F) as (I1 & I2 & I3). split; [auto|]. split; [discriminate|].
  intros j a N. right. apply B. exact (I3 j a (D j a N)).
Qed.

Lemma unpause_cancels s i : pausek s = Some i \/ In i (cancelled s) -> In i (cancelled (unpause s)).
Proof.
  unfold unpause. destruct (pausek s); cbn; intros [H|H]; try discriminate; auto. injection H as ->. auto.
Qed.

Lemma pause_step s es l s' e : pause_inv s es -> step s l = Some (s', e) -> pause_inv s' (es ++ e).
Proof.
  intros I H.
  assert (U : forall x, tasks (unpause x) = tasks x) by (intro; apply unpause_same).
  assert (V : forall x, pausek (unpause x) = None) by (intro; apply unpause_same).
  stepcases H;
    try (apply (pause_keep s); [reflexivity|reflexivity|reflexivity| |exact I];
         unfold quiet_end, end_with, set_task; cbn [tasks w_aq w_mq w_tasks w_cons w_mon w_pause w_registry
           w_loaded w_conn w_sendq w_sim w_stop]; intros j b N;
         first [exact N|exact (app_paused _ _ _ _ N)|
           match goal with E : nth_error (tasks s) _ = Some _ |- _ =>
             refine (put_paused _ _ _ _ _ _ E _ N); cbn; discriminate end]).
  - (* a pause is performed *)
    match goal with E : nth_error (tasks s) _ = Some _ |- _ => rename E into E0 end.
    intros o A. rewrite after_app in A.
    destruct (after_pauses false es) as [o1|] eqn:F; [|discriminate]. cbn in A.
    destruct o1; [discriminate|]. injection A as <-. destruct (I false F) as (I1 & I2 & I3).
    unfold set_task. cbn [tasks w_tasks pausek w_pause cancelled].
    split; [discriminate|]. split; [discriminate|]. intros j a N.
    match goal with |- Some ?k = Some j \/ _ => destruct (Nat.eq_dec j k) as [->|D]; [now left|] end.
    right. change (nth_error (put i (APause, PPaused) (tasks s)) j = Some (a, PPaused)) in N.
    rewrite (nth_put_ne _ _ _ _ _ E0 D) in N. destruct (I3 j a N) as [X|X]; [|exact X].
    rewrite (I1 eq_refl) in X. discriminate.
  - (* an unpause among the initial actions *)
    match goal with E : nth_error (tasks s) _ = Some _ |- _ => rename E into E0 end.
    apply (pause_lift s); [apply V|intros k K; exact (unpause_cancels s k K)| |exact I].
    unfold quiet_end, set_task. cbn [tasks w_tasks]. rewrite U. intros j b N.
    refine (put_paused _ _ _ _ _ _ E0 _ N). discriminate.
  - apply (pause_lift s); [apply V| | |exact I].
    + intros k K. apply unpause_cancels. exact K.
    + rewrite U. auto.
  - now rewrite app_nil_r.
Qed.

Theorem pause_run ld initial ls s es : run (start ld initial) ls = Some (s, es) -> pause_inv s es.
Proof.
  intro R. change es with ([] ++ es).
  refine (run_inv _ _ _ _ _ pause_inv _ ls _ [] _ _ _ R).
  - intros. eapply pause_step; eassumption.
  - intros o E. cbn in E. injection E as <-. cbn. split; [auto|]. split; [discriminate|].
    intros i a N. destruct i; discriminate.
Qed.

(** ** The pauses begun are those performed *)
Definition begun (t : act * pc) : bool :=
  is_pause (fst t) && match snd t with PNew => false | _ => true end.
Definition fresh (t : act * pc) : bool :=
  is_pause (fst t) && match snd t with PNew => true | _ => false end.
Definition paused_n (es : list event) : nat :=
  length (filter (fun e => match e with EvPaused => true | _ => false end) es).

Lemma paused_n_app a b : paused_n (a ++ b) = (paused_n a + paused_n b)%nat.
Proof. unfold paused_n. now rewrite filter_app, app_length. Qed.

Definition n1 (b : bool) : nat := if b then 1%nat else O.

Lemma begun_put l i x y : nth_error l i = Some x ->
  (length (filter begun (firstn i l ++ y :: skipn (S i) l)) + n1 (begun x) =
   length (filter begun l) + n1 (begun y))%nat.
Proof.
  intro H. rewrite (split_nth l i x H) at 3. rewrite !filter_app, !app_length. cbn [filter].
  destruct (begun x), (begun y); cbn; lia.
Qed.

Lemma begun_app l a : length (filter begun (l ++ [(a, PNew)])) = length (filter begun l).
Proof. rewrite filter_app, app_length. cbn. unfold begun. cbn. rewrite andb_false_r. cbn. lia. Qed.

Definition count_inv (s : srv) (es : list event) : Prop := length (filter begun (tasks s)) = paused_n es.

Lemma count_step s es l s' e : count_inv s es -> step s l = Some (s', e) -> count_inv s' (es ++ e).
Proof.
  unfold count_inv. intros I H. rewrite paused_n_app, <- I.
  assert (U : forall x, tasks (unpause x) = tasks x) by (intro; apply unpause_same).
  stepcases H; unfold quiet_end, end_with, set_task; cbn [tasks w_aq w_mq w_tasks w_cons w_mon w_pause
    w_registry w_loaded w_conn w_sendq w_sim w_stop paused_n filter length]; rewrite ?U; cbn [tasks w_mq];
    try (cbn; lia); try (rewrite begun_app; cbn; lia);
    match goal with E : nth_error (tasks s) _ = Some _ |- context [_ ++ ?y :: _] =>
      pose proof (begun_put _ _ _ y E) as B end;
    unfold begun at 2 4 in B; cbn in B; rewrite ?andb_false_r, ?andb_true_r in B; cbn in B;
    try (unfold n1 in B; cbn in *; lia).
Qed.

Theorem count_run ld initial ls s es : run (start ld initial) ls = Some (s, es) -> count_inv s es.
Proof.
  intro R. change es with ([] ++ es).
  refine (run_inv _ _ _ _ _ count_inv _ ls _ [] _ _ _ R).
  - intros. eapply count_step; eassumption.
  - reflexivity.
Qed.

Lemma count_split l : length (filter is_pause (map fst l)) =
  (length (filter begun l) + length (filter fresh l))%nat.
Proof.
  induction l as [|[a p] r IH]; [reflexivity|]. cbn. unfold begun at 1, fresh at 1. cbn.
  destruct (is_pause a); cbn; [|exact IH]. destruct p; cbn; lia.
Qed.

Lemma filter_none {A} (f : A -> bool) l : length (filter f l) = O -> forall x, In x l -> f x = false.
Proof.
  intros H x X. destruct (f x) eqn:E; [|reflexivity].
  assert (Y : In x (filter f l)) by (apply filter_In; auto). destruct (filter f l); [easy|discriminate].
Qed.

(** ** Without a shutdown *)
Lemma run_inv_l (Q : label -> Prop) (P : srv -> Prop) :
  (forall s l s' e, P s -> Q l -> step s l = Some (s', e) -> P s') ->
  forall ls s s' es, Forall Q ls -> P s -> run s ls = Some (s', es) -> P s'.
Proof.
  intros ST. induction ls as [|l r IH]; intros s s' es F I R; cbn in R.
  - injection R as <- <-. exact I.
  - destruct (step s l) as [[s1 e1]|] eqn:E; [|discriminate].
    destruct (run s1 r) as [[s2 e2]|] eqn:R1; [|discriminate]. injection R as <- _.
    inversion F; subst. eapply IH; [eassumption| |exact R1]. eapply ST; eassumption.
Qed.

Definition task_open (t : act * pc) : Prop := no_stop (fst t) /\ snd t <> PShut.

Definition open_inv (s : srv) : Prop :=
  Forall no_stop (aq s) /\ Forall task_open (tasks s) /\
  Forall (eq AUnpause) (mq s) /\ mon s = MPoll /\ stopping s = false /\ stopped s = false.

Definition plain_label (l : label) : Prop :=
  match l with LRecv (AShutdown _) | LRecv AUnpauseArgs => False | _ => True end.

Lemma open_keep s s' : aq s' = aq s -> Forall task_open (tasks s') -> mq s' = mq s ->
  mon s' = mon s -> stopping s' = stopping s -> stopped s' = stopped s -> open_inv s -> open_inv s'.
Proof.
  unfold open_inv. intros A B C D E F (I1 & I2 & I3 & I4 & I5 & I6). rewrite A, C, D, E, F.
  repeat split; assumption.
Qed.

Lemma open_put s i a p q : Forall task_open (tasks s) -> nth_error (tasks s) i = Some (a, p) -> q <> PShut ->
  Forall task_open (firstn i (tasks s) ++ (a, q) :: skipn (S i) (tasks s)).
Proof.
  intros F N Q. apply (forall_put _ _ _ _ _ N F). split; [|exact Q].
  rewrite Forall_forall in F. exact (proj1 (F _ (nth_error_In _ _ N))).
Qed.

Lemma open_task s i s' e : open_inv s -> task_step names i s = Some (s', e) -> open_inv s'.
Proof.
  intros I H. pose proof I as I0. destruct I0 as (I1 & I2 & I3 & I4 & I5 & I6).
  assert (NS : forall n p, nth_error (tasks s) i = Some (AShutdown n, p) -> False).
  { intros n p N. apply nth_error_In in N. rewrite Forall_forall in I2. exact (proj1 (I2 _ N)). }
  assert (NP : forall a, nth_error (tasks s) i = Some (a, PShut) -> False).
  { intros a N. apply nth_error_In in N. rewrite Forall_forall in I2. exact (proj2 (I2 _ N) eq_refl). }
  unfold task_step in H. brk H; injection H as <- <-;
    try (exfalso; eapply NS; reflexivity); try (exfalso; eapply NP; reflexivity);
    (apply (open_keep s); [| | | | | |exact I]); unfold quiet_end, end_with, set_task;
    cbn [aq tasks mq mon stopping stopped w_aq w_mq w_tasks w_cons w_mon w_pause w_registry
        w_loaded w_conn w_sendq w_sim w_stop];
    try reflexivity; try apply (unpause_same s);
    rewrite ?(proj1 (proj2 (unpause_same s)));
    (eapply open_put; [exact I2|eassumption|discriminate]).
Qed.

Lemma open_step s l s' e : open_inv s -> plain_label l -> step s l = Some (s', e) -> open_inv s'.
Proof.
  intros I Q H. pose proof I as I0. destruct I0 as (I1 & I2 & I3 & I4 & I5 & I6). destruct l; cbn in H.
  - (* LRecv *)
    brk H; injection H as <- <-; unfold open_inv; cbn; repeat split; try assumption; apply Forall_app;
      (split; [assumption|]); (constructor; [|constructor]); destruct a; easy.
  - brk H; injection H as <- <-; exact I.
  - brk H; injection H as <- <-; exact I.
  - brk H; injection H as <- <-; exact I.
  - brk H; injection H as <- <-; exact I.
  - brk H; injection H as <- <-; exact I.
  - brk H; injection H as <- <-; exact I.
  - (* LConsume *)
    brk H; injection H as <- <-; unfold open_inv; cbn. inversion I1; subst.
    repeat split; try assumption. apply Forall_app. split; [assumption|]. constructor; [|constructor].
    split; [assumption|discriminate].
  - brk H; injection H as <- <-; exact I.
  - brk H; injection H as <- <-; exact I.
  - brk H; injection H as <- <-; exact I.
  - destruct (loop_free s); [|discriminate]. exact (open_task _ _ _ _ I H).
  - (* LWork *)
    unfold work_step in H. brk H; injection H as <- <-; (apply (open_keep s); [| | | | | |exact I]);
      unfold set_task; cbn [aq tasks mq mon stopping stopped w_tasks w_loaded]; try reflexivity;
      (eapply open_put; [exact I2|eassumption|discriminate]).
  - (* LMon *)
    destruct (loop_free s); [|discriminate]. unfold mon_step in H. rewrite I4 in H.
    destruct (mq s) as [|m r] eqn:M; [discriminate|]. inversion I3; subst. injection H as <- <-.
    destruct (unpause_same (w_mq r s)) as (A & B & C & _ & _ & _ & _ & _ & _ & _ & _ & _ & D & _ & E & F).
    unfold open_inv. rewrite A, B, C, D, E, F. cbn. repeat split; assumption.
  - (* LSim *)
    unfold sim_step in H. brk H; injection H as <- <-; try exact I.
    unfold open_inv. cbn. repeat split; try assumption. apply Forall_app. split; [assumption|].
    constructor; [|constructor]. destruct a; easy.
  - rewrite I5 in H. discriminate.
Qed.

(** ** Together *)
Theorem lifted_calm ld initial ls s es : Forall no_stop initial -> no_shutdown ls ->
  run (start ld initial) ls = Some (s, es) -> lifted es -> pauses_performed (initial ++ queued es) es ->
  calm s.
Proof.
  intros NI NL R L PP.
  assert (O : open_inv s).
  { refine (run_inv_l plain_label open_inv open_step ls _ _ _ _ _ R).
    - apply Forall_forall. intros l IL. destruct l; cbn; auto. specialize (NL a IL). destruct a; easy.
    - unfold open_inv. cbn. repeat split; auto. }
  destruct O as (I1 & I2 & I3 & I4 & I5 & I6).
  destruct (pause_run _ _ _ _ _ R false L) as (P1 & _ & P3). specialize (P1 eq_refl).
  pose proof (count_run _ _ _ _ _ R) as C. unfold count_inv in C.
  destruct (queue_run _ _ _ _ _ _ _ _ _ _ R) as [Q _].
  unfold pauses_performed in PP. rewrite Q, filter_app, app_length, count_split in PP.
  change (length (filter (fun e => match e with EvPaused => true | _ => false end) es)) with (paused_n es) in PP.
  assert (Z1 : length (filter fresh (tasks s)) = O) by lia.
  assert (Z2 : length (filter is_pause (aq s)) = O) by lia.
  unfold calm. split; [exact P1|]. split; [exact I6|]. split; [exact I5|]. split; [exact I4|]. split.
  - apply Forall_forall. intros a A. pose proof (filter_none _ _ Z2 a A) as X.
    rewrite Forall_forall in I1. specialize (I1 a A). destruct a; cbn in *; easy.
  - intros i a p N.
    assert (T : task_ok names work (ndone s) ld (a, p)).
    { eapply reach_ok; [|exact N]. exists ls, es. exact R. }
    pose proof (nth_error_In _ _ N) as IN. pose proof (filter_none _ _ Z1 _ IN) as X.
    rewrite Forall_forall in I2. destruct (I2 _ IN) as [Y1 Y2]. cbn in Y1, Y2.
    destruct a; try (left; exact Coq.Init.Logic.I); [|contradiction].
    destruct p; cbn in X, T; try discriminate.
    + right. right. split; [reflexivity|]. split; [reflexivity|].
      destruct (P3 _ _ N) as [K|K]; [congruence|exact K].
    + destruct T as [[q T]|[[q T]|T]]; discriminate.
    + destruct T as [[[q T]|[[q T]|T]] _]; discriminate.
    + contradiction.
    + right. left. exists m. reflexivity.
Qed.

End S.
