(** * ServerProofs2: answers, the registry, and pauses, for every schedule. *)
From Coq Require Import Sorting.Sorted.
From Verif Require Import Base ServerModel ServerSpec ServerProofs1.

Section S.
Variable names : nat -> list string.
Variable work : nat -> act -> option string.
Variable loads : bool.
Variable rep : list act.
Variable dur : nat.
Notation step := (step names work loads rep dur).
Notation run := (run names work loads rep dur).

(** ** Answers *)
Definition task_msg (t : act * pc) : list msg :=
  match snd t with PEnd (Some m) => [m] | _ => [] end.

(** What a task may be doing, and what it has done. *)
Definition task_ok (now : nat) (ld : bool) (t : act * pc) : Prop :=
  match t with
  | (a, PNew) => True
  | (a, PPaused) => a = APause
  | (a, PWorker) => (exists q, a = ATable q) \/ (exists q, a = AAnnot q) \/ a = ALoad
  | (a, PGot r) => ((exists q, a = ATable q) \/ (exists q, a = AAnnot q) \/ a = ALoad) /\
      (a <> ALoad -> r = None -> ~ must_answer work ld a) /\
      (a <> ALoad -> forall d, r = Some d -> exists n, (n <= now)%nat /\ work n a = Some d)
  | (a, PAsleep) => a = ASleep
  | (a, PShut) => exists n, a = AShutdown n
  | (a, PEnd (Some m)) => answer_to names work now a m
  | (a, PEnd None) => ~ must_answer work ld a
  end.

Definition ans_inv (ld : bool) (s : srv) (es : list event) : Prop :=
  (ld = true -> loaded s = true) /\
  Forall (task_ok (ndone s) ld) (tasks s) /\
  Permutation (flat_map task_msg (tasks s)) (answers (puts es)).

Lemma answers_app a b : answers (a ++ b) = answers a ++ answers b.
Proof. apply filter_app. Qed.

Lemma forall_put (P : act * pc -> Prop) l i x y : nth_error l i = Some x -> Forall P l -> P y ->
  Forall P (firstn i l ++ y :: skipn (S i) l).
Proof.
  intros H F Y. rewrite (split_nth l i x H) in F. apply Forall_app in F. destruct F as [F1 F2].
  apply Forall_app. split; [exact F1|]. constructor; [exact Y|]. now inversion F2.
Qed.

Lemma msgs_put l i x y ms : nth_error l i = Some x -> task_msg x = [] ->
  Permutation (flat_map task_msg l) ms ->
  Permutation (flat_map task_msg (firstn i l ++ y :: skipn (S i) l)) (ms ++ task_msg y).
Proof.
  intros H E P. pose proof (put_flat task_msg l i x y H) as Q. rewrite E in Q. cbn in Q.
  unfold put in Q. rewrite Q, P. apply Permutation_app_comm.
Qed.

Lemma task_ok_mono n n' ld t : (n <= n')%nat -> task_ok n ld t -> task_ok n' ld t.
Proof.
  intros L. destruct t as [a p]. destruct p; cbn; auto.
  - intros (A & B & C). split; [exact A|]. split; [exact B|]. intros D d E.
    destruct (C D d E) as (k & K & W). exists k. split; [lia|exact W].
  - destruct m as [m|]; [|auto]. unfold answer_to.
    destruct a; auto; destruct m; auto.
    + intros (k & K & W). exists k. split; [lia|exact W].
    + intros (Q & k & K & W). split; [exact Q|]. exists k. split; [lia|exact W].
    + intros (Q & k & K & W). split; [exact Q|]. exists k. split; [lia|exact W].
Qed.

Lemma ans_step ld s es l s' e : ans_inv ld s es -> step s l = Some (s', e) -> ans_inv ld s' (es ++ e).
Proof.
  intros (L & T & P) H. unfold ans_inv. rewrite puts_app, answers_app.
  assert (U : forall x, tasks (unpause x) = tasks x) by (intro; apply unpause_same).
  assert (V : forall x, loaded (unpause x) = loaded x) by (intro; apply unpause_same).
  assert (V' : forall x, ndone (unpause x) = ndone x) by (intro; apply unpause_same).
  assert (T' : Forall (task_ok (S (ndone s)) ld) (tasks s)).
  { eapply Forall_impl; [|exact T]. intros t X. eapply task_ok_mono; [|exact X]. lia. }
  assert (OK : forall i t, nth_error (tasks s) i = Some t -> task_ok (ndone s) ld t).
  { intros i t N. rewrite Forall_forall in T. apply T. eapply nth_error_In. exact N. }
  stepcases H; unfold quiet_end, end_with, set_task; cbn [puts answers flat_map filter app];
    rewrite ?app_nil_r; cbn [w_aq w_mq w_tasks w_cons w_mon w_pause w_registry w_loaded w_conn w_sendq w_sim w_stop
      aq mq tasks loaded sendq registry ndone]; rewrite ?U, ?V, ?V';
    cbn [w_aq w_mq w_tasks w_cons w_mon w_pause w_registry w_loaded w_conn w_sendq w_sim w_stop
      aq mq tasks loaded sendq registry ndone];
    try (repeat split; assumption);
    match goal with
    | E : nth_error (tasks s) ?i = Some ?t |- _ =>
        pose proof (OK i t E) as K; cbn in K;
        split; [intro D; pose proof (L D); solve [congruence|rewrite (L D); auto]|];
        split; [apply (forall_put _ _ _ _ _ E T)|
                match goal with
                | |- Permutation (flat_map task_msg (_ ++ ?y :: _)) ?r =>
                    eapply Permutation_trans; [exact (msgs_put _ _ _ y _ E eq_refl P)|];
                    cbn [task_msg snd]; rewrite ?app_nil_r; apply Permutation_refl
                end]
    | _ => idtac
    end; cbn; auto; try tauto.
  all: try (split; [exact L|]; split; [|rewrite flat_map_app; cbn; rewrite app_nil_r; exact P]).
  all: try (apply Forall_app; split; [exact T|repeat constructor]).
  all: try (intro M; specialize (L M); congruence).
  all: try (intro M; specialize (L M); discriminate L).
  all: try (destruct K as (_ & K & _); apply K; [discriminate|reflexivity]).
  all: try (destruct K as [[[q K]|[[q K]|K]] _]; discriminate K).
  all: try (left; eexists; reflexivity).
  all: try (right; left; eexists; reflexivity).
  all: eauto.
  all: try (split; [eauto|]; split; [intros _ W M; exact (M _ W)|]; intros _ d W; exists (ndone s); split; [lia|exact W]).
  all: try (destruct K as (_ & _ & K); split; [reflexivity|]; apply K; [discriminate|reflexivity]).
  all: try (destruct K as [[q K]|[[q K]|K]]; discriminate K).
  all: try (subst; discriminate).
  all: try (destruct K as [n K]; discriminate K).
Qed.
Theorem ans_run ld initial ls s es : run (start ld initial) ls = Some (s, es) -> ans_inv ld s es.
Proof.
  intro R. change es with ([] ++ es).
  refine (run_inv _ _ _ _ _ (ans_inv ld) _ ls _ [] _ _ _ R).
  - intros. eapply ans_step; eassumption.
  - unfold ans_inv. cbn. auto.
Qed.

(** The messages with the number of the task that made each. *)
Fixpoint msgs_from (n : nat) (l : list (act * pc)) : list (nat * msg) :=
  match l with
  | [] => []
  | t :: r => map (fun m => (n, m)) (task_msg t) ++ msgs_from (S n) r
  end.

Lemma msgs_from_snd l : forall n, map snd (msgs_from n l) = flat_map task_msg l.
Proof.
  induction l as [|t r IH]; intro n; [reflexivity|]. cbn. rewrite map_app, IH, map_map. cbn.
  now rewrite map_id.
Qed.

Lemma msgs_from_in l : forall n i m, In (i, m) (msgs_from n l) <->
  exists k a, i = (n + k)%nat /\ nth_error l k = Some (a, PEnd (Some m)).
Proof.
  induction l as [|t r IH]; intros n i m; cbn.
  - split; [easy|]. intros (k & a & _ & H). destruct k; discriminate.
  - rewrite in_app_iff, IH. split.
    + intros [H|H].
      * destruct t as [a p]. unfold task_msg in H. cbn in H.
        destruct p; try easy. destruct m0; [|easy]. cbn in H. destruct H as [H|[]].
        injection H as <- <-. exists O, a. split; [lia|reflexivity].
      * destruct H as (k & a & -> & H). exists (S k), a. split; [lia|exact H].
    + intros (k & a & -> & H). destruct k as [|k].
      * left. cbn in H. injection H as ->. cbn. left. f_equal. lia.
      * right. exists k, a. split; [lia|exact H].
Qed.

Lemma msgs_from_nodup l : forall n, NoDup (map fst (msgs_from n l)).
Proof.
  induction l as [|[a p] r IH]; intro n; [constructor|]. cbn [msgs_from].
  unfold task_msg at 1. cbn [snd]. destruct p; try apply IH. destruct m; [|apply IH].
  cbn. constructor; [|apply IH]. intro H. apply in_map_iff in H. destruct H as ([i x] & E & H).
  cbn in E. subst i. apply msgs_from_in in H. destruct H as (k & b & E & _). lia.
Qed.

(** Each message but the heartbeats answers its own request, and each request is answered when it
    has been performed. *)
Theorem answers_run ld initial ls s es : run (start ld initial) ls = Some (s, es) ->
  exists by_request : list (nat * msg),
    NoDup (map fst by_request) /\
    Permutation (map snd by_request) (answers (puts es)) /\
    (forall i m, In (i, m) by_request ->
       exists a, nth_error (initial ++ queued es) i = Some a /\ answer_to names work (steps es) a m) /\
    (all_done s -> forall i a, nth_error (initial ++ queued es) i = Some a -> must_answer work ld a ->
       exists m, In (i, m) by_request).
Proof.
  intro R. destruct (ans_run _ _ _ _ _ R) as (L & T & P).
  destruct (queue_run _ _ _ _ _ _ _ _ _ _ R) as [Q _].
  exists (msgs_from 0 (tasks s)).
  split; [apply msgs_from_nodup|]. split; [rewrite msgs_from_snd; exact P|]. split.
  - intros i m H. apply msgs_from_in in H. destruct H as (k & a & -> & H). cbn.
    exists a. split.
    + rewrite Q, nth_error_app1.
      * now rewrite nth_error_map, H.
      * rewrite map_length. apply nth_error_Some. congruence.
    + rewrite Forall_forall in T. apply nth_error_In in H.
      destruct (sim_run _ _ _ _ _ _ _ _ _ _ R) as (N & _). rewrite N. exact (T _ H).
  - intros [D1 D2] i a H M. rewrite Q, D1, app_nil_r, nth_error_map in H.
    destruct (nth_error (tasks s) i) as [[b p]|] eqn:N; [|discriminate]. injection H as ->.
    rewrite Forall_forall in T, D2. pose proof (nth_error_In _ _ N) as I.
    destruct (D2 _ I) as [o E]. cbn in E. subst p. specialize (T _ I). cbn in T.
    destruct o as [m|]; [|contradiction]. exists m. apply msgs_from_in. exists i, a. auto.
Qed.

(** ** The registry *)
Lemma ascii_lt_trans a b c : Ascii.compare a b = Lt -> Ascii.compare b c = Lt -> Ascii.compare a c = Lt.
Proof. unfold Ascii.compare. rewrite !N.compare_lt_iff. lia. Qed.

Lemma ascii_eq a b : Ascii.compare a b = Eq -> a = b.
Proof. apply Ascii.compare_eq_iff. Qed.

Lemma str_lt_trans a : forall b c, String.compare a b = Lt -> String.compare b c = Lt ->
  String.compare a c = Lt.
Proof.
  induction a as [|x a IH]; intros [|y b] [|z c]; cbn; try easy.
  destruct (Ascii.compare x y) eqn:E1; try easy; destruct (Ascii.compare y z) eqn:E2; try easy.
  - apply ascii_eq in E1, E2. subst. destruct (Ascii.compare z z) eqn:E; try easy.
    + apply IH.
    + exfalso. unfold Ascii.compare in E. rewrite N.compare_refl in E. discriminate.
  - apply ascii_eq in E1. subst. now rewrite E2.
  - apply ascii_eq in E2. subst. now rewrite E1.
  - now rewrite (ascii_lt_trans _ _ _ E1 E2).
Qed.

Lemma ins_in x l y : In y (ins x l) <-> y = x \/ In y l.
Proof.
  induction l as [|z r IH]; cbn; [intuition|].
  destruct (String.compare x z) eqn:E.
  - apply String.compare_eq_iff in E. subst. cbn. intuition.
  - cbn. intuition.
  - cbn. rewrite IH. intuition.
Qed.

Lemma ins_sorted x l : increasing l -> increasing (ins x l).
Proof.
  unfold increasing. induction 1 as [|z r S IH F]; cbn; [repeat constructor|].
  destruct (String.compare x z) eqn:E.
  - now constructor.
  - constructor; [now constructor|]. constructor; [exact E|].
    eapply Forall_impl; [|exact F]. intros y Y. exact (str_lt_trans _ _ _ E Y).
  - constructor; [exact IH|]. apply Forall_forall. intros y Y. apply ins_in in Y.
    rewrite Forall_forall in F. destruct Y as [->|Y]; [|auto].
    rewrite String.compare_antisym, E. reflexivity.
Qed.

Lemma union_in l ts x : In x (set_union l ts) <-> In x l \/ In x ts.
Proof.
  unfold set_union. induction ts as [|t r IH]; cbn; [intuition|]. rewrite ins_in, IH. intuition.
Qed.

Lemma union_sorted l ts : increasing l -> increasing (set_union l ts).
Proof. intro H. unfold set_union. induction ts; cbn; [exact H|]. now apply ins_sorted. Qed.

Lemma diff_in l ts x : In x (set_diff l ts) <-> In x l /\ ~ In x ts.
Proof.
  unfold set_diff. rewrite filter_In. split; intros [A B]; split; auto.
  - intro C. apply negb_true_iff in B. assert (X : existsb (String.eqb x) ts = true).
    { apply existsb_exists. exists x. split; [exact C|apply String.eqb_refl]. }
    congruence.
  - apply negb_true_iff. destruct (existsb (String.eqb x) ts) eqn:E; [|reflexivity].
    apply existsb_exists in E. destruct E as (y & Y & E). apply String.eqb_eq in E. subst. contradiction.
Qed.

Lemma diff_sorted l ts : increasing l -> increasing (set_diff l ts).
Proof.
  unfold increasing, set_diff. induction 1 as [|z r S IH F]; cbn; [constructor|].
  destruct (negb _); [|exact IH]. constructor; [exact IH|].
  apply Forall_forall. intros y Y. apply filter_In in Y. rewrite Forall_forall in F. apply F, Y.
Qed.

Lemma registered_app x es e : forall P,
  registered x (es ++ e) P <-> registered x e (registered x es P).
Proof.
  induction es as [|y r IH]; intro P; cbn; [tauto|]. destruct y; apply IH.
Qed.

Definition reg_inv (s : srv) (es : list event) : Prop :=
  increasing (registry s) /\ forall x, In x (registry s) <-> registered x es False.

Lemma reg_step s es l s' e : reg_inv s es -> step s l = Some (s', e) -> reg_inv s' (es ++ e).
Proof.
  intros [I R] H.
  assert (U : forall x, registry (unpause x) = registry x) by (intro; apply unpause_same).
  assert (K : registry s' = registry s -> (forall x P, registered x e P <-> P) -> reg_inv s' (es ++ e)).
  { intros A B. unfold reg_inv. rewrite A. split; [exact I|]. intro x.
    rewrite registered_app, B. apply R. }
  destruct l; try (stepcases H; apply K; unfold quiet_end, end_with, set_task; cbn; rewrite ?U;
                   intros; cbn; tauto).
  unfold ServerModel.step, task_step in H. brk H; injection H as <- <-;
    try (apply K; unfold quiet_end, end_with, set_task; cbn; rewrite ?U; intros; cbn; tauto).
  - split; cbn; [now apply union_sorted|]. intro x. rewrite union_in, registered_app, R. cbn. tauto.
  - split; cbn; [now apply diff_sorted|]. intro x. rewrite diff_in, registered_app, R. cbn. tauto.
Qed.

Theorem reg_run ld initial ls s es : run (start ld initial) ls = Some (s, es) -> reg_inv s es.
Proof.
  intro R. change es with ([] ++ es).
  refine (run_inv _ _ _ _ _ reg_inv _ ls _ [] _ _ _ R).
  - intros. eapply reg_step; eassumption.
  - split; cbn; [constructor|]. tauto.
Qed.

(** A registry message has exactly the names registered when it was made, in order. *)
Theorem registry_message ld initial ls s pre l post :
  run (start ld initial) ls = Some (s, pre ++ EvPut (MRegistry l) :: post) ->
  increasing l /\ forall x, In x l <-> registered x pre False.
Proof.
  intro R. destruct (run_split _ _ _ _ _ _ _ _ _ _ _ R) as (l1 & k & l2 & s1 & s2 & -> & R1 & ST & R2).
  destruct (reg_run _ _ _ _ _ R1) as [I M].
  assert (X : l = registry s1).
  { unfold ServerModel.step, task_step, work_step, mon_step, sim_step in ST. brk ST; try discriminate;
      injection ST; intros; subst; auto; discriminate. }
  subst l. auto.
Qed.

(** ** Pauses *)

(** While a pause is in force and no unpause is performed, no time step ends, except the one whose
    end had already been decided by the look for a pause. *)
Definition held (s : srv) : nat := match sim s with SEmpty => 1%nat | _ => O end.

Lemma pause_step s l s' e i : step s l = Some (s', e) -> pausek s = Some i -> unpauses e = O ->
  (exists j, pausek s' = Some j) /\ (steps e + held s' <= held s)%nat.
Proof.
  intros H P U. unfold held.
  assert (V : forall x, sim (unpause x) = sim x) by (intro; apply unpause_same).
  assert (K : sim s' = sim s -> steps e = O -> (pausek s' = pausek s \/ exists j, pausek s' = Some j) ->
    (exists j, pausek s' = Some j) /\
    (steps e + (match sim s' with SEmpty => 1 | _ => 0 end) <= match sim s with SEmpty => 1 | _ => 0 end)%nat).
  { intros A B C. rewrite A, B. split; [|lia]. destruct C as [->|C]; eauto. }
  destruct l; try (stepcases H; try discriminate U; apply K; unfold quiet_end, end_with, set_task; cbn;
                   solve [reflexivity|left; reflexivity|right; eexists; reflexivity]).
  unfold ServerModel.step, sim_step in H. destruct (sim s) as [| |[|a r]| | | |] eqn:E.
  - destruct (loaded s); [destruct dur|]; injection H as <- <-; cbn; (split; [eauto|lia]).
  - injection H as <- <-; cbn; (split; [eauto|lia]).
  - injection H as <- <-; cbn; (split; [eauto|lia]).
  - destruct (is_event a); injection H as <- <-; cbn; (split; [eauto|lia]).
  - rewrite P in H. injection H as <- <-. rewrite E. cbn. split; [eauto|lia].
  - destruct (aq s); [|injection H as <- <-; cbn; (split; [eauto|lia])].
    injection H as <- <-. cbn [pausek w_sim sim]. split; [eauto|].
    destruct (Nat.ltb (S (ndone s)) dur); cbn; lia.
  - discriminate.
  - discriminate.
Qed.

Theorem pause_holds ls : forall s s' es i, run s ls = Some (s', es) -> pausek s = Some i ->
  unpauses es = O -> (exists j, pausek s' = Some j) /\ (steps es + held s' <= held s)%nat.
Proof.
  induction ls as [|l r IH]; intros s s' es i R P U; cbn in R.
  - injection R as <- <-. split; [eauto|]. cbn. lia.
  - destruct (step s l) as [[s1 e1]|] eqn:E; [|discriminate].
    destruct (run s1 r) as [[s2 e2]|] eqn:R1; [|discriminate]. injection R as <- <-.
    rewrite unpauses_app in U.
    destruct (pause_step _ _ _ _ _ E P ltac:(lia)) as [[j P1] H1].
    destruct (IH _ _ _ _ R1 P1 ltac:(lia)) as [Q H2]. rewrite steps_app. split; [exact Q|lia].
Qed.

(** Between a pause and the next unpause at most one time step ends. *)
Theorem paused_steps s0 ls s pre mid post :
  run s0 ls = Some (s, pre ++ EvPaused :: mid ++ post) -> unpauses mid = O -> (steps mid <= 1)%nat.
Proof.
  intros R U. destruct (run_split _ _ _ _ _ _ _ _ _ _ _ R) as (l1 & k & l2 & s1 & s2 & -> & R1 & ST & R2).
  assert (P : exists i, pausek s2 = Some i).
  { unfold ServerModel.step, task_step, work_step, mon_step, sim_step in ST. brk ST; try discriminate;
      injection ST; intros; subst; try discriminate; cbn; eauto. }
  destruct P as [i P].
  assert (C : exists la lb t e1, run s2 la = Some (t, mid) /\ run t lb = Some (s, e1)).
  { clear - R2. revert s2 mid R2. induction l2 as [|l r IH]; intros s2 mid R2; cbn in R2.
    - injection R2 as <- X. symmetry in X. apply app_eq_nil in X. destruct X as [-> ->].
      exists [], [], s2, []. auto.
    - destruct mid as [|x mid].
      + exists [], (l :: r), s2, post. cbn. auto.
      + destruct (step s2 l) as [[t1 e1]|] eqn:E; [|discriminate].
        destruct (run t1 r) as [[t2 e2]|] eqn:R1; [|discriminate]. injection R2 as <- X.
        destruct (step_one _ _ _ _ _ _ _ _ _ E) as [->|[y ->]].
        * cbn in X. subst e2. destruct (IH t1 (x :: mid) R1) as (la & lb & t & f & A & B).
          exists (l :: la), lb, t, f. cbn. rewrite E, A. auto.
        * cbn in X. injection X as -> ->. destruct (IH t1 mid R1) as (la & lb & t & f & A & B).
          exists (l :: la), lb, t, f. cbn. rewrite E, A. auto. }
  destruct C as (la & lb & t & f & RA & _).
  destruct (pause_holds _ _ _ _ _ RA P U) as [_ H]. unfold held in H. destruct (sim s2), (sim t); lia.
Qed.

End S.
