(** * ServerProofs4: states of the server from which no schedule gets any further. *)
From Verif Require Import Base ServerModel ServerSpec ServerProofs1 ServerProofs2.

Section S.
Variable names : nat -> list string.
Variable work : nat -> act -> option string.
Variable loads : bool.
Variable rep : list act.
Variable dur : nat.
Notation step := (step names work loads rep dur).
Notation run := (run names work loads rep dur).

(** A state invariant along a run, with what it says about the events of each step. *)
Lemma run_keeps (P : srv -> Prop) (Q : label -> Prop) (f : list event -> Prop) :
  f [] -> (forall a b, f a -> f b -> f (a ++ b)) ->
  (forall s l s' e, P s -> Q l -> step s l = Some (s', e) -> f e -> P s') ->
  (forall s l s' e, P s -> Q l -> step s l = Some (s', e) -> f e) ->
  forall ls s s' es, P s -> Forall Q ls -> run s ls = Some (s', es) -> P s' /\ f es.
Proof.
  intros F0 FA ST SF. induction ls as [|l r IH]; intros s s' es H QL R; cbn in R.
  - injection R as <- <-. auto.
  - destruct (step s l) as [[s1 e1]|] eqn:E; [|discriminate].
    destruct (run s1 r) as [[s2 e2]|] eqn:R1; [|discriminate]. injection R as <- <-.
    inversion QL. subst. pose proof (SF _ _ _ _ H H2 E) as FE.
    destruct (IH s1 s2 e2 (ST _ _ _ _ H H2 E FE) H3 R1) as [A B]. auto.
Qed.

Lemma set_other l i j (a : act) (p q : pc) t : nth_error l j = Some (a, p) -> i <> j ->
  nth_error l i = Some t -> nth_error (firstn j l ++ (a, q) :: skipn (S j) l) i = Some t.
Proof. intros N D H. rewrite <- H. exact (nth_put_ne _ _ _ _ _ N D). Qed.

(** The consumer waits for a pause. *)
Definition waits (i : nat) (s : srv) : Prop :=
  nth_error (tasks s) i = Some (APause, PPaused) /\ ~ In i (cancelled s) /\ cons s = CWait /\
  In i (staged s).

(** ... which is not the one an unpause would cancel. *)
Definition lost_pause (i : nat) (s : srv) : Prop := waits i s /\ pausek s <> Some i.

Lemma existsb_nat i l : existsb (Nat.eqb i) l = true -> In i l.
Proof. intro H. apply existsb_exists in H. destruct H as (x & A & B). apply Nat.eqb_eq in B. now subst. Qed.

Lemma waits_not_done i s : waits i s ->
  forallb (fun i => match nth_error (tasks s) i with Some (_, PEnd _) => true | _ => false end)
    (staged s) = true -> False.
Proof.
  intros (A & _ & _ & B) H. rewrite forallb_forall in H. specialize (H _ B). cbn in H. rewrite A in H.
  discriminate.
Qed.

Lemma waits_task i s j s' e : waits i s -> task_step names j s = Some (s', e) ->
  (forall k, pausek s = Some k -> k = i -> unpauses e = O) ->
  waits i s' /\ started e = [] /\ (pausek s <> Some i -> pausek s' <> Some i) /\
  (forall k, k <> i -> nth_error (tasks s) k = None -> nth_error (tasks s') k = None).
Proof.
  intros W H U. pose proof W as (A & B & C & D).
  destruct (nth_error (tasks s) j) as [[a p]|] eqn:N; [|unfold task_step in H; rewrite N in H; discriminate].
  assert (X : i <> j \/ (i = j /\ a = APause /\ p = PPaused)).
  { destruct (Nat.eq_dec i j) as [->|NE]; [right|left; exact NE]. rewrite A in N. injection N as <- <-. auto. }
  destruct X as [NE|(-> & -> & ->)].
  2:{ unfold task_step in H. rewrite N in H. destruct (existsb (Nat.eqb j) (cancelled s)) eqn:E; [|discriminate].
      apply existsb_nat in E. contradiction. }
  assert (K : forall q s1, tasks s1 = firstn j (tasks s) ++ (a, q) :: skipn (S j) (tasks s) ->
    ~ In i (cancelled s1) -> cons s1 = cons s -> staged s1 = staged s -> waits i s1 /\
    (forall k, k <> i -> nth_error (tasks s) k = None -> nth_error (tasks s1) k = None)).
  { intros q s1 T CA CO SG. split.
    - unfold waits. rewrite T, CO, SG. repeat split; auto. eapply set_other; eassumption.
    - intros k KN K0. rewrite T. apply nth_error_None. apply nth_error_None in K0.
      pose proof (put_len _ _ _ (a, q) N) as L. unfold put in L. lia. }
  assert (G : forall q, tasks s' = firstn j (tasks s) ++ (a, q) :: skipn (S j) (tasks s) ->
    cancelled s' = cancelled s -> cons s' = cons s -> staged s' = staged s -> started e = [] ->
    (pausek s' = pausek s \/ pausek s' = Some j \/ pausek s' = None) ->
    waits i s' /\ started e = [] /\ (pausek s <> Some i -> pausek s' <> Some i) /\
    (forall k, k <> i -> nth_error (tasks s) k = None -> nth_error (tasks s') k = None)).
  { intros q T CA CO SG SE PK. destruct (K q s' T) as [K1 K2]; try congruence.
    split; [exact K1|]. split; [exact SE|]. split; [|exact K2].
    intro NP. destruct PK as [->|[->| ->]]; congruence. }
  unfold task_step in H. rewrite N in H.
  destruct (match a with AUnpause => true | _ => false end) eqn:AU.
  - destruct a; try discriminate AU. destruct p; try discriminate H; brk H; injection H as <- <-;
      try (eapply G; unfold quiet_end, set_task; cbn; auto; fail).
    destruct (pausek s) as [k|] eqn:P.
    + assert (KI : k <> i). { intros ->. specialize (U i eq_refl eq_refl). discriminate U. }
      assert (EU : unpause s = w_pause None (k :: cancelled s) s) by (unfold unpause; now rewrite P).
      rewrite EU.
      destruct (K (PEnd None) (quiet_end j AUnpause (w_pause None (k :: cancelled s) s))) as [K1 K2];
        try reflexivity.
      * cbn. intros [E|E]; [congruence|contradiction].
      * split; [exact K1|]. split; [reflexivity|]. split; [cbn; discriminate|exact K2].
    + assert (EU : unpause s = s) by (unfold unpause; now rewrite P).
      rewrite EU in *. eapply G; unfold quiet_end, set_task; cbn; auto.
  - destruct a; try discriminate AU; clear AU; brk H; injection H as <- <-;
      (eapply G; unfold quiet_end, end_with, set_task; cbn; auto; fail).
Qed.

(** Nothing is ever begun after a pause has been lost. *)
Lemma lost_step i s l s' e : lost_pause i s -> step s l = Some (s', e) ->
  lost_pause i s' /\ started e = [] /\ (aq s <> [] -> aq s' <> [] /\ steps e = O).
Proof.
  intros [W NP] H. pose proof W as (A & B & C & D).
  assert (G : tasks s' = tasks s -> cancelled s' = cancelled s \/ (exists k, k <> i /\ cancelled s' = k :: cancelled s) ->
    cons s' = cons s -> staged s' = staged s -> pausek s' = pausek s \/ pausek s' = None -> lost_pause i s').
  { intros T CA CO SG PK. split.
    - unfold waits. rewrite T, CO, SG. repeat split; auto. destruct CA as [->|(k & KN & ->)]; [exact B|].
      intros [E|E]; [congruence|contradiction].
    - destruct PK as [->| ->]; congruence. }
  destruct l; cbn -[task_step work_step mon_step sim_step] in H; rewrite ?C in H; cbn -[task_step work_step mon_step sim_step] in H.
  - brk H; injection H as <- <-; (split; [apply G; cbn; auto|]; split; [reflexivity|]; cbn; intros X; split; auto;
      intro Y; apply app_eq_nil in Y; destruct Y; discriminate).
  - brk H; injection H as <- <-; (split; [apply G; cbn; auto|]; split; [reflexivity|]; cbn; auto).
  - brk H; injection H as <- <-; (split; [apply G; cbn; auto|]; split; [reflexivity|]; cbn; auto).
  - brk H; injection H as <- <-; (split; [apply G; cbn; auto|]; split; [reflexivity|]; cbn; auto).
  - brk H; injection H as <- <-; (split; [apply G; cbn; auto|]; split; [reflexivity|]; cbn; auto).
  - brk H; injection H as <- <-; (split; [apply G; cbn; auto|]; split; [reflexivity|]; cbn; auto).
  - brk H; injection H as <- <-; (split; [apply G; cbn; auto|]; split; [reflexivity|]; cbn; auto).
  - brk H; discriminate.
  - brk H; discriminate.
  - brk H. exfalso. eapply waits_not_done; eassumption.
  - brk H; discriminate.
  - brk H. destruct (waits_task i s i0 s' e W H) as (W1 & S1 & P1 & _).
    { intros k E ->. contradiction. }
    split; [split; [exact W1|exact (P1 NP)]|]. split; [exact S1|]. intro X.
    assert (Y : aq s' = aq s /\ steps e = O).
    { assert (U : forall x, aq (unpause x) = aq x) by (intro; apply unpause_same).
      unfold task_step in H; brk H; injection H as <- <-; unfold quiet_end, end_with, set_task; cbn;
        rewrite ?U; auto. }
    destruct Y as [-> ->]. auto.
  - unfold work_step in H. destruct (nth_error (tasks s) i0) as [[a p]|] eqn:N; [|discriminate].
    assert (NE : i <> i0).
    { intros <-. rewrite A in N. injection N as <- <-. discriminate. }
    destruct a; try discriminate; destruct p; try discriminate; injection H as <- <-;
      (split; [split; [unfold waits, set_task; cbn; repeat split; auto; eapply set_other; eassumption|exact NP]|];
       split; [reflexivity|]; cbn; auto).
  - brk H. unfold mon_step in H. brk H; injection H as <- <-;
      try (split; [apply G; cbn; auto|]; split; [reflexivity|]; cbn; auto; fail).
    unfold unpause in *. cbn in *. destruct (pausek s) as [k|] eqn:P; cbn in *.
    + split; [apply G; cbn; auto; right; exists k; split; [congruence|reflexivity]|].
      split; [reflexivity|]. cbn. auto.
    + split; [apply G; cbn; auto|]. split; [reflexivity|]. cbn. auto.
  - unfold sim_step in H. destruct (sim s) as [| |[|a r]| | | |]; try discriminate H; brk H; injection H as <- <-;
      (split; [apply G; cbn; auto|]; split; [reflexivity|]; cbn; intros X; split; auto;
       try (intro Y; apply app_eq_nil in Y; destruct Y; discriminate)); congruence.
  - brk H; injection H as <- <-; (split; [apply G; cbn; auto|]; split; [reflexivity|]; cbn; auto).
Qed.

(** Once a pause has been lost and something is on the queue, no time step ends and nothing is
    answered any more, whatever the client sends. *)
Theorem lost_for_ever i ls : forall s s' es, lost_pause i s -> aq s <> [] -> run s ls = Some (s', es) ->
  started es = [] /\ steps es = O.
Proof.
  induction ls as [|l r IH]; intros s s' es L Q R; cbn in R.
  - injection R as <- <-. auto.
  - destruct (step s l) as [[s1 e1]|] eqn:E; [|discriminate].
    destruct (run s1 r) as [[s2 e2]|] eqn:R1; [|discriminate]. injection R as <- <-.
    destruct (lost_step _ _ _ _ _ L E) as (L1 & S1 & A1). destruct (A1 Q) as [Q1 Z1].
    destruct (IH _ _ _ L1 Q1 R1) as [S2 Z2]. rewrite started_app, steps_app, S1, S2, Z1, Z2. auto.
Qed.

(** While the consumer waits for a pause that has not been lifted, nothing is begun. *)
Lemma waits_step i s l s' e : waits i s -> step s l = Some (s', e) -> unpauses e = O ->
  waits i s' /\ started e = [].
Proof.
  intros W H U0. pose proof W as (A & B & C & D).
  assert (G : tasks s' = tasks s -> cancelled s' = cancelled s ->
    cons s' = cons s -> staged s' = staged s -> waits i s').
  { intros T CA CO SG. unfold waits. rewrite T, CA, CO, SG. repeat split; auto. }
  destruct l; cbn -[task_step work_step mon_step sim_step] in H; rewrite ?C in H; cbn -[task_step work_step mon_step sim_step] in H.
  all: try solve [brk H; injection H as <- <-; (split; [apply G; cbn; auto|reflexivity])].
  - brk H. exfalso. eapply waits_not_done; eassumption.
  - brk H. destruct (waits_task i s i0 s' e W H) as (W1 & S1 & _); auto.
  - unfold work_step in H. destruct (nth_error (tasks s) i0) as [[a p]|] eqn:N; [|discriminate].
    assert (NE : i <> i0).
    { intros <-. rewrite A in N. injection N as <- <-. discriminate. }
    destruct a; try discriminate; destruct p; try discriminate; injection H as <- <-;
      (split; [unfold waits, set_task; cbn; repeat split; auto; eapply set_other; eassumption|reflexivity]).
  - brk H. unfold mon_step in H. brk H; injection H as <- <-;
      try solve [split; [apply G; cbn; auto|reflexivity]]. discriminate U0.
  - unfold sim_step in H. destruct (sim s) as [| |[|a r]| | | |]; try discriminate H; brk H; injection H as <- <-;
      (split; [apply G; cbn; auto|reflexivity]).
Qed.

Theorem waits_run i ls : forall s s' es, waits i s -> run s ls = Some (s', es) -> unpauses es = O ->
  started es = [].
Proof.
  induction ls as [|l r IH]; intros s s' es L R U; cbn in R.
  - injection R as <- <-. auto.
  - destruct (step s l) as [[s1 e1]|] eqn:E; [|discriminate].
    destruct (run s1 r) as [[s2 e2]|] eqn:R1; [|discriminate]. injection R as <- <-.
    rewrite unpauses_app in U. destruct (waits_step _ _ _ _ _ L E ltac:(lia)) as (L1 & S1).
    rewrite started_app, S1. exact (IH _ _ _ L1 R1 ltac:(lia)).
Qed.

(** No unpause is performed that nobody asks for. *)
Definition no_unpause (s : srv) : Prop :=
  ~ In AUnpause (mq s) /\ ~ In AUnpause (aq s) /\ forall p, ~ In (AUnpause, p) (tasks s).

Hypothesis rep_events : Forall (fun a => is_event a = true) rep.

Definition todo_events (s : srv) : Prop :=
  match sim s with SQueue t => Forall (fun a => is_event a = true) t | _ => True end.

Lemma in_put l j (a : act) (p q : pc) x : nth_error l j = Some (a, p) ->
  In x (firstn j l ++ (a, q) :: skipn (S j) l) -> In x l \/ x = (a, q).
Proof.
  intros N H. rewrite (split_nth _ _ _ N). rewrite in_app_iff in H |- *. cbn in H |- *. intuition.
Qed.

Lemma no_unpause_step s l s' e : no_unpause s -> todo_events s -> l <> LRecv AUnpause ->
  step s l = Some (s', e) -> no_unpause s' /\ todo_events s' /\ unpauses e = O.
Proof.
  intros (A & B & C) TE NL H.
  assert (G : mq s' = mq s -> aq s' = aq s -> tasks s' = tasks s -> no_unpause s').
  { intros E1 E2 E. unfold no_unpause. rewrite E1, E2, E. auto. }
  assert (TS : sim s' = sim s -> todo_events s') by (intro E; unfold todo_events; rewrite E; exact TE).
  assert (M : forall j a p q, nth_error (tasks s) j = Some (a, p) ->
    mq s' = mq s -> aq s' = aq s -> tasks s' = firstn j (tasks s) ++ (a, q) :: skipn (S j) (tasks s) ->
    no_unpause s').
  { intros j a p q N E1 E2 E. unfold no_unpause. rewrite E1, E2, E. split; [exact A|]. split; [exact B|]. intros p' X.
    apply (in_put _ _ _ _ _ _ N) in X. destruct X as [X|X]; [eapply C; exact X|].
    injection X as <- <-. apply nth_error_In in N. eapply C. exact N. }
  destruct l; cbn -[task_step work_step mon_step sim_step] in H.
  - brk H; injection H as <- <-; (split; [|split; [apply TS; solve [reflexivity|assumption]|reflexivity]]);
      (split; [|split]); cbn; auto; rewrite in_app_iff; cbn; intuition congruence.
  - brk H; injection H as <- <-; (split; [apply G; solve [reflexivity|assumption]|split; [apply TS; solve [reflexivity|assumption]|reflexivity]]).
  - brk H; injection H as <- <-; (split; [apply G; solve [reflexivity|assumption]|split; [apply TS; solve [reflexivity|assumption]|reflexivity]]).
  - brk H; injection H as <- <-; (split; [apply G; solve [reflexivity|assumption]|split; [apply TS; solve [reflexivity|assumption]|reflexivity]]).
  - brk H; injection H as <- <-; (split; [apply G; solve [reflexivity|assumption]|split; [apply TS; solve [reflexivity|assumption]|reflexivity]]).
  - brk H; injection H as <- <-; (split; [apply G; solve [reflexivity|assumption]|split; [apply TS; solve [reflexivity|assumption]|reflexivity]]).
  - brk H; injection H as <- <-; (split; [apply G; solve [reflexivity|assumption]|split; [apply TS; solve [reflexivity|assumption]|reflexivity]]).
  - brk H; injection H as <- <-. split; [|split; [apply TS; solve [reflexivity|assumption]|reflexivity]].
    split; [exact A|]. cbn in B. split; [cbn; tauto|].
    intros p X. cbn in X. apply in_app_iff in X. destruct X as [X|[X|[]]]; [eapply C; exact X|].
    injection X as X _. tauto.
  - brk H; injection H as <- <-; (split; [apply G; solve [reflexivity|assumption]|split; [apply TS; solve [reflexivity|assumption]|reflexivity]]).
  - brk H; injection H as <- <-; (split; [apply G; solve [reflexivity|assumption]|split; [apply TS; solve [reflexivity|assumption]|reflexivity]]).
  - brk H; injection H as <- <-; (split; [apply G; solve [reflexivity|assumption]|split; [apply TS; solve [reflexivity|assumption]|reflexivity]]).
  - brk H. unfold task_step in H. destruct (nth_error (tasks s) i) as [[a p]|] eqn:N; [|discriminate].
    assert (NA : a <> AUnpause). { intros ->. apply nth_error_In in N. eapply C. exact N. }
    destruct a; try congruence; brk H; injection H as <- <-;
      (split; [eapply M; [exact N| | |]; solve [reflexivity|assumption]|split; [apply TS; solve [reflexivity|assumption]|reflexivity]]).
  - unfold work_step in H. destruct (nth_error (tasks s) i) as [[a p]|] eqn:N; [|discriminate].
    destruct a; try discriminate; destruct p; try discriminate; injection H as <- <-;
      (split; [eapply M; [exact N| | |]; solve [reflexivity|assumption]|split; [apply TS; solve [reflexivity|assumption]|reflexivity]]).
  - brk H. unfold mon_step in H. destruct (mon s); brk H; injection H as <- <-;
      try (split; [apply G; solve [reflexivity|assumption]|split; [apply TS; solve [reflexivity|assumption]|reflexivity]]);
      try (exfalso; cbn in A; tauto);
      (split; [|split; [apply TS; solve [reflexivity|assumption]|reflexivity]]);
      (split; [cbn in A |- *; tauto|split; [exact B|exact C]]).
  - unfold sim_step in H. unfold todo_events in *.
    destruct (sim s) as [| |[|a r]| | | |] eqn:S; try discriminate H; brk H; injection H as <- <-;
      try (split; [apply G; solve [reflexivity|assumption]|split; cbn; try rewrite S; auto]).
    split; [|split; [cbn; inversion TE; assumption|reflexivity]].
    split; [exact A|]. split; [|exact C]. cbn. rewrite in_app_iff. cbn.
    intros [X|[X|[]]]; [contradiction|]. subst a. discriminate.
  - brk H; injection H as <- <-; (split; [apply G; solve [reflexivity|assumption]|split; [apply TS; solve [reflexivity|assumption]|reflexivity]]).
Qed.

Theorem no_unpause_run ls : forall s s' es, no_unpause s -> todo_events s -> no_unpause_asked ls ->
  run s ls = Some (s', es) -> unpauses es = O.
Proof.
  unfold no_unpause_asked.
  induction ls as [|l r IH]; intros s s' es A B N R; cbn in R.
  - injection R as <- <-. auto.
  - destruct (step s l) as [[s1 e1]|] eqn:E; [|discriminate].
    destruct (run s1 r) as [[s2 e2]|] eqn:R1; [|discriminate]. injection R as <- <-.
    assert (NL : l <> LRecv AUnpause) by (intros ->; apply N; left; reflexivity).
    assert (NR : ~ In (LRecv AUnpause) r) by (intro X; apply N; right; exact X).
    destruct (no_unpause_step _ _ _ _ A B NL E) as (A1 & B1 & Z).
    rewrite unpauses_app, Z. cbn. eapply IH; eauto.
Qed.

(** A simulation thread that has failed stays so. *)
Theorem failed_for_ever ls : forall s s' es, sim s = SFail -> run s ls = Some (s', es) -> steps es = O.
Proof.
  induction ls as [|l r IH]; intros s s' es F R; cbn in R.
  - injection R as <- <-. auto.
  - destruct (step s l) as [[s1 e1]|] eqn:E; [|discriminate].
    destruct (run s1 r) as [[s2 e2]|] eqn:R1; [|discriminate]. injection R as <- <-.
    assert (X : sim s1 = SFail /\ steps e1 = O).
    { assert (U : forall x, sim (unpause x) = sim x) by (intro; apply unpause_same).
      destruct l; try (stepcases E; unfold quiet_end, end_with, set_task; cbn; rewrite ?U; cbn; auto; fail).
      unfold ServerModel.step, sim_step in E. rewrite F in E. discriminate. }
    destruct X as [F1 Z]. rewrite steps_app, Z. exact (IH _ _ _ F1 R1).
Qed.

(** A shutdown waiting for the queue, behind a pause: the unpause waits behind the shutdown. *)
Definition wedged (i : nat) (s : srv) : Prop :=
  waits i s /\ mon s = MShut /\ (2 <= length (aq s))%nat /\ stopping s = false /\ stopped s = false /\
  (forall j a p, nth_error (tasks s) j = Some (a, p) -> j <> i -> finished (a, p)).

Theorem wedged_for_ever i ls : forall s s' es, wedged i s -> run s ls = Some (s', es) ->
  started es = [] /\ unpauses es = O /\ ~ In EvStopped es.
Proof.
  induction ls as [|l r IH]; intros s s' es W R; cbn in R.
  - injection R as <- <-. cbn. auto.
  - destruct (step s l) as [[s1 e1]|] eqn:E; [|discriminate].
    destruct (run s1 r) as [[s2 e2]|] eqn:R1; [|discriminate]. injection R as <- <-.
    assert (X : wedged i s1 /\ started e1 = [] /\ unpauses e1 = O /\ ~ In EvStopped e1).
    { destruct W as (W & A & B & C & D & F). pose proof W as (W1 & W2 & W3 & W4).
      assert (L : Nat.leb (length (aq s)) 1 = false) by (apply Nat.leb_gt; lia).
      assert (TK : forall j a p, nth_error (tasks s) j = Some (a, p) -> finished (a, p) \/ (a, p) = (APause, PPaused)).
      { intros j a p N. destruct (Nat.eq_dec j i) as [->|NE]; [|left; eapply F; eassumption].
        right. congruence. }
      assert (G : tasks s1 = tasks s -> cancelled s1 = cancelled s -> cons s1 = cons s -> staged s1 = staged s ->
        mon s1 = mon s -> (length (aq s) <= length (aq s1))%nat -> stopping s1 = false -> stopped s1 = false ->
        wedged i s1).
      { intros T CA CO SG MO AQ ST SP. split; [unfold waits; rewrite T, CA, CO, SG; exact W|].
        split; [congruence|]. split; [lia|]. split; [exact ST|]. split; [exact SP|]. rewrite T. exact F. }
      assert (NE : forall e, ~ In EvStopped [] /\ (e <> EvStopped -> ~ In EvStopped [e])).
      { cbn. intuition. }
      destruct l; cbn -[task_step work_step mon_step sim_step] in E; rewrite ?W3, ?D, ?C in E; cbn -[task_step work_step mon_step sim_step] in E.
      all: try (brk E; injection E as <- <-;
        (split; [apply G; cbn; rewrite ?app_length; cbn; solve [auto|lia]|];
         split; [reflexivity|]; split; [reflexivity|]; cbn; intuition discriminate); fail).
      all: try discriminate.
      - brk E. exfalso. eapply waits_not_done; eassumption.
      - brk E. exfalso. unfold task_step in E.
        destruct (nth_error (tasks s) i0) as [[a p]|] eqn:N; [|discriminate].
        destruct (TK _ _ _ N) as [[m T]|T].
        + cbn in T. subst p. destruct a; try discriminate E; brk E.
        + injection T as -> ->. assert (i0 = i). { destruct (Nat.eq_dec i0 i); auto.
            destruct (F _ _ _ N n) as [m X]. discriminate. } subst i0.
          destruct (existsb (Nat.eqb i) (cancelled s)) eqn:X; [|discriminate]. apply existsb_nat in X. contradiction.
      - exfalso. unfold work_step in E.
        destruct (nth_error (tasks s) i0) as [[a p]|] eqn:N; [|discriminate].
        destruct (TK _ _ _ N) as [[m T]|T].
        + cbn in T. subst p. destruct a; try discriminate E; brk E.
        + injection T as -> ->. discriminate.
      - exfalso. brk E. unfold mon_step in E. rewrite A, L in E. discriminate.
      - unfold sim_step in E. destruct (sim s) as [| |[|a q]| | | |]; try discriminate E; brk E; injection E as <- <-;
        try (exfalso; cbn in B; lia);
        (split; [apply G; cbn; rewrite ?app_length; cbn; solve [auto|lia|cbn in *; rewrite Heql; cbn; lia]|];
         split; [reflexivity|]; split; [reflexivity|]; cbn; intuition discriminate). }
    destruct X as (W1 & S1 & U1 & E1). destruct (IH _ _ _ W1 R1) as (S2 & U2 & E2).
    rewrite started_app, unpauses_app, S1, S2, U1, U2. repeat split; auto.
    rewrite in_app_iff. tauto.
Qed.

(** A client that never asks for the registry is never told it. *)
Theorem unasked_registry ld initial ls s es :
  run (start ld initial) ls = Some (s, es) -> ~ In ARegistry (initial ++ queued es) ->
  forall l, ~ In (MRegistry l) (puts es).
Proof.
  intros R N l H.
  destruct (answers_run _ _ _ _ _ _ _ _ _ _ R) as (by_request & _ & P & A & _).
  assert (X : In (MRegistry l) (answers (puts es))) by (apply filter_In; auto).
  apply (Permutation_in _ (Permutation_sym P)) in X. apply in_map_iff in X.
  destruct X as ([i m] & E & X). cbn in E. subst m. destruct (A _ _ X) as (a & Y & Z).
  apply nth_error_In in Y. destruct a; cbn in Z; try contradiction.
Qed.

End S.
