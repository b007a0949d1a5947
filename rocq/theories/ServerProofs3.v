(** * ServerProofs3: the server is never stuck, whatever has happened, unless a pause or a shutdown
    holds it. *)
From Verif Require Import Base ServerModel ServerSpec ServerProofs1 ServerProofs2.

Section S.
Variable names : nat -> list string.
Variable work : nat -> act -> option string.
Variable loads : bool.
Variable rep : list act.
Variable dur : nat.
Notation step := (step names work loads rep dur).
Notation run := (run names work loads rep dur).

Variable ld : bool.
Variable initial : list act.

Definition reach (s : srv) : Prop := exists ls es, run (start ld initial) ls = Some (s, es).

Definition go (s s' : srv) (es : list event) : Prop :=
  exists ls, Forall own_label ls /\ run s ls = Some (s', es).

Lemma go_refl s : go s s [].
Proof. exists []. auto. Qed.

Lemma go_trans s s1 s2 e1 e2 : go s s1 e1 -> go s1 s2 e2 -> go s s2 (e1 ++ e2).
Proof.
  intros (l1 & A1 & B1) (l2 & A2 & B2). exists (l1 ++ l2). split; [now apply Forall_app|].
  apply run_app. exists s1, e1, e2. auto.
Qed.

Lemma go_step s l s1 e : step s l = Some (s1, e) -> own_label l -> go s s1 e.
Proof.
  intros H O. exists [l]. split; [auto|]. cbn. rewrite H. now rewrite app_nil_r.
Qed.

Lemma go_reach s s' es : reach s -> go s s' es -> reach s'.
Proof.
  intros (l1 & e1 & R1) (l2 & _ & R2). exists (l1 ++ l2), (e1 ++ es). apply run_app.
  exists s, e1, es. auto.
Qed.

Lemma reach_ok s : reach s -> forall i t, nth_error (tasks s) i = Some t -> task_ok names work (ndone s) ld t.
Proof.
  intros (ls & es & R) i t N. destruct (ans_run _ _ _ _ _ _ _ _ _ _ R) as (_ & T & _).
  rewrite Forall_forall in T. apply T. eapply nth_error_In. exact N.
Qed.

Definition staged_ok (s : srv) : Prop := Forall (fun i => (i < length (tasks s))%nat) (staged s).

Lemma staged_step s l s' e : staged_ok s -> step s l = Some (s', e) -> staged_ok s'.
Proof.
  unfold staged_ok. intros I H.
  assert (U : forall x, tasks (unpause x) = tasks x) by (intro; apply unpause_same).
  assert (V : forall x, staged (unpause x) = staged x) by (intro; apply unpause_same).
  assert (K : staged s' = staged s -> length (tasks s') = length (tasks s) ->
    Forall (fun i => (i < length (tasks s'))%nat) (staged s')).
  { intros A B. rewrite A, B. exact I. }
  assert (L : forall i a p q, nth_error (tasks s) i = Some (a, p) ->
    length (firstn i (tasks s) ++ (a, q) :: skipn (S i) (tasks s)) = length (tasks s)).
  { intros i a p q N. exact (put_len _ _ _ _ N). }
  destruct l; try (stepcases H; apply K; unfold quiet_end, end_with, set_task; cbn [w_aq w_mq w_tasks
    w_cons w_mon w_pause w_registry w_loaded w_conn w_sendq w_sim w_stop staged tasks]; rewrite ?U, ?V;
    solve [reflexivity|eapply L; eassumption]).
  - stepcases H. cbn. rewrite app_length. cbn. apply Forall_app. split.
    + eapply Forall_impl; [|exact I]. cbn. intros. lia.
    + repeat constructor. lia.
  - stepcases H. cbn. constructor.
Qed.

Lemma reach_staged s : reach s -> staged_ok s.
Proof.
  intros (ls & es & R).
  refine (run_inv _ _ _ _ _ (fun s _ => staged_ok s) _ ls _ [] _ _ _ R).
  - intros. eapply staged_step; eassumption.
  - constructor.
Qed.

(** ** Finishing the tasks *)
Definition weight (t : act * pc) : nat :=
  match snd t with PEnd _ => 0 | PNew => 3 | PWorker => 2 | _ => 1 end.

Definition load_left (l : list (act * pc)) : nat := length (flat_map (fun t => repeat tt (weight t)) l).

Lemma load_put l i x y : nth_error l i = Some x -> (weight y < weight x)%nat ->
  (load_left (firstn i l ++ y :: skipn (S i) l) < load_left l)%nat.
Proof.
  intros H W. pose proof (put_flat (fun t => repeat tt (weight t)) l i x y H) as P.
  apply Permutation_length in P. rewrite !app_length, !repeat_length in P.
  unfold load_left. unfold put in P. lia.
Qed.

(** What finishing tasks leaves alone. *)
Definition same_rest (s s' : srv) : Prop :=
  aq s' = aq s /\ mq s' = mq s /\ cons s' = cons s /\ staged s' = staged s /\ sim s' = sim s /\
  ndone s' = ndone s /\ conn s' = conn s /\ map fst (tasks s') = map fst (tasks s) /\
  (loaded s = true -> loaded s' = true).

Lemma same_refl s : same_rest s s.
Proof. repeat split; auto. Qed.

Lemma same_trans a b c : same_rest a b -> same_rest b c -> same_rest a c.
Proof.
  intros (A1 & A2 & A3 & A4 & A5 & A6 & A7 & A8 & A9) (B1 & B2 & B3 & B4 & B5 & B6 & B7 & B8 & B9).
  repeat split; try congruence. auto.
Qed.

Lemma calm_free s : calm s -> cons s <> CPoll -> loop_free s = true.
Proof.
  intros (_ & S & _) C. unfold loop_free. rewrite S. destruct (cons s); try reflexivity; congruence.
Qed.

Lemma existsb_in i l : In i l -> existsb (Nat.eqb i) l = true.
Proof. intro H. apply existsb_exists. exists i. split; [exact H|apply Nat.eqb_refl]. Qed.

Lemma calm_put s s' i a p q : calm s -> nth_error (tasks s) i = Some (a, p) ->
  tasks s' = firstn i (tasks s) ++ (a, q) :: skipn (S i) (tasks s) ->
  pausek s' = None -> stopped s' = stopped s -> stopping s' = stopping s -> mon s' = mon s ->
  aq s' = aq s -> cancelled s' = cancelled s ->
  (no_hold a \/ finished (a, q)) -> calm s'.
Proof.
  intros (A & B & C & D & E & F) N T P1 P2 P3 P4 P5 P6 K.
  unfold calm. rewrite P1, P2, P3, P4, P5, P6, T. repeat split; auto.
  intros j b r M. destruct (Nat.eq_dec j i) as [->|NE].
  - change (firstn i (tasks s) ++ (a, q) :: skipn (S i) (tasks s)) with (put i (a, q) (tasks s)) in M.
    rewrite (nth_put_eq _ _ _ _ N) in M. injection M as <- <-. tauto.
  - change (firstn i (tasks s) ++ (a, q) :: skipn (S i) (tasks s)) with (put i (a, q) (tasks s)) in M.
    rewrite (nth_put_ne _ _ _ _ _ N NE) in M. eapply F. exact M.
Qed.

Lemma calm_unpause s : calm s -> unpause s = s.
Proof. intros (A & _). unfold unpause. now rewrite A. Qed.

(** One step of an unfinished task. *)
Lemma task_goes s i a p : reach s -> calm s -> cons s <> CPoll ->
  nth_error (tasks s) i = Some (a, p) -> ~ finished (a, p) ->
  exists l s1 e, own_label l /\ step s l = Some (s1, e) /\ calm s1 /\ same_rest s s1 /\ steps e = O /\
    losts e = [] /\ (load_left (tasks s1) < load_left (tasks s))%nat.
Proof.
  intros R C NP N NF. pose proof (calm_free _ C NP) as LF. pose proof (reach_ok _ R _ _ N) as OK.
  pose proof C as C'. destruct C' as (C1 & C2 & C3 & C4 & C5 & C6).
  pose proof (C6 _ _ _ N) as CC.
  assert (X : forall q s1 e l, step s l = Some (s1, e) -> own_label l ->
    tasks s1 = firstn i (tasks s) ++ (a, q) :: skipn (S i) (tasks s) ->
    pausek s1 = None -> stopped s1 = stopped s -> stopping s1 = stopping s -> mon s1 = mon s ->
    aq s1 = aq s -> cancelled s1 = cancelled s ->
    mq s1 = mq s -> cons s1 = cons s -> staged s1 = staged s -> sim s1 = sim s -> ndone s1 = ndone s ->
    conn s1 = conn s -> (loaded s = true -> loaded s1 = true) ->
    (no_hold a \/ finished (a, q)) -> steps e = O -> losts e = [] -> (weight (a, q) < weight (a, p))%nat ->
    exists l s1 e, own_label l /\ step s l = Some (s1, e) /\ calm s1 /\ same_rest s s1 /\ steps e = O /\
    losts e = [] /\ (load_left (tasks s1) < load_left (tasks s))%nat).
  { intros q s1 e l ST OW T P1 P2 P3 P4 P5 P6 P7 P8 P9 P10 P11 P12 P13 K Z1 Z2 W.
    exists l, s1, e. split; [exact OW|]. split; [exact ST|]. split; [eapply calm_put; eassumption|].
    split.
    - unfold same_rest. repeat split; auto. rewrite T. apply (fst_put _ _ _ _ _ N).
    - split; [exact Z1|]. split; [exact Z2|]. rewrite T. eapply load_put; eassumption. }
  assert (NH : p <> PPaused -> no_hold a).
  { intro H. destruct CC as [H1|[H1|[-> [H1 _]]]]; [exact H1|contradiction|congruence]. }
  assert (UN : unpause s = s) by (apply calm_unpause; exact C).
  destruct p as [| | |r| | |m].
  - (* not begun *)
    specialize (NH ltac:(discriminate)).
    destruct a; try contradiction NH;
      (destruct (step s (LTask i)) as [[s1 e1]|] eqn:ST;
       [|unfold ServerModel.step, task_step in ST; rewrite LF, N in ST; try discriminate ST;
         destruct (loaded s); discriminate ST]);
      pose proof ST as ST0; unfold ServerModel.step, task_step in ST; rewrite LF, N in ST;
      rewrite ?UN in ST; try (destruct (loaded s) eqn:LD); injection ST as <- <-;
      (eapply (X _ _ _ _ ST0);
       unfold quiet_end, end_with, set_task; cbn; try reflexivity; try assumption; try (left; exact I);
       try (intros; assumption); try lia).
    all: unfold weight; cbn; lia.
  - (* a pause already cancelled *)
    cbn in OK. subst a. destruct CC as [[]|[H|(_ & _ & H)]]; [contradiction|].
    assert (ST : step s (LTask i) = Some (quiet_end i APause s, [])).
    { unfold ServerModel.step, task_step. rewrite LF, N, (existsb_in _ _ H). reflexivity. }
    eapply (X _ _ _ _ ST); unfold quiet_end, set_task; cbn; try reflexivity; auto;
      try (unfold weight; cbn; lia).
    right. exists None. reflexivity.
  - (* on a worker thread *)
    specialize (NH ltac:(discriminate)). cbn in OK.
    destruct (step s (LWork i)) as [[s1 e1]|] eqn:ST.
    + pose proof ST as ST0. unfold ServerModel.step, work_step in ST. rewrite N in ST.
      destruct OK as [[q ->]|[[q ->]| ->]]; injection ST as <- <-;
        (eapply (X _ _ _ _ ST0); unfold set_task; cbn; try reflexivity; auto; try (unfold weight; cbn; lia)).
      intros ->. reflexivity.
    + unfold ServerModel.step, work_step in ST. rewrite N in ST.
      destruct OK as [[q ->]|[[q ->]| ->]]; discriminate ST.
  - (* the worker has finished *)
    specialize (NH ltac:(discriminate)). cbn in OK. destruct OK as [OK _].
    destruct (step s (LTask i)) as [[s1 e1]|] eqn:ST.
    + pose proof ST as ST0. unfold ServerModel.step, task_step in ST. rewrite LF, N in ST.
      destruct OK as [[q ->]|[[q ->]| ->]]; try destruct r; injection ST as <- <-;
        (eapply (X _ _ _ _ ST0); unfold quiet_end, end_with, set_task; cbn; try reflexivity; auto;
         try (unfold weight; cbn; lia)).
    + unfold ServerModel.step, task_step in ST. rewrite LF, N in ST.
      destruct OK as [[q ->]|[[q ->]| ->]]; try destruct r; discriminate ST.
  - (* asleep *)
    cbn in OK. subst a.
    assert (ST : step s (LTask i) = Some (quiet_end i ASleep s, [])).
    { unfold ServerModel.step, task_step. rewrite LF, N. reflexivity. }
    eapply (X _ _ _ _ ST); unfold quiet_end, set_task; cbn; try reflexivity; auto;
      try (unfold weight; cbn; lia).
  - (* a shutdown under way *)
    cbn in OK. destruct OK as [n ->]. destruct (NH ltac:(discriminate)).
  - exfalso. apply NF. exists m. reflexivity.
Qed.

Lemma unfinished l : Forall finished l \/
  exists i (t : act * pc), nth_error l i = Some t /\ ~ finished t.
Proof.
  induction l as [|[a p] r IH]; [left; constructor|].
  destruct p; try (right; exists O; eexists; split; [reflexivity|intros [x X]; discriminate X]).
  destruct IH as [IH|(i & t & N & F)].
  - left. constructor; [|exact IH]. eexists. reflexivity.
  - right. exists (S i), t. auto.
Qed.

Lemma tasks_go : forall n s, (load_left (tasks s) <= n)%nat -> reach s -> calm s -> cons s <> CPoll ->
  exists s' es, go s s' es /\ calm s' /\ same_rest s s' /\ Forall finished (tasks s') /\ steps es = O /\
    losts es = [].
Proof.
  induction n as [|n IH]; intros s LE R C NP;
    (destruct (unfinished (tasks s)) as [F|(i & [a p] & N & NF)];
     [exists s, []; split; [apply go_refl|]; split; [exact C|]; split; [apply same_refl|]; auto|]);
    destruct (task_goes _ _ _ _ R C NP N NF) as (l & s1 & e & OW & ST & C1 & SR & Z & Z' & LT); [lia|].
  pose proof (go_step _ _ _ _ ST OW) as G.
  destruct (IH s1 ltac:(lia) (go_reach _ _ _ R G) C1) as (s2 & e2 & G2 & C2 & SR2 & F & Z2 & Z2').
  { destruct SR as (_ & _ & E & _). congruence. }
  exists s2, (e ++ e2). split; [eapply go_trans; eassumption|]. split; [exact C2|].
  split; [eapply same_trans; eassumption|]. split; [exact F|].
  rewrite steps_app, losts_app, Z, Z2, Z', Z2'. auto.
Qed.

(** ** The consumer *)

(** What emptying the queue leaves alone. *)
Definition same_sim (s s' : srv) : Prop :=
  sim s' = sim s /\ ndone s' = ndone s /\ conn s' = conn s /\ (loaded s = true -> loaded s' = true).

Lemma same_sim_trans a b c : same_sim a b -> same_sim b c -> same_sim a c.
Proof.
  intros (A1 & A2 & A3 & A4) (B1 & B2 & B3 & B4). repeat split; try congruence. auto.
Qed.

Lemma same_rest_sim a b : same_rest a b -> same_sim a b.
Proof. intros (A1 & A2 & A3 & A4 & A5 & A6 & A7 & A8 & A9). repeat split; auto. Qed.

Lemma poll_go : forall q s, aq s = q -> calm s -> cons s = CPoll ->
  exists s' es, go s s' es /\ calm s' /\ same_sim s s' /\ aq s' = [] /\ cons s' = CPoll /\ steps es = O /\
    losts es = [].
Proof.
  induction q as [|a r IH]; intros s Q C P.
  - exists s, []. split; [apply go_refl|]. repeat split; auto; apply C.
  - pose proof C as C'. destruct C' as (C1 & C2 & C3 & C4 & C5 & C6).
    set (s1 := w_cons (staged s ++ [length (tasks s)]) CPoll
                  (w_tasks (tasks s ++ [(a, PNew)]) (w_aq r s))).
    assert (ST : step s LConsume = Some (s1, [EvStarted a])).
    { unfold ServerModel.step. rewrite C2, P, Q. reflexivity. }
    rewrite Q in C5. inversion C5 as [|? ? NA NR]. subst.
    assert (K : calm s1).
    { unfold calm, s1. cbn. repeat split; auto. intros i b p N.
      destruct (Nat.lt_ge_cases i (length (tasks s))) as [L|L].
      - rewrite nth_error_app1 in N by exact L. eapply C6. exact N.
      - rewrite nth_error_app2 in N by exact L. destruct (i - length (tasks s))%nat as [|k]; cbn in N.
        + injection N as <- <-. auto.
        + destruct k; discriminate. }
    destruct (IH s1 eq_refl K eq_refl) as (s2 & e2 & G & K2 & SS & A & B & Z & Z').
    exists s2, ([EvStarted a] ++ e2). split; [eapply go_trans; [exact (go_step _ _ _ _ ST I)|exact G]|].
    split; [exact K2|]. split; [eapply same_sim_trans; [|exact SS]; repeat split; auto|].
    repeat split; auto.
Qed.

Lemma all_ended s : reach s -> Forall finished (tasks s) ->
  forallb (fun i => match nth_error (tasks s) i with Some (_, PEnd _) => true | _ => false end)
    (staged s) = true.
Proof.
  intros R F. apply forallb_forall. intros i IN. pose proof (reach_staged _ R) as S.
  unfold staged_ok in S. rewrite Forall_forall in S. specialize (S _ IN).
  destruct (nth_error (tasks s) i) as [[a p]|] eqn:N.
  - apply nth_error_In in N. rewrite Forall_forall in F. destruct (F _ N) as [m E]. cbn in E. now subst p.
  - apply nth_error_None in N. lia.
Qed.

Lemma wait_go s : reach s -> calm s -> cons s = CWait ->
  exists s' es, go s s' es /\ calm s' /\ same_sim s s' /\ aq s' = aq s /\ cons s' = CSleep /\
    Forall finished (tasks s') /\ steps es = O /\ losts es = [].
Proof.
  intros R C W. destruct (tasks_go _ s (le_n _) R C) as (s1 & e1 & G & C1 & SR & F & Z & Z').
  { congruence. }
  pose proof (go_reach _ _ _ R G) as R1.
  destruct SR as (A1 & A2 & A3 & A4 & A5 & A6 & A7 & A8 & A9).
  assert (ST : step s1 LStagedDone = Some (w_cons [] CSleep s1, [])).
  { unfold ServerModel.step. destruct C1 as (_ & -> & _). rewrite A3, W, (all_ended _ R1 F). reflexivity. }
  exists (w_cons [] CSleep s1), (e1 ++ []).
  split; [eapply go_trans; [exact G|exact (go_step _ _ _ _ ST I)]|].
  rewrite app_nil_r. split; [exact C1|]. repeat split; auto.
Qed.

Lemma poll_all s : reach s -> calm s -> cons s = CPoll ->
  exists s' es, go s s' es /\ calm s' /\ same_sim s s' /\ all_done s' /\ cons s' = CSleep /\ steps es = O /\
    losts es = [].
Proof.
  intros R C P. destruct (poll_go _ s eq_refl C P) as (s1 & e1 & G1 & C1 & SS1 & A1 & P1 & Z1 & Z1').
  pose proof (go_reach _ _ _ R G1) as R1.
  set (s2 := w_cons (staged s1) (match staged s1 with [] => CSleep | _ => CWait end) s1).
  assert (ST : step s1 LConsumed = Some (s2, [])).
  { unfold ServerModel.step. destruct C1 as (_ & -> & _). rewrite P1, A1. reflexivity. }
  assert (G2 : go s1 s2 []) by (exact (go_step _ _ _ _ ST I)).
  pose proof (go_reach _ _ _ R1 G2) as R2.
  assert (C2 : calm s2) by exact C1.
  assert (NP : cons s2 <> CPoll) by (unfold s2; cbn; destruct (staged s1); discriminate).
  assert (D : cons s2 = CWait \/ cons s2 = CSleep) by (unfold s2; cbn; destruct (staged s1); auto).
  destruct D as [D|D].
  - destruct (wait_go s2 R2 C2 D) as (s3 & e3 & G3 & C3 & SS3 & A3 & P3 & F3 & Z3 & Z3').
    exists s3, (e1 ++ [] ++ e3).
    split; [eapply go_trans; [exact G1|eapply go_trans; [exact G2|exact G3]]|].
    split; [exact C3|]. split; [eapply same_sim_trans; [exact SS1|exact SS3]|].
    split; [split; [rewrite A3; exact A1|exact F3]|]. split; [exact P3|].
    rewrite steps_app, losts_app, Z1, Z1'. cbn [app]. rewrite Z3. auto.
  - destruct (tasks_go _ s2 (le_n _) R2 C2 NP) as (s3 & e3 & G3 & C3 & SR3 & F3 & Z3 & Z3').
    exists s3, (e1 ++ [] ++ e3).
    split; [eapply go_trans; [exact G1|eapply go_trans; [exact G2|exact G3]]|].
    split; [exact C3|].
    split; [eapply same_sim_trans; [exact SS1|exact (same_rest_sim _ _ SR3)]|].
    destruct SR3 as (B1 & B2 & B3 & B4).
    split; [split; [rewrite B1; exact A1|exact F3]|]. split; [rewrite B3; exact D|].
    rewrite steps_app, losts_app, Z1, Z1'. cbn [app]. rewrite Z3. auto.
Qed.

Lemma drain s : reach s -> calm s ->
  exists s' es, go s s' es /\ calm s' /\ same_sim s s' /\ all_done s' /\ cons s' = CSleep /\ steps es = O /\
    losts es = [].
Proof.
  intros R C.
  assert (W : forall t, reach t -> calm t -> cons t = CSleep ->
    exists s' es, go t s' es /\ calm s' /\ same_sim t s' /\ all_done s' /\ cons s' = CSleep /\ steps es = O /\
    losts es = []).
  { intros t Rt Ct Pt. set (t1 := w_cons (staged t) CPoll t).
    assert (ST : step t LWake = Some (t1, [])).
    { unfold ServerModel.step. destruct Ct as (_ & -> & _). rewrite Pt. reflexivity. }
    assert (G : go t t1 []) by (exact (go_step _ _ _ _ ST I)).
    destruct (poll_all t1 (go_reach _ _ _ Rt G) Ct eq_refl) as (s2 & e2 & G2 & C2 & SS & D & P & Z & Z').
    exists s2, ([] ++ e2). split; [eapply go_trans; eassumption|]. split; [exact C2|]. auto. }
  destruct (cons s) eqn:P.
  - apply poll_all; auto.
  - destruct (wait_go s R C P) as (s1 & e1 & G1 & C1 & SS1 & A1 & P1 & F1 & Z1 & Z1').
    destruct (W s1 (go_reach _ _ _ R G1) C1 P1) as (s2 & e2 & G2 & C2 & SS2 & D & P2 & Z2 & Z2').
    exists s2, (e1 ++ e2). split; [eapply go_trans; eassumption|]. split; [exact C2|].
    split; [eapply same_sim_trans; eassumption|]. split; [exact D|]. split; [exact P2|].
    rewrite steps_app, losts_app, Z1, Z2, Z1', Z2'. auto.
  - apply W; auto.
Qed.

(** ** The simulation thread *)
Hypothesis rep_ok : Forall (fun a => is_event a = true /\ no_hold a) rep.

Lemma queue_go : forall todo s, Forall (fun a => is_event a = true /\ no_hold a) todo ->
  sim s = SQueue todo -> calm s ->
  exists s' es, go s s' es /\ calm s' /\ sim s' = SPause /\ conn s' = conn s /\ steps es = O /\ losts es = [].
Proof.
  induction todo as [|a r IH]; intros s F S C.
  - assert (ST : step s LSim = Some (w_sim SPause (ndone s) s, [])).
    { unfold ServerModel.step, sim_step. rewrite S. reflexivity. }
    exists (w_sim SPause (ndone s) s), []. split; [exact (go_step _ _ _ _ ST I)|].
    split; [exact C|]. auto.
  - inversion F as [|? ? [E N] F']. subst.
    set (s1 := w_sim (SQueue r) (ndone s) (w_aq (aq s ++ [a]) s)).
    assert (ST : step s LSim = Some (s1, [EvRepeated a])).
    { unfold ServerModel.step, sim_step. rewrite S, E. reflexivity. }
    assert (C1 : calm s1).
    { destruct C as (C1 & C2 & C3 & C4 & C5 & C6). unfold calm, s1. cbn. repeat split; auto.
      apply Forall_app. auto. }
    destruct (IH s1 F' eq_refl C1) as (s2 & e2 & G & C2 & S2 & K & Z & Z').
    exists s2, ([EvRepeated a] ++ e2).
    split; [eapply go_trans; [exact (go_step _ _ _ _ ST I)|exact G]|]. auto.
Qed.

(** From the two looks of the hook: the queue is emptied, and the time step ends. *)
Lemma end_go s : reach s -> calm s -> sim s = SPause \/ sim s = SEmpty ->
  exists s' es, go s s' es /\ calm s' /\ all_done s' /\ cons s' = CSleep /\ conn s' = conn s /\
    steps es = 1%nat /\ losts es = [].
Proof.
  intros R C S. destruct (drain s R C) as (s1 & e1 & G1 & C1 & SS & D & P & Z & Z').
  destruct SS as (S1 & S2 & S3 & S4).
  assert (E : forall t, calm t -> sim t = SEmpty -> all_done t -> cons t = CSleep ->
    exists s' es, go t s' es /\ calm s' /\ all_done s' /\ cons s' = CSleep /\ conn s' = conn t /\
      steps es = 1%nat /\ losts es = []).
  { intros t Ct St Dt Pt.
    eexists _, [EvStep]. split.
    - eapply (go_step t LSim); [|exact I]. unfold ServerModel.step, sim_step. rewrite St.
      destruct Dt as [-> _]. reflexivity.
    - split; [exact Ct|]. split; [exact Dt|]. auto. }
  destruct S as [S|S].
  - set (s2 := w_sim SEmpty (ndone s1) s1).
    assert (ST : step s1 LSim = Some (s2, [])).
    { unfold ServerModel.step, sim_step. destruct C1 as (-> & _). rewrite S1, S. reflexivity. }
    destruct (E s2 C1 eq_refl D P) as (s3 & e3 & G3 & C3 & D3 & P3 & K3 & Z3 & Z3').
    exists s3, (e1 ++ [] ++ e3).
    split; [eapply go_trans; [exact G1|eapply go_trans; [exact (go_step _ _ _ _ ST I)|exact G3]]|].
    split; [exact C3|]. split; [exact D3|]. split; [exact P3|]. split; [rewrite K3; exact S3|].
    rewrite steps_app, losts_app, Z, Z'. cbn [app]. rewrite Z3, Z3'. auto.
  - destruct (E s1 C1 ltac:(congruence) D P) as (s3 & e3 & G3 & C3 & D3 & P3 & K3 & Z3 & Z3').
    exists s3, (e1 ++ e3). split; [eapply go_trans; eassumption|].
    split; [exact C3|]. split; [exact D3|]. split; [exact P3|]. split; [rewrite K3; exact S3|].
    rewrite steps_app, losts_app, Z, Z', Z3, Z3'. auto.
Qed.

Lemma sim_go s : reach s -> calm s -> running dur s ->
  exists s' es, go s s' es /\ calm s' /\ all_done s' /\ cons s' = CSleep /\ conn s' = conn s /\
    steps es = 1%nat /\ losts es = [].
Proof.
  intros R C RU.
  assert (Q : forall t todo, reach t -> calm t -> sim t = SQueue todo ->
    Forall (fun a => is_event a = true /\ no_hold a) todo ->
    exists s' es, go t s' es /\ calm s' /\ all_done s' /\ cons s' = CSleep /\ conn s' = conn t /\
      steps es = 1%nat /\ losts es = []).
  { intros t todo Rt Ct St F. destruct (queue_go todo t F St Ct) as (s1 & e1 & G1 & C1 & S1 & K1 & Z & Z').
    destruct (end_go s1 (go_reach _ _ _ Rt G1) C1 (or_introl S1)) as (s2 & e2 & G2 & C2 & D & P & K2 & Z2 & Z2').
    exists s2, (e1 ++ e2). split; [eapply go_trans; eassumption|]. split; [exact C2|]. split; [exact D|].
    split; [exact P|]. split; [congruence|]. rewrite steps_app, losts_app, Z, Z', Z2, Z2'. auto. }
  assert (CO : forall t, reach t -> calm t -> sim t = SCompute ->
    exists s' es, go t s' es /\ calm s' /\ all_done s' /\ cons s' = CSleep /\ conn s' = conn t /\
      steps es = 1%nat /\ losts es = []).
  { intros t Rt Ct St. set (t1 := w_sim (SQueue rep) (ndone t) t).
    assert (ST : step t LSim = Some (t1, [])).
    { unfold ServerModel.step, sim_step. rewrite St. reflexivity. }
    assert (G : go t t1 []) by (exact (go_step _ _ _ _ ST I)).
    destruct (Q t1 rep (go_reach _ _ _ Rt G) Ct eq_refl rep_ok) as (s2 & e2 & G2 & C2 & D & P & K & Z & Z').
    exists s2, ([] ++ e2). split; [eapply go_trans; eassumption|]. cbn [app]. auto 10. }
  unfold running in RU. destruct (sim s) as [| |todo| | | |] eqn:S; try contradiction.
  - destruct RU as [L N]. set (s1 := w_sim SCompute (ndone s) s).
    assert (ST : step s LSim = Some (s1, [])).
    { unfold ServerModel.step, sim_step. rewrite S, L. destruct dur; [congruence|reflexivity]. }
    assert (G : go s s1 []) by (exact (go_step _ _ _ _ ST I)).
    destruct (CO s1 (go_reach _ _ _ R G) C eq_refl) as (s2 & e2 & G2 & C2 & D & P & K & Z & Z').
    exists s2, ([] ++ e2). split; [eapply go_trans; eassumption|]. cbn [app]. auto 10.
  - apply CO; auto.
  - apply (Q s todo R C S). pose proof R as (ls & es & RU2).
    destruct (sim_run _ _ _ _ _ _ _ _ _ _ RU2) as (_ & _ & X & _). rewrite S in X.
    destruct X as (_ & did & X & _). rewrite X in rep_ok. apply Forall_app in rep_ok. apply rep_ok.
  - apply end_go; auto.
  - apply end_go; auto.
Qed.

(** ** The messages *)
Lemma send_go : forall q s, sendq s = q -> conn s = true -> stopped s = false -> cons s = CSleep ->
  exists s' es, go s s' es /\ sendq s' = [] /\ aq s' = aq s /\ tasks s' = tasks s /\ losts es = [] /\
    steps es = O.
Proof.
  induction q as [|m r IH]; intros s Q K ST P.
  - exists s, []. split; [apply go_refl|]. auto.
  - assert (H : step s LSend = Some (w_sendq r s, [EvSent m])).
    { unfold ServerModel.step, loop_free. rewrite ST, P, K, Q. reflexivity. }
    destruct (IH (w_sendq r s) eq_refl K ST P) as (s2 & e2 & G & A & B & C & Z & Z').
    exists s2, ([EvSent m] ++ e2).
    split; [eapply go_trans; [exact (go_step _ _ _ _ H I)|exact G]|]. auto.
Qed.

Theorem never_stuck s : reach s -> calm s ->
  exists ls s' es, Forall own_label ls /\ run s ls = Some (s', es) /\ all_done s' /\ losts es = [] /\
    (conn s = true -> sendq s' = []) /\ (running dur s -> steps es = 1%nat).
Proof.
  intros R C.
  assert (D : exists s1 e1, go s s1 e1 /\ calm s1 /\ all_done s1 /\ cons s1 = CSleep /\ conn s1 = conn s /\
    losts e1 = [] /\ (running dur s -> steps e1 = 1%nat)).
  { destruct (drain s R C) as (s1 & e1 & G & C1 & SS & D & P & Z & Z').
    assert (X : running dur s \/ ~ running dur s).
    { unfold running. destruct (sim s); try tauto. destruct (loaded s), dur; try tauto;
        try (right; intros [A B]; congruence). left. auto. }
    destruct X as [X|X].
    - destruct (sim_go s R C X) as (s2 & e2 & G2 & C2 & D2 & P2 & K2 & Z2 & Z2').
      exists s2, e2. repeat (split; [assumption|]). auto.
    - exists s1, e1. destruct SS as (_ & _ & K & _). repeat (split; [assumption|]). tauto. }
  destruct D as (s1 & e1 & G & C1 & D & P & K & Z & Z').
  destruct (conn s) eqn:KC.
  - destruct (send_go _ s1 eq_refl K ltac:(apply C1) P) as (s2 & e2 & G2 & A & B & T & Z2 & Z2').
    destruct (go_trans _ _ _ _ _ G G2) as (ls & O & RR).
    exists ls, s2, (e1 ++ e2). split; [exact O|]. split; [exact RR|].
    split; [destruct D as [D1 D2]; split; congruence|]. rewrite losts_app, Z, Z2. split; [reflexivity|].
    split; [auto|]. intro X. rewrite steps_app, (Z' X), Z2'. reflexivity.
  - destruct G as (ls & O & RR). exists ls, s1, e1. repeat (split; [assumption|]). split; [discriminate|exact Z'].
Qed.

End S.
