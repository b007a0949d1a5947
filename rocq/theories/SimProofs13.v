(** The rows of AgentEntry over a whole run, and the snapshots. *)
From Coq Require Import String List ZArith Bool Arith Lia Sorted.
From Verif Require Import Base SimModel SimSpec SimProofs1 SimProofs2 SimProofs3 SimProofs4 SimProofs5 SimProofs6 SimProofs7 SimProofs8 SimProofs9 SimProofs11 SimProofs12.
Import ListNotations.
Local Open Scope Z_scope.

(** ** From user code and phases to runs *)
Section Run.
Context (R : sim -> sim -> Prop) (Rrefl : forall s, R s s) (Rtrans : forall a b c, R a b -> R b c -> R a c).
Context (beh : hook -> sim -> prog) (cond : nat -> sim -> bool).
Context (Hexec : forall f p, keeps R (exec beh cond f p)) (Hbody : forall p f, keeps R (body beh cond p f)) (Rs : rests R).
Let kb {A B} (m : M A) (k : A -> M B) : keeps R m -> (forall a, keeps R (k a)) -> keeps R (bind m k) := keeps_bind R Rtrans m k.
Let kret {A} (a : A) : keeps R (ret a) := keeps_ret R Rrefl a.
Let kgets {A} (f : sim -> A) : keeps R (gets f) := keeps_gets R Rrefl f.
Lemma over_phase f p : keeps R (do_phase beh cond f p).
Proof. apply kb; [apply (rs_phase _ Rs)|]. intros _. apply Hbody. Qed.
Lemma over_step f : keeps R (step beh cond f).
Proof.
  apply kb; [apply kgets|]. intros sn. apply kb.
  - destruct sn; [|apply kret]. apply kb; [apply (rs_unsnap _ Rs)|]. intros _. apply (rs_snap _ Rs).
  - intros _. do 6 (apply kb; [apply over_phase|intros _]). apply (rs_time _ Rs).
Qed.
Lemma over_steps f n : keeps R (steps beh cond n f).
Proof.
  induction n as [|n IH]; simpl; [apply kret|].
  apply kb; [apply kgets|]. intros [|]; [|apply kret].
  apply kb; [apply over_step|]. intros _. apply kb; [apply kgets|]. intros [|]; [apply kret|apply IH].
Qed.
Lemma over_run f : keeps R (run_sim beh cond f).
Proof.
  apply kb; [apply kgets|]. intros n. apply kb; [apply over_steps|]. intros _.
  apply kb; [apply (rs_fin _ Rs)|]. intros _. apply (rs_snap _ Rs).
Qed.
Lemma over_simulate f setup t0 d : forall o s', simulate beh cond f setup t0 d = (o, s') -> o <> Undef -> R (sim0 t0 d) s'.
Proof.
  intros o s' H N. unfold simulate in H. exact (kb _ _ (Hexec f setup) (fun _ => over_run f) _ _ _ H N).
Qed.
End Run.

(** ** Rows *)
Definition rw (s s' : sim) : Prop := counts s s' /\ (ir s -> ir s').
Lemma rw_refl s : rw s s. Proof. split; [apply counts_refl|auto]. Qed.
Lemma rw_trans a b c : rw a b -> rw b c -> rw a c.
Proof. intros [A1 B1] [A2 B2]. split; [eapply counts_trans; eauto|auto]. Qed.
Lemma rw_er s s' : er s s' -> rw s s'. Proof. intros (_ & A & B). split; auto. Qed.
Lemma rw_emit e s : is_entry e = false -> rw s (emit e s).
Proof. intros H. apply rw_er, er_from; [now apply m2_emit|apply pid_emit]. Qed.
Lemma rw_timer f s : rw s (with_ti f s).
Proof.
  split.
  - apply (counts_quiet _ _ []); [simpl; now rewrite app_nil_r|reflexivity].
  - intros [I R]. split; [|exact R]. revert I. apply (ip_same _ _ []); auto. simpl. now rewrite app_nil_r.
Qed.
Lemma run_rw beh cond fuel setup t0 d o s' : simulate beh cond fuel setup t0 d = (o, s') -> o <> Undef -> rw (sim0 t0 d) s'.
Proof.
  apply over_simulate.
  - apply rw_refl.
  - apply rw_trans.
  - intros f p s o1 s1 E N. apply rw_er. eapply (keeps_exec2 er); eauto using er_refl, er_atoms. apply er_trans.
  - intros p f s o1 s1 E N. apply rw_er. eapply (keeps_body2 er er_refl er_trans); eauto using er_atoms.
    intros e He. apply keeps_modify. intros s2. apply er_from; [apply m2_emit|apply pid_emit].
    destruct p, e; try discriminate; reflexivity.
  - constructor; intros; apply keeps_modify; intros s; try apply rw_timer; apply rw_emit; reflexivity.
Qed.
Lemma ir_sim0 t0 d : ir (sim0 t0 d).
Proof.
  split; [split; [split|]|].
  - reflexivity.
  - intros a y. destruct a; discriminate.
  - intros a y. destruct a; discriminate.
  - intros pre z a id pr pid life en post E. destruct pre; discriminate.
Qed.
Lemma run_rows beh cond fuel setup t0 d o s' : simulate beh cond fuel setup t0 d = (o, s') -> o <> Undef ->
  rows_ok (log s') /\ (forall a, (cnt (entries (log s')) a <= cnt (entered (log s')) a)%nat).
Proof.
  intros H N. destruct (run_rw _ _ _ _ _ _ _ _ H N) as [(suf & L & C) I]. simpl in L. rewrite L in *.
  split; [|exact C]. destruct (I (ir_sim0 t0 d)) as [_ R]. rewrite L in R. exact R.
Qed.

(** ** Who is listed *)
Record list_ok (s : sim) : Prop := {
  i_in : inr s (entered (log s));
  i_list : forall a, In a (alist (w s)) -> exists x, live s a x;
  i_nodup : NoDup (alist (w s));
  i_ent : forall a x, nth_error (heap (w s)) a = Some x ->
    (a_enter x = -1 /\ ~ In a (entered (log s))) \/
    (In a (entered (log s)) /\ exists p, In (a_enter x, EBuild a p) (log s)) }.
Definition lister (s s' : sim) : Prop := list_ok s -> list_ok s'.
Lemma lister_refl s : lister s s. Proof. unfold lister; auto. Qed.
Lemma lister_trans a b c : lister a b -> lister b c -> lister a c. Proof. unfold lister; auto. Qed.
Lemma list_step s s' suf f : log s' = log s ++ suf -> length (heap (w s')) = length (heap (w s)) ->
  (forall b, nth_error (heap (w s')) b = option_map (f b) (nth_error (heap (w s)) b)) ->
  (forall b, In b (alist (w s')) -> In b (alist (w s)) /\ forall y, a_alive y = true -> a_alive (f b y) = true) ->
  (NoDup (alist (w s)) -> NoDup (alist (w s'))) ->
  (forall b, In b (entered suf) -> (b < length (heap (w s)))%nat) ->
  (forall b y, nth_error (heap (w s)) b = Some y -> (a_enter (f b y) = a_enter y /\ ~ In b (entered suf)) \/
     (In b (entered suf) /\ exists p, In (a_enter (f b y), EBuild b p) suf)) -> lister s s'.
Proof.
  intros L Ln F Fa Fd Fn Fe [I A Nd B]. constructor; [| |now apply Fd|].
  - unfold inr in *. rewrite L, entered_app, Ln. apply Forall_app. split; [exact I|]. apply Forall_forall. exact Fn.
  - intros a Ia. destruct (Fa a Ia) as [Io Al]. destruct (A a Io) as (x & L1 & L2). exists (f a x).
    split; [now rewrite F, L1|auto].
  - intros a y Hy. rewrite F in Hy. destruct (nth_error (heap (w s)) a) as [x|] eqn:E; [|discriminate]. injection Hy as <-.
    rewrite L, entered_app. destruct (Fe a x E) as [[-> Ne]|[Ie (p & Ip)]].
    + destruct (B a x E) as [[-> Nb]|[Ib (p & Ip)]].
      * left. split; [reflexivity|]. rewrite in_app_iff. tauto.
      * right. split; [apply in_app_iff; auto|]. exists p. apply in_app_iff. auto.
    + right. split; [apply in_app_iff; auto|]. exists p. apply in_app_iff. auto.
Qed.
Lemma list_same s s' suf : log s' = log s ++ suf -> entered suf = [] -> heap (w s') = heap (w s) -> alist (w s') = alist (w s) -> lister s s'.
Proof.
  intros L En Hh Ha. apply (list_step s s' suf (fun _ y => y)); auto.
  - now rewrite Hh.
  - intros b. rewrite Hh. now destruct (nth_error _ b).
  - intros b. rewrite Ha. auto.
  - now rewrite Ha.
  - rewrite En. intros b [].
  - intros b y _. left. split; [reflexivity|]. rewrite En. intros [].
Qed.
Lemma destroyed_enter a x b y : a_enter (destroyed a x b y) = a_enter y.
Proof. unfold destroyed. destruct (match a_parent x with Some p => _ | None => _ end), (existsb _ _), (Nat.eqb b a); reflexivity. Qed.
Lemma list_destroy s s' a x suf : log s' = log s ++ suf -> entered suf = [] -> length (heap (w s')) = length (heap (w s)) ->
  alist (w s') = pdel a (alist (w s)) ->
  (forall b, nth_error (heap (w s')) b = option_map (destroyed a x b) (nth_error (heap (w s)) b)) -> lister s s'.
Proof.
  intros L E Ln Al F. apply (list_step s s' suf (destroyed a x)); auto.
  - intros b. rewrite Al, pdel_in. intros [Nb Ib]. split; [exact Ib|]. intros y D. rewrite destroyed_alive, D.
    destruct (Nat.eqb_spec b a); [tauto|reflexivity].
  - rewrite Al. intros Nd. unfold pdel. now apply NoDup_filter.
  - rewrite E. intros b [].
  - intros b y _. left. split; [apply destroyed_enter|]. rewrite E. intros [].
Qed.
Lemma list_emit e s : plain e = true -> lister s (emit e s).
Proof. intros P. apply (list_same _ _ [(tm (ti s), e)]); auto. now apply plain_entered. Qed.
Lemma list_timer f s : lister s (with_ti f s).
Proof. apply (list_same _ _ []); auto. simpl. now rewrite app_nil_r. Qed.
Lemma pins_nodup a l : NoDup l -> ~ In a l -> NoDup (pins a l).
Proof.
  induction 1 as [|x l Hx D IH]; simpl; intros Na; [constructor; [auto|constructor]|].
  destruct (Nat.ltb a x); [constructor; [exact Na|constructor; auto]|]. destruct (Nat.eqb_spec a x) as [->|N]; [tauto|].
  constructor; [rewrite pins_in; intuition|]. apply IH. tauto.
Qed.
Lemma list_new k sh pr sp l : keeps lister (construct k sh pr sp l).
Proof.
  intros s o s' H N. unfold construct in H. injection H as <- <-.
  intros [I A Nd B]. constructor.
  - unfold inr in *. simpl. rewrite entered_app, app_nil_r, app_length. eapply Forall_impl; [|exact I]. simpl. intros; lia.
  - simpl. intros a. rewrite pins_in. unfold live. simpl. intros [->|Ia].
    + eexists. rewrite nth_app_new. split; reflexivity.
    + destruct (A a Ia) as (x & L1 & L2). exists x. split; [|exact L2]. rewrite nth_error_app1; [exact L1|]. apply nth_error_Some. congruence.
  - simpl. apply pins_nodup; [exact Nd|]. intros Ia. destruct (A _ Ia) as (x & L1 & _).
    apply (Nat.lt_irrefl (length (heap (w s)))). apply nth_error_Some. congruence.
  - simpl. intros a y Hy. rewrite entered_app, app_nil_r. destruct (nth_app_split _ _ _ _ Hy) as [Ho|[-> <-]].
    + destruct (B a y Ho) as [Q|[Q (p & Ip)]]; [auto|]. right. split; [exact Q|]. exists p. apply in_app_iff. auto.
    + left. split; [reflexivity|]. intros Ia. unfold inr in I. rewrite Forall_forall in I. specialize (I _ Ia). simpl in I. lia.
Qed.
Lemma list_del a : keeps lister (del_agent a).
Proof.
  intros s o s' H N. assert (D := del_normal _ _ _ _ H N).
  destruct D as [_ [[_ ->]|(Ia & x & L & E1 & E2 & E3 & E4 & E5 & E6 & E7 & E8 & F)]]; [apply lister_refl|].
  eapply list_destroy; eauto.
Qed.
Lemma joined_enter z a p pid b y : a_enter (joined z a p pid b y) = if Nat.eqb b a then z else a_enter y.
Proof. unfold joined. destruct (Nat.eqb b a); [reflexivity|]. destruct p as [q|]; [destruct (Nat.eqb b q)|]; reflexivity. Qed.
Lemma list_coarse : coarse lister.
Proof.
  constructor.
  - apply list_emit.
  - apply list_timer.
  - intros f s o s' [= <- <-] _. apply (list_same _ _ []); auto. simpl. now rewrite app_nil_r.
  - apply list_new.
  - intros s a x n G. apply get_nth in G. destruct G as [G _].
    assert (La : (a < length (heap (w s)))%nat) by (apply nth_error_Some; congruence).
    apply (list_step _ _ [] (fun b y => if Nat.eqb b a then set_life n y else y)).
    + simpl. now rewrite app_nil_r.
    + simpl. apply upd_length.
    + intros b. rewrite set_agent_nth by exact La. destruct (Nat.eqb_spec b a) as [->|]; [rewrite G; reflexivity|].
      destruct (nth_error _ b); reflexivity.
    + intros b Ib. split; [exact Ib|]. intros y D. destruct (Nat.eqb b a); exact D.
    + auto.
    + intros b [].
    + intros b y _. left. split; [destruct (Nat.eqb b a); reflexivity|intros []].
  - apply create_from_del; auto using list_new, list_del, lister_refl, list_emit; apply lister_trans.
  - intros a s o s' H N. apply base_normal in H; [|exact N].
    destruct H as (_ & x & L & T & Ln & Nn & _ & _ & _ & [(Ni & El & Eh & Ea)|(Ia & E1 & E3 & F)]).
    + eapply list_same; eauto.
    + eapply list_destroy; eauto.
  - intros a p s o s' H N. apply front_normal in H; [|exact N].
    destruct H as [(-> & _ & ->)|(_ & Nq & x & pid & L & Lq & El & E2 & Ln & E4 & E5 & _ & _ & F)].
    + apply (list_same _ _ [(tm (ti s), EBuild a (Some a))]); auto. simpl. now rewrite Nat.eqb_refl.
    + assert (En : entered ((tm (ti s), EBuild a p) :: match a_kind x with KOther => [] | _ => [(tm (ti s), EReg a)] end) = [a]).
      { destruct p as [q|]; simpl; [destruct (Nat.eqb_spec q a); [congruence|]|]; destruct (a_kind x); reflexivity. }
      eapply list_step; eauto.
      * intros b. rewrite E2. intros Ib. split; [exact Ib|]. intros y. now rewrite joined_alive.
      * now rewrite E2.
      * rewrite En. intros b [<-|[]]. destruct L as [L _]. apply nth_error_Some. congruence.
      * rewrite En. intros b y Hy. rewrite joined_enter. destruct (Nat.eqb_spec b a) as [->|Nb].
        -- right. split; [now left|]. exists p. now left.
        -- left. split; [reflexivity|]. intros [E|[]]. congruence.
  - intros n a ov s o s' H N. unfold add_prototype, bind at 1, gets in H. destruct (_ && _); [injection H as <- <-; apply lister_refl|].
    apply deref_inv in H; [|exact N]. destruct H as (x & G & H). injection H as <- <-.
    eapply list_same; reflexivity.
Qed.

(** ** The roll: everything a snapshot relies on *)
Definition roll (s : sim) : Prop := life_ok s /\ present_ok s /\ list_ok s /\ ip s /\ 0 <= tm (ti s) /\ Forall (fun x => 0 <= fst x) (log s).
Lemma roll_listed s : roll s -> forall a, In a (snapped s) <-> In a (entered (log s)) /\ ~ In a (exits (log s)).
Proof.
  intros ([A B _] & [_ P] & [I L _ E] & _ & _ & T) a. unfold snapped. rewrite filter_In. split.
  - intros [Ia Fa]. destruct (L a Ia) as (x & H1 & H2). split.
    + rewrite H1 in Fa. destruct (E a x H1) as [[Ex _]|[X _]]; [|exact X]. rewrite Ex in Fa. discriminate.
    + intros X. destruct (B a X) as (y & H3 & H4). congruence.
  - intros [Ia Nx]. destruct (P a Ia Nx) as (x & Lx). split; [eapply A; eauto|]. destruct Lx as [H1 _]. rewrite H1.
    destruct (E a x H1) as [[_ X]|[_ (p & Ip)]]; [contradiction|]. rewrite Forall_forall in T. specialize (T _ Ip). simpl in T.
    apply negb_true_iff, Z.eqb_neq. lia.
Qed.
Lemma roll_ids s : roll s -> forall a, In a (entered (log s)) -> Z.of_nat a < nid (w s).
Proof.
  intros (_ & _ & [I _ _ _] & [[N _] _] & _) a Ia. unfold inr in I. rewrite Forall_forall in I. specialize (I a Ia). simpl in I. lia.
Qed.

Lemma roll_nodup s : roll s -> NoDup (snapped s).
Proof. intros (_ & _ & [_ _ Nd _] & _). unfold snapped. now apply NoDup_filter. Qed.

(** ** Snapshots in the history *)
Definition is_snap (e : event) : bool := match e with ESnap _ _ => true | _ => false end.
Definition is_fin (e : event) : bool := match e with EFinish _ _ => true | _ => false end.
Definition snaps_ok (t0 : Z) (l : history) : Prop := forall pre t snap n post, l = pre ++ (t, ESnap snap n) :: post ->
  (forall a, In a snap <-> In a (entered pre) /\ ~ In a (exits pre)) /\ (forall a, In a (entered pre) -> Z.of_nat a < n) /\
  Forall (fun x => fst x < t \/ (t = t0 /\ is_snap (snd x) = false) \/ is_fin (snd x) = true) pre /\
  Forall (fun x => t <= fst x) post /\ t0 <= t /\ NoDup snap.
Definition fine (t0 : Z) (s : sim) : Prop :=
  roll s /\ snaps_ok t0 (log s) /\ Forall (fun x => fst x <= tm (ti s)) (log s) /\ t0 <= tm (ti s).
Record quiet (s s' : sim) : Prop := {
  q_tm : tm (ti s') = tm (ti s);
  q_log : exists suf, log s' = log s ++ suf /\ Forall (fun x => fst x = tm (ti s) /\ is_snap (snd x) = false) suf;
  q_life : lifer s s'; q_pres : presenter s s'; q_list : lister s s'; q_ip : pider s s' }.
Lemma snaps_app t0 l m z : snaps_ok t0 l -> Forall (fun x => fst x <= z) l -> Forall (fun x => fst x = z /\ is_snap (snd x) = false) m -> snaps_ok t0 (l ++ m).
Proof.
  intros H F G pre t snap n post E. symmetry in E.
  destruct (split_app _ _ _ _ E) as [(k & Ek & E2)|(k & Ek & E2)].
  - destruct k as [|x k]; simpl in E2.
    + exfalso. rewrite <- E2 in G. inversion G as [|? ? [_ X] _]. discriminate.
    + injection E2 as <- ->. subst l. destruct (H pre t snap n k eq_refl) as (A & B & C & D & T). repeat (split; [assumption|]). split; [|exact T].
      apply Forall_app. split; [exact D|]. apply Forall_app in F. destruct F as [_ F]. inversion F as [|? ? X _]; subst. simpl in X.
      eapply Forall_impl; [|exact G]. simpl. intros y [-> _]. exact X.
  - exfalso. rewrite E2 in G. apply Forall_app in G. destruct G as [_ G]. inversion G as [|? ? [_ X] _]. discriminate.
Qed.
Lemma quiet_fine t0 s s' : quiet s s' -> fine t0 s -> fine t0 s'.
Proof.
  intros [T (suf & L & F) Q1 Q2 Q3 Q4] ((R1 & R2 & R3 & R4 & R5 & R6) & S & St & T0).
  assert (Fsuf : Forall (fun x => fst x <= tm (ti s)) suf) by (eapply Forall_impl; [|exact F]; simpl; intros x [-> _]; lia).
  split; [|split; [|split]].
  - split; [auto|]. split; [auto|]. split; [auto|]. split; [auto|]. split; [lia|]. rewrite L. apply Forall_app. split; [exact R6|].
    eapply Forall_impl; [|exact F]. simpl. intros x [-> _]. lia.
  - rewrite L. eapply snaps_app; eauto.
  - rewrite L, T. apply Forall_app. auto.
  - lia.
Qed.
Lemma quiet_refl s : quiet s s.
Proof.
  constructor; [reflexivity|exists []; rewrite app_nil_r; auto| | | |]; unfold lifer, presenter, lister, pider; auto.
Qed.
Lemma quiet_trans a b c : quiet a b -> quiet b c -> quiet a c.
Proof.
  intros [T1 (m1 & L1 & F1) A1 B1 C1 D1] [T2 (m2 & L2 & F2) A2 B2 C2 D2]. constructor.
  - congruence.
  - exists (m1 ++ m2). rewrite L2, L1, app_assoc. split; [reflexivity|]. rewrite T1 in F2. apply Forall_app. auto.
  - unfold lifer in *; auto.
  - unfold presenter in *; auto.
  - unfold lister in *; auto.
  - unfold pider in *; auto.
Qed.
Lemma inner_snap e : inner e = true -> is_snap e = false.
Proof. unfold inner. destruct e; simpl; congruence. Qed.
Lemma okp_snap p e : okp p e = true -> is_snap e = false.
Proof. intros H. apply okp_marker in H. destruct e; simpl in *; congruence. Qed.
Section Q.
Context (beh : hook -> sim -> prog) (cond : nat -> sim -> bool).
Lemma quiet_of {A} (m : M A) : keeps (exto (fun e => negb (is_snap e))) m -> keeps lifer m -> keeps presenter m -> keeps lister m -> keeps pider m -> keeps quiet m.
Proof.
  intros E A1 A2 A3 A4 s o s' H N. destruct (E _ _ _ H N) as [(suf & L & F & _) T _ _ _].
  constructor; [exact T| | | | |]; eauto.
  exists suf. split; [exact L|]. eapply Forall_impl; [|exact F]. simpl. intros x [X Y]. split; [exact X|]. now apply negb_true_iff in Y.
Qed.
Lemma coarse_run_exec (R : sim -> sim -> Prop) : (forall s, R s s) -> (forall a b c, R a b -> R b c -> R a c) -> coarse R ->
  forall f p, keeps R (exec beh cond f p).
Proof. intros Rr Rt H f p. apply keeps_exec; auto. apply coarse_atoms; auto. Qed.
Lemma coarse_run_body (R : sim -> sim -> Prop) : (forall s, R s s) -> (forall a b c, R a b -> R b c -> R a c) -> coarse R ->
  forall p f, keeps R (body beh cond p f).
Proof.
  intros Rr Rt H p f. apply keeps_body; auto; [apply coarse_atoms; auto|]. intros e He. apply keeps_modify. intros s. apply (z_emit _ H).
  destruct p, e; try discriminate; reflexivity.
Qed.
Lemma quiet_exec f p : keeps quiet (exec beh cond f p).
Proof.
  apply quiet_of;
    [|apply coarse_run_exec; [| |apply life_coarse]; unfold lifer; auto
     |apply coarse_run_exec; [| |apply present_coarse]; unfold presenter; auto
     |apply coarse_run_exec; [| |apply list_coarse]; unfold lister; auto
     |apply coarse_run_exec; [| |apply pid_coarse]; unfold pider; auto].
  refine (keeps_weaken inner _ (exec beh cond f p) _ _); [intros e He; apply negb_true_iff; now apply inner_snap|].
  apply keeps_exec; [exact (@ext_refl inner)|exact (@ext_trans inner)|apply ext_atoms].
Qed.
Lemma quiet_body p f : keeps quiet (body beh cond p f).
Proof.
  apply quiet_of;
    [|apply coarse_run_body; [| |apply life_coarse]; unfold lifer; auto
     |apply coarse_run_body; [| |apply present_coarse]; unfold presenter; auto
     |apply coarse_run_body; [| |apply list_coarse]; unfold lister; auto
     |apply coarse_run_body; [| |apply pid_coarse]; unfold pider; auto].
  refine (keeps_weaken (okp p) _ (body beh cond p f) _ _); [intros e He; apply negb_true_iff; eapply okp_snap; eauto|]. apply body_ext.
Qed.
Lemma quiet_emit e s : plain e = true -> is_snap e = false -> quiet s (emit e s).
Proof.
  intros P S. constructor.
  - reflexivity.
  - exists [(tm (ti s), e)]. split; [reflexivity|]. constructor; [auto|constructor].
  - now apply (z_emit _ life_coarse).
  - now apply (z_emit _ present_coarse).
  - now apply list_emit.
  - apply pid_emit.
Qed.
Lemma quiet_phase f p : keeps quiet (do_phase beh cond f p).
Proof.
  apply (keeps_bind quiet quiet_trans); [|intros _; apply quiet_body]. apply keeps_modify. intros s. now apply quiet_emit.
Qed.
(** What holds between steps. *)
Definition rested (t0 : Z) (s : sim) : Prop :=
  fine t0 s /\ Forall (fun x => fst x < tm (ti s) \/ (tm (ti s) = t0 /\ is_snap (snd x) = false)) (log s).
Lemma fine_timer t0 f s : tm (f (ti s)) = tm (ti s) \/ tm (f (ti s)) = tm (ti s) + 1 -> fine t0 s -> fine t0 (with_ti f s).
Proof.
  intros T ((R1 & R2 & R3 & R4 & R5 & R6) & S & St & T0).
  split; [|split; [|split]].
  - split; [now apply (z_timer _ life_coarse)|]. split; [now apply (z_timer _ present_coarse)|]. split; [now apply list_timer|].
    split; [now apply (z_timer _ pid_coarse)|]. split; [simpl; lia|exact R6].
  - exact S.
  - simpl. eapply Forall_impl; [|exact St]. simpl. intros x Hx. lia.
  - simpl. lia.
Qed.
Lemma fine_snap t0 s : fine t0 s ->
  Forall (fun x => fst x < tm (ti s) \/ (tm (ti s) = t0 /\ is_snap (snd x) = false) \/ is_fin (snd x) = true) (log s) -> fine t0 (snapshot s).
Proof.
  intros ((R1 & R2 & R3 & R4 & R5 & R6) & S & St & T0) Hq.
  assert (RR : roll s) by (repeat (split; [assumption|]); assumption).
  unfold snapshot. split; [|split; [|split]].
  - split; [now apply (z_emit _ life_coarse)|]. split; [now apply (z_emit _ present_coarse)|]. split; [now apply list_emit|].
    split; [now apply pid_emit|]. split; [exact R5|]. simpl. apply Forall_app. split; [exact R6|]. constructor; [simpl; lia|constructor].
  - intros pre t snap n post E. simpl in E. symmetry in E.
    destruct (split_app _ _ _ _ E) as [(k & Ek & E2)|(k & Ek & E2)].
    + destruct k as [|x k]; simpl in E2.
      * rewrite app_nil_r in Ek. subst pre. injection E2 as -> -> -> ->.
        split; [now apply roll_listed|]. split; [now apply roll_ids|]. split; [exact Hq|]. split; [constructor|]. split; [exact T0|now apply roll_nodup].
      * injection E2 as <- ->. destruct (S pre t snap n k Ek) as (A & B & C & D & T). repeat (split; [assumption|]). split; [|exact T].
        apply Forall_app. split; [exact D|]. constructor; [|constructor]. simpl. rewrite Ek in St. apply Forall_app in St. destruct St as [_ St].
        now inversion St.
    + destruct k as [|? k]; simpl in E2; [|injection E2 as _ E2; destruct k; discriminate].
      rewrite app_nil_r in Ek. subst pre. injection E2 as E21 E22 E23 E24. subst t snap n. destruct post; [|discriminate].
      split; [now apply roll_listed|]. split; [now apply roll_ids|]. split; [exact Hq|]. split; [constructor|]. split; [exact T0|now apply roll_nodup].
  - simpl. apply Forall_app. split; [exact St|]. constructor; [simpl; lia|constructor].
  - exact T0.
Qed.
Lemma quiet_phases f l : keeps quiet (run_phases beh cond f l).
Proof.
  induction l as [|p l IH]; simpl; [apply (keeps_ret quiet quiet_refl)|]. apply (keeps_bind quiet quiet_trans); [apply quiet_phase|auto].
Qed.
Lemma rested_step f t0 s o s' : rested t0 s -> step beh cond f s = (o, s') -> o <> Undef -> fine t0 s' /\ (o = Normal tt -> rested t0 s').
Proof.
  intros [G F] H N. rewrite step_split in H. unfold bind at 1, gets in H.
  assert (X : exists s1, fine t0 s1 /\ tm (ti s1) = tm (ti s) /\
     (run_phases beh cond f all_phases ;; modify (with_ti (fun x => mkT (tm x + 1) (dur x) (killf x) (snapf x) (tmap x) (cpp x) (py x) (bq x) (dq x)))) s1 = (o, s')).
  { destruct (snapf (ti s)).
    - unfold bind at 1 in H. unfold bind at 1, modify at 1 in H. unfold modify at 1 in H. eexists. split; [|split; [|exact H]].
      + apply fine_snap.
        * apply fine_timer; [left; reflexivity|exact G].
        * simpl. eapply Forall_impl; [|exact F]. simpl. tauto.
      + reflexivity.
    - unfold bind at 1, ret at 1 in H. exists s. auto. }
  destruct X as (s1 & G1 & T1 & H1). destruct (bind_inv _ _ _ _ _ H1) as [([] & s2 & E1 & E2)|(No & o1 & E1 & N1 & U)].
  - assert (Q := quiet_phases _ _ _ _ _ E1). specialize (Q ltac:(congruence)). assert (G2 := quiet_fine _ _ _ Q G1).
    unfold modify in E2. injection E2 as <- <-. assert (G3 : fine t0 (with_ti (fun x => mkT (tm x + 1) (dur x) (killf x) (snapf x) (tmap x) (cpp x) (py x) (bq x) (dq x)) s2)).
    { apply fine_timer; [right; reflexivity|exact G2]. }
    split; [exact G3|]. intros _. split; [exact G3|]. simpl. destruct G2 as (_ & _ & St & _). eapply Forall_impl; [|exact St]. simpl. intros x Hx. left. lia.
  - assert (Q := quiet_phases _ _ _ _ _ E1). specialize (Q ltac:(intros E; apply N; now apply U)). split; [eapply quiet_fine; eauto|].
    intros E. exfalso. eapply No; eauto.
Qed.
Lemma rested_steps f n : forall t0 s o s', rested t0 s -> steps beh cond n f s = (o, s') -> o <> Undef -> fine t0 s' /\ (o = Normal tt -> rested t0 s').
Proof.
  induction n as [|n IH]; intros t0 s o s' R H N; simpl in H.
  - injection H as <- <-. destruct R as [G F]. split; [exact G|]. intros _. split; auto.
  - unfold bind at 1, gets in H. destruct (Z.ltb _ _).
    + destruct (bind_inv _ _ _ _ _ H) as [([] & s1 & E1 & E2)|(No & o1 & E1 & N1 & U)].
      * destruct (rested_step _ _ _ _ _ R E1) as [G1 R1]; [congruence|]. specialize (R1 eq_refl).
        unfold bind at 1, gets in E2. destruct (killf (ti s1)); [|eapply IH; eauto]. injection E2 as <- <-. auto.
      * destruct (rested_step _ _ _ _ _ R E1) as [G1 R1]; [intros E; apply N; now apply U|]. split; [exact G1|].
        intros E. exfalso. eapply No; eauto.
    + injection H as <- <-. destruct R as [G F]. split; [exact G|]. intros _. split; auto.
Qed.
Lemma fine_run f t0 s o s' : rested t0 s -> run_sim beh cond f s = (o, s') -> o <> Undef -> fine t0 s'.
Proof.
  intros R H N. unfold run_sim in H. unfold bind at 1, gets in H.
  destruct (bind_inv _ _ _ _ _ H) as [([] & s1 & E1 & E2)|(No & o1 & E1 & N1 & U)].
  - destruct (rested_steps _ _ _ _ _ _ R E1) as [G1 R1]; [congruence|]. destruct (R1 eq_refl) as [_ F].
    unfold bind, modify in E2. injection E2 as <- <-.
    match goal with |- fine _ (snapshot ?s) => assert (G2 : fine t0 s) end.
    { eapply quiet_fine; [|exact G1]. now apply quiet_emit. }
    apply fine_snap; [exact G2|]. simpl. apply Forall_app. split; [eapply Forall_impl; [|exact F]; simpl; tauto|].
    constructor; [|constructor]. simpl. auto.
  - destruct (rested_steps _ _ _ _ _ _ R E1) as [G1 R1]; [intros E; apply N; now apply U|]. exact G1.
Qed.
Lemma run_fine f setup t0 d o s' : 0 <= t0 -> simulate beh cond f setup t0 d = (o, s') -> o <> Undef -> fine t0 s'.
Proof.
  intros T0 H N. unfold simulate in H.
  assert (G0 : fine t0 (sim0 t0 d)).
  { split; [|split; [|split]].
    - split; [constructor; [intros a x [X _]; destruct a; discriminate|intros a []|constructor]|].
      split; [constructor; [constructor|intros a []]|]. split; [constructor; [constructor|intros a []|constructor|intros a x X; destruct a; discriminate]|].
      split; [split; [split; [reflexivity|intros a y X; destruct a; discriminate]|intros a y X; destruct a; discriminate]|].
      split; [exact T0|constructor].
    - intros pre t snap n post E. destruct pre; discriminate.
    - constructor.
    - simpl. lia. }
  destruct (bind_inv _ _ _ _ _ H) as [([] & s1 & E1 & E2)|(No & o1 & E1 & N1 & U)].
  - assert (Q := quiet_exec _ _ _ _ _ E1). specialize (Q ltac:(congruence)). assert (G1 := quiet_fine _ _ _ Q G0).
    eapply fine_run; [|exact E2|exact N]. split; [exact G1|]. destruct Q as [T (suf & L & F) _ _ _ _]. simpl in *. rewrite L.
    eapply Forall_impl; [|exact F]. simpl. intros x [_ Hx]. right. auto.
  - assert (Q := quiet_exec _ _ _ _ _ E1). specialize (Q ltac:(intros E; apply N; now apply U)). eapply quiet_fine; eauto.
Qed.
End Q.
