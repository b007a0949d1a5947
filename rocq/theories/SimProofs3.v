(** The structure of a run: steps, phases, and what happens in a complete phase. *)
From Coq Require Import String List ZArith Bool Arith Lia.
From Verif Require Import Base SimModel SimSpec SimProofs1 SimProofs2.
Import ListNotations.
Local Open Scope Z_scope.

Lemma ext_weaken (ok ok' : event -> bool) s s' : (forall e, ok e = true -> ok' e = true) -> exto ok s s' -> exto ok' s s'.
Proof.
  intros H [(suf & L & F & Kl) T D Hh I]. constructor; auto. exists suf. split; [auto|]. split; [|auto].
  eapply Forall_impl; [|exact F]. simpl. intuition.
Qed.
Lemma keeps_weaken {A} (ok ok' : event -> bool) (m : M A) : (forall e, ok e = true -> ok' e = true) -> keeps (exto ok) m -> keeps (exto ok') m.
Proof. intros H Hm s o s' E N. eapply ext_weaken; eauto. Qed.
Lemma atoms_weaken (ok ok' : event -> bool) cond : (forall e, ok e = true -> ok' e = true) -> atoms (exto ok) cond -> atoms (exto ok') cond.
Proof. intros H []. constructor; intros; eapply keeps_weaken; eauto. Qed.

Definition okp (p : phase) (e : event) : bool := inner e || mark_of p e.
Lemma okp_marker p e : okp p e = true -> marker e = false.
Proof. unfold okp, inner. destruct e, p; simpl; congruence. Qed.
Lemma okp_own p e q : okp p e = true -> own_phase e = Some q -> q = p.
Proof. unfold okp, inner. destruct e, p; simpl; congruence. Qed.

Section S.
Context (beh : hook -> sim -> prog) (cond : nat -> sim -> bool) (fuel : nat).

Lemma body_ext p : keeps (exto (okp p)) (body beh cond p fuel).
Proof.
  assert (W : forall e, inner e = true -> okp p e = true) by (intros e H; unfold okp; now rewrite H).
  apply keeps_body; auto using (@ext_refl (okp p)).
  - exact (@ext_trans (okp p)).
  - eapply atoms_weaken; [exact W|apply ext_atoms].
  - intros e He. apply keeps_modify. intros s. apply ext_emit.
    + unfold okp. now rewrite He, orb_true_r.
    + destruct p, e; simpl in He; try discriminate; reflexivity.
Qed.

(** Emitting a boundary. *)
Definition okm (e : event) : bool := marker e.
Lemma mark_ext e s : marker e = true -> exto okm s (emit e s).
Proof. intros H. apply ext_emit; [exact H|]. destruct e; try discriminate; reflexivity. Qed.

(** Splitting a log. *)
Lemma split_at {A} (pre : list A) x rest l y suf :
  pre ++ x :: rest = l ++ y :: suf ->
  (exists rest1, l = pre ++ x :: rest1 /\ rest = rest1 ++ y :: suf) \/
  (pre = l /\ x = y /\ rest = suf) \/
  (exists mid, pre = l ++ y :: mid /\ suf = mid ++ x :: rest).
Proof.
  revert l. induction pre as [|a pre IH]; intros [|b l] E; simpl in E.
  - right; left. injection E as -> ->. auto.
  - left. injection E as -> ->. exists l. auto.
  - right; right. injection E as -> <-. exists pre. auto.
  - injection E as -> E. destruct (IH _ E) as [(r & -> & ->)|[(-> & -> & ->)|(m & -> & ->)]].
    + left. exists r. auto.
    + right; left. auto.
    + right; right. exists m. auto.
Qed.
Lemma split_app {A} (a b c d : list A) : a ++ b = c ++ d ->
  (exists m, c = a ++ m /\ b = m ++ d) \/ (exists m, a = c ++ m /\ d = m ++ b).
Proof.
  revert c. induction a as [|x a IH]; intros c E; simpl in E.
  - left. exists c. auto.
  - destruct c as [|y c]; simpl in E.
    + right. exists (x :: a). auto.
    + injection E as -> E. destruct (IH _ E) as [(m & -> & ->)|(m & -> & ->)]; [left|right]; exists m; auto.
Qed.

(** Every complete phase in the log is an execution of that phase. *)
Definition executed (s : sim) (pre seg : history) (t : Z) (p : phase) : Prop :=
  exists s1 s2, inv s1 /\ inv s2 /\ body beh cond p fuel s1 = (Normal tt, s2) /\
    log s1 = pre ++ [(t, EPhase p)] /\ tm (ti s1) = t /\ log s2 = log s1 ++ seg /\ hrel (w s2) (w s).
Definition segs (s : sim) (fin : bool) : Prop := forall pre t p seg post,
  log s = pre ++ (t, EPhase p) :: seg ++ post -> no_marker seg ->
  match post with [] => fin = true | x :: _ => marker (snd x) = true end ->
  executed s pre seg t p.
(** Every kernel action happens in its phase. *)
Definition placed (l : history) : Prop := forall pre x post p,
  l = pre ++ x :: post -> own_phase (snd x) = Some p -> phase_now pre = Some (fst x, p).

Lemma executed_hrel s s' pre seg t p : hrel (w s) (w s') -> executed s pre seg t p -> executed s' pre seg t p.
Proof.
  intros H (s1 & s2 & A & B & C & D & E & F & G). exists s1, s2. repeat (split; [assumption|]). eapply hrel_trans; eauto.
Qed.

Lemma no_marker_app a b : no_marker (a ++ b) <-> no_marker a /\ no_marker b.
Proof. apply Forall_app. Qed.
Lemma no_marker_post suf : no_marker suf -> forall seg post, suf = seg ++ post ->
  match post with [] => True | x :: _ => marker (snd x) = true end -> post = [].
Proof.
  intros N seg post -> H. apply no_marker_app in N. destruct N as [_ N]. destruct post as [|x post]; [reflexivity|].
  inversion N; congruence.
Qed.

(** The effect on [segs] and [placed] of emitting a boundary and then a stretch without boundaries. *)
Lemma segs_boundary s s' z e suf fin :
  segs s true -> marker e = true -> no_marker suf -> log s' = log s ++ (z, e) :: suf -> hrel (w s) (w s') ->
  (forall p, e = EPhase p -> fin = true -> executed s' (log s) suf z p) -> segs s' fin.
Proof.
  intros H Hm Nsuf El Hh Hx pre t p seg post E Ns Hp. rewrite El in E.
  symmetry in E. apply split_at in E. destruct E as [(r & E1 & E2)|[(E0 & E1 & E2)|(m & _ & E2)]].
  - assert (C : (exists m, r = seg ++ m /\ post = m ++ (z, e) :: suf) \/ (exists m, seg = r ++ m /\ (z, e) :: suf = m ++ post)).
    { now apply split_app. }
    destruct C as [(m & -> & ->)|(m & -> & E3)].
    + apply executed_hrel with (s := s); [exact Hh|]. destruct m as [|y m].
      * apply (H pre t p seg []); auto.
      * simpl in Hp. apply (H pre t p seg (y :: m)); auto.
    + apply no_marker_app in Ns. destruct Ns as [Nr Nm]. destruct m as [|y m]; simpl in E3.
      * rewrite app_nil_r. apply executed_hrel with (s := s); [exact Hh|]. apply (H pre t p r []); auto. now rewrite app_nil_r.
      * injection E3 as <- E3. inversion Nm. simpl in *. congruence.
  - injection E1 as -> <-. subst pre. assert (post = []).
    { apply (no_marker_post suf Nsuf seg); [auto|]. destruct post; auto. }
    subst post. rewrite app_nil_r in E2. subst suf. apply (Hx p); auto.
  - exfalso. subst suf. apply no_marker_app in Nsuf. destruct Nsuf as [_ N]. inversion N. simpl in *. discriminate.
Qed.

Lemma phase_now_snoc l x : phase_now (l ++ [x]) = match snd x with EPhase p => Some (fst x, p) | _ => phase_now l end.
Proof. unfold phase_now. rewrite fold_left_app. reflexivity. Qed.
Lemma phase_now_app l suf : no_marker suf -> phase_now (l ++ suf) = phase_now l.
Proof.
  induction suf as [|x suf IH] using rev_ind; intros N; [now rewrite app_nil_r|].
  apply no_marker_app in N. destruct N as [N1 N2]. rewrite app_assoc, phase_now_snoc, (IH N1).
  inversion N2 as [|? ? Hx _]; subst. destruct (snd x); try reflexivity. discriminate.
Qed.
Lemma placed_app l suf : placed l ->
  (forall a x b p, suf = a ++ x :: b -> own_phase (snd x) = Some p -> phase_now (l ++ a) = Some (fst x, p)) -> placed (l ++ suf).
Proof.
  intros H Hs pre x post p E Hp. symmetry in E.
  assert (C := split_app pre (x :: post) l suf E). destruct C as [(m & El & E2)|(m & -> & E2)].
  - destruct m as [|y m]; simpl in E2.
    + rewrite app_nil_r in El. subst l. specialize (Hs [] x post p (eq_sym E2) Hp). now rewrite app_nil_r in Hs.
    + injection E2 as <- E2. apply (H pre x m p); auto.
  - apply (Hs m x post p); auto.
Qed.
Lemma placed_ok l p z suf : placed l -> Forall (fun x => fst x = z /\ okp p (snd x) = true) suf ->
  placed (l ++ (z, EPhase p) :: suf).
Proof.
  intros H F. apply placed_app; [exact H|]. intros a x b q E Hq.
  destruct a as [|y a]; simpl in E; injection E as <- E; [discriminate|].
  subst suf. apply Forall_app in F. destruct F as [Fa Fx]. inversion Fx as [|? ? [Hz Hk] _]; subst.
  apply (okp_own _ _ _ Hk) in Hq. subst q.
  change ((fst x, EPhase p) :: a) with ([(fst x, EPhase p)] ++ a). rewrite app_assoc, phase_now_app.
  - rewrite phase_now_snoc. reflexivity.
  - eapply Forall_impl; [|exact Fa]. intros y [_ Hy]. eapply okp_marker; eauto.
Qed.
Lemma placed_mark l x : placed l -> marker (snd x) = true -> placed (l ++ [x]).
Proof.
  intros H Hm. apply placed_app; [exact H|]. intros a y b p E Hp. destruct a as [|? [|? ?]]; try discriminate.
  injection E as <- _. destruct (snd x); discriminate.
Qed.
Lemma placed_inner l suf : placed l -> Forall (fun x => inner (snd x) = true) suf -> placed (l ++ suf).
Proof.
  intros H F. apply placed_app; [exact H|]. intros a x b p E Hp. subst. apply Forall_app in F. destruct F as [_ F].
  inversion F as [|? ? Hx _]; subst. unfold inner in Hx. rewrite Hp, andb_false_r in Hx. discriminate.
Qed.

Lemma phases_app l m : phases (l ++ m) = phases l ++ phases m. Proof. apply flat_map_app. Qed.
Lemma phases_none l : no_marker l -> phases l = [].
Proof. induction 1 as [|x l Hx _ IH]; simpl; [reflexivity|]. rewrite IH. destruct (snd x); try reflexivity. discriminate. Qed.

(** The state between phases. *)
Record good (s : sim) (fin : bool) : Prop := {
  g_inv : inv s;
  g_segs : segs s fin;
  g_placed : placed (log s);
  g_kill : killf (ti s) = existsb is_kill (log s) }.

Lemma good_phase p s o s' : good s true -> do_phase beh cond fuel p s = (o, s') -> o <> Undef ->
  good s' (match o with Normal _ => true | _ => false end) /\ tm (ti s') = tm (ti s) /\ dur (ti s') = dur (ti s) /\
  phases (log s') = phases (log s) ++ [(tm (ti s), p)] /\ hrel (w s) (w s').
Proof.
  intros [Gi Gs Gp Gk] H N. unfold do_phase, bind, modify in H.
  assert (E0 := mark_ext (EPhase p) s eq_refl).
  assert (E1 := body_ext p _ _ _ H N).
  assert (I0 : inv (emit (EPhase p) s)) by (apply (x_inv _ _ _ E0); auto).
  assert (I1 : inv s') by (apply (x_inv _ _ _ E1); auto).
  destruct E1 as [(suf & L & F & Kl) T D Hh _]. simpl in *.
  assert (L' : log s' = log s ++ (tm (ti s), EPhase p) :: suf) by (rewrite L, <- app_assoc; reflexivity).
  assert (Nm : no_marker suf). { eapply Forall_impl; [|exact F]. intros x [_ Hx]. eapply okp_marker; eauto. }
  split; [|split; [exact T|split; [exact D|split; [|exact Hh]]]].
  - constructor; auto.
    + eapply segs_boundary; eauto; [reflexivity|]. intros q [= <-] Hf. destruct o as [[]| | |]; try discriminate.
      exists (emit (EPhase p) s), s'. split; [exact I0|]. split; [exact I1|]. split; [exact H|]. split; [reflexivity|].
      split; [reflexivity|]. split; [exact L|apply hrel_refl].
    + rewrite L'. apply placed_ok; auto.
    + rewrite Kl, L, !existsb_app, Gk. simpl. rewrite orb_false_r. reflexivity.
  - rewrite L', phases_app. simpl. now rewrite (phases_none suf).
Qed.
Lemma good_mark e s : good s true -> marker e = true -> (forall p, e <> EPhase p) ->
  good (emit e s) true /\ phases (log (emit e s)) = phases (log s).
Proof.
  intros [Gi Gs Gp Gk] Hm Np. assert (E0 := mark_ext e s Hm). split.
  - constructor.
    + now apply (x_inv _ _ _ E0).
    + eapply segs_boundary; eauto; [constructor|reflexivity|apply hrel_refl|]. intros p E. exfalso. eapply Np; eauto.
    + simpl. now apply placed_mark.
    + simpl. rewrite existsb_app, <- Gk. simpl. destruct e; try discriminate; now rewrite !orb_false_r.
  - simpl. rewrite phases_app. simpl. destruct e; try discriminate; try (now rewrite app_nil_r). exfalso. eapply Np; eauto.
Qed.
(** A change of the timer that the invariant does not mention. *)
Lemma good_timer f s fin : good s fin ->
  killf (f (ti s)) = killf (ti s) -> tmap (f (ti s)) = tmap (ti s) -> cpp (f (ti s)) = cpp (ti s) -> py (f (ti s)) = py (ti s) ->
  bq (f (ti s)) = bq (ti s) -> dq (f (ti s)) = dq (ti s) -> tm (ti s) <= tm (f (ti s)) -> good (with_ti f s) fin.
Proof.
  intros [Gi Gs Gp Gk] E1 E2 E3 E4 E5 E6 E7. constructor; auto.
  - destruct Gi. constructor; simpl; rewrite ?E2, ?E3, ?E4, ?E5, ?E6; auto.
    eapply Forall_impl; [|exact i_stamp]. simpl. intros; lia.
  - simpl. congruence.
Qed.

Lemma bind_inv {A B} (m : M A) (k : A -> M B) s o s' : bind m k s = (o, s') ->
  (exists a s1, m s = (Normal a, s1) /\ k a s1 = (o, s')) \/
  ((forall b, o <> Normal b) /\ exists o1 : out A, m s = (o1, s') /\ (forall a, o1 <> Normal a) /\ (o1 = Undef <-> o = Undef)).
Proof.
  unfold bind. destruct (m s) as [[a|e| |] s1] eqn:E; intros H.
  - left. eauto.
  - right. injection H as <- <-. split; [congruence|]. exists (Raised e). split; [reflexivity|]. split; [congruence|]. split; congruence.
  - right. injection H as <- <-. split; [congruence|]. exists Undef. split; [reflexivity|]. split; [congruence|]. split; congruence.
  - right. injection H as <- <-. split; [congruence|]. exists NoFuel. split; [reflexivity|]. split; [congruence|]. split; congruence.
Qed.

Definition run_phases (l : list phase) : M unit := fold_right (fun p k => do_phase beh cond fuel p ;; k) (ret tt) l.
Lemma good_phases l : forall s o s', good s true -> run_phases l s = (o, s') -> o <> Undef ->
  good s' (match o with Normal _ => true | _ => false end) /\ tm (ti s') = tm (ti s) /\ dur (ti s') = dur (ti s) /\
  hrel (w s) (w s') /\
  exists n, phases (log s') = phases (log s) ++ map (pair (tm (ti s))) (firstn n l) /\ (o = Normal tt -> n = length l).
Proof.
  induction l as [|p l IH]; intros s o s' G H N.
  - simpl in H. injection H as <- <-. repeat (split; [auto using hrel_refl|]). exists 0%nat. simpl. now rewrite app_nil_r.
  - simpl in H. destruct (bind_inv _ _ _ _ _ H) as [([] & s1 & E1 & E2)|(No & o1 & E1 & N1 & U)].
    + destruct (good_phase p s (Normal tt) s1 G E1) as (G1 & T1 & D1 & P1 & R1); [congruence|].
      destruct (IH _ _ _ G1 E2 N) as (G2 & T2 & D2 & R2 & n & P2 & Hn).
      split; [exact G2|]. split; [congruence|]. split; [congruence|]. split; [eapply hrel_trans; eauto|].
      exists (S n). rewrite P2, P1, T1, <- app_assoc. split; [reflexivity|]. intros E. simpl. now rewrite Hn.
    + destruct (good_phase p s o1 s' G E1) as (G1 & T1 & D1 & P1 & R1); [intros E; apply N; now apply U|].
      split. { destruct o1; [exfalso; eapply N1; eauto| | |]; destruct o; try exact G1; exfalso; eapply No; eauto. }
      split; [exact T1|]. split; [exact D1|]. split; [exact R1|]. exists 1%nat. simpl. split; [exact P1|].
      intros E. exfalso. eapply No; eauto.
Qed.

Definition all_phases := [PBuild; PTick; PExch; PTock; PDecide; PDecom].
Lemma step_split s : step beh cond fuel s =
  (snap <- gets (fun s => snapf (ti s)) ;;
   (if snap then
     modify (with_ti (fun x => mkT (tm x) (dur x) (killf x) false (tmap x) (cpp x) (py x) (bq x) (dq x))) ;;
     modify snapshot
    else ret tt) ;;
   run_phases all_phases ;;
   modify (with_ti (fun x => mkT (tm x + 1) (dur x) (killf x) (snapf x) (tmap x) (cpp x) (py x) (bq x) (dq x)))) s.
Proof.
  unfold step. apply bind_cong. intros sn s1. apply bind_cong. intros [] s2. unfold run_phases, all_phases.
  cbn [fold_right].
  do 6 (rewrite bind_assoc; apply bind_cong; intros [] ?). unfold bind. simpl. reflexivity.
Qed.

Lemma good_snap_part (sn : bool) s o s' : good s true ->
  (if sn then
     modify (with_ti (fun x => mkT (tm x) (dur x) (killf x) false (tmap x) (cpp x) (py x) (bq x) (dq x))) ;;
     modify snapshot
   else ret tt) s = (o, s') ->
  o = Normal tt /\ good s' true /\ tm (ti s') = tm (ti s) /\ dur (ti s') = dur (ti s) /\ phases (log s') = phases (log s) /\ w s' = w s.
Proof.
  intros G H. destruct sn.
  - unfold bind, modify in H. injection H as <- <-. split; [reflexivity|].
    unfold snapshot. match goal with |- good (emit _ (with_ti ?f s)) _ /\ _ => assert (G1 : good (with_ti f s) true) end.
    { apply good_timer; auto. simpl. lia. }
    match goal with |- good (emit ?e _) _ /\ _ => destruct (good_mark e _ G1 eq_refl) as [G2 P2]; [congruence|] end.
    split; [exact G2|]. split; [reflexivity|]. split; [reflexivity|]. split; [exact P2|reflexivity].
  - injection H as <- <-. auto 10.
Qed.

Lemma good_step s o s' : good s true -> step beh cond fuel s = (o, s') -> o <> Undef ->
  good s' (match o with Normal _ => true | _ => false end) /\ dur (ti s') = dur (ti s) /\
  tm (ti s') = tm (ti s) + (match o with Normal _ => 1 | _ => 0 end) /\
  hrel (w s) (w s') /\ (o = Normal tt -> Forall (fun x => fst x < tm (ti s')) (log s')) /\
  exists n, phases (log s') = phases (log s) ++ firstn n (step_phases (tm (ti s))) /\ (o = Normal tt -> n = 6%nat).
Proof.
  intros G H N. rewrite step_split in H. unfold bind at 1, gets in H.
  destruct (bind_inv _ _ _ _ _ H) as [([] & s1 & E1 & E2)|(No & o1 & E1 & N1 & U)].
  2:{ apply good_snap_part in E1; [|exact G]. destruct E1 as [E1 _]. exfalso. eapply N1; eauto. }
  apply good_snap_part in E1; [|exact G]. destruct E1 as (_ & G1 & T1 & D1 & P1 & W1).
  assert (FF : forall n, map (pair (tm (ti s))) (firstn n all_phases) = firstn n (step_phases (tm (ti s)))).
  { intros n. rewrite <- firstn_map. reflexivity. }
  destruct (bind_inv _ _ _ _ _ E2) as [([] & s2 & E3 & E4)|(No & o1 & E3 & N1 & U)].
  - destruct (good_phases _ _ _ _ G1 E3) as (G2 & T2 & D2 & R2 & n & P2 & Hn); [congruence|].
    unfold modify in E4. injection E4 as <- <-. split.
    { apply good_timer; auto. simpl. lia. }
    simpl. split; [congruence|]. split; [lia|]. split; [rewrite <- W1; exact R2|].
    split. { intros _. eapply Forall_impl; [|exact (i_stamp _ (g_inv _ _ G2))]. simpl. intros; lia. }
    exists n. rewrite P2, P1, T1, FF. split; [reflexivity|]. intros _. now apply Hn.
  - destruct (good_phases _ _ _ _ G1 E3) as (G2 & T2 & D2 & R2 & n & P2 & Hn); [intros E; apply N; now apply U|].
    split. { destruct o1; [exfalso; eapply N1; eauto| | |]; destruct o; try exact G2; exfalso; eapply No; eauto. }
    split; [congruence|]. split. { destruct o; [exfalso; eapply No; eauto| | |]; lia. }
    split; [rewrite <- W1; exact R2|]. split; [intros E; exfalso; eapply No; eauto|].
    exists n. rewrite P2, P1, T1, FF. split; [reflexivity|]. intros E. exfalso. eapply No; eauto.
Qed.

Lemma steps_from_S t n : steps_from t (S n) = t :: steps_from (t + 1) n.
Proof.
  unfold steps_from. simpl. f_equal; [lia|]. rewrite <- seq_shift, map_map. apply map_ext. intros. lia.
Qed.

Definition grow (a b : sim) : Prop :=
  tm (ti a) <= tm (ti b) /\ exists suf, log b = log a ++ suf /\ Forall (fun x => tm (ti a) <= fst x) suf.
Lemma grow_step : keeps grow (step beh cond fuel).
Proof.
  apply keeps_step.
  - intros a. split; [lia|]. exists []. rewrite app_nil_r. auto.
  - intros a b c [A1 (s1 & L1 & F1)] [A2 (s2 & L2 & F2)]. split; [lia|]. exists (s1 ++ s2).
    rewrite L2, L1, app_assoc. split; [reflexivity|]. apply Forall_app. split; [exact F1|].
    eapply Forall_impl; [|exact F2]. simpl. intros; lia.
  - assert (W : forall A (m : M A), keeps ext m -> keeps grow m).
    { intros A m Hm a o b E N. destruct (Hm _ _ _ E N) as [(suf & L & F & _) T _ _ _]. split; [lia|].
      exists suf. split; [exact L|]. eapply Forall_impl; [|exact F]. simpl. intros x [-> _]. lia. }
    destruct (ext_atoms cond). constructor; intros; apply W; auto.
  - constructor; intros; apply keeps_modify; intros a; simpl; (split; [simpl; lia|]);
      try (exists []; rewrite app_nil_r; auto; fail);
      (eexists; split; [reflexivity|]); constructor; simpl; try lia; constructor.
  - intros p e _. apply keeps_modify. intros a. simpl. split; [simpl; lia|]. eexists; split; [reflexivity|]. constructor; simpl; [lia|constructor].
Qed.

Lemma good_steps n : forall s o s', good s true -> (n <= Z.to_nat (dur (ti s) - tm (ti s)))%nat ->
  (forall x, In x (log s) -> is_kill x = true -> tm (ti s) <= fst x) ->
  steps beh cond n fuel s = (o, s') -> o <> Undef ->
  good s' (match o with Normal _ => true | _ => false end) /\ dur (ti s') = dur (ti s) /\
  hrel (w s) (w s') /\
  exists m k, phases (log s') = phases (log s) ++ flat_map step_phases (steps_from (tm (ti s)) m) ++ firstn k (step_phases (tm (ti s) + Z.of_nat m)) /\
    tm (ti s') = tm (ti s) + Z.of_nat m /\ (m <= n)%nat /\
    (forall x, In x (log s') -> is_kill x = true -> tm (ti s) + Z.of_nat m - 1 <= fst x) /\
    (o = Normal tt -> k = 0%nat /\ (m = n \/ (0 < m)%nat /\ exists x, In x (log s') /\ is_kill x = true /\ fst x < tm (ti s'))).
Proof.
  induction n as [|n IH]; intros s o s' G Hn Hk H N; cbn [steps] in H.
  - injection H as <- <-. split; [exact G|]. split; [reflexivity|]. split; [apply hrel_refl|].
    exists 0%nat, 0%nat. simpl. rewrite app_nil_r. split; [reflexivity|]. split; [lia|]. split; [lia|].
    split; [|auto]. intros x Ix Kx. specialize (Hk _ Ix Kx). lia.
  - unfold bind at 1, gets in H. destruct (Z.ltb_spec (tm (ti s)) (dur (ti s))); [|lia].
    destruct (bind_inv _ _ _ _ _ H) as [([] & s1 & E1 & E2)|(No & o1 & E1 & N1 & U)].
    + destruct (good_step _ _ _ G E1) as (G1 & D1 & T1 & R1 & St1 & k & P1 & Hk1); [congruence|].
      specialize (Hk1 eq_refl). subst k. simpl in G1, T1.
      assert (Kold : forall x, In x (log s1) -> is_kill x = true -> tm (ti s) <= fst x).
      { assert (X : exists suf, log s1 = log s ++ suf /\ Forall (fun x => tm (ti s) <= fst x) suf).
        { destruct (grow_step _ _ _ E1) as [_ X]; [congruence|]. exact X. }
        destruct X as (suf & L & F). intros x Ix Kx. rewrite L in Ix. apply in_app_or in Ix. destruct Ix as [Ix|Ix]; [auto|].
        rewrite Forall_forall in F. auto. }
      assert (Iinv := g_inv _ _ G1).
      unfold bind at 1, gets in E2. destruct (killf (ti s1)) eqn:Ek.
      * injection E2 as <- <-. split; [exact G1|]. split; [exact D1|]. split; [exact R1|].
        exists 1%nat, 0%nat. rewrite P1. simpl. split; [replace (tm (ti s) + 0) with (tm (ti s)) by lia; reflexivity|].
        split; [lia|]. split; [lia|]. split.
        2:{ intros _. split; [reflexivity|]. right. split; [lia|]. rewrite (g_kill _ _ G1) in Ek.
            apply existsb_exists in Ek. destruct Ek as (x & Ix & Kx). exists x. split; [exact Ix|]. split; [exact Kx|].
            specialize (St1 eq_refl). rewrite Forall_forall in St1. auto. }
        intros x Ix Kx. specialize (Kold _ Ix Kx). lia.
      * assert (Nk : forall x, In x (log s1) -> is_kill x = true -> False).
        { intros x Ix Kx. rewrite (g_kill _ _ G1) in Ek. assert (existsb is_kill (log s1) = true); [|congruence].
          apply existsb_exists. eauto. }
        destruct (IH s1 o s' G1) as (G2 & D2 & R2 & m & k & P2 & T2 & Lm & K2 & C2); auto.
        { rewrite D1, T1. lia. }
        { intros x Ix Kx. exfalso. eauto. }
        split; [exact G2|]. split; [congruence|]. split; [eapply hrel_trans; eauto|].
        exists (S m), k. rewrite P2, P1, steps_from_S, T1. cbn [flat_map]. rewrite <- !app_assoc.
        replace (tm (ti s) + Z.of_nat (S m)) with (tm (ti s) + 1 + Z.of_nat m) by lia.
        split; [reflexivity|]. split; [lia|]. split; [lia|]. split; [intros x Ix Kx; specialize (K2 _ Ix Kx); lia|].
        intros E. destruct (C2 E) as [Ek0 [Em|[A B]]]; (split; [exact Ek0|]); [left; lia|right]. split; [lia|exact B].
    + assert (o1 <> Undef) by (intros E; apply N; now apply U).
      destruct (good_step _ _ _ G E1) as (G1 & D1 & T1 & R1 & St1 & k & P1 & Hk1); [auto|].
      split. { destruct o1; [exfalso; eapply N1; eauto| | |]; destruct o; try exact G1; exfalso; eapply No; eauto. }
      split; [exact D1|]. split; [exact R1|]. exists 0%nat, k. simpl. rewrite P1.
      replace (tm (ti s) + 0) with (tm (ti s)) by lia. split; [reflexivity|].
      split. { destruct o1; [exfalso; eapply N1; eauto| | |]; lia. }
      split; [lia|]. split.
      * intros x Ix Kx.
        destruct (grow_step _ _ _ E1) as (_ & suf & L & F); [auto|]. rewrite L in Ix. apply in_app_or in Ix.
        destruct Ix as [Ix|Ix]; [specialize (Hk _ Ix Kx); lia|]. rewrite Forall_forall in F. specialize (F _ Ix). lia.
      * intros E. exfalso. eapply No; eauto.
Qed.

Lemma good_setup setup t0 d o s' : exec beh cond fuel setup (sim0 t0 d) = (o, s') -> o <> Undef ->
  good s' true /\ phases (log s') = [] /\ tm (ti s') = t0 /\ dur (ti s') = d /\
  (forall x, In x (log s') -> fst x = t0).
Proof.
  intros H N. destruct (k_exec beh cond fuel setup _ _ _ H N) as [(suf & L & F & Kl) T D Hh I]. simpl in *.
  assert (Nm : no_marker (log s')).
  { rewrite L. eapply Forall_impl; [|exact F]. simpl. intros x [_ Hx]. unfold inner in Hx. destruct (marker (snd x)); auto. }
  split; [|split; [|split; [|split]]]; auto.
  - constructor.
    + apply I, inv_sim0.
    + intros pre t p seg post E _ _. exfalso. rewrite E in Nm. apply no_marker_app in Nm. destruct Nm as [_ Nm].
      inversion Nm. simpl in *. discriminate.
    + rewrite L. apply (placed_inner []).
      * intros pre x post p E. destruct pre; discriminate.
      * eapply Forall_impl; [|exact F]. simpl. tauto.
    + rewrite L. exact Kl.
  - now apply phases_none.
  - intros x Ix. rewrite L in Ix. rewrite Forall_forall in F. apply F. exact Ix.
Qed.

Lemma good_run setup t0 d o s' : simulate beh cond fuel setup t0 d = (o, s') -> o <> Undef ->
  good s' (match o with Normal _ => true | _ => false end) /\
  exists m k, phases (log s') = flat_map step_phases (steps_from t0 m) ++ firstn k (step_phases (t0 + Z.of_nat m)) /\
    (m <= Z.to_nat (d - t0))%nat /\
    (forall z, In (z, EKill) (log s') -> t0 + Z.of_nat m - 1 <= z) /\
    (o = Normal tt -> k = 0%nat /\ (m = Z.to_nat (d - t0) \/ (0 < m)%nat /\ In (t0 + Z.of_nat m - 1, EKill) (log s')) /\
      exists l snap n, log s' = l ++ [(t0 + Z.of_nat m, EFinish (existsb is_kill l) (t0 + Z.of_nat m - 1)); (t0 + Z.of_nat m, ESnap snap n)]).
Proof.
  intros H N. unfold simulate in H.
  destruct (bind_inv _ _ _ _ _ H) as [([] & s1 & E1 & E2)|(No & o1 & E1 & N1 & U)].
  2:{ destruct (good_setup _ _ _ _ _ E1) as (G1 & P1 & T1 & D1 & S1); [intros E; apply N; now apply U|].
      assert (Hg : good s' (match o with Normal _ => true | _ => false end)).
      { destruct o; [exact G1| | |]; destruct G1 as [A B C D]; constructor; auto;
          intros pre t p seg post El Ns Hp; apply (B pre t p seg post El Ns); destruct post; auto; discriminate. }
      split; [exact Hg|]. exists 0%nat, 0%nat. simpl. split; [exact P1|]. split; [lia|]. split.
      - intros z Hz. apply S1 in Hz. simpl in Hz. lia.
      - intros E. exfalso. eapply No; eauto. }
  destruct (good_setup _ _ _ _ _ E1) as (G1 & P1 & T1 & D1 & S1); [congruence|].
  unfold run_sim in E2. unfold bind at 1, gets in E2. rewrite T1, D1 in E2.
  destruct (bind_inv _ _ _ _ _ E2) as [([] & s2 & E3 & E4)|(No & o1 & E3 & N1 & U)].
  - destruct (good_steps (Z.to_nat (d - t0)) _ _ _ G1 ltac:(rewrite T1, D1; lia) ltac:(intros x Ix _; apply S1 in Ix; lia) E3)
      as (G2 & D2 & R2 & m & k & P2 & T2 & Lm & K2 & C2); [congruence|].
    rewrite T1 in P2, T2, K2. rewrite P1 in P2. simpl in P2. destruct (C2 eq_refl) as [Hk Hm].
    unfold bind, modify, snapshot in E4. injection E4 as <- <-.
    destruct (good_mark (EFinish (killf (ti s2)) (tm (ti s2) - 1)) s2 G2 eq_refl) as [G3 P3]; [congruence|].
    match goal with |- good (emit ?e _) _ /\ _ => destruct (good_mark e _ G3 eq_refl) as [G4 P4]; [congruence|] end.
    split; [exact G4|]. exists m, k. split; [rewrite P4, P3; exact P2|]. split; [exact Lm|].
    cbn [log emit ti w]. split; [|intros _; split; [exact Hk|split]].
    + intros z Hz. rewrite !in_app_iff in Hz. simpl in Hz.
      destruct Hz as [[Hz|[Hz|[]]]|[Hz|[]]]; try discriminate. apply (K2 (z, EKill) Hz eq_refl).
    + destruct Hm as [Hm|[Hm (x & Ix & Kx & Lx)]]; [left; exact Hm|]. right. split; [exact Hm|].
      specialize (K2 _ Ix Kx). destruct x as [z e]. simpl in *. destruct e; try discriminate.
      replace (t0 + Z.of_nat m - 1) with z by lia. rewrite !in_app_iff. auto.
    + exists (log s2). eexists. eexists. rewrite <- (g_kill _ _ G2), T2, <- app_assoc. reflexivity.
  - destruct (good_steps (Z.to_nat (d - t0)) _ _ _ G1 ltac:(rewrite T1, D1; lia) ltac:(intros x Ix _; apply S1 in Ix; lia) E3)
      as (G2 & D2 & R2 & m & k & P2 & T2 & Lm & K2 & C2); [intros E; apply N; now apply U|].
    rewrite T1 in P2, T2, K2. rewrite P1 in P2. simpl in P2.
    split. { destruct o1; [exfalso; eapply N1; eauto| | |]; destruct o; try exact G2; exfalso; eapply No; eauto. }
    exists m, k. split; [exact P2|]. split; [exact Lm|]. split.
    + intros z Hz. apply (K2 (z, EKill) Hz eq_refl).
    + intros E. exfalso. eapply No; eauto.
Qed.
Lemma whole_executed setup t0 d o s' pre seg t p : simulate beh cond fuel setup t0 d = (o, s') -> o <> Undef ->
  whole_phase (log s') pre seg t p -> executed s' pre seg t p.
Proof.
  intros H N (post & E & Ns & Hp). destruct (good_run _ _ _ _ _ H N) as [[_ G _ _] _].
  apply (G pre t p seg post E Ns). destruct post; [contradiction|exact Hp].
Qed.
End S.
