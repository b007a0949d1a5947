(** Restart: the whole, and the concrete runs. *)
From Coq Require Import String List ZArith Bool Arith Lia Sorted.
From Verif Require Import Base SimModel SimSpec SimProofs2 SimProofs3 SimProofs7 SimProofs10 SimProofs12 SimProofs13 SimExamples.
From Verif Require Import RestartModel RestartSpec RestartProofs1 RestartProofs2 RestartProofs3 RestartExamples.
Import ListNotations.
Local Open Scope Z_scope.

Section R.
Context {C : Type} (content : nat -> Z -> C) (inv : nat -> Z -> list (string * list Z)) (counter : string -> Z -> Z).
Context (beh : hook -> sim -> prog) (cond : nat -> sim -> bool) (fuel : nat) (setup : prog) (d : Z) (o : out unit) (s' : sim).
Context (pre mid rest : history) (t : Z) (snap : list nat) (n : Z).
Context (Hrun : simulate beh cond fuel setup 0 d = (o, s')) (Hdef : o <> Undef) (Hord : orderly (log s')).
Context (Hlog : log s' = pre ++ (t, ESnap snap n) :: mid ++ rest).
Local Notation D := (pre ++ (t, ESnap snap n) :: mid).
Local Notation db := (db_of content inv counter D).
Lemma the_hok : hok D.
Proof. eapply run_hok; eauto. rewrite Hlog, <- app_assoc. reflexivity. Qed.

Lemma recorded_alive (Ha : all_recorded pre) agents :
  (forall a pr pid en, alive pre a -> recorded pre a pr pid en ->
     zfind (Z.of_nat a) agents = Some (mkL (Z.of_nat a) pr en (if Z.eqb pid (-1) then None else Some pid) (content a t))) ->
  (forall id v, zfind id agents = Some v -> exists a, id = Z.of_nat a /\ alive pre a) ->
  (forall a, zfind (Z.of_nat a) agents <> None <-> alive pre a) /\ zfind (-1) agents = None.
Proof.
  intros H1 H2. split.
  - intros a. split.
    + intros X. destruct (zfind (Z.of_nat a) agents) as [v|] eqn:E; [|congruence]. destruct (H2 _ _ E) as (b & Eb & A). apply Nat2Z.inj in Eb. now subst.
    + intros A. destruct (Ha a (proj1 A)) as (pr & pid & en & R). rewrite (H1 _ _ _ _ A R). discriminate.
  - destruct (zfind (-1) agents) as [v|] eqn:E; [|reflexivity]. destruct (H2 _ _ E) as (b & Eb & _). lia.
Qed.

Lemma restart_ok ids : settled t pre mid -> entered pre <> [] -> all_recorded pre -> parents_alive pre ->
  orders_known t pre D -> orders_current t D ->
  exists f r, (forall k, (f <= k)%nat -> init_base k t db ids = Ok (Some r)) /\ restored content inv counter t pre D n r.
Proof.
  intros Hs He Ha Pa Ok1 Oc.
  destruct (agents_ok content inv counter pre mid t snap n the_hok Hs Ha He Pa) as (f & agents & enter & Hf & _ & H1 & H2 & Nd & Hen & Pf).
  destruct (recorded_alive Ha agents H1 H2) as [Hag Hneg].
  destruct (builds_ok content inv counter pre mid t snap n the_hok agents Hneg) as (bq & Eb & _ & Hb).
  destruct (decoms_ok content inv counter pre mid t snap n the_hok agents Hag Ok1 Oc) as (dq & Ed & _ & Hd).
  destruct (next_ok content inv counter pre mid t snap n the_hok ids) as (nx & En & N1 & N2 & _).
  exists f, (mkLoaded agents enter (fun id => load_inventory t id db) bq dq nx). split.
  - intros k L. unfold init_base. rewrite (Hf k L), Eb, Ed, En. reflexivity.
  - constructor; cbn [ld_agents ld_enter ld_inv ld_builds ld_decoms ld_next]; auto.
    + intros a k A Ni. apply inventory_ok; [apply the_hok|exact A|exact Ni].
    + intros u. specialize (Hb u). fold (queued u bq) in Hb. unfold odef in Hb. fold (queued u bq) in Hb.
      destruct (Z.ltb t u); [|exact Hb]. rewrite Hb. clear Hb. induction (builds_for u D) as [|[nm p] l IH]; simpl; constructor; [|exact IH].
      split; [reflexivity|]. simpl. destruct p as [q|]; [|reflexivity]. simpl. destruct (pointer_of pre agents Hag q) as [[E A]|[E A]]; rewrite E; auto.
    + rewrite N1. split; [reflexivity|]. split; [|exact N2]. intros a I.
      destruct (snap_facts pre mid t snap n the_hok) as (_ & B & _). now apply B.
Qed.
Lemma restart_orphan ids a pr q en : settled t pre mid -> all_recorded pre ->
  alive pre a -> recorded pre a pr (Z.of_nat q) en -> ~ alive pre q -> forall k, init_base k t db ids = Ok None.
Proof.
  intros Hs Ha A R Nq k. unfold init_base. rewrite (orphan_stuck content inv counter pre mid t snap n the_hok Hs Ha) with (a := a) (pr := pr) (q := q) (en := en); auto.
  intros E. destruct A as [A _]. rewrite E in A. destruct A.
Qed.
Lemma restart_null ids v a u : settled t pre mid -> entered pre <> [] -> all_recorded pre -> parents_alive pre ->
  In (v, ESchedD a u) D -> t <= u -> ~ alive pre a ->
  exists f, forall k, (f <= k)%nat -> init_base k t db ids = UB.
Proof.
  intros Hs He Ha Pa I L Na.
  destruct (agents_ok content inv counter pre mid t snap n the_hok Hs Ha He Pa) as (f & agents & enter & Hf & _ & H1 & H2 & _).
  destruct (recorded_alive Ha agents H1 H2) as [Hag Hneg].
  destruct (builds_ok content inv counter pre mid t snap n the_hok agents Hneg) as (bq & Eb & _ & Hb).
  exists f. intros k Lk. unfold init_base. rewrite (Hf k Lk), Eb.
  rewrite (decoms_null content inv counter pre mid t snap n the_hok agents Hag v a u I L Na). reflexivity.
Qed.
End R.

(** Deciding the hypotheses on a concrete history. *)
Definition aliveb (l : history) (a : nat) : bool := existsb (Nat.eqb a) (entered l) && negb (existsb (Nat.eqb a) (exits l)).
Lemma aliveb_ok l a : aliveb l a = true <-> alive l a.
Proof.
  unfold aliveb, alive. rewrite andb_true_iff, negb_true_iff, existsb_in. split; intros [A B]; (split; [exact A|]).
  - intros X. apply existsb_in in X. congruence.
  - apply not_true_iff_false. intros X. apply existsb_in in X. contradiction.
Qed.
Definition has_row (l : history) (a : nat) : bool :=
  existsb (fun x => match snd x with EEntry b id _ _ _ _ => Nat.eqb a b && Z.eqb id (Z.of_nat a) | _ => false end) l.
Lemma all_recorded_by l : forallb (has_row l) (entered l) = true -> all_recorded l.
Proof.
  intros H a I. rewrite forallb_forall in H. specialize (H a I). unfold has_row in H. apply existsb_exists in H. destruct H as ([z e] & J & K).
  simpl in K. destruct e; try discriminate. apply andb_true_iff in K. destruct K as [K1 K2]. apply Nat.eqb_eq in K1. apply Z.eqb_eq in K2. subst.
  exists proto, pid, enter, z, life. exact J.
Qed.
Lemma parents_alive_by l : forallb (fun x => match snd x with EEntry a _ _ pid _ _ =>
    negb (aliveb l a) || Z.eqb pid (-1) || (Z.leb 0 pid && aliveb l (Z.to_nat pid)) | _ => true end) l = true -> parents_alive l.
Proof.
  intros H a pr pid en A (z & life & I). rewrite forallb_forall in H. specialize (H _ I). simpl in H. apply aliveb_ok in A. rewrite A in H. simpl in H.
  apply orb_true_iff in H. destruct H as [H|H]; [left; now apply Z.eqb_eq|]. right. apply andb_true_iff in H. destruct H as [H1 H2]. apply Z.leb_le in H1.
  exists (Z.to_nat pid). split; [lia|now apply aliveb_ok].
Qed.
Lemma orders_known_by t pre l : forallb (fun x => match snd x with ESchedD a u => Z.ltb u t || aliveb pre a | _ => true end) l = true -> orders_known t pre l.
Proof.
  intros H v a u I L. rewrite forallb_forall in H. specialize (H _ I). simpl in H. rewrite (proj2 (Z.ltb_ge u t) L) in H. now apply aliveb_ok.
Qed.
Lemma orders_current_by t l : forallb (fun x => match snd x with ESchedD a u' =>
    Z.ltb u' t || match pending a l with Some u => Z.leb t u | None => true end | _ => true end) l = true -> orders_current t l.
Proof.
  intros H a u P L v u' I. rewrite forallb_forall in H. specialize (H _ I). simpl in H. rewrite P, (proj2 (Z.leb_gt t u) L), orb_false_r in H. now apply Z.ltb_lt.
Qed.

(** A run that can be restarted. *)
Lemma stay_case : exists snap n,
  simulate beh_ex yes 40 (setup_ex (-1) [1; 4; 6] Done) 0 6 = (Normal tt, snd stay) /\ orderly (log (snd stay)) /\
  log (snd stay) = stay_pre ++ (2, ESnap snap n) :: stay_mid ++ [] /\
  settled 2 stay_pre stay_mid /\ entered stay_pre <> [] /\ all_recorded stay_pre /\ parents_alive stay_pre /\
  orders_known 2 stay_pre (stay_pre ++ (2, ESnap snap n) :: stay_mid) /\ orders_current 2 (stay_pre ++ (2, ESnap snap n) :: stay_mid) /\
  alive stay_pre 5 /\ recorded stay_pre 5 "F" 4 1 /\ recorded stay_pre 4 "I" 3 0 /\ NoDup (map fst (inv_ex 4 2)) /\
  builds_for 4 stay_log = [("F"%string, Some 4%nat)] /\ decoms_for 8 stay_log = [4%nat].
Proof.
  exists [3; 4; 5]%nat, 6. split; [vm_compute; reflexivity|]. split; [apply orderly_by; vm_compute; reflexivity|]. split; [vm_compute; reflexivity|].
  split; [left; reflexivity|]. split; [discriminate|]. split; [apply all_recorded_by; vm_compute; reflexivity|].
  split; [apply parents_alive_by; vm_compute; reflexivity|]. split; [apply orders_known_by; vm_compute; reflexivity|].
  split; [apply orders_current_by; vm_compute; reflexivity|]. split; [apply aliveb_ok; vm_compute; reflexivity|].
  split; [exists 1, (-1); vm_compute; repeat (try (now left); right)|].
  split; [exists 0, (-1); vm_compute; repeat (try (now left); right)|].
  split; [simpl; repeat constructor; simpl; intuition discriminate|]. split; vm_compute; reflexivity.
Qed.

(** The build ordered for the time of the snapshot itself. *)
Lemma brief_lost : exists r, fst brief = Normal tt /\ orderly (log (snd brief)) /\
  builds_for 2 brief_pre = [("F"%string, Some 4%nat)] /\
  load_ex 2 (brief_pre ++ [(2, ESnap [3; 4; 5]%nat 6)]) = Ok (Some r) /\
  (exists post, log (snd brief) = brief_pre ++ (2, ESnap [3; 4; 5]%nat 6) :: (2, EPhase PBuild) :: (2, EQBuild "F" (Some 4%nat)) :: post) /\
  ld_builds r = [].
Proof.
  eexists. split; [vm_compute; reflexivity|]. split; [apply orderly_by; vm_compute; reflexivity|]. split; [vm_compute; reflexivity|].
  split; [unfold load_ex; vm_compute; reflexivity|]. split; [eexists; vm_compute; reflexivity|]. reflexivity.
Qed.
(** An order made after the snapshot. *)
Lemma stay_double : exists r, fst stay = Normal tt /\ builds_for 7 stay_pre = [] /\ load_ex 2 stay_log = Ok (Some r) /\
  queued 7 (ld_builds r) = [("F"%string, Some 4%nat)].
Proof.
  eexists. split; [vm_compute; reflexivity|]. split; [vm_compute; reflexivity|].
  split; [unfold load_ex; vm_compute; reflexivity|]. reflexivity.
Qed.
Lemma lone_orphan : exists mid, fst lone = Normal tt /\ orderly (log (snd lone)) /\ log (snd lone) = lone_pre ++ (3, ESnap [1%nat] 2) :: mid /\
  settled 3 lone_pre mid /\ all_recorded lone_pre /\ alive lone_pre 1 /\ recorded lone_pre 1 "A" 0 0 /\ ~ alive lone_pre 0.
Proof.
  exists []. split; [vm_compute; reflexivity|]. split; [apply orderly_by; vm_compute; reflexivity|]. split; [vm_compute; reflexivity|].
  split; [left; reflexivity|]. split; [apply all_recorded_by; vm_compute; reflexivity|]. split; [apply aliveb_ok; vm_compute; reflexivity|].
  split; [exists 0, (-1); vm_compute; repeat (try (now left); right)|]. rewrite <- aliveb_ok. vm_compute. discriminate.
Qed.
Lemma brief_null : exists mid, fst brief = Normal tt /\ orderly (log (snd brief)) /\ log (snd brief) = brief_pre ++ (2, ESnap [3; 4; 5]%nat 6) :: mid /\
  settled 2 brief_pre mid /\ entered brief_pre <> [] /\ all_recorded brief_pre /\ parents_alive brief_pre /\
  In (3, ESchedD 6 3) mid /\ ~ alive brief_pre 6 /\ load_ex 2 brief_log = UB.
Proof.
  eexists. split; [vm_compute; reflexivity|]. split; [apply orderly_by; vm_compute; reflexivity|]. split; [vm_compute; reflexivity|].
  split; [left; reflexivity|]. split; [discriminate|]. split; [apply all_recorded_by; vm_compute; reflexivity|].
  split; [apply parents_alive_by; vm_compute; reflexivity|].
  split; [vm_compute; repeat (try (now left); right)|]. split; [rewrite <- aliveb_ok; vm_compute; discriminate|]. vm_compute. reflexivity.
Qed.
Lemma early_throws : fst early = Normal tt /\ orderly (log (snd early)) /\ (exists pre post, early_log = pre ++ (0, ESnap [1%nat] 2) :: post /\ alive pre 1 /\
  load_ex 0 (pre ++ [(0, ESnap [1%nat] 2)]) = Throw StateError).
Proof.
  split; [vm_compute; reflexivity|]. split; [apply orderly_by; vm_compute; reflexivity|].
  exists (before_snap 0 early_log), (after_snap 0 early_log). split; [vm_compute; reflexivity|]. split; [apply aliveb_ok; vm_compute; reflexivity|].
  vm_compute. reflexivity.
Qed.
