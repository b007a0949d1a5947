(** Restart: the agents found in the database of a run. *)
From Coq Require Import String List ZArith Bool Arith Lia Sorted.
From Verif Require Import Base SimModel SimSpec SimProofs3 SimProofs7 SimProofs9 SimProofs12 SimProofs13 SimProofs14.
From Verif Require Import RestartModel RestartSpec RestartProofs1.
Import ListNotations.
Local Open Scope Z_scope.

(** What every history of a run satisfies. *)
Record hok (D : history) : Prop := {
  h_rows : rows_ok D;
  h_row : Forall row_ok D;
  h_snaps : snaps_ok 0 D;
  h_once : NoDup (entries D);
  h_time : Forall (fun x => 0 <= fst x) D;
  h_sort : StronglySorted Z.le (map fst D);
  h_ord : orderly D }.
Lemma run_hok beh cond fuel setup d o s' D rest : simulate beh cond fuel setup 0 d = (o, s') -> o <> Undef ->
  orderly (log s') -> log s' = D ++ rest -> hok D.
Proof.
  intros H N O E. destruct (run_rows _ _ _ _ _ _ _ _ H N) as [R Cn].
  assert (F := run_fine _ _ _ _ _ _ _ _ (Z.le_refl 0) H N). destruct F as ((_ & _ & _ & _ & _ & T) & Sn & _ & _).
  assert (Rw := run_rows_ids _ _ _ _ _ _ _ _ H N). assert (St := run_stamps _ _ _ _ _ _ _ _ H N). rewrite E in *. constructor.
  - intros pre z a id pr pid life en post Ed. apply (R pre z a id pr pid life en (post ++ rest)). rewrite Ed, <- app_assoc. reflexivity.
  - apply Forall_app in Rw. tauto.
  - intros pre t snap n post Ed. destruct (Sn pre t snap n (post ++ rest)) as (A & B & C & D0 & F). { rewrite Ed, <- app_assoc. reflexivity. }
    apply Forall_app in D0. tauto.
  - apply (NoDup_count_occ Nat.eq_dec). intros a. specialize (Cn a). assert (X := orderly_nodup _ O).
    rewrite (NoDup_count_occ Nat.eq_dec) in X. specialize (X a). fold (cnt (entered (D ++ rest)) a) in X. fold (cnt (entries D) a).
    rewrite entries_app, cnt_app in Cn. lia.
  - apply Forall_app in T. tauto.
  - rewrite map_app in St. clear - St. induction (map fst D) as [|z l IH]; [constructor|]. inversion St as [|? ? S1 F1]; subst.
    constructor; [now apply IH|]. apply Forall_app in F1. tauto.
  - eapply orderly_prefix; eauto.
Qed.

Section D.
Context {C : Type} (content : nat -> Z -> C) (inv : nat -> Z -> list (string * list Z)) (counter : string -> Z -> Z).
Local Notation dbof := (db_of content inv counter).

Lemma table_Some {A} (l : list A) x : In x l -> table l = Some l.
Proof. destruct l; [intros []|reflexivity]. Qed.

(** Reading entries one by one. *)
Definition sel (t : Z) (d : db C) (r : erow) : bool := negb (Z.ltb 0 t && Z.eqb (e_enter r) t) && negb (gone t (e_id r) d).
Lemma load_entries_ok t d rows : forall m0, zsorted m0 -> NoDup (map e_id rows) ->
  (forall r, In r rows -> sel t d r = true -> exists c, own_state t (e_id r) d = Ok c) ->
  exists m, load_entries t d rows m0 = Ok m /\ zsorted m /\
    (forall r c, In r rows -> sel t d r = true -> own_state t (e_id r) d = Ok c ->
       zfind (e_id r) m = Some (e_pid r, mkL (e_id r) (e_proto r) (e_enter r) None c)) /\
    (forall id v, zfind id m = Some v -> zfind id m0 = Some v \/ exists r, In r rows /\ sel t d r = true /\ e_id r = id) /\
    (forall id, ~ In id (map e_id rows) -> zfind id m = zfind id m0).
Proof.
  induction rows as [|r rows IH]; intros m0 So Nd Hs; simpl.
  - exists m0. repeat split; auto. intros r c [].
  - inversion Nd as [|? ? Nr Nd']; subst.
    assert (Hs' : forall x, In x rows -> sel t d x = true -> exists c, own_state t (e_id x) d = Ok c) by (intros; apply Hs; [now right|auto]).
    assert (Skip : sel t d r = false -> exists m, load_entries t d rows m0 = Ok m /\ zsorted m /\
      (forall r0 c, r = r0 \/ In r0 rows -> sel t d r0 = true -> own_state t (e_id r0) d = Ok c ->
         zfind (e_id r0) m = Some (e_pid r0, mkL (e_id r0) (e_proto r0) (e_enter r0) None c)) /\
      (forall id v, zfind id m = Some v -> zfind id m0 = Some v \/ exists r0, (r = r0 \/ In r0 rows) /\ sel t d r0 = true /\ e_id r0 = id) /\
      (forall id, ~ (e_id r = id \/ In id (map e_id rows)) -> zfind id m = zfind id m0)).
    { intros Sf. destruct (IH m0 So Nd' Hs') as (m & E & Sm & H1 & H2 & H3). exists m. split; [exact E|]. split; [exact Sm|].
      split; [|split].
      - intros r0 c [<-|I] S0 Ow; [congruence|]. apply H1; auto.
      - intros id v F. destruct (H2 id v F) as [X|(r0 & A & B)]; [now left|]. right. exists r0. tauto.
      - intros id Ni. apply H3. tauto. }
    destruct (Z.ltb 0 t && Z.eqb (e_enter r) t) eqn:E1; [apply Skip; unfold sel; now rewrite E1|].
    destruct (gone t (e_id r) d) eqn:E2; [apply Skip; unfold sel; now rewrite E1, E2|].
    assert (Sr : sel t d r = true) by (unfold sel; now rewrite E1, E2).
    destruct (Hs r (or_introl eq_refl) Sr) as (c & Oc). rewrite Oc.
    destruct (IH (zset (e_id r) (e_pid r, mkL (e_id r) (e_proto r) (e_enter r) None c) m0)) as (m & E & Sm & H1 & H2 & H3); auto.
    { now apply zset_sorted. }
    exists m. split; [exact E|]. split; [exact Sm|]. split; [|split].
    + intros r0 c0 [<-|I] S0 Ow; [|now apply H1]. rewrite H3 by exact Nr. rewrite zfind_zset_same. congruence.
    + intros id v F. destruct (H2 id v F) as [X|(r0 & A & B & G)].
      * destruct (Z.eq_dec id (e_id r)) as [->|Ne]; [right; exists r; auto|]. rewrite zfind_zset_other in X by auto. now left.
      * right. exists r0. auto.
    + intros id Ni. rewrite H3 by tauto. apply zfind_zset_other. tauto.
Qed.

Context (pre mid : history) (t : Z) (snap : list nat) (n : Z).
Local Notation D := (pre ++ (t, ESnap snap n) :: mid).
Context (H : hok D) (Hs : settled t pre mid).
Local Notation d := (dbof D).

Lemma snap_facts : (forall a, In a snap <-> alive pre a) /\ (forall a, In a (entered pre) -> Z.of_nat a < n) /\
  Forall (fun x => fst x < t \/ (t = 0 /\ is_snap (snd x) = false) \/ is_fin (snd x) = true) pre /\ Forall (fun x => t <= fst x) mid /\ 0 <= t /\ NoDup snap.
Proof. exact (h_snaps _ H pre t snap n mid eq_refl). Qed.
Lemma row_in r : In r (flat_map entry_rows D) -> exists z a pr pid life, In (z, EEntry a (Z.of_nat a) pr pid life z) D /\ r = mkE (Z.of_nat a) pr pid z.
Proof.
  intros I. apply in_flat_map in I. destruct I as ([z e] & I & J). unfold entry_rows in J. simpl in J.
  destruct e; try contradiction. destruct J as [<-|[]]. apply in_split in I. destruct I as (l1 & l2 & E).
  destruct (h_rows _ H _ _ _ _ _ _ _ _ _ E) as (-> & -> & _). exists z, a, proto, pid, life. split; [|reflexivity].
  rewrite E. apply in_elt.
Qed.
Lemma ids_nodup : NoDup (map e_id (flat_map entry_rows D)).
Proof.
  assert (E : map e_id (flat_map entry_rows D) = map Z.of_nat (entries D)).
  { assert (X : forall x, In x D -> map e_id (entry_rows x) = map Z.of_nat (match snd x with EEntry a _ _ _ _ _ => [a] | _ => [] end)).
    { intros [z e] I. unfold entry_rows; simpl. destruct e; try reflexivity. simpl. apply in_split in I. destruct I as (l1 & l2 & E).
      destruct (h_rows _ H _ _ _ _ _ _ _ _ _ E) as (_ & -> & _). reflexivity. }
    unfold entries. revert X. generalize D as l. induction l as [|x l IH]; intros X; [reflexivity|]. simpl flat_map.
    rewrite !map_app, IH by (intros; apply X; now right). f_equal. apply X. now left. }
  rewrite E. apply FinFun.Injective_map_NoDup; [|apply (h_once _ H)]. intros a b. apply Nat2Z.inj.
Qed.
Lemma nodup_filter_map {A B} (f : A -> B) p l : NoDup (map f l) -> NoDup (map f (filter p l)).
Proof.
  induction l as [|x l IH]; simpl; intros Nd; [constructor|]. inversion Nd as [|? ? Nx Nd']; subst.
  destruct (p x); simpl; auto. constructor; auto. intros I. apply Nx. apply in_map_iff in I. destruct I as (y & <- & Iy).
  apply filter_In in Iy. now apply in_map.
Qed.
Lemma exits_in l a : In a (exits l) <-> exists z id u, In (z, EExit a id u) l.
Proof.
  unfold exits. rewrite in_flat_map. split.
  - intros ([z e] & I & J). simpl in J. destruct e; try contradiction. destruct J as [<-|[]]. eauto.
  - intros (z & id & u & I). exists (z, EExit a id u). split; [exact I|now left].
Qed.
(** The exit rows up to the snapshot tell who left before. *)
Lemma gone_iff a : gone t (Z.of_nat a) d = true <-> In a (exits pre).
Proof.
  destruct snap_facts as (_ & _ & Fp & Fm & T0 & _). rewrite Forall_forall in Fp, Fm.
  assert (G : gone t (Z.of_nat a) d = true <-> exists z, In (z, EExit a (Z.of_nat a) z) D /\ z < t).
  { unfold gone. cbn [t_exit db_of]. assert (R := h_row _ H). rewrite Forall_forall in R. split.
    - unfold table. destruct (flat_map exit_rows D) as [|r l] eqn:E; [discriminate|]. rewrite <- E. clear E. intros X.
      apply existsb_exists in X. destruct X as (r0 & I & J). apply andb_true_iff in J. destruct J as [J1 J2].
      apply Z.eqb_eq in J1. apply Z.ltb_lt in J2. apply in_flat_map in I. destruct I as ([z e] & I & K). unfold exit_rows in K; simpl in K.
      destruct e; try contradiction. destruct K as [<-|[]]. simpl in *. destruct (R _ I) as [R1 R2]. simpl in R1, R2. subst.
      apply Nat2Z.inj in R1. subst. eauto.
    - intros (z & I & L). rewrite (table_Some (flat_map exit_rows D) (Z.of_nat a, z)).
      + apply existsb_exists. exists (Z.of_nat a, z). split.
        * apply in_flat_map. eexists. split; [exact I|now left].
        * simpl. now rewrite Z.eqb_refl, (proj2 (Z.ltb_lt z t) L).
      + apply in_flat_map. eexists. split; [exact I|now left]. }
  rewrite G. split.
  - intros (z & I & L). apply in_app_or in I. destruct I as [I|[I|I]]; [|discriminate I|].
    + apply exits_in. eauto.
    + specialize (Fm _ I). simpl in Fm. lia.
  - intros X. destruct Hs as [Tp|[X0 _]]; [|rewrite X0 in X; destruct X]. apply exits_in in X. destruct X as (z & id & u & I).
    assert (R := h_row _ H). rewrite Forall_forall in R. specialize (R (z, EExit a id u) (in_or_app _ _ _ (or_introl I))).
    unfold row_ok in R. cbn [snd fst] in R. destruct R as [-> ->]. exists z. split; [apply in_or_app; now left|]. specialize (Fp _ I). simpl in Fp.
    destruct Fp as [L|[[L _]|L]]; [exact L|lia|discriminate].
Qed.
Lemma state_ok a : alive pre a -> own_state t (Z.of_nat a) d = Ok (content a t).
Proof.
  intros A. destruct snap_facts as (Sn & _). apply Sn in A. unfold own_state. cbn [t_state db_of].
  assert (I : In (Z.of_nat a, t, content a t) (flat_map (state_rows content) D)).
  { apply in_flat_map. exists (t, ESnap snap n). split; [apply in_elt|]. unfold state_rows; simpl. apply in_map_iff. eauto. }
  rewrite (table_Some _ _ I).
  assert (W : forall r, In r (flat_map (state_rows content) D) -> exists a' z, r = (Z.of_nat a', z, content a' z)).
  { intros r Ir. apply in_flat_map in Ir. destruct Ir as ([z e] & _ & J). unfold state_rows in J; simpl in J. destruct e; try contradiction.
    apply in_map_iff in J. destruct J as (a' & <- & _). eauto. }
  destruct (filter _ _) as [|r l] eqn:E.
  - exfalso. assert (X : In (Z.of_nat a, t, content a t) []); [|destruct X]. rewrite <- E. apply filter_In. split; [exact I|]. simpl. now rewrite !Z.eqb_refl.
  - assert (X : In r (r :: l)) by now left. rewrite <- E in X. apply filter_In in X. destruct X as [Ir J].
    destruct (W r Ir) as (a' & z & ->). simpl in *. apply andb_true_iff in J. destruct J as [J1 J2]. apply Z.eqb_eq in J1, J2.
    apply Nat2Z.inj in J1. now subst.
Qed.
(** The rows selected are those of the agents alive at the snapshot. *)
Lemma sel_alive z a pr pid life : In (z, EEntry a (Z.of_nat a) pr pid life z) D -> z <= t ->
  sel t d (mkE (Z.of_nat a) pr pid z) = true -> In (z, EEntry a (Z.of_nat a) pr pid life z) pre /\ alive pre a.
Proof.
  intros I L Se. unfold sel in Se. simpl in Se. apply andb_true_iff in Se. destruct Se as [S1 S2].
  destruct snap_facts as (_ & _ & Fp & Fm & T0 & _). rewrite Forall_forall in Fm.
  assert (Ip : In (z, EEntry a (Z.of_nat a) pr pid life z) pre).
  { apply in_app_or in I. destruct I as [I|[I|I]]; [exact I|discriminate I|]. exfalso. specialize (Fm _ I). simpl in Fm.
    assert (z = t) by lia. subst z. destruct Hs as [Tp|[_ X]]; [|exact (X _ I)].
    rewrite Z.eqb_refl, (proj2 (Z.ltb_lt 0 t) Tp) in S1. discriminate. }
  split; [exact Ip|]. split.
  - apply in_split in Ip. destruct Ip as (l1 & l2 & E).
    destruct (h_rows _ H l1 z a (Z.of_nat a) pr pid life z (l2 ++ (t, ESnap snap n) :: mid)) as (_ & _ & (p & Np & Ib) & _).
    { rewrite E, <- app_assoc. reflexivity. }
    unfold entered. apply in_flat_map. exists (z, EBuild a p). split; [rewrite E; apply in_or_app; now left|]. simpl.
    destruct p as [q|]; [|now left]. destruct (Nat.eqb_spec q a); [congruence|now left].
  - intros X. apply gone_iff in X. rewrite X in S2. discriminate.
Qed.
Lemma alive_sel z a pr pid life : In (z, EEntry a (Z.of_nat a) pr pid life z) pre -> alive pre a ->
  z <= t /\ sel t d (mkE (Z.of_nat a) pr pid z) = true.
Proof.
  intros I [_ Nx]. destruct snap_facts as (_ & _ & Fp & _ & T0 & _). rewrite Forall_forall in Fp. assert (Fz := Fp _ I). simpl in Fz.
  assert (Tz := h_time _ H). rewrite Forall_forall in Tz. specialize (Tz _ (in_or_app _ _ _ (or_introl I))). simpl in Tz.
  assert (Z0 : z <= t).
  { assert (St := h_sort _ H). apply in_split in I. destruct I as (l1 & l2 & ->). rewrite <- app_assoc in St. apply sorted_after in St.
    rewrite Forall_forall in St. apply (St (t, ESnap snap n)). simpl. apply in_elt. }
  split; [exact Z0|]. unfold sel. cbn [e_id e_enter].
  assert (Gf : gone t (Z.of_nat a) d = false) by (apply not_true_iff_false; intros X; apply gone_iff in X; contradiction).
  rewrite Gf. cbn [negb].
  rewrite andb_true_r. apply negb_true_iff. destruct (Z.ltb_spec 0 t) as [Tp|_]; [|reflexivity]. simpl. apply Z.eqb_neq.
  destruct Fz as [L|[[L _]|F]]; [lia|lia|discriminate].
Qed.

Context (Ha : all_recorded pre) (He : entered pre <> []).
Lemma recorded_row a pr pid en : recorded pre a pr pid en -> exists life, In (en, EEntry a (Z.of_nat a) pr pid life en) pre.
Proof.
  intros (z & life & I). exists life. assert (J := I). apply in_split in J. destruct J as (l1 & l2 & E).
  destruct (h_rows _ H l1 z a (Z.of_nat a) pr pid life en (l2 ++ (t, ESnap snap n) :: mid)) as (-> & _); [rewrite E, <- app_assoc; reflexivity|exact I].
Qed.
Lemma unbuilt_ok : exists m, load_unbuilt t d = Ok m /\ zsorted m /\
  (forall a pr pid en, alive pre a -> recorded pre a pr pid en -> zfind (Z.of_nat a) m = Some (pid, mkL (Z.of_nat a) pr en None (content a t))) /\
  (forall id v, zfind id m = Some v -> exists a, id = Z.of_nat a /\ alive pre a).
Proof.
  unfold load_unbuilt. cbn [t_entry db_of].
  assert (Ie : forall z a pr pid life, In (z, EEntry a (Z.of_nat a) pr pid life z) pre -> In (mkE (Z.of_nat a) pr pid z) (flat_map entry_rows D)).
  { intros z a pr pid life I. apply in_flat_map. eexists. split; [apply in_or_app; left; exact I|]. now left. }
  destruct (entered pre) as [|a0 l0] eqn:E0; [contradiction|]. clear He.
  destruct (Ha a0) as (pr0 & pid0 & en0 & R0); [rewrite E0; now left|]. destruct (recorded_row _ _ _ _ R0) as (life0 & I0).
  rewrite (table_Some _ _ (Ie _ _ _ _ _ I0)).
  destruct (load_entries_ok t d (filter (fun r => Z.leb (e_enter r) t) (flat_map entry_rows D)) [] Logic.I (nodup_filter_map _ _ _ ids_nodup)) as (m & E & Sm & H1 & H2 & _).
  { intros r I Se. apply filter_In in I. destruct I as [I L]. destruct (row_in r I) as (z & a & pr & pid & life & J & ->).
    apply Z.leb_le in L. destruct (sel_alive _ _ _ _ _ J L Se) as [_ A]. exists (content a t). now apply state_ok. }
  exists m. split; [exact E|]. split; [exact Sm|]. split.
  - intros a pr pid en A R. destruct (recorded_row _ _ _ _ R) as (life & I). destruct (alive_sel _ _ _ _ _ I A) as [L Se].
    apply (H1 (mkE (Z.of_nat a) pr pid en) (content a t)); [|exact Se|now apply state_ok].
    apply filter_In. split; [now apply (Ie _ _ _ _ _ I)|]. now apply Z.leb_le.
  - intros id v F. destruct (H2 id v F) as [X|(r & I & Se & <-)]; [discriminate|]. apply filter_In in I. destruct I as [I L].
    destruct (row_in r I) as (z & a & pr & pid & life & J & ->). apply Z.leb_le in L.
    destruct (sel_alive _ _ _ _ _ J L Se) as [_ A]. exists a. auto.
Qed.

(** The recorded parent of an agent was built before it. *)
Lemma parent_before l1 z a p l2 pr pid en q : pre = l1 ++ (z, EBuild a p) :: l2 -> p <> Some a ->
  recorded pre a pr pid en -> pid = Z.of_nat q -> In q (entered l1).
Proof.
  intros E Np R ->. destruct (recorded_row _ _ _ _ R) as (life & I). apply in_split in I. destruct I as (k1 & k2 & Ek).
  assert (O : orderly pre) by (eapply orderly_prefix; apply (h_ord _ H)).
  destruct (h_rows _ H k1 en a (Z.of_nat a) pr (Z.of_nat q) life en (k2 ++ (t, ESnap snap n) :: mid)) as (_ & _ & _ & [X|(q' & z' & Eq & Nq & Ib)]);
    [rewrite Ek, <- app_assoc; reflexivity|lia|].
  apply Nat2Z.inj in Eq. subst q'.
  assert (Ib' : In (z', EBuild a (Some q)) pre) by (rewrite Ek; apply in_or_app; now left). clear Ek Ib.
  assert (Ent : forall l u r, r <> Some a -> In (u, EBuild a r) l -> In a (entered l)).
  { intros l u r Nr J. unfold entered. apply in_flat_map. exists (u, EBuild a r). split; [exact J|]. simpl.
    destruct r as [b|]; [|now left]. destruct (Nat.eqb_spec b a); [congruence|now left]. }
  rewrite E in Ib'. apply in_app_or in Ib'. destruct Ib' as [J|[J|J]].
  - exfalso. destruct (O l1 z a p l2 E) as [X _]. apply X. eapply Ent; [|exact J]. congruence.
  - injection J as _ ->. destruct (O l1 z a (Some q) l2 E) as [_ X]. exact X.
  - exfalso. apply in_split in J. destruct J as (k & k' & ->).
    destruct (O (l1 ++ (z, EBuild a p) :: k) z' a (Some q) k') as [X _]; [rewrite E, <- app_assoc; reflexivity|].
    apply X. eapply Ent; [exact Np|apply in_elt].
Qed.
Lemma rooted_all m : load_unbuilt t d = Ok m ->
  (forall a pr pid en, alive pre a -> recorded pre a pr pid en -> zfind (Z.of_nat a) m = Some (pid, mkL (Z.of_nat a) pr en None (content a t))) ->
  parents_alive pre -> forall a, alive pre a -> rooted m (Z.of_nat a).
Proof.
  intros _ Hm Pa.
  assert (X : forall l1 l2, pre = l1 ++ l2 -> forall a, In a (entered l1) -> alive pre a -> rooted m (Z.of_nat a)).
  { induction l1 as [|[z e] l1 IH] using rev_ind; intros l2 E a Ia A; [destruct Ia|].
    rewrite entered_app in Ia. rewrite <- app_assoc in E. simpl in E.
    apply in_app_or in Ia. destruct Ia as [Ia|Ia]; [now apply (IH _ E)|].
    unfold entered in Ia. simpl in Ia. rewrite app_nil_r in Ia. destruct e; try contradiction.
    assert (W : a0 = a /\ parent <> Some a).
    { destruct parent as [b|]; [destruct (Nat.eqb_spec b a0) as [Eb|Nb]; [destruct Ia|]|]; destruct Ia as [<-|[]]; split; congruence. }
    destruct W as [-> Np]. destruct (Ha a (proj1 A)) as (pr & pid & en & R).
    destruct (Pa a pr pid en A R) as [->|(q & -> & Aq)].
    - eapply rooted_top. eapply Hm; eauto.
    - eapply rooted_under; [eapply Hm; eauto|]. apply (IH _ E); [|exact Aq]. eapply parent_before; eauto. }
  intros a A. apply (X pre []); [now rewrite app_nil_r|apply A|exact A].
Qed.

(** Everything alive is loaded. *)
Lemma agents_ok : parents_alive pre -> exists f agents enter,
  (forall fuel, (f <= fuel)%nat -> load_agents fuel t d = Ok (Some (agents, enter))) /\ zsorted agents /\
  (forall a pr pid en, alive pre a -> recorded pre a pr pid en ->
     zfind (Z.of_nat a) agents = Some (mkL (Z.of_nat a) pr en (if Z.eqb pid (-1) then None else Some pid) (content a t))) /\
  (forall id v, zfind id agents = Some v -> exists a, id = Z.of_nat a /\ alive pre a) /\
  NoDup enter /\ (forall id, In id enter <-> exists a, id = Z.of_nat a /\ alive pre a) /\
  parents_first (fun id => match zfind id agents with Some x => l_parent x | None => None end) enter.
Proof.
  intros Pa. destruct unbuilt_ok as (m & E & Sm & H1 & H2).
  destruct (tree_ok m Sm) as (f & agents & enter & Hf & Sa & Hz & Nd & He' & Pf).
  { intros id v F. destruct (H2 id v F) as (a & -> & A). eapply rooted_all; eauto. }
  exists f, agents, enter. split; [intros fuel L; unfold load_agents; rewrite E; now rewrite Hf|]. split; [exact Sa|].
  assert (Hz' : forall a pr pid en, alive pre a -> recorded pre a pr pid en ->
     zfind (Z.of_nat a) agents = Some (mkL (Z.of_nat a) pr en (up pid) (content a t))).
  { intros a pr pid en A R. rewrite Hz, (H1 _ _ _ _ A R). reflexivity. }
  split; [exact Hz'|]. split; [|split; [exact Nd|split]].
  - intros id v F. rewrite Hz in F. destruct (zfind id m) as [[pid x]|] eqn:Em; [|discriminate]. eapply H2; eauto.
  - intros id. rewrite He'. split.
    + intros X. destruct (zfind id m) as [v|] eqn:Em; [|congruence]. eapply H2; eauto.
    + intros (a & -> & A). destruct (Ha a (proj1 A)) as (pr & pid & en & R). rewrite (H1 _ _ _ _ A R). discriminate.
  - intros l1 id l2 El. specialize (Pf l1 id l2 El). cbv beta in Pf. rewrite Hz. destruct (zfind id m) as [[pid x]|]; [exact Pf|exact Logic.I].
Qed.
(** An agent that outlives its parent cannot be placed: the loop does not end. *)
Lemma orphan_stuck a pr q en : alive pre a -> recorded pre a pr (Z.of_nat q) en -> ~ alive pre q ->
  forall fuel, load_agents fuel t d = Ok None.
Proof.
  intros A R Nq fuel. destruct unbuilt_ok as (m & E & Sm & H1 & H2). unfold load_agents. rewrite E. f_equal.
  eapply tree_stuck; [exact Sm|exact (H1 _ _ _ _ A R)|]. intros Ro. inversion Ro as [? x F|? pid x F Rp]; subst.
  - rewrite (H1 _ _ _ _ A R) in F. injection F as F _. lia.
  - rewrite (H1 _ _ _ _ A R) in F. injection F as <- _. apply Nq.
    assert (X : exists v, zfind (Z.of_nat q) m = Some v) by (inversion Rp; eauto). destruct X as (v & X).
    destruct (H2 _ _ X) as (b & Eb & B). apply Nat2Z.inj in Eb. now subst.
Qed.
End D.
