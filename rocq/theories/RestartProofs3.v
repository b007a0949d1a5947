(** Restart: inventories, counters and schedules. *)
From Coq Require Import String List ZArith Bool Arith Lia Sorted.
From Verif Require Import Base SimModel SimSpec SimProofs2 SimProofs3 SimProofs7 SimProofs9 SimProofs12 SimProofs13 SimProofs14.
From Verif Require Import RestartModel RestartSpec RestartProofs1 RestartProofs2.
Import ListNotations.
Local Open Scope Z_scope.

Lemma flat_nil {A B} (f : A -> list B) p l : (forall x, In x l -> filter p (f x) = []) -> filter p (flat_map f l) = [].
Proof.
  induction l as [|x l IH]; intros H; [reflexivity|]. simpl. rewrite filter_app, H by now left. simpl. apply IH. intros; apply H; now right.
Qed.
Lemma filter_none {A} (p : A -> bool) l : (forall x, In x l -> p x = false) -> filter p l = [].
Proof. induction l as [|x l IH]; intros H; [reflexivity|]. simpl. rewrite H by now left. apply IH. intros; apply H; now right. Qed.
Lemma filter_all {A} (p : A -> bool) l : (forall x, In x l -> p x = true) -> filter p l = l.
Proof. induction l as [|x l IH]; intros H; [reflexivity|]. simpl. rewrite H by now left. f_equal. apply IH. intros; apply H; now right. Qed.

(** Reading an inventory back gives the lists that were written. *)
Lemma inv_add n r m k : inventory k (add_inv n r m) = inventory k m ++ (if String.eqb n k then [r] else []).
Proof.
  unfold inventory. induction m as [|[k' l] m IH]; simpl.
  - destruct (String.eqb n k); reflexivity.
  - destruct (String.eqb_spec k' n) as [->|N]; simpl.
    + destruct (String.eqb_spec n k); [reflexivity|]. now rewrite app_nil_r.
    + destruct (String.eqb_spec k' k) as [->|N']; [|exact IH]. rewrite (proj2 (String.eqb_neq n k)) by auto. simpl. now rewrite app_nil_r.
Qed.
Lemma inv_fold rows : forall m k, inventory k (fold_left (fun m (r : Z * Z * string * Z) => add_inv (snd (fst r)) (snd r) m) rows m) =
  inventory k m ++ map snd (filter (fun r : Z * Z * string * Z => String.eqb (snd (fst r)) k) rows).
Proof.
  induction rows as [|r rows IH]; intros m k; simpl; [now rewrite app_nil_r|]. rewrite IH, inv_add, <- app_assoc.
  destruct (String.eqb (snd (fst r)) k); reflexivity.
Qed.
Lemma inv_written (a t : Z) k (l : list (string * list Z)) : NoDup (map fst l) ->
  map snd (filter (fun r : Z * Z * string * Z => String.eqb (snd (fst r)) k) (flat_map (fun p => map (fun r => (a, t, fst p, r)) (snd p)) l)) = inventory k l.
Proof.
  unfold inventory. induction l as [|[k' v] l IH]; intros Nd; [reflexivity|]. simpl. inversion Nd as [|? ? Nk Nd']; subst.
  rewrite filter_app, map_app. destruct (String.eqb_spec k' k) as [->|N]; simpl.
  - rewrite filter_all by (intros x I; apply in_map_iff in I; destruct I as (r & <- & _); apply String.eqb_refl).
    rewrite filter_none; [rewrite map_map, map_id; simpl; apply app_nil_r|].
    intros x I. apply in_flat_map in I. destruct I as ([k2 v2] & I & J). apply in_map_iff in J. destruct J as (r & <- & _). simpl.
    apply String.eqb_neq. intros ->. apply Nk. apply in_map_iff. exists (k, v2). auto.
  - rewrite filter_none by (intros x I; apply in_map_iff in I; destruct I as (r & <- & _); now apply String.eqb_neq). simpl. now apply IH.
Qed.

Section D.
Context {C : Type} (content : nat -> Z -> C) (inv : nat -> Z -> list (string * list Z)) (counter : string -> Z -> Z).
Context (pre mid : history) (t : Z) (snap : list nat) (n : Z).
Local Notation D := (pre ++ (t, ESnap snap n) :: mid).
Context (H : hok D).
Local Notation d := (db_of content inv counter D).

(** There is no other snapshot at that time. *)
Lemma only_snap x : In x pre \/ In x mid -> fst x = t -> is_snap (snd x) = false.
Proof.
  intros I E. destruct x as [z e]. simpl in *. subst z. destruct e; try reflexivity. exfalso. destruct I as [I|I].
  - destruct (h_snaps _ H pre t snap n mid eq_refl) as (_ & _ & F & _). rewrite Forall_forall in F. specialize (F _ I). simpl in F.
    destruct F as [F|[[_ F]|F]]; [lia|discriminate|discriminate].
  - apply in_split in I. destruct I as (l1 & l2 & ->).
    destruct (h_snaps _ H (pre ++ (t, ESnap snap n) :: l1) t l n0 l2) as (_ & _ & F & _); [now rewrite <- app_assoc|].
    rewrite Forall_forall in F. specialize (F (t, ESnap snap n) (in_elt _ _ _)). simpl in F. destruct F as [F|[[_ F]|F]]; [lia|discriminate|discriminate].
Qed.
Lemma only_rows {B} (f : Z * event -> list B) p :
  (forall x, is_snap (snd x) = false -> f x = []) -> (forall x r, In r (f x) -> p r = true -> fst x = t) ->
  filter p (flat_map f D) = filter p (f (t, ESnap snap n)).
Proof.
  intros F0 Ft. rewrite flat_map_app, filter_app. simpl. rewrite filter_app.
  assert (Z0 : forall l, (forall x, In x l -> In x pre \/ In x mid) -> filter p (flat_map f l) = []).
  { intros l Il. apply flat_nil. intros x I. apply filter_none. intros r Ir. destruct (p r) eqn:E; [|reflexivity]. exfalso.
    rewrite (F0 x) in Ir; [destruct Ir|]. apply only_snap; [now apply Il|]. eapply Ft; eauto. }
  rewrite (Z0 pre), (Z0 mid) by auto. simpl. apply app_nil_r.
Qed.

Lemma inventory_ok a k : alive pre a -> NoDup (map fst (inv a t)) -> inventory k (load_inventory t (Z.of_nat a) d) = inventory k (inv a t).
Proof.
  intros A Nd. destruct (h_snaps _ H pre t snap n mid eq_refl) as (Sn & _ & _ & _ & _ & Ns).
  assert (Ia : In a snap) by now apply Sn.
  assert (X : filter (fun r => Z.eqb (snd (fst (fst r))) t && Z.eqb (fst (fst (fst r))) (Z.of_nat a)) (flat_map (inv_rows inv) D) = snap_inv inv a t).
  { rewrite only_rows.
    - unfold inv_rows. cbn [snd fst]. clear - Ia Ns. induction Ns as [|b l Nb Ns IH]; [destruct Ia|]. simpl. rewrite filter_app.
      assert (Hd : b <> a -> filter (fun r : Z * Z * string * Z => Z.eqb (snd (fst (fst r))) t && Z.eqb (fst (fst (fst r))) (Z.of_nat a)) (snap_inv inv b t) = []).
      { intros N. apply filter_none. intros r I. unfold snap_inv in I. apply in_flat_map in I. destruct I as (p & _ & I). apply in_map_iff in I.
        destruct I as (x & <- & _). simpl. rewrite (proj2 (Z.eqb_neq (Z.of_nat b) (Z.of_nat a))) by lia. apply andb_false_r. }
      destruct Ia as [->|Ia].
      + rewrite filter_all; [|intros r I; unfold snap_inv in I; apply in_flat_map in I; destruct I as (p & _ & I); apply in_map_iff in I;
          destruct I as (x & <- & _); simpl; now rewrite !Z.eqb_refl].
        rewrite flat_nil; [apply app_nil_r|]. intros b Ib. apply filter_none. intros r I. unfold snap_inv in I. apply in_flat_map in I.
        destruct I as (p & _ & I). apply in_map_iff in I. destruct I as (x & <- & _). simpl.
        rewrite (proj2 (Z.eqb_neq (Z.of_nat b) (Z.of_nat a))); [apply andb_false_r|]. intros E. apply Nat2Z.inj in E. congruence.
      + rewrite Hd by (intros ->; contradiction). simpl. now apply IH.
    - intros [z e] E. unfold inv_rows. simpl in *. destruct e; try reflexivity. discriminate.
    - intros [z e] r I P. apply andb_true_iff in P. destruct P as [P _]. apply Z.eqb_eq in P. unfold inv_rows in I. simpl in *. destruct e; try contradiction.
      apply in_flat_map in I. destruct I as (b & _ & I). unfold snap_inv in I. apply in_flat_map in I. destruct I as (p & _ & I).
      apply in_map_iff in I. destruct I as (x & <- & _). exact P. }
  unfold load_inventory. cbn [t_inv db_of]. unfold table. destruct (flat_map (inv_rows inv) D) as [|r0 l0] eqn:E.
  - simpl in X. assert (Y := inv_written (Z.of_nat a) t k _ Nd). unfold snap_inv in X. rewrite <- X in Y. simpl in Y. rewrite <- Y. reflexivity.
  - rewrite <- E in X |- *. rewrite X, inv_fold. simpl. unfold snap_inv. now apply inv_written.
Qed.

Lemma next_ok ids : exists f, load_next t d ids = Ok f /\ f "Agent"%string = n /\
  (forall o, In o ["Transaction"; "Composition"; "ResourceState"; "ResourceObj"; "Product"]%string -> f o = counter o t) /\
  (forall o, known_object o = false -> f o = ids o).
Proof.
  unfold load_next. cbn [t_next db_of].
  assert (I : In (t, "Agent"%string, n) (flat_map (next_rows counter) D)).
  { apply in_flat_map. exists (t, ESnap snap n). split; [apply in_elt|now left]. }
  rewrite (table_Some _ _ I).
  assert (X : filter (fun row => Z.eqb (fst (fst row)) t) (flat_map (next_rows counter) D) = next_rows counter (t, ESnap snap n)).
  { rewrite only_rows.
    - apply filter_all. intros r Ir. unfold next_rows in Ir. simpl in Ir. intuition subst; simpl; apply Z.eqb_refl.
    - intros [z e] E. unfold next_rows. simpl in *. destruct e; try reflexivity. discriminate.
    - intros [z e] r Ir P. apply Z.eqb_eq in P. unfold next_rows in Ir. simpl in *. destruct e; try contradiction. simpl in Ir. intuition subst; reflexivity. }
  rewrite X. unfold next_rows. cbn -[String.eqb]. eexists. split; [reflexivity|]. split; [reflexivity|]. split.
  - intros o [<-|[<-|[<-|[<-|[<-|[]]]]]]; reflexivity.
  - intros o K. unfold known_object in K. cbn [existsb] in K. apply orb_false_iff in K. destruct K as [K1 K].
    apply orb_false_iff in K. destruct K as [K2 K]. apply orb_false_iff in K. destruct K as [K3 K]. apply orb_false_iff in K. destruct K as [K4 K].
    apply orb_false_iff in K. destruct K as [K5 K]. apply orb_false_iff in K. destruct K as [K6 _]. now rewrite K1, K2, K3, K4, K5, K6.
Qed.

(** Schedules. *)
Context (agents : zmap (lagent C)) (Hag : forall a, zfind (Z.of_nat a) agents <> None <-> alive pre a) (Hneg : zfind (-1) agents = None).
Lemma pointer_of q : pointer agents (Z.of_nat q) = Some q /\ alive pre q \/ pointer agents (Z.of_nat q) = None /\ ~ alive pre q.
Proof.
  unfold pointer. destruct (zfind (Z.of_nat q) agents) eqn:E.
  - left. rewrite Nat2Z.id. split; [reflexivity|]. apply Hag. congruence.
  - right. split; [reflexivity|]. intros A. apply Hag in A. congruence.
Qed.
Definition kept_parent (p : option nat) : option nat :=
  match p with Some q => pointer agents (Z.of_nat q) | None => None end.
Lemma builds_fold rows : forall q0, zsorted q0 -> Forall (fun r : Z * string * Z => 0 < snd r) rows ->
  exists q, fold_left (fun q (r : Z * string * Z) => match q with Ok q => if Z.leb (snd r) 0 then Throw ValueError
                  else Ok (qpush (snd r) (snd (fst r), pointer agents (fst (fst r))) q) | _ => q end) rows (Ok q0) = Ok q /\ zsorted q /\
    forall u, odef (zfind u q) = odef (zfind u q0) ++ flat_map (fun r => if Z.eqb (snd r) u then [(snd (fst r), pointer agents (fst (fst r)))] else []) rows.
Proof.
  induction rows as [|r rows IH]; intros q0 So F; simpl; [exists q0; repeat split; auto; intros; now rewrite app_nil_r|].
  inversion F as [|? ? P F']; subst. rewrite (proj2 (Z.leb_gt (snd r) 0) P).
  destruct (IH (qpush (snd r) (snd (fst r), pointer agents (fst (fst r))) q0)) as (q & E & Sq & Hq); [now apply qpush_sorted|exact F'|].
  exists q. split; [exact E|]. split; [exact Sq|]. intros u. rewrite Hq, qpush_find, <- app_assoc. reflexivity.
Qed.
Lemma builds_ok : exists q, load_builds 0 t d agents = Ok q /\ zsorted q /\
  forall u, odef (zfind u q) = if Z.ltb t u then map (fun b => (fst b, kept_parent (snd b))) (builds_for u D) else [].
Proof.
  destruct (h_snaps _ H pre t snap n mid eq_refl) as (_ & _ & _ & _ & T0 & _).
  assert (R := h_row _ H). unfold load_builds. cbn [t_build db_of].
  assert (X : forall u, flat_map (fun r : Z * string * Z => if Z.eqb (snd r) u then [(snd (fst r), pointer agents (fst (fst r)))] else [])
      (filter (fun r : Z * string * Z => Z.ltb t (snd r)) (flat_map build_rows D)) =
      if Z.ltb t u then map (fun b => (fst b, kept_parent (snd b))) (builds_for u D) else []).
  { intros u. revert R. generalize D as l. induction l as [|[z e] l IH]; intros R; [simpl; now destruct (Z.ltb t u)|].
    inversion R as [|? ? R1 R2]; subst. specialize (IH R2). simpl flat_map. rewrite filter_app, flat_map_app, IH.
    unfold builds_for. simpl flat_map. fold (builds_for u l). destruct e; try reflexivity. unfold row_ok in R1; simpl in R1. subst.
    unfold build_rows; simpl. destruct (Z.ltb_spec t t0) as [L|L]; simpl.
    - destruct (Z.eqb_spec t0 u) as [->|Nu]; simpl; [|destruct (Z.ltb t u); reflexivity]. rewrite (proj2 (Z.ltb_lt t u) L). simpl. f_equal.
      destruct parent; simpl; [reflexivity|]. unfold pointer. now rewrite Hneg.
    - destruct (Z.eqb_spec t0 u) as [->|Nu]; simpl; [|destruct (Z.ltb t u); reflexivity]. now rewrite (proj2 (Z.ltb_ge t u) L). }
  unfold table. destruct (flat_map build_rows D) as [|r0 l0] eqn:E.
  - exists []. split; [reflexivity|]. split; [exact Logic.I|]. intros u. rewrite <- X. reflexivity.
  - rewrite <- E in *. clear E. destruct (builds_fold (filter (fun r : Z * string * Z => Z.ltb t (snd r)) (flat_map build_rows D)) [] Logic.I) as (q & Eq & Sq & Hq).
    + apply Forall_forall. intros r I. apply filter_In in I. destruct I as [_ I]. apply Z.ltb_lt in I. lia.
    + exists q. split; [exact Eq|]. split; [exact Sq|]. intros u. rewrite Hq, X. reflexivity.
Qed.

(** Orders for [t] or later. *)
Definition later (l : history) : history := filter (fun x => match snd x with ESchedD _ u => Z.leb t u | _ => false end) l.
Lemma later_snoc l x : later (l ++ [x]) = later l ++ later [x]. Proof. apply filter_app. Qed.
Lemma filter_comm {A} (p q : A -> bool) l : filter p (filter q l) = filter q (filter p l).
Proof.
  induction l as [|x l IH]; [reflexivity|]. simpl. destruct (p x) eqn:P; destruct (q x) eqn:Q; simpl; rewrite ?P, ?Q, IH; reflexivity.
Qed.
Definition last_is (u : Z) (l : history) (a : nat) : bool := match pending a l with Some v => Z.eqb v u | None => false end.
Lemma decoms_later u l : t <= u -> decoms_for u l = filter (last_is u l) (decoms_for u (later l)).
Proof.
  intros Lu. induction l as [|x l IH] using rev_ind; [reflexivity|]. rewrite decoms_snoc, later_snoc. destruct x as [z e].
  assert (Q : match e with ESchedD _ _ => False | _ => True end -> later [(z, e)] = [] /\ forall a, last_is u (l ++ [(z, e)]) a = last_is u l a).
  { intros Ne. split; [destruct e; try reflexivity; contradiction|]. intros a. unfold last_is. rewrite pending_snoc. destruct e; try reflexivity; contradiction. }
  destruct e; try (destruct (Q Logic.I) as [Q1 Q2]; rewrite Q1, app_nil_r; simpl; rewrite IH; apply filter_ext; intros a1; now rewrite Q2). clear Q.
  simpl snd. assert (P : forall b, last_is u (l ++ [(z, ESchedD a t0)]) b = if Nat.eqb a b then Z.eqb t0 u else last_is u l b).
  { intros b. unfold last_is. rewrite pending_snoc. simpl. destruct (Nat.eqb a b); reflexivity. }
  simpl later. destruct (Z.leb_spec t t0) as [Lt|Lt].
  - rewrite decoms_snoc. simpl. rewrite filter_app. f_equal.
    + rewrite IH, filter_comm. rewrite (filter_ext_in (last_is u (l ++ [(z, ESchedD a t0)])) (last_is u l)); [reflexivity|].
      intros b Ib. apply filter_In in Ib. destruct Ib as [_ Ib]. rewrite P. destruct (Nat.eqb_spec a b) as [->|N]; [|reflexivity].
      rewrite Nat.eqb_refl in Ib. discriminate.
    + destruct (Z.eqb t0 u) eqn:E; [|reflexivity]. simpl. now rewrite P, Nat.eqb_refl.
  - rewrite (proj2 (Z.eqb_neq t0 u)) by lia. rewrite !app_nil_r, IH. clear IH.
    induction (decoms_for u (later l)) as [|b bs IHb]; [reflexivity|]. simpl. rewrite P. rewrite (proj2 (Z.eqb_neq t0 u)) in * by lia.
    destruct (Nat.eqb_spec a b) as [->|N].
    + destruct (last_is u l b); simpl; [rewrite Nat.eqb_refl; simpl|]; exact IHb.
    + destruct (last_is u l b); simpl; [|exact IHb]. rewrite (proj2 (Nat.eqb_neq b a)) by auto. simpl. now rewrite IHb.
Qed.
Lemma pending_later a u l : pending a l = Some u -> t <= u -> pending a (later l) = Some u.
Proof.
  induction l as [|x l IH] using rev_ind; [discriminate|]. rewrite pending_snoc, later_snoc. destruct x as [z e].
  intros P L. destruct e; simpl in P; try (change (later [(z, _)]) with (@nil (Z * event)); rewrite app_nil_r; now apply IH).
  simpl. destruct (Nat.eqb_spec a0 a) as [->|N].
  - injection P as ->. rewrite (proj2 (Z.leb_le t u) L). rewrite pending_snoc. simpl. now rewrite Nat.eqb_refl.
  - destruct (Z.leb t t0); [rewrite pending_snoc; simpl; rewrite (proj2 (Nat.eqb_neq a0 a)) by auto|rewrite app_nil_r]; now apply IH.
Qed.
Lemma decoms_same u l : orders_current t l -> t <= u -> decoms_for u (later l) = decoms_for u l.
Proof.
  intros O L. rewrite (decoms_later u l L). symmetry. apply filter_all. intros a Ia. apply decoms_pending in Ia. unfold last_is.
  assert (Ex : exists v, In (v, ESchedD a u) (later l)).
  { clear - Ia. induction (later l) as [|x m IH] using rev_ind; [discriminate|]. rewrite pending_snoc in Ia. destruct x as [z e].
    assert (Y : pending a m = Some u -> exists v, In (v, ESchedD a u) (m ++ [(z, e)])) by (intros P; destruct (IH P) as (v & I); exists v; apply in_or_app; now left).
    destruct e; simpl in Ia; try (now apply Y). destruct (Nat.eqb_spec a0 a) as [->|N]; [|now apply Y].
    injection Ia as ->. exists z. apply in_or_app. right. now left. }
  destruct Ex as (v & I). apply filter_In in I. destruct I as [I _].
  assert (Some_p : exists w, pending a l = Some w).
  { clear - I. induction l as [|x m IH] using rev_ind; [destruct I|]. rewrite pending_snoc. apply in_app_or in I. destruct I as [I|[->|[]]].
    - destruct x as [z e]. destruct e; simpl; try (now apply IH). destruct (Nat.eqb a0 a); [eauto|now apply IH].
    - simpl. rewrite Nat.eqb_refl. eauto. }
  destruct Some_p as (w & P). rewrite P. destruct (Z_lt_le_dec w t) as [Lw|Lw].
  - exfalso. specialize (O a w P Lw _ _ I). lia.
  - assert (Q := pending_later a w l P Lw). rewrite Ia in Q. injection Q as ->. apply Z.eqb_refl.
Qed.
Lemma decoms_nodup u l : NoDup (decoms_for u l).
Proof.
  induction l as [|x l IH] using rev_ind; [constructor|]. rewrite decoms_snoc. destruct x as [z e]; simpl. destruct e; auto.
  assert (F := NoDup_filter (fun b => negb (Nat.eqb b a)) IH). destruct (Z.eqb t0 u); [|now rewrite app_nil_r].
  apply NoDup_app_one; [exact F|]. intros I. apply filter_In in I. destruct I as [_ I]. rewrite Nat.eqb_refl in I. discriminate.
Qed.
Definition dstep (q : result (zmap (list nat))) (r : Z * Z) : result (zmap (list nat)) :=
  match q with Ok q => if Z.ltb (snd r) 0 then Throw ValueError else match pointer agents (fst r) with None => UB | Some m => Ok (qpush (snd r) m (drop_decom m q)) end | _ => q end.
Lemma dstep_UB rows : fold_left dstep rows UB = UB. Proof. induction rows; auto. Qed.
Lemma decoms_fold l : Forall (fun x => match snd x with ESchedD a u => 0 <= u | _ => False end) l ->
  (exists q, fold_left dstep (flat_map decom_rows l) (Ok []) = Ok q /\ zsorted q /\ (forall u, odef (zfind u q) = decoms_for u l) /\
     Forall (fun x => match snd x with ESchedD a u => alive pre a | _ => True end) l) \/
  (fold_left dstep (flat_map decom_rows l) (Ok []) = UB /\ exists v a u, In (v, ESchedD a u) l /\ ~ alive pre a).
Proof.
  induction l as [|x l IH] using rev_ind; intros F.
  - left. exists []. repeat split; auto; simpl; auto.
  - apply Forall_app in F. destruct F as [F F1]. inversion F1 as [|? ? Fx _]; subst. destruct x as [z e]; simpl in Fx. destruct e; try contradiction.
    rewrite flat_map_app, fold_left_app. destruct (IH F) as [(q & E & Sq & Hq & Al)|(E & v & b & u & I & N)].
    + rewrite E. change (flat_map decom_rows [(z, ESchedD a t0)]) with [(Z.of_nat a, t0)]. simpl. rewrite (proj2 (Z.ltb_ge t0 0) Fx).
      destruct (pointer_of a) as [[P A]|[P A]]; rewrite P.
      * left. eexists. split; [reflexivity|]. split; [apply qpush_sorted; apply (sorted_keys q); [symmetry; apply drop_keys|exact Sq]|]. split.
        -- intros u. rewrite qpush_find, decoms_snoc. simpl. f_equal. rewrite drop_find; [now rewrite Hq|exact Sq| |].
           ++ intros w. rewrite Hq. apply decoms_nodup.
           ++ intros w w' I1 I2. rewrite Hq in I1, I2. apply decoms_pending in I1, I2. congruence.
        -- apply Forall_app. split; [exact Al|]. constructor; [exact A|constructor].
      * right. split; [reflexivity|]. exists z, a, t0. split; [apply in_or_app; right; now left|exact A].
    + right. rewrite E. split; [apply dstep_UB|]. exists v, b, u. split; [apply in_or_app; now left|exact N].
Qed.
Lemma later_rows l : flat_map decom_rows (later l) = filter (fun r => Z.leb t (snd r)) (flat_map decom_rows l).
Proof.
  induction l as [|[z e] l IH]; [reflexivity|]. simpl flat_map. rewrite filter_app, <- IH. simpl later. destruct e; try reflexivity.
  unfold decom_rows at 3. simpl. destruct (Z.leb t t0); reflexivity.
Qed.
Lemma load_decoms_eq : load_decoms 0 t d agents = fold_left dstep (flat_map decom_rows (later D)) (Ok []).
Proof.
  unfold load_decoms. cbn [t_decom db_of]. rewrite later_rows. unfold table. destruct (flat_map decom_rows D); reflexivity.
Qed.
Lemma later_pos : Forall (fun x => match snd x with ESchedD a u => 0 <= u | _ => False end) (later D).
Proof.
  destruct (h_snaps _ H pre t snap n mid eq_refl) as (_ & _ & _ & _ & T0 & _).
  apply Forall_forall. intros [z e] I. apply filter_In in I. destruct I as [_ I]. simpl in *. destruct e; try discriminate. apply Z.leb_le in I. lia.
Qed.
Lemma decoms_ok : orders_known t pre D -> orders_current t D ->
  exists q, load_decoms 0 t d agents = Ok q /\ zsorted q /\ forall u, odef (zfind u q) = if Z.leb t u then decoms_for u D else [].
Proof.
  intros Al Oc. rewrite load_decoms_eq. destruct (decoms_fold _ later_pos) as [(q & E & Sq & Hq & _)|(_ & v & a & u & I & N)].
  - exists q. split; [exact E|]. split; [exact Sq|]. intros u. rewrite Hq. destruct (Z.leb_spec t u) as [L|L]; [now apply decoms_same|].
    destruct (decoms_for u (later D)) as [|a l] eqn:Ed; [reflexivity|]. exfalso. assert (Ia : In a (decoms_for u (later D))) by (rewrite Ed; now left).
    apply decoms_pending in Ia. clear - Ia L. assert (F : Forall (fun x => match snd x with ESchedD a u => t <= u | _ => True end) (later D)).
    { apply Forall_forall. intros [z e] I. apply filter_In in I. destruct I as [_ I]. simpl in *. destruct e; auto. now apply Z.leb_le. }
    revert F Ia. generalize (later D) as m. induction m as [|x m IH] using rev_ind; intros F P; [discriminate|].
    apply Forall_app in F. destruct F as [F F1]. inversion F1 as [|? ? Fx _]; subst. rewrite pending_snoc in P. destruct x as [z e]; simpl in *.
    destruct e; auto. destruct (Nat.eqb a0 a); auto. injection P as ->. lia.
  - exfalso. apply filter_In in I. destruct I as [I L]. simpl in L. apply Z.leb_le in L. apply N. eapply Al; eauto.
Qed.
Lemma decoms_null v a u : In (v, ESchedD a u) D -> t <= u -> ~ alive pre a -> load_decoms 0 t d agents = UB.
Proof.
  intros I L N. rewrite load_decoms_eq. destruct (decoms_fold _ later_pos) as [(q & _ & _ & _ & Al)|(E & _)]; [|exact E].
  exfalso. rewrite Forall_forall in Al. apply N. apply (Al (v, ESchedD a u)). apply filter_In. split; [exact I|]. simpl. now apply Z.leb_le.
Qed.
End D.
