(** * SaveProofs2: the generated methods on the members that are not in the resource world: copying, recording, reading. *)
From Coq Require Import String.
From Verif Require Import Base CompModel CompSpec PackageModel ResourceModel ResourceSpec BufModel BufSpec
  SaveModel SaveSpec SaveProofs.
Open Scope Q_scope.

(** ** One pass over the members *)
Lemma step_all_app {S} (f : stmt -> S -> result S) : forall a b s s', step_all f a s = Ok s' -> step_all f (a ++ b) s = step_all f b s'.
Proof.
  induction a as [|x a IH]; intros b s s' H; simpl in *; [congruence|].
  destruct (f x s); try discriminate. eauto.
Qed.
Lemma pass_ok (f : string -> info -> list stmt) (st : stmt -> object -> result object) (I : object -> Prop)
    (post : string -> info -> option member -> Prop) (o0 : object) : forall c,
  (forall x i o, In (x, Var i) c -> I o -> find x o = find x o0 ->
     exists o', step_all st (f x i) o = Ok o' /\ I o' /\ post x i (find x o') /\ (forall y, y <> x -> find y o' = find y o)) ->
  NoDup (map fst c) ->
  forall o, I o -> (forall x, In x (map fst c) -> find x o = find x o0) ->
  exists o', step_all st (each f c) o = Ok o' /\ I o' /\ (forall x i, In (x, Var i) c -> post x i (find x o')) /\
    (forall y, ~ In y (map fst c) -> find y o' = find y o).
Proof.
  induction c as [|[x e] c IH]; intros H Nd o Io Fo; simpl.
  - exists o. split; auto. split; auto. split; [intros x i []|auto].
  - inversion Nd as [|? ? Nx Nd']; subst. destruct e as [i|y].
    + destruct (H x i o (or_introl eq_refl) Io (Fo x (or_introl eq_refl))) as [o1 [S1 [I1 [P1 F1]]]].
      simpl. rewrite (step_all_app _ _ _ _ _ S1).
      destruct (IH (fun x' i' o' Hin => H x' i' o' (or_intror Hin)) Nd' o1 I1) as [o2 [S2 [I2 [P2 F2]]]].
      { intros y Hy. rewrite F1; [apply Fo; now right|]. intros ->. contradiction. }
      exists o2. split; auto. split; auto. split.
      * intros y j [Y|Y]; [|auto]. injection Y as <- <-. rewrite F2; auto.
      * intros y Ny. rewrite F2 by tauto. apply F1. intros ->. tauto.
    + simpl. destruct (IH (fun x' i' o' Hin => H x' i' o' (or_intror Hin)) Nd' o Io) as [o2 [S2 [I2 [P2 F2]]]].
      { intros z Hz. apply Fo. now right. }
      exists o2. split; auto. split; auto. split.
      * intros z j [Y|Y]; [discriminate|auto].
      * intros z Nz. apply F2. tauto.
Qed.

(** ** Names *)
Lemma member_of_free c locals x o : class_ok c -> In x (map fst c) -> (forall y, In y locals -> In y taken_names) ->
  member_of locals x o = find x o.
Proof.
  intros Hc Hx Hl. unfold member_of. destruct (existsb (String.eqb x) locals) eqn:X; auto.
  apply existsb_exists in X as [y [Hy Ey]]. apply String.eqb_eq in Ey. subst y.
  destruct (ok_free _ Hc x Hx). auto.
Qed.
Lemma in_names (c : vars) x i : In (x, Var i) c -> In x (map fst c).
Proof. intros H. change x with (fst (x, Var i)). now apply in_map. Qed.
Lemma one_entry (c : vars) x i j : NoDup (map fst c) -> In (x, Var i) c -> In (x, Var j) c -> i = j.
Proof.
  induction c as [|[k e] c IH]; simpl; [tauto|]. intros Nd [A|A] [B|B]; inversion Nd as [|? ? N Nd']; subst.
  - congruence.
  - injection A as -> ->. destruct N. eapply in_names; eauto.
  - injection B as -> ->. destruct N. eapply in_names; eauto.
  - auto.
Qed.

(** ** Reading a tracker's capacity, setting a buffer's *)
Lemma watch_ok o : forall l, (forall y, In y l -> exists T b, find y o = Some (MBuf T b)) -> watch l o = Ok tt.
Proof.
  induction l as [|x l IH]; intros H; simpl; auto. destruct (H x (or_introl eq_refl)) as [T [b ->]]. apply IH.
  intros y Hy. apply H. now right.
Qed.
Lemma cap_write_ok E c locals x T b o cap : class_ok c -> In x (map fst c) -> (forall y, In y locals -> In y taken_names) ->
  find x o = Some (MBuf T b) -> 0 <= e_eps E -> b_qty b == 0 -> (forall q, cap = Some q -> 0 <= q) ->
  cap_write E locals x cap o = Ok (assign x (MBuf T (set_b_cap cap b)) o).
Proof.
  intros Hc Hx Hl F He Q0 Hq. unfold cap_write. rewrite (member_of_free c) by auto. rewrite F.
  unfold buf_capacity, bbind, bget. cbn [snd]. destruct cap as [q|]; [|reflexivity].
  specialize (Hq q eq_refl). destruct (Qltb_spec q 0) as [L|L]; [lra|].
  destruct (Qltb_spec (e_eps E) (b_qty b - q)) as [M|M]; [|reflexivity]. rewrite Q0 in M. lra.
Qed.

(** The buffers that were there are still there. *)
Definition bufs_stay (o0 o : object) : Prop :=
  forall y T b, find y o0 = Some (MBuf T b) -> exists T' b', find y o = Some (MBuf T' b').
Lemma bufs_stay_assign o0 o x a : bufs_stay o0 o -> (forall T b, find x o0 = Some (MBuf T b) -> exists T' b', a = MBuf T' b') ->
  bufs_stay o0 (assign x a o).
Proof.
  intros H Ha y T b F. destruct (H y T b F) as [T' [b' F']]. rewrite find_assign.
  destruct (String.eqb_spec x y) as [->|N]; [|eauto]. rewrite F'. destruct (Ha T b F) as [T2 [b2 ->]]. eauto.
Qed.

Section Copy.
Variable E : env.
Variable c : vars.
Hypothesis Hc : class_ok c.
Hypothesis He : 0 <= e_eps E.

Lemma in_m : forall y, In y ["m"%string] -> In y taken_names.
Proof. intros y [<-|[]]. simpl. auto. Qed.
Lemma in_b : forall y, In y ["b"%string; "qr"%string] -> In y taken_names.
Proof. intros y [<-|[<-|[]]]; simpl; auto. Qed.
Lemma in_di : forall y, In y ["di"%string] -> In y taken_names.
Proof. intros y [<-|[]]. simpl. auto. Qed.
Lemma in_invs : forall y, In y ["invs"%string] -> In y taken_names.
Proof. intros y [<-|[]]. simpl. tauto. Qed.
Lemma in_inv : forall y, In y ["inv"%string] -> In y taken_names.
Proof. intros y [<-|[]]. simpl. tauto. Qed.

(** What a buffer looks like after its capacity was set. *)
Definition cap_set (o0 : object) (x : string) (cap : option Q) (a : option member) : Prop :=
  exists T b, find x o0 = Some (MBuf T b) /\ a = Some (MBuf T (set_b_cap cap b)).

Lemma copy_ok fresh self : just_constructed c fresh -> object_of c self ->
  (forall x T b q, buf_var c x T -> find x self = Some (MBuf T b) -> b_cap b = Some q -> 0 <= q) ->
  exists m, clone E c fresh self = Ok m /\
    (forall x, plain_var c x -> find x m = find x self) /\
    (forall x T b, buf_var c x T -> find x self = Some (MBuf T b) -> cap_set fresh x (b_cap b) (find x m)) /\
    (forall x, trk_var c x -> find x m = find x fresh).
Proof.
  intros [Hof Hem Htr] Hs Hq. unfold clone, init_from_copy, gen_copy.
  pose proof (ok_names _ Hc) as Nd.
  (* the plain members *)
  destruct (pass_ok (fun x i => if in_buffers (i_type i) then [] else [SCopy x]) (copy_stmt E self) (bufs_stay fresh)
    (fun x i a => match i_type i with TyPlain _ => a = find x self | _ => a = find x fresh end) fresh c) with (o := fresh)
    as [o1 [S1 [I1 [P1 F1]]]]; auto.
  { intros x i o Hi Io Fo. destruct i as [t cap]. destruct t as [t|T|k T|]; simpl.
    - destruct (of_plain _ _ Hof x) as [v0 V0]; [exists (mkInfo (TyPlain t) cap), t; auto|].
      destruct (of_plain _ _ Hs x) as [v V]; [exists (mkInfo (TyPlain t) cap), t; auto|].
      change (existsb (String.eqb x) ["m"%string]) with (existsb (String.eqb x) ["m"%string]).
      rewrite (member_of_free c) by (auto using in_m; eapply in_names; eauto). rewrite Fo, V0, V.
      exists (assign x (MVal v) o). split; auto. split.
      + apply bufs_stay_assign; auto. intros T b X. congruence.
      + split; [rewrite (find_assign_same _ _ (MVal v0)); congruence|]. intros y N. apply find_assign_other. congruence.
    - exists o. split; auto.
    - destruct (ok_nomap _ Hc x _ k T Hi). reflexivity.
    - exists o. split; auto. }
  { intros y T b F. eauto. }
  rewrite (step_all_app _ _ _ _ _ S1).
  (* the inventories *)
  destruct (pass_ok (fun x i => if in_buffers (i_type i) then
      match i_type i with TyBuf _ => [SCapFrom x] | TyTrk => [SCapRead x] | TyMap _ _ => [SMap x] | TyPlain _ => [] end else [])
    (copy_stmt E self) (bufs_stay fresh)
    (fun x i a => match i_type i with
       | TyBuf T => forall b, find x self = Some (MBuf T b) -> cap_set fresh x (b_cap b) a
       | _ => a = find x o1 end) o1 c) with (o := o1) as [m [S2 [I2 [P2 F2]]]]; auto.
  { intros x i o Hi Io Fo. pose proof (P1 x i Hi) as Px. destruct i as [t cap]. destruct t as [t|T|k T|]; simpl in *.
    - exists o. split; auto.
    - assert (Bx : buf_var c x T) by (exists (mkInfo (TyBuf T) cap); auto).
      destruct (of_buf _ _ Hs x T Bx) as [b B]. destruct (of_buf _ _ Hof x T Bx) as [b0 B0]. rewrite B.
      destruct (Hem x T b0 Bx B0) as [_ [_ Q0]].
      rewrite (cap_write_ok E c _ x T b0) by (auto using in_m; solve [eapply in_names; eauto|congruence|intros q Eq; eapply Hq; eauto]).
      exists (assign x (MBuf T (set_b_cap (b_cap b) b0)) o). split; auto. split; [|split].
      + apply bufs_stay_assign; auto. eauto.
      + intros b' B'. exists T, b0. split; auto. rewrite (find_assign_same _ _ (MBuf T b0)) by congruence. congruence.
      + intros y N. apply find_assign_other. congruence.
    - destruct (ok_nomap _ Hc x _ k T Hi). reflexivity.
    - assert (Tx : trk_var c x) by (exists (mkInfo TyTrk cap); auto).
      destruct (of_trk _ _ Hof x Tx) as [q [l L]]. destruct (Htr x q l Tx L) as [Nl Wl].
      unfold cap_read. rewrite (member_of_free c) by (auto using in_m; eapply in_names; eauto). rewrite Fo, Px, L.
      destruct l as [|y l]; [congruence|]. rewrite watch_ok.
      + exists o. split; [reflexivity|]. split; [exact Io|]. split; [congruence|auto].
      + intros z Hz. destruct (Wl z Hz) as [T [b Z]]. eapply Io; eauto. }
  rewrite S2. exists m. split; auto. split; [|split].
  - intros x [i [t [Hi Ei]]]. pose proof (P1 x i Hi) as A. pose proof (P2 x i Hi) as B. rewrite Ei in A, B. congruence.
  - intros x T b [i [Hi Ei]] Fb. pose proof (P2 x i Hi) as B. rewrite Ei in B. auto.
  - intros x [i [Hi Ei]]. pose proof (P1 x i Hi) as A. pose proof (P2 x i Hi) as B. rewrite Ei in A, B. congruence.
Qed.

(** ** Recording *)
Lemma snap_pass o : object_of c o -> forall d, (forall x e, In (x, e) d -> In (x, e) c) -> NoDup (map fst d) ->
  forall r, (forall x, In x (map fst d) -> find x r = None) ->
  exists r', step_all (snap_stmt o) (gen_snapshot d) r = Ok r' /\
    (forall x v, plain_var d x -> find x o = Some (MVal v) -> find x r' = Some v) /\
    (forall x, ~ plain_var d x -> find x r' = find x r).
Proof.
  intros Ho. induction d as [|[x e] d IH]; intros Sub Nd r Fr; simpl.
  - exists r. split; auto. split; auto. intros x v [i [t [[] _]]].
  - inversion Nd as [|? ? Nx Nd']; subst.
    assert (Skip : forall i, (forall t, i_type i <> TyPlain t) -> exists r', step_all (snap_stmt o) (gen_snapshot d) r = Ok r' /\
      (forall y v, plain_var ((x, Var i) :: d) y -> find y o = Some (MVal v) -> find y r' = Some v) /\
      (forall y, ~ plain_var ((x, Var i) :: d) y -> find y r' = find y r)).
    { intros i Ni. destruct (IH (fun y e' Hin => Sub y e' (or_intror Hin)) Nd' r) as [r' [S [A B]]].
      { intros y Hy. apply Fr. now right. }
      exists r'. split; auto. split.
      - intros y v [j [t [[Y|Y] Ej]]] F; [injection Y as <- <-; destruct (Ni t Ej)|]. eapply A; eauto. exists j, t. auto.
      - intros y N. apply B. intros [j [t [Y Ej]]]. apply N. exists j, t. split; auto. now right. }
    destruct e as [i|z].
    + simpl. destruct i as [t cap]. destruct t as [t|T|k T|]; simpl.
      * destruct (of_plain _ _ Ho x) as [v V]; [exists (mkInfo (TyPlain t) cap), t; split; auto; apply Sub; now left|].
        rewrite (member_of_free c) by (auto using in_di; eapply in_names; apply Sub; left; reflexivity). rewrite V.
        destruct (IH (fun y e' Hin => Sub y e' (or_intror Hin)) Nd' (r ++ [(x, v)])) as [r' [S [A B]]].
        { intros y Hy. rewrite find_app, Fr by now right. simpl. destruct (String.eqb_spec x y) as [->|N]; auto. contradiction. }
        exists r'. split; auto. split.
        -- intros y v' [j [t' [[Y|Y] Ej]]] F.
           ++ injection Y as <- <-. rewrite B.
              ** rewrite find_app, Fr by now left. simpl. rewrite String.eqb_refl. congruence.
              ** intros [j' [t2 [Y' _]]]. destruct Nx. eapply in_names; eauto.
           ++ eapply A; eauto. exists j, t'. auto.
        -- intros y N. rewrite B.
           ++ rewrite find_app. destruct (find y r); auto. simpl. destruct (String.eqb_spec x y) as [->|Ny]; auto.
              destruct N. exists (mkInfo (TyPlain t) cap), t. split; auto. now left.
           ++ intros [j [t' [Y Ej]]]. apply N. exists j, t'. split; auto. now right.
      * apply Skip. discriminate.
      * destruct (ok_nomap _ Hc x _ k T (Sub _ _ (or_introl eq_refl))). reflexivity.
      * apply Skip. discriminate.
    + simpl. destruct (IH (fun y e' Hin => Sub y e' (or_intror Hin)) Nd' r) as [r' [S [A B]]].
      { intros y Hy. apply Fr. now right. }
      exists r'. split; auto. split.
      * intros y v [j [t [[Y|Y] Ej]]] F; [discriminate|]. eapply A; eauto. exists j, t. auto.
      * intros y N. apply B. intros [j [t [Y Ej]]]. apply N. exists j, t. split; auto. now right.
Qed.
Lemma snapshot_ok o : object_of c o -> exists r, snapshot c o = Ok r /\
  (forall x v, plain_var c x -> find x o = Some (MVal v) -> find x r = Some v) /\
  (forall x, ~ plain_var c x -> find x r = None).
Proof.
  intros Ho. destruct (snap_pass o Ho c) with (r := @nil (string * val)) as [r [S [A B]]]; auto using (ok_names _ Hc).
  exists r. auto.
Qed.

(** ** Reading back *)
Lemma db_ok fresh o r : just_constructed c fresh -> object_of c o ->
  (forall x v, plain_var c x -> find x o = Some (MVal v) -> find x r = Some v) ->
  (forall x T, buf_var c x T -> exists q, annotated_cap c o x q /\ 0 <= q) ->
  exists m, init_from_db E c [r] fresh = Ok m /\
    (forall x, plain_var c x -> find x m = find x o) /\
    (forall x T q, buf_var c x T -> annotated_cap c o x q -> cap_set fresh x (Some q) (find x m)) /\
    (forall x, trk_var c x -> find x m = find x fresh).
Proof.
  intros [Hof Hem Htr] Hs Hr Hq. unfold init_from_db, gen_db.
  pose proof (ok_names _ Hc) as Nd.
  destruct (pass_ok (fun x i => if key_in_buffers (i_type i) then [] else [SGet x]) (db_stmt E [r]) (bufs_stay fresh)
    (fun x i a => match i_type i with TyPlain _ => a = find x o | _ => a = find x fresh end) fresh c) with (o := fresh)
    as [o1 [S1 [I1 [P1 F1]]]]; auto.
  { intros x i o2 Hi Io Fo. destruct i as [t cap]. destruct t as [t|T|k T|]; simpl.
    - assert (Px : plain_var c x) by (exists (mkInfo (TyPlain t) cap), t; auto).
      destruct (of_plain _ _ Hof x Px) as [v0 V0]. destruct (of_plain _ _ Hs x Px) as [v V].
      rewrite (member_of_free c) by (auto using in_b; eapply in_names; eauto). rewrite Fo, V0, (Hr x v Px V).
      exists (assign x (MVal v) o2). split; auto. split.
      + apply bufs_stay_assign; auto. intros T b X. congruence.
      + split; [rewrite (find_assign_same _ _ (MVal v0)); congruence|]. intros y N. apply find_assign_other. congruence.
    - exists o2. split; auto.
    - exists o2. split; auto.
    - exists o2. split; auto. }
  { intros y T b F. eauto. }
  rewrite (step_all_app _ _ _ _ _ S1).
  destruct (pass_ok (fun x i => if key_in_buffers (i_type i) then
      match i_type i with TyBuf _ => [SCapSet x (cap_of i)] | TyTrk => [SCapRead x] | TyMap _ _ => [SMap x] | TyPlain _ => [] end else [])
    (db_stmt E [r]) (fun o' => bufs_stay fresh o' /\ forall y, plain_var c y -> find y o' = find y o)
    (fun x i a => match i_type i with
       | TyBuf T => forall q, annotated_cap c o x q -> cap_set fresh x (Some q) a
       | _ => a = find x o1 end) o1 c) with (o := o1) as [m [S2 [I2 [P2 F2]]]]; auto.
  { intros x i o2 Hi [Io Jo] Fo. pose proof (P1 x i Hi) as Px. destruct i as [t cap]. destruct t as [t|T|k T|].
    - exists o2. split; auto.
    - assert (Bx : buf_var c x T) by (exists (mkInfo (TyBuf T) cap); auto).
      destruct (of_buf _ _ Hof x T Bx) as [b0 B0]. destruct (Hem x T b0 Bx B0) as [_ [_ Q0]].
      destruct (Hq x T Bx) as [q [Aq Pq]].
      assert (Uq : forall q', annotated_cap c o x q' -> q' = q).
      { clear - Aq Nd. destruct Aq as [i [Hi A]]. intros q' [i' [Hi' A']].
        rewrite (one_entry _ _ _ _ Nd Hi' Hi) in A'. destruct (i_cap i) as [[n|y]|]; congruence. }
      assert (Ev : eval_cap ["b"%string; "qr"%string] (cap_of (mkInfo (TyBuf T) cap)) o2 = Ok q).
      { destruct Aq as [i [Hi' A]]. rewrite (one_entry _ _ _ _ Nd Hi' Hi) in A. unfold cap_of. simpl in A |- *.
        destruct cap as [[n|y]|]; simpl; [congruence| |congruence].
        destruct (ok_caps _ Hc _ _ y Hi eq_refl) as [j [t [Hj Ej]]].
        rewrite (member_of_free c) by (auto using in_b; eapply in_names; eauto).
        rewrite Jo, A; auto. exists j, t. auto. }
      simpl in Px. cbn [i_type key_in_buffers step_all db_stmt]. rewrite Ev.
      rewrite (cap_write_ok E c _ x T b0) by (auto using in_b; solve [eapply in_names; eauto|congruence|intros q' Eq; congruence]).
      exists (assign x (MBuf T (set_b_cap (Some q) b0)) o2). split; auto. split; [split|split].
      + apply bufs_stay_assign; auto. eauto.
      + intros y Py. rewrite find_assign_other; auto. intros <-. destruct Py as [j [t [Hj Ej]]].
        rewrite (one_entry _ _ _ _ Nd Hj Hi) in Ej. discriminate.
      + intros q' Aq'. rewrite (Uq q' Aq'). exists T, b0. split; auto. apply (find_assign_same _ _ (MBuf T b0)). congruence.
      + intros y N. apply find_assign_other. congruence.
    - destruct (ok_nomap _ Hc x _ k T Hi). reflexivity.
    - assert (Tx : trk_var c x) by (exists (mkInfo TyTrk cap); auto).
      destruct (of_trk _ _ Hof x Tx) as [q [l L]]. destruct (Htr x q l Tx L) as [Nl Wl]. simpl in Px. simpl.
      unfold cap_read. rewrite (member_of_free c) by (auto using in_b; eapply in_names; eauto). rewrite Fo, Px, L.
      destruct l as [|y l]; [congruence|]. rewrite watch_ok.
      + exists o2. split; [reflexivity|]. split; [split; assumption|]. split; [congruence|auto].
      + intros z Hz. destruct (Wl z Hz) as [T [b Z]]. eapply Io; eauto. }
  { split; auto. intros y [j [t [Hj Ej]]]. pose proof (P1 y j Hj) as A. rewrite Ej in A. auto. }
  rewrite S2. destruct I2 as [I2 J2]. exists m. split; auto. split; [|split]; auto.
  - intros x T q [i [Hi Ei]] Aq. pose proof (P2 x i Hi) as B. rewrite Ei in B. auto.
  - intros x [i [Hi Ei]]. pose proof (P1 x i Hi) as A. pose proof (P2 x i Hi) as B. rewrite Ei in A, B. congruence.
Qed.
End Copy.
