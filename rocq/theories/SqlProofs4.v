(** The SQLite backend when no statement fails: what is accepted, and the state after a failure. *)
From Coq Require Import String Ascii QArith List Bool Arith ZArith Lia.
From Verif Require Import Base SqlModel SqlSpec SqlProofs SqlProofs2 SqlProofs3.
Import ListNotations.
Open Scope list_scope.

Section Proofs.
Variable X : Type.
Variable plain : string -> bool.
Variable trouble : nat -> option bool.
Variable ser : nat -> X -> string.
Variable conv : affinity -> cell -> cell.
Notation datum := (datum X).
Notation title := (dt_title X).
Notation vals := (dt_vals X).
Notation Put := (put X plain trouble ser conv).
Notation PutAll := (put_all X plain trouble ser conv).
Notation Notify := (notify X plain trouble ser conv).
Notation Went := (went X plain trouble ser conv).
Notation Change := (change trouble).
Notation BindAll := (bind_all X ser).
Hypothesis calm : forall n, trouble n = None.

(** ** An open transaction stays open *)
Definition opened (c : conn) : Prop := k_txn c <> None.
Lemma change_open f c r c' : Change f c = (r, c') -> opened c -> opened c'.
Proof.
  unfold change, stmt, opened. rewrite calm. cbn. intros H O. destruct (k_txn c) as [w|] eqn:E; [|contradiction].
  destruct (f _) as [x|e|]; inversion H; subst; cbn; try rewrite E; discriminate.
Qed.
Lemma note_open t vs : forall c r c', note_fields X trouble t vs c = (r, c') -> opened c -> opened c'.
Proof.
  induction vs as [|[f v] vs IH]; cbn; intros c r c' H O; [now inversion H; subst|].
  destruct (type_of v); [|now inversion H; subst].
  destruct (Change (add_field t f d) c) as [r1 c1] eqn:C. pose proof (change_open _ _ _ _ C O) as O1.
  destruct r1; [eauto|now inversion H; subst..].
Qed.
Lemma put_open d b r b' : Put d b = (r, b') -> opened (b_conn b) -> opened (b_conn b').
Proof.
  unfold put. intros H O. destruct (vals d) as [|v0 vs0] eqn:EV; [now inversion H; subst|]. rewrite <- EV in H.
  destruct (plain (title d) && forallb plain (map fst (vals d))); [|now inversion H; subst].
  assert (O1 : forall r1 b1, (if mem (title d) (b_names b) then (Ok tt, b) else create_table X trouble d b) = (r1, b1) -> opened (b_conn b1)).
  { intros r1 b1. destruct (mem (title d) (b_names b)); [intros A; now inversion A; subst|]. unfold create_table. cbv zeta.
    destruct (note_fields X trouble (title d) (vals d) (b_conn b)) as [r2 c2] eqn:N. pose proof (note_open _ _ _ _ _ N O) as O2.
    destruct r2; [|intros A; inversion A; subst; exact O2..].
    destruct (Change _ c2) as [r3 c3] eqn:C. intros A. inversion A; subst. cbn. eapply change_open; eauto. }
  destruct (if mem (title d) (b_names b) then (Ok tt, b) else create_table X trouble d b) as [r1 b1]. specialize (O1 _ _ eq_refl).
  destruct r1; [|inversion H; subst; exact O1..].
  assert (O2 : forall r2 b2, match sget (title d) (b_stmts b1) with Some _ => (Ok tt, b1) | None => build_stmt X d b1 end = (r2, b2) -> opened (b_conn b2)).
  { intros r2 b2. destruct (sget (title d) (b_stmts b1)); [intros A; now inversion A; subst|]. unfold build_stmt.
    destruct (types_of X (vals d)); [|intros A; now inversion A; subst].
    destruct (find_tab (title d) (now (b_conn b1))); [|intros A; now inversion A; subst].
    destruct (Nat.eqb _ _); intros A; now inversion A; subst. }
  destruct (match sget (title d) (b_stmts b1) with Some _ => (Ok tt, b1) | None => build_stmt X d b1 end) as [r2 b2]. specialize (O2 _ _ eq_refl).
  destruct r2; [|inversion H; subst; exact O2..].
  unfold write_datum in H. destruct (sget (title d) (b_stmts b2)); [|inversion H; subst; exact O2].
  destruct (sget (title d) (b_schemas b2)); [|inversion H; subst; exact O2].
  destruct (BindAll l (vals d)); [|inversion H; subst; exact O2..].
  destruct (Change _ (b_conn b2)) as [r3 c3] eqn:C. inversion H; subst. cbn. eapply change_open; eauto.
Qed.
Lemma put_all_open l : forall b r b', PutAll l b = (r, b') -> opened (b_conn b) -> opened (b_conn b').
Proof.
  induction l as [|d l IH]; cbn; intros b r b' H O; [now inversion H; subst|].
  destruct (Put d b) as [r1 b1] eqn:P. pose proof (put_open _ _ _ _ P O). destruct r1; [eauto|now inversion H; subst..].
Qed.
Lemma notify_failed l b e b' : Notify l b = (Throw e, b') -> e <> ValueError -> opened (b_conn b').
Proof.
  unfold notify. intros H NE. unfold begin_txn, stmt in H. rewrite calm in H. cbn [k_txn k_disk k_n] in H.
  destruct (k_txn (b_conn b)) as [w|] eqn:E; [inversion H; subst; cbn; discriminate|].
  match type of H with context [PutAll l ?b0] => destruct (PutAll l b0) as [r1 b1] eqn:P end.
  assert (O : opened (b_conn b1)) by (eapply put_all_open; eauto; cbn; discriminate).
  assert (ET : end_txn trouble (b_conn b1) = (Ok tt, snd (end_txn trouble (b_conn b1)))).
  { unfold end_txn, stmt. rewrite calm. cbn. destruct (k_txn (b_conn b1)) eqn:T; [reflexivity|now destruct O]. }
  rewrite ET in H. destruct r1 as [u|e1|]; [discriminate| |discriminate].
  destruct e1; try (inversion H; subst; exact O). inversion H; subst. contradiction.
Qed.
Lemma notify_opened l b : opened (b_conn b) -> exists b', Notify l b = (Throw IOError, b') /\ opened (b_conn b').
Proof.
  intros O. unfold notify, begin_txn, stmt. rewrite calm. cbn [k_txn k_disk k_n].
  destruct (k_txn (b_conn b)) as [w|] eqn:E; [|now destruct O]. eexists. split; [reflexivity|]. cbn. discriminate.
Qed.
Theorem stuck evs l e h b : Went (evs ++ Recorded l (Throw e) :: h) b -> e <> ValueError -> ~ In Reopened evs ->
  (forall ev, In ev evs -> exists l', ev = Recorded l' (Throw IOError)) /\ opened (b_conn b).
Proof.
  revert b. induction evs as [|ev evs IH]; cbn; intros b W NE NI.
  - split; [intros ev []|]. inversion W as [|h0 b0 l0 r0 b1 W0 N R|]; subst. eapply notify_failed; eauto.
  - inversion W as [|h0 b0 l0 r0 b1 W0 N R|]; subst; [|destruct NI; auto].
    destruct (IH b0 W0 NE) as [A O]; [tauto|]. destruct (notify_opened l0 b0 O) as (b2 & N2 & O2).
    rewrite N in N2. inversion N2; subst. split; [|exact O2]. intros ev [<-|I]; eauto.
Qed.

(** ** Data in good order are accepted *)
Section Inv.
Variable U : string -> Prop.
Variable sch : string -> option (list (string * dbtype)).
Hypothesis U_apart : forall a b, U a -> U b -> lower a = lower b -> a = b.
Notation ok_datum := (ok_datum X U sch).
Notation inside := (inside X ser U sch).
Definition good (d : datum) : Prop :=
  ok_datum d /\ vals d <> [] /\ plain (title d) && forallb plain (map fst (vals d)) = true /\ distinct_names (map fst (vals d)) = true /\
  exists s, sch (title d) = Some s.

Lemma bind_all_ok (s : list (string * dbtype)) : forall vs, map (fun p => (fst p, type_of (snd p))) vs = map (fun q => (fst q, Some (snd q))) s ->
  exists cells, BindAll (map snd s) vs = Ok cells /\ types_of X vs = Some (map snd s).
Proof.
  induction s as [|[f t] s IH]; intros [|[g v] vs]; cbn; try discriminate.
  - eauto.
  - intros H. injection H as -> T H. destruct (IH vs H) as (cells & B & TY). rewrite B, T, TY.
    assert (A : exists c, bind X ser t v = Ok c).
    { destruct v; cbn in T; inversion T; subst; cbn; eauto. rewrite Nat.eqb_refl. eauto. }
    destruct A as [c ->]. eauto.
Qed.
Lemma note_ok t vs : (forall p, In p vs -> type_of (snd p) <> None) -> forall c, exists c', note_fields X trouble t vs c = (Ok tt, c').
Proof.
  induction vs as [|[f v] vs IH]; cbn; intros F c; [eauto|].
  pose proof (F (f, v) (or_introl eq_refl)) as T. cbn in T. destruct (type_of v) as [ty|]; [|contradiction].
  unfold change at 1, stmt. rewrite calm. cbn.
  match goal with |- context [note_fields X trouble t vs ?c0] => destruct (IH (fun p I => F p (or_intror I)) c0) as [c' E] end.
  exists c'. exact E.
Qed.
Lemma put_names d b b' u : Put d b = (Ok u, b') -> forall t, In t (b_names b') -> t = title d \/ In t (b_names b).
Proof.
  unfold put. intros H. destruct (vals d) as [|v0 vs0] eqn:EV; [discriminate|]. rewrite <- EV in H.
  destruct (plain (title d) && forallb plain (map fst (vals d))); [|discriminate].
  assert (O1 : forall r1 b1, (if mem (title d) (b_names b) then (Ok tt, b) else create_table X trouble d b) = (r1, b1) ->
    forall t, In t (b_names b1) -> t = title d \/ In t (b_names b)).
  { intros r1 b1. destruct (mem (title d) (b_names b)); [intros A; inversion A; subst; auto|]. unfold create_table. cbv zeta.
    destruct (note_fields X trouble (title d) (vals d) (b_conn b)) as [r2 c2].
    destruct r2; [|intros A; inversion A; subst; cbn; intros t [I|I]; auto..].
    destruct (Change _ c2) as [r3 c3]. intros A. inversion A; subst. cbn. intros t [I|I]; auto. }
  destruct (if mem (title d) (b_names b) then (Ok tt, b) else create_table X trouble d b) as [r1 b1]. specialize (O1 _ _ eq_refl).
  destruct r1; [|discriminate..].
  assert (O2 : forall r2 b2, match sget (title d) (b_stmts b1) with Some _ => (Ok tt, b1) | None => build_stmt X d b1 end = (r2, b2) -> b_names b2 = b_names b1).
  { intros r2 b2. destruct (sget (title d) (b_stmts b1)); [intros A; now inversion A; subst|]. unfold build_stmt.
    destruct (types_of X (vals d)); [|intros A; now inversion A; subst].
    destruct (find_tab (title d) (now (b_conn b1))); [|intros A; now inversion A; subst].
    destruct (Nat.eqb _ _); intros A; now inversion A; subst. }
  destruct (match sget (title d) (b_stmts b1) with Some _ => (Ok tt, b1) | None => build_stmt X d b1 end) as [r2 b2]. specialize (O2 _ _ eq_refl).
  destruct r2; [|discriminate..]. rewrite <- O2 in O1.
  unfold write_datum in H. destruct (sget (title d) (b_stmts b2)); [|discriminate].
  destruct (sget (title d) (b_schemas b2)); [|discriminate].
  destruct (BindAll l (vals d)); [|discriminate..].
  destruct (Change _ (b_conn b2)) as [r3 c3]. inversion H; subst. cbn. exact O1.
Qed.

Lemma put_ok d b l : inside b l -> good d -> (forall t, In t (b_names b) -> In t (map title l)) ->
  exists b', Put d b = (Ok tt, b').
Proof.
  intros (w & E & HO & NM & CA) (OK & NE & PL & DI & s & S) NA. unfold put.
  destruct (vals d) as [|v0 vs0] eqn:EV; [contradiction|]. rewrite <- EV in *. rewrite PL.
  assert (SH := proj2 OK s S). destruct (bind_all_ok s (vals d) SH) as (cells & BA & TY).
  assert (TS : forall p, In p (vals d) -> type_of (snd p) <> None).
  { intros p I. assert (A : In (fst p, type_of (snd p)) (shape d)) by (unfold shape; apply in_map_iff; eauto).
    rewrite SH in A. apply in_map_iff in A. destruct A as (q & A & _). injection A as _ A. congruence. }
  assert (P1 : exists b1 w1 ex, (if mem (title d) (b_names b) then (Ok tt, b) else create_table X trouble d b) = (Ok tt, b1) /\
    k_txn (b_conn b1) = Some w1 /\ holding X ser U sch ex w1 l /\ In (title d) (map title l ++ ex) /\ cached sch b1).
  { destruct (mem (title d) (b_names b)) eqn:ME.
    - exists b, w, []. split; [reflexivity|]. split; [exact E|]. split; [exact HO|]. split; [|exact CA]. rewrite app_nil_r. apply NA. now apply mem_in.
    - assert (NI : ~ In (title d) (map title l)).
      { intros I. assert (A : In (title d) (b_names b)) by (apply NM; apply (h_titles _ _ _ _ _ _ _ HO); now rewrite app_nil_r).
        apply mem_in in A. congruence. }
      destruct (create_table X trouble d b) as [r1 b1] eqn:C.
      assert (R : r1 = Ok tt).
      { unfold create_table in C. cbv zeta in C. destruct (note_ok (title d) (vals d) TS (b_conn b)) as [c1 N]. rewrite N in C.
        destruct (note_fields_spec _ _ _ _ _ _ _ _ N E) as [_ [E1 _]].
        unfold change, stmt in C. rewrite calm in C. cbn [k_txn k_disk k_n] in C. unfold now in C. cbn [k_txn] in C. rewrite E1 in C.
        unfold create in C at 1.
        match type of C with context [find_tab ?t ?w0] => destruct (find_tab t w0) as [tb|] eqn:F end.
        - exfalso. destruct (find_tab_in _ _ _ F) as [I L]. cbn [d_tabs] in I. apply NI.
          assert (T : tb_name tb = title d).
          { apply U_apart; [apply (h_used _ _ _ _ _ _ _ HO); exact I|apply OK|exact L]. }
          rewrite <- T. rewrite <- (app_nil_r (map title l)). apply (h_titles _ _ _ _ _ _ _ HO). now apply in_map.
        - assert (MF : map fst (columns X (vals d)) = map fst (vals d)) by (unfold columns; rewrite map_map; reflexivity).
          rewrite MF, DI in C. now inversion C. }
      subst r1. pose proof (create_table_spec X plain trouble ser U sch d b (Ok tt) b1 w l C E HO OK NI) as CT. destruct CT as (D & N & S1 & S2 & (w1 & E1 & H1) & _).
      exists b1, w1, [title d]. split; [reflexivity|]. split; [exact E1|]. split; [exact H1|]. split; [apply in_app_iff; right; now left|].
      constructor; rewrite ?S1, ?S2; apply CA. }
  destruct P1 as (b1 & w1 & ex & -> & E1 & H1 & I1 & C1).
  destruct (h_some _ _ _ _ _ _ _ H1 _ _ S I1) as [FT (tb & TI & TN & TC & TR)].
  assert (FI : find_tab (title d) w1 = Some tb).
  { rewrite <- TN. eapply (find_tab_there X ser U sch); eauto. }
  assert (LC : length (tb_cols tb) = length s) by (rewrite TC; unfold cols_of; apply map_length).
  assert (P2 : exists b2, match sget (title d) (b_stmts b1) with Some _ => (Ok tt, b1) | None => build_stmt X d b1 end = (Ok tt, b2) /\
     b_conn b2 = b_conn b1 /\ sget (title d) (b_stmts b2) = Some (length s) /\ sget (title d) (b_schemas b2) = Some (map snd s)).
  { destruct (sget (title d) (b_stmts b1)) as [n|] eqn:G.
    - destruct (c_stmt _ _ C1 _ _ _ S G) as [-> A]. exists b1. auto.
    - unfold build_stmt. rewrite TY. unfold now. rewrite E1, FI, LC, map_length, Nat.eqb_refl. eexists. split; [reflexivity|]. cbn.
      rewrite String.eqb_refl. auto. }
  destruct P2 as (b2 & -> & K2 & G1 & G2). unfold write_datum. rewrite G1, G2, BA. unfold change, stmt. rewrite calm.
  cbn [k_txn k_disk k_n]. unfold now. cbn [k_txn]. rewrite K2, E1. unfold insert_row. rewrite FI, LC, Nat.eqb_refl. eexists. reflexivity.
Qed.

Lemma put_all_ok ds : forall b l, inside b l -> Forall good ds -> (forall t, In t (b_names b) -> In t (map title l)) ->
  exists b', PutAll ds b = (Ok tt, b') /\ (forall t, In t (b_names b') -> In t (map title (l ++ ds))).
Proof.
  induction ds as [|d ds IH]; cbn; intros b l I F N.
  - exists b. rewrite app_nil_r. auto.
  - apply Forall_cons_iff in F. destruct F as [F1 F2]. destruct (put_ok d b l I F1 N) as [b1 P]. rewrite P.
    destruct (put_spec _ _ _ _ _ _ _ U_apart _ _ _ _ _ P I (proj1 F1)) as (_ & _ & _ & I1 & _).
    destruct (IH b1 (l ++ [d]) I1 F2) as (b' & A & B).
    + intros t J. rewrite map_app. apply in_app_iff. destruct (put_names _ _ _ _ P t J) as [->|J']; [right; now left|left; auto].
    + exists b'. rewrite <- app_assoc in B. auto.
Qed.

Definition ready (b : back) (l : list datum) : Prop :=
  resting X ser U sch b l /\ k_txn (b_conn b) = None /\ forall t, In t (b_names b) -> In t (map title l).
Lemma notify_ready l b old : ready b old -> Forall good l -> exists b', Notify l b = (Ok tt, b') /\ ready b' (old ++ l).
Proof.
  intros (R & T & N) F.
  assert (G : exists b', Notify l b = (Ok tt, b') /\ forall t, In t (b_names b') -> In t (map title (old ++ l))).
  { unfold notify, begin_txn, stmt. rewrite calm. cbn [k_txn k_disk k_n]. rewrite T.
    destruct R as (HO & NM & CA & FU).
    match goal with |- context [PutAll l ?b0] => set (b1 := b0) end.
    assert (I : inside b1 old).
    { exists (k_disk (b_conn b)). unfold b1. cbn. split; [reflexivity|]. split; [exact HO|]. split; [exact NM|]. constructor; apply CA. }
    destruct (put_all_ok l b1 old I F N) as (b2 & P & NB). rewrite P.
    assert (O : opened (b_conn b2)) by (eapply put_all_open; eauto; cbn; discriminate).
    unfold end_txn, stmt. rewrite calm. cbn [k_txn]. unfold opened in O. destruct (k_txn (b_conn b2)) as [w2|] eqn:E2; [|contradiction].
    eexists. split; [reflexivity|]. exact NB. }
  destruct G as (b' & G1 & G2). exists b'. split; [exact G1|]. split; [|split].
  - assert (FO : Forall ok_datum l) by (eapply Forall_impl; [|exact F]; intros d g; apply g).
    exact (notify_spec _ _ _ _ _ _ _ U_apart _ _ _ _ _ G1 R FO).
  - eapply (notify_txn X plain trouble ser conv); eauto.
  - exact G2.
Qed.
Lemma went_ready h b : Went h b -> (forall d, delivered h d -> good d) -> ready b (kept h) /\ forall l r, In (Recorded l r) h -> r = Ok tt.
Proof.
  induction 1 as [n|h b l r b' W IH N R|h b n W IH]; intros OK.
  - split; [|intros l r []]. split; [apply resting_open; [apply holds_db0|constructor]|]. split; [reflexivity|]. intros t [].
  - destruct IH as [RD AL]. { intros d (l' & r' & I & J). apply OK. exists l', r'. split; [now right|exact J]. }
    assert (F : Forall good l). { apply Forall_forall. intros d I. apply OK. exists l, r. split; [now left|exact I]. }
    destruct (notify_ready _ _ _ RD F) as (b2 & N2 & RD2). rewrite N in N2. inversion N2; subst. split; [exact RD2|].
    intros l0 r0 [A|A]; [now inversion A|eauto].
  - destruct IH as [RD AL]. { intros d (l' & r' & I & J). apply OK. exists l', r'. split; [now right|exact J]. }
    split; [|intros l r [A|A]; [discriminate|eauto]]. destruct RD as ((HO & NM & CA & FU) & T & NB). split; [|split].
    + now apply resting_open.
    + reflexivity.
    + cbn. intros t I. apply (h_titles _ _ _ _ _ _ _ HO) in I. rewrite app_nil_r in I. exact I.
Qed.
End Inv.

Theorem accepted h b : Went h b -> titles_apart h -> (forall t, steady h t) ->
  (forall d, delivered h d -> vals d <> [] /\ plain (title d) = true /\ (forall p, In p (vals d) -> plain (fst p) = true) /\
     distinct_names (map fst (vals d)) = true) ->
  forall l r, In (Recorded l r) h -> r = Ok tt.
Proof.
  intros W A S G. assert (UA := used_apart X h A).
  apply (went_ready (used X h) (fun t => Some (schemas X h t)) UA h b W).
  intros d D. destruct (G d D) as (G1 & G2 & G3 & G4). split; [|split; [exact G1|split; [|split; [exact G4|eauto]]]].
  - split; [exists d; auto|]. intros s E. injection E as <-. now apply schemas_shape.
  - rewrite G2. cbn. apply forallb_forall. intros f I. apply in_map_iff in I. destruct I as (p & <- & I). auto.
Qed.
End Proofs.
