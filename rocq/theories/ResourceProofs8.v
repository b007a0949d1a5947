(** * Resources: exact effect of the tracker on the database. *)
From Verif Require Import Base CompModel CompSpec CompProofs PackageModel
  ResourceModel ResourceSpec ResourceProofs1 ResourceProofs2 ResourceProofs3 ResourceProofs4.
Open Scope Q_scope.
Open Scope m_scope.

Definition rec_state (b : bool) (w : world) (x : resource) : Z := if b then w_next_state w else r_state x.
Definition qual_val (w : world) (q : qual) : Z :=
  match q with
  | QMat c => match nth_error (w_comps w) c with Some x => c_id x | None => 0 end
  | QProd s => match assoc s (w_quals w) with Some z => z | None => 0 end
  end.
Definition rec_row (b : bool) (t x : resource) (w : world) : row :=
  mkRow (rec_state b w x) (r_obj x) (res_type (r_qual x)) (w_time w) (r_qty x) (res_units (r_qual x))
    (qual_val w (r_qual x)) (r_pkg x) (r_p1 t) (r_p2 t).
Definition rec_data (E : env) (b : bool) (t x : resource) (w : world) : list datum :=
  DRes (rec_row b t x w) ::
  match r_qual x with
  | QMat c => DMatInfo (rec_state b w x) (r_prev x) ::
              match nth_error (w_comps w) c with
              | Some cx => if c_recorded cx then [] else comp_rows E cx
              | None => []
              end
  | QProd _ => []
  end.
Definition rec_comps (x : resource) (w : world) : list comp :=
  match r_qual x with
  | QMat c => match nth_error (w_comps w) c with Some cx => upd (w_comps w) c (with_recorded true cx) | None => w_comps w end
  | QProd _ => w_comps w
  end.
Definition rec_quals (x : resource) (w : world) : list (string * Z) :=
  match r_qual x with
  | QMat _ => w_quals w
  | QProd s => match assoc s (w_quals w) with Some _ => w_quals w | None => w_quals w ++ [(s, 0%Z)] end
  end.
Definition rec_world (E : env) (b : bool) (t x : resource) (w : world) : world :=
  mkWorld (upd (w_res w) (r_tres t) (with_state (rec_state b w x) x)) (rec_comps x w) (w_lines w)
    (if b then w_next_state w + 1 else w_next_state w)%Z (w_next_obj w) (w_next_comp w) (rec_quals x w) (w_next_qual w)
    (w_time w) (w_db w ++ rec_data E b t x w).

Lemma with_recorded_same c : c_recorded c = true -> with_recorded true c = c.
Proof. destruct c; simpl; intros ->; reflexivity. Qed.
Lemma with_state_same x : with_state (r_state x) x = x.
Proof. destruct x; reflexivity. Qed.

Lemma world_eta w : mkWorld (w_res w) (w_comps w) (w_lines w) (w_next_state w) (w_next_obj w) (w_next_comp w)
  (w_quals w) (w_next_qual w) (w_time w) (w_db w) = w.
Proof. destruct w; reflexivity. Qed.

Lemma bump_run i w x : nth_error (w_res w) i = Some x ->
  bump_state i w = (Ok tt, mkWorld (upd (w_res w) i (with_state (w_next_state w) x)) (w_comps w) (w_lines w)
    (w_next_state w + 1)%Z (w_next_obj w) (w_next_comp w) (w_quals w) (w_next_qual w) (w_time w) (w_db w)).
Proof. intros H. unfold bump_state. rewrite (bind_ok _ _ _ _ _ (rmod_ok _ _ _ _ H)). reflexivity. Qed.

Lemma tr_record_run E b i w t x :
  nth_error (w_res w) i = Some t -> nth_error (w_res w) (r_tres t) = Some x -> r_ctx t = true ->
  (forall c, r_qual x = QMat c -> r_ctx x = true /\ exists cx, nth_error (w_comps w) c = Some cx) ->
  tr_record E b i w = (Ok tt, rec_world E b t x w).
Proof.
  intros Ht Hx Hc Hq. unfold tr_record. rewrite (bind_ok _ _ _ _ _ (rget_ok _ _ _ Ht)).
  set (wb := mkWorld (upd (w_res w) (r_tres t) (with_state (rec_state b w x) x)) (w_comps w) (w_lines w)
    (if b then w_next_state w + 1 else w_next_state w)%Z (w_next_obj w) (w_next_comp w) (w_quals w) (w_next_qual w) (w_time w) (w_db w)).
  assert (B : (if b then bump_state (r_tres t) else ret tt) w = (Ok tt, wb)).
  { unfold wb, rec_state. destruct b; [now apply bump_run|]. rewrite with_state_same, upd_same by auto. unfold ret. now rewrite world_eta. }
  rewrite (bind_ok _ _ _ _ _ B). rewrite Hc. unfold bind at 1, ret.
  assert (L := nth_error_lt _ _ _ Hx).
  assert (Hxb : nth_error (w_res wb) (r_tres t) = Some (with_state (rec_state b w x) x)).
  { unfold wb. simpl. now apply nth_upd_same. }
  rewrite (bind_ok _ _ _ _ _ (rget_ok _ _ _ Hxb)).
  destruct (r_qual x) as [c|s] eqn:Eq.
  - destruct (Hq c eq_refl) as [Hxc [cx Hcx]].
    cbn [with_state r_qual]. rewrite Eq. cbn [qual_id].
    assert (Q1 : (x0 <- cref c; ret (c_id x0)) wb = (Ok (c_id cx), wb)).
    { assert (Hcb : nth_error (w_comps wb) c = Some cx) by exact Hcx. rewrite (bind_ok _ _ _ _ _ (cref_ok _ _ _ Hcb)). reflexivity. }
    rewrite (bind_ok _ _ _ _ _ Q1). unfold bind at 1, get. unfold emit. unfold bind at 1, modify.
    unfold res_record. 
    match goal with |- bind _ _ ?ww = _ => set (w3 := ww) end.
    assert (Hx3 : nth_error (w_res w3) (r_tres t) = Some (with_state (rec_state b w x) x)) by exact Hxb.
    rewrite (bind_ok _ _ _ _ _ (rget_ok _ _ _ Hx3)). cbn [with_state r_qual]. rewrite Eq. cbn [with_state r_ctx]. rewrite Hxc.
    unfold emit. unfold bind at 1, modify.
    unfold comp_record.
    match goal with |- bind _ _ ?ww = _ => set (w4 := ww) end.
    assert (Hc4 : nth_error (w_comps w4) c = Some cx) by exact Hcx.
    rewrite (bind_ok _ _ _ _ _ (cref_ok _ _ _ Hc4)).
    unfold rec_world, rec_data, rec_comps, rec_quals, rec_row. rewrite Eq, Hcx.
    destruct (c_recorded cx) eqn:Er.
    + rewrite (with_recorded_same _ Er), (upd_same _ _ _ Hcx). unfold ret, w4, w3, wb, set_db. simpl. rewrite Hcx.
      rewrite <- app_assoc. reflexivity.
    + unfold cmod, modify. unfold bind at 1 2. rewrite (cref_ok _ _ _ Hc4).
      unfold w4, w3, wb, set_db, set_comps. simpl. rewrite Hcx. f_equal. f_equal. rewrite <- !app_assoc. reflexivity.
  - cbn [with_state r_qual]. rewrite Eq. cbn [qual_id]. 
    set (wq := mkWorld (w_res wb) (w_comps wb) (w_lines wb) (w_next_state wb) (w_next_obj wb) (w_next_comp wb) (rec_quals x w) (w_next_qual wb) (w_time wb) (w_db wb)).
    assert (Q1 : (w0 <- get; match assoc s (w_quals w0) with Some z => ret z | None => modify (set_quals (w_quals w0 ++ [(s, 0%Z)]) (w_next_qual w0));; ret 0%Z end) wb
       = (Ok (qual_val w (QProd s)), wq)).
    { unfold bind at 1, get. unfold qual_val, wq, rec_quals. rewrite Eq. simpl.
      destruct (assoc s (w_quals w)); reflexivity. }
    rewrite (bind_ok _ _ _ _ _ Q1). unfold bind at 1, get. unfold emit. unfold bind at 1, modify.
    unfold res_record.
    match goal with |- bind _ _ ?ww = _ => set (w3 := ww) end.
    assert (Hx3 : nth_error (w_res w3) (r_tres t) = Some (with_state (rec_state b w x) x)) by exact Hxb.
    rewrite (bind_ok _ _ _ _ _ (rget_ok _ _ _ Hx3)). cbn [with_state r_qual]. rewrite Eq.
    unfold ret, w3, wq, wb, set_db, rec_world, rec_data, rec_comps, rec_quals, rec_row. rewrite Eq. reflexivity.
Qed.

(** Conversely, a recording that does not crash had these pointers. *)
Lemma tr_record_inv E b i w r w' : tr_record E b i w = (r, w') -> r <> UB ->
  exists t x, nth_error (w_res w) i = Some t /\ nth_error (w_res w) (r_tres t) = Some x /\ r_ctx t = true /\
    (forall c, r_qual x = QMat c -> r_ctx x = true /\ exists cx, nth_error (w_comps w) c = Some cx) /\
    r = Ok tt /\ w' = rec_world E b t x w.
Proof.
  intros H N. pose proof H as H0. unfold tr_record in H. mrget H. rename x into t.
  apply bind_inv in H as [[u [w1 [H1 H]]]|[[e [H1 H]]|[H1 H]]]; [| |congruence].
  2:{ destruct b; [|discriminate]. exfalso. destruct (keeps_bump _ _ _ _ H1 ltac:(discriminate)) as [[? ?] _]. discriminate. }
  assert (S1 : sp w w1). { destruct b; [|inversion H1; subst; apply sp_refl]. destruct (keeps_bump _ _ _ _ H1 ltac:(discriminate)). auto. }
  destruct (r_ctx t) eqn:Ec.
  2:{ apply bind_inv in H as [[? [? [? ?]]]|[[? [? ?]]|[? ?]]]; [discriminate|discriminate|congruence]. }
  apply bind_inv in H as [[u2 [w2 [H2 H]]]|[[e [H2 H]]|[H2 H]]]; [|discriminate|discriminate]. inversion H2; subst; clear H2.
  mrget H. destruct (sp_nth_back _ _ _ _ S1 Hn0) as [x1 [Hx1 Px]].
  exists t, x1.
  assert (Hq : forall c, r_qual x1 = QMat c -> r_ctx x1 = true /\ exists cx, nth_error (w_comps w) c = Some cx).
  { intros c Eq. assert (Eq' : r_qual x = QMat c) by (apply (f_equal ph_qual) in Px; simpl in Px; congruence).
    assert (Hctx : r_ctx x = r_ctx x1) by (apply (f_equal ph_ctx) in Px; exact Px).
    rewrite Eq' in H. cbn [qual_id] in H.
    apply bind_inv in H as [[q [w3 [H3 H]]]|[[e [H3 H]]|[H3 H]]]; [| |congruence].
    - mcref H3. inversion H3; subst; clear H3. split.
      + mget H. apply bind_inv in H as [[? [w4 [H4 H]]]|[[? [H4 H]]|[H4 H]]]; [|discriminate|discriminate].
        inversion H4; subst; clear H4. unfold res_record in H. mrget H. simpl in Hn1. rewrite Hn0 in Hn1. inversion Hn1; subst.
        rewrite Eq' in H. rewrite <- Hctx. destruct (r_ctx x2) eqn:X; auto.
        apply bind_inv in H as [[? [? [? ?]]]|[[? [? ?]]|[? ?]]]; [discriminate|discriminate|congruence].
      + pose proof (sp_comps _ _ S1) as Sc.
        assert (Lc : (c < length (w_comps w))%nat).
        { rewrite <- (map_length cphys_of), <- Sc, map_length. eapply nth_error_lt; eauto. }
        apply nth_error_Some in Lc. destruct (nth_error (w_comps w) c); [eauto|congruence].
    - exfalso. mcref H3. inversion H3. }
  split; auto. split; auto. split; auto. split; auto.
  rewrite (tr_record_run E b i w t x1) in H0 by auto. inversion H0; subst. auto.
Qed.
