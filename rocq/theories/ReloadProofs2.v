(** Reloading resources: the load itself. *)
From Verif Require Import Base CompModel CompSpec CompProofs PackageModel ResourceModel ResourceSpec.
From Verif Require Import ResourceProofs1 ResourceProofs2 ResourceProofs4 ResourceProofs5 ResourceProofs6 ResourceProofs8 ResourceProofs9 ResourceProofs10 ResourceProofs11 ResourceProofs12 ResourceProofs13.
From Verif Require Import ReloadModel ReloadSpec ReloadProofs.
Open Scope Q_scope.

Lemma zset_above {A} k (v : A) l : Forall (fun x => (x < k)%Z) (zkeys l) -> zset k v l = l ++ [(k, v)].
Proof.
  induction l as [|[k' v'] l IH]; simpl; auto. intros H. inversion H as [|? ? H1 H2]; subst.
  destruct (Z.ltb_spec k k'); [lia|]. destruct (Z.eqb_spec k k'); [lia|]. now rewrite IH.
Qed.
Lemma fold_zset_app {A} (l acc : zmap A) : zsorted (acc ++ l) ->
  fold_left (fun m p => zset (fst p) (snd p) m) l acc = acc ++ l.
Proof.
  revert acc. induction l as [|[k v] l IH]; intros acc H; simpl; [now rewrite app_nil_r|].
  assert (zset k v acc = acc ++ [(k, v)]) as ->.
  { apply zset_above. clear IH. induction acc as [|[k' v'] acc IHa]; simpl in *; constructor; auto.
    - destruct H as [H _]. rewrite Forall_forall in H. apply (H (k, v)). rewrite in_app_iff. right. now left.
    - apply IHa. apply H. }
  rewrite IH; rewrite <- app_assoc; auto.
Qed.
Lemma fold_zset_sorted {A} (l : zmap A) : zsorted l -> fold_left (fun m p => zset (fst p) (snd p) m) l [] = l.
Proof. intros H. now apply (fold_zset_app l []). Qed.

Lemma find_row_unique d s x : NoDup (map row_id (res_rows d)) -> In x (res_rows d) -> row_id x = s -> find_row d s = Some x.
Proof.
  unfold find_row. fold (res_rows d). induction (res_rows d) as [|y l IH]; intros N I Hs; [destruct I|].
  simpl in *. inversion N as [|? ? N1 N2]; subst. destruct I as [->|I]; [now rewrite Z.eqb_refl|].
  destruct (Z.eqb_spec (row_id y) (row_id x)); [|auto]. exfalso. apply N1. rewrite e. now apply in_map.
Qed.
Lemma find_info_some d s p : In (DMatInfo s p) d -> exists q, find_info d s = Some q /\ In (DMatInfo s q) d.
Proof.
  unfold find_info. induction d as [|x d IH]; intros I; [destruct I|]. cbn [flat_map].
  destruct x; cbn [app] in *; try (destruct I as [I|I]; [discriminate|]; destruct (IH I) as (q & A & B); exists q; split; [exact A|now right]).
  simpl. destruct (Z.eqb_spec state s) as [->|Ne].
  - exists prev. split; [auto|now left].
  - destruct I as [I|I]; [congruence|]. destruct (IH I) as (q & A & B). exists q. split; [exact A|now right].
Qed.
Lemma find_quality_some d z s : In (DProd z s) d -> (forall s', In (DProd z s') d -> s' = s) -> find_quality d z = Some s.
Proof.
  unfold find_quality. induction d as [|x d IH]; intros I U; [destruct I|]. cbn [flat_map].
  destruct x; cbn [app] in *; try (destruct I as [I|I]; [discriminate|]; apply IH; [exact I|intros; apply U; now right]).
  simpl. destruct (Z.eqb_spec id z) as [->|Ne].
  - simpl. f_equal. apply U. now left.
  - destruct I as [I|I]; [congruence|]. apply IH; [exact I|intros; apply U; now right].
Qed.

Lemma load_composition_run E d id v w : comp_table d id = v -> wf_comp v -> acceptable E v ->
  load_composition E d id w = (Ok (length (w_comps w)),
    mkWorld (w_res w) (w_comps w ++ [mkComp id [] v true 0 (length (w_lines w))]) (w_lines w ++ [[]])
      (w_next_state w) (w_next_obj w) (w_next_comp w + 1)%Z (w_quals w) (w_next_qual w) (w_time w) (w_db w)).
Proof.
  intros T Wf [A1 A2]. unfold load_composition. cbv zeta. fold (comp_table d id). rewrite T, (fold_zset_sorted v Wf).
  unfold create_from_mass. rewrite A1, A2. simpl. unfold comp_new. unfold bind at 1. cbv zeta.
  unfold cmod. unfold bind at 1 2. unfold cref. simpl. rewrite nth_error_app2, Nat.sub_diag by lia. simpl.
  unfold ret, set_comps, modify. simpl. unfold as_loaded. simpl. 
  replace (upd (w_comps w ++ [_]) (length (w_comps w)) _) with (w_comps w ++ [mkComp id [] v true 0 (length (w_lines w))]); [reflexivity|].
  induction (w_comps w); simpl; [reflexivity|]. now rewrite IHl.
Qed.

Lemma upd_last {A} (l : list A) x y : upd (l ++ [x]) (length l) y = l ++ [y].
Proof. induction l; simpl; auto. now rewrite IHl. Qed.
Lemma nth_last {A} (l : list A) x : nth_error (l ++ [x]) (length l) = Some x.
Proof. now rewrite nth_error_app2, Nat.sub_diag by lia. Qed.

(** A new tracked resource whose quality is already in the database. *)
Lemma create_run E a q qty pkg w :
  match q with
  | QMat c => exists cx, nth_error (w_comps w) c = Some cx /\ c_recorded cx = true
  | QProd s => exists z, assoc s (w_quals w) = Some z
  end ->
  exists w' r0, (i <- new_resource q true qty pkg; tr_create E a i;; ret i) w = (Ok (length (w_res w)), w') /\
    w_res w' = w_res w ++ [r0] /\ r_qual r0 = q /\ r_qty r0 = qty /\ r_ctx r0 = true /\ r_tracked r0 = true /\
    w_comps w' = w_comps w /\ w_quals w' = w_quals w.
Proof.
  intros Hq. unfold bind at 1, new_resource. cbv zeta.
  set (r := mkRes q qty _ _ true _ _ _ _ _ _). set (w1 := set_next_obj _ _).
  assert (Tr : r_tracked r = true) by (unfold r; destruct q; reflexivity).
  assert (N1 : nth_error (w_res w1) (length (w_res w)) = Some r) by apply nth_last.
  unfold tr_create. unfold bind at 1. rewrite (bind_ok _ _ _ _ _ (rget_ok _ _ _ N1)). rewrite Tr. cbn [negb].
  rewrite (bind_ok _ _ _ _ _ (rmod_ok _ (with_parents 0 0) _ _ N1)).
  set (w2 := set_res _ w1).
  assert (N2 : nth_error (w_res w2) (length (w_res w)) = Some (with_parents 0 0 r)).
  { unfold w2, w1. simpl. rewrite upd_last. apply nth_last. }
  assert (R : tr_record E false (length (w_res w)) w2 = (Ok tt, rec_world E false (with_parents 0 0 r) (with_parents 0 0 r) w2)).
  { apply tr_record_run; auto. intros c Ec. simpl in Ec. subst q. destruct Hq as (cx & Hcx & _). split; auto. exists cx. exact Hcx. }
  rewrite (bind_ok _ _ _ _ _ R).
  set (w3 := rec_world _ _ _ _ _).
  assert (N3 : nth_error (w_res w3) (length (w_res w)) = Some (with_parents 0 0 r)).
  { unfold w3, rec_world, rec_state. cbn [w_res]. rewrite with_state_same. simpl. rewrite !upd_last. apply nth_last. }
  assert (Q3 : nth_error (w_res w3) (r_tres r) = Some (with_parents 0 0 r)) by exact N3.
  rewrite (bind_ok _ _ _ _ _ (rget_ok _ _ _ Q3)). unfold emit, modify, ret.
  eexists; exists (with_parents 0 0 r). split; [reflexivity|]. repeat apply conj; try reflexivity; auto.
  - unfold w3, rec_world, rec_state. cbn [set_db w_res]. rewrite with_state_same. simpl. rewrite !upd_last. reflexivity.
  - cbn [set_db w_comps]. unfold w3, rec_world, rec_comps. simpl. destruct q as [c|s]; auto. destruct Hq as (cx & Hcx & Rc).
    rewrite Hcx. rewrite with_recorded_same by auto. now rewrite upd_same.
  - cbn [set_db w_quals]. unfold w3, rec_world, rec_quals. simpl. destruct q as [c|s]; auto. destruct Hq as (z & Hz). now rewrite Hz.
Qed.

Lemma assoc_set_same s z l : assoc s (assoc_set s z l) = Some z.
Proof. induction l as [|[k v] l IH]; simpl; [now rewrite String.eqb_refl|]. destruct (String.eqb s k) eqn:Es; simpl; now rewrite Es. Qed.

(** ** What a later database still holds *)
Record Kept (d0 : list datum) (cs : list comp) (w : world) : Prop := mkKept {
  kp_db : exists l, w_db w = d0 ++ l;
  kp_cs : forall c x, nth_error cs c = Some x ->
    exists x', nth_error (w_comps w) c = Some x' /\ c_atom x' = c_atom x /\ c_mass x' = c_mass x }.
Section KeptPrims.
Context (d0 : list datum) (cs : list comp).
Notation KP := (Kept d0 cs).
Lemma kp_frame w w' l : w_comps w' = w_comps w -> w_db w' = w_db w ++ l -> KP w -> KP w'.
Proof. intros A B [[l0 K1] K2]. constructor; rewrite ?A; auto. exists (l0 ++ l). now rewrite B, K1, app_assoc. Qed.
Lemma kp_rmod i f : pinv KP (rmod i f).
Proof. unfold rmod. apply pinv_bind; [apply pinv_rget|]. intros r. apply pinv_modify. intros w. apply (kp_frame w _ []); simpl; auto. now rewrite app_nil_r. Qed.
Lemma kp_modify f : (forall w, w_comps (f w) = w_comps w) -> (forall w, exists l, w_db (f w) = w_db w ++ l) -> pinv KP (modify f).
Proof. intros A B. apply pinv_modify. intros w. destruct (B w) as [l Hl]. now apply (kp_frame w _ l). Qed.
Lemma kp_emit d : pinv KP (emit d).
Proof. apply kp_modify; [reflexivity|]. intros w. now exists [d]. Qed.
Lemma kp_new q c y p : pinv KP (new_resource q c y p).
Proof. intros w r w' K H _. unfold new_resource in H. injection H as <- <-. apply (kp_frame w _ []); simpl; auto. now rewrite app_nil_r. Qed.
Lemma kp_more w x l w' : w_comps w' = w_comps w ++ [x] -> w_db w' = w_db w ++ l -> KP w -> KP w'.
Proof.
  intros A B [[l0 K1] K2]. constructor; [exists (l0 ++ l); now rewrite B, K1, app_assoc|]. intros c y Hy.
  destruct (K2 _ _ Hy) as (x' & Hx' & R). exists x'. split; auto. rewrite A, nth_error_app1; auto. eapply nth_error_lt; eauto.
Qed.
Lemma kp_comp_new a m : pinv KP (comp_new a m).
Proof. intros w r w' K H _. unfold comp_new in H. injection H as <- <-. eapply (kp_more w _ []); [reflexivity|simpl; now rewrite app_nil_r|exact K]. Qed.
Lemma kp_comp_new_in_line a p l : pinv KP (comp_new_in_line a p l).
Proof. intros w r w' K H _. unfold comp_new_in_line in H. injection H as <- <-. eapply (kp_more w _ []); [reflexivity|simpl; now rewrite app_nil_r|exact K]. Qed.
Lemma kp_tr_record E b i : pinv KP (tr_record E b i).
Proof.
  intros w r w' K H N. apply tr_record_inv in H as (t & x & Ht & Hx & Hc & Hq & _ & ->); auto.
  destruct K as [[l0 K1] K2]. constructor; simpl.
  - exists (l0 ++ rec_data E b t x w). now rewrite K1, app_assoc.
  - intros c y Hy. destruct (K2 _ _ Hy) as (x' & Hx' & R1 & R2). unfold rec_comps. destruct (r_qual x) as [c1|s]; [|eauto].
    destruct (nth_error (w_comps w) c1) as [cx|] eqn:E1; [|eauto].
    destruct (Nat.eq_dec c c1) as [->|Ne].
    + rewrite nth_upd_same by (eapply nth_error_lt; eauto). rewrite E1 in Hx'. injection Hx' as ->. eexists. split; [reflexivity|]. auto.
    + rewrite nth_upd_other by auto. eauto.
Qed.
End KeptPrims.
#[local] Hint Resolve kp_rmod kp_emit kp_new kp_comp_new kp_comp_new_in_line kp_tr_record : pinv.
#[local] Hint Extern 1 (pinv (Kept _ _) (modify _)) => (apply kp_modify; [reflexivity|intros; exists []; simpl; now rewrite app_nil_r]) : pinv.
Lemma kp_step d cs E o : pinv (Kept d cs) (step E o).
Proof.
  assert (Dc : forall c t s, pinv (Kept d cs) (comp_decay E c t s)).
  { intros. unfold comp_decay, new_decay. cbv zeta. pinv_tac. }
  assert (Md : forall i t, pinv (Kept d cs) (mat_decay E i t)).
  { intros. unfold mat_decay, mat_transmute, tr_modify. cbv zeta. pinv_tac. }
  assert (Mc : forall i, pinv (Kept d cs) (mat_comp E i)).
  { intros. unfold mat_comp. pinv_tac. }
  assert (Pe : forall i q p, pinv (Kept d cs) (package_extract E i q p)).
  { intros. unfold package_extract, mat_package_extract, prod_package_extract, mat_extract_comp, create_from_mass, tr_package, tr_extract, tr_modify. cbv zeta. pinv_tac. }
  assert (Pl : forall i nm fills, pinv (Kept d cs) (package_loop E i nm fills)).
  { intros i nm fills. induction fills; simpl; pinv_tac. }
  destruct o; simpl; unfold drop, valid_comp, mat_only, res_clone, mat_create, mat_create_untracked, prod_create,
    prod_create_untracked, extract_res, mat_extract_qty, mat_extract_comp, prod_extract, absorb, mat_absorb, prod_absorb, res_decay, mat_transmute,
    res_package, change_package, mat_change_package, prod_change_package, create_from_mass, create_from_atom,
    tr_create, tr_modify, tr_extract, tr_absorb, tr_package; cbv zeta; pinv_tac.
Qed.
Lemma run_kept E ops w w' : run E ops w = Some w' -> Kept (w_db w) (w_comps w) w'.
Proof. intros H. eapply run_pinv; [intros; apply kp_step| |exact H]. constructor; [exists []; now rewrite app_nil_r|]. eauto. Qed.
Lemma run_app E o1 : forall o2 w, run E (o1 ++ o2) w = match run E o1 w with Some w1 => run E o2 w1 | None => None end.
Proof. induction o1 as [|o o1 IH]; intros o2 w; simpl; auto. destruct (step E o w) as [[]]; auto. Qed.

Lemma find_app_some {A} (f : A -> bool) l l' x : find f l = Some x -> find f (l ++ l') = Some x.
Proof. induction l; simpl; [discriminate|]. destruct (f a); auto. Qed.

Lemma reload_lemma E ops w : env_ok E -> 0 <= e_eps E -> Forall no_clone ops -> Forall op_wf ops -> run E ops world0 = Some w ->
  forall later w', Forall op_wf later -> run E later w = Some w' ->
  forall k r, nth_error (w_res w) k = Some r -> r_ctx r = true -> e_eps E < r_qty r ->
  forall dummy w1, exists i w2, load_resource E (w_db w') dummy (r_state r) w1 = (Ok i, w2) /\ remembered E w r w2 i.
Proof.
  intros HE He NC Wf Hrun later w' Wf' Hrun' k r Hr Hc Hq dummy w1.
  destruct (run_kept E later w w' Hrun') as [[l Hdb] Kcs].
  assert (Hall : run E (ops ++ later) world0 = Some w') by (rewrite run_app, Hrun; exact Hrun').
  destruct (C07_last_row_lemma E ops w He NC Hrun k r Hr Hc Hq) as (x & Hl & X1 & X2 & X3 & X4 & _).
  assert (Ix : In x (res_rows (w_db w)) /\ row_obj x = r_obj r).
  { unfold last_row in Hl. apply find_some in Hl as [A B]. apply in_rev in A. apply Z.eqb_eq in B. auto. }
  destruct Ix as [Ix Xo].
  assert (Hrow : find_row (w_db w') (r_state r) = Some x).
  { unfold find_row. fold (res_rows (w_db w')). rewrite Hdb, res_rows_app. apply find_app_some.
    apply (find_row_unique (w_db w)); auto. exact (C05_state_ids_lemma E ops w Hrun). }
  assert (Ix' : In x (res_rows (w_db w'))) by (rewrite Hdb, res_rows_app, in_app_iff; auto).
  unfold load_resource. rewrite Hrow. cbn [getval]. unfold bind at 1, ret at 1. rewrite X3.
  destruct (r_qual r) as [c|s] eqn:Eq; cbn [res_type String.eqb Ascii.eqb Bool.eqb] in *.
  - destruct X4 as (y & Hy & Yi).
    destruct (run_info E ops w Hrun x Ix X3) as (p & Hp). rewrite X1 in Hp.
    destruct (find_info_some _ _ _ Hp) as (prev & Fi0 & Hprev).
    assert (Fi : find_info (w_db w') (r_state r) = Some prev).
    { unfold find_info in *. rewrite Hdb, flat_map_app. destruct (find _ _) as [q0|] eqn:Ef in Fi0; [|discriminate].
      rewrite (find_app_some _ _ _ _ Ef). exact Fi0. }
    assert (Rw : reachable E w) by (exists ops; auto).
    assert (Rw' : reachable E w') by (exists (ops ++ later); split; [apply Forall_app; auto|exact Hall]).
    destruct (C37_recorded_lemma E w' HE Rw') as (_ & _ & C37). destruct (C37 x Ix' X3) as (kc & y' & Hy' & Yi' & Tab & _).
    assert (kc = c).
    { pose proof (reachable_I37 E w Rw) as I. pose proof (reachable_I37 E w' Rw') as I'.
      pose proof (i37_id _ _ I _ _ Hy). pose proof (i37_id _ _ I' _ _ Hy'). lia. }
    subst kc. destruct (Kcs _ _ Hy) as (y1 & Hy1 & Ka & Km). rewrite Hy1 in Hy'. injection Hy' as ->.
    assert (comp_mass E y' = comp_mass E y) as Ey by (unfold comp_mass; now rewrite Km, Ka). rewrite Ey in Tab.
    destruct (wf_cmp_nth E w c y (reachable_WF E w HE Rw) Hy) as [[G1 G2] _].
    set (v := normalize (comp_mass E y) 1) in *.
    assert (Gv : good_vec E v).
    { split; [now apply normalize_wf|]. 
      assert (P : Forall (fun p : Z * Q => 0 <= snd p) v).
      { apply normalize_nonneg; [|lra]. eapply Forall_impl; [|exact G2]. intros a Ha. apply Ha. }
      assert (K : forall q, In q v -> e_isnuc E (fst q) = true).
      { intros q Iq. unfold v, normalize in Iq. rewrite Forall_forall in G2. destruct (_ && _).
        - apply in_map_iff in Iq as (q0 & <- & I0). apply G2 in I0. apply I0.
        - apply G2 in Iq. apply Iq. }
      rewrite Forall_forall in P |- *. intros q Iq. split; auto. }
    pose proof (load_composition_run E (w_db w') (row_qual x) v w1 Tab (proj1 Gv) (good_acceptable _ _ Gv)) as LC.
    match type of LC with _ = (_, ?ww) => set (wc := ww) in * end.
    set (cx := mkComp (row_qual x) [] v true 0 (length (w_lines w1))) in *.
    assert (Hcx : nth_error (w_comps wc) (length (w_comps w1)) = Some cx) by apply nth_last.
    destruct (create_run E dummy (QMat (length (w_comps w1))) (row_qty x) unpackaged_name wc) as (w3 & r0 & Rn & R1 & R2 & R3 & R4 & R5 & R6 & R7).
    { exists cx. auto. }
    change (w_res wc) with (w_res w1) in *.
    assert (N3 : nth_error (w_res w3) (length (w_res w1)) = Some r0) by (rewrite R1; apply nth_last).
    assert (LM : load_material E (w_db w') dummy (r_state r) w1 = (Ok (length (w_res w1)), set_res (upd (w_res w3) (length (w_res w1)) (with_prev prev r0)) w3)).
    { unfold load_material. rewrite Fi, Hrow. cbn [getval]. unfold bind at 1 2, ret at 1 2. 
      rewrite (bind_ok _ _ _ _ _ LC). unfold mat_create. rewrite (bind_ok _ _ _ _ _ Rn).
      rewrite (bind_ok _ _ _ _ _ (rmod_ok _ (with_prev prev) _ _ N3)). reflexivity. }
    rewrite (bind_ok _ _ _ _ _ LM).
    assert (N4 : nth_error (w_res (set_res (upd (w_res w3) (length (w_res w1)) (with_prev prev r0)) w3)) (length (w_res w1)) = Some (with_prev prev r0)).
    { simpl. rewrite R1, upd_last. apply nth_last. }
    rewrite (bind_ok _ _ _ _ _ (rmod_ok _ (with_ids (r_state r) (row_obj x)) _ _ N4)). unfold ret.
    eexists _, _. split; [reflexivity|].
    exists (with_ids (r_state r) (row_obj x) (with_prev prev r0)). simpl. rewrite R1, !upd_last.
    split; [apply nth_last|]. repeat (split; [congruence|]). rewrite Eq, R2.
    exists y, cx. rewrite R6. split; [exact Hy|]. split; [exact Hcx|]. split; [exact Yi|]. split; [reflexivity|].
    split; [|exact Hprev]. unfold comp_mass at 1. unfold cx. simpl. fold v. destruct v; reflexivity.
  - destruct (kq_in _ _ _ (run_kq E ops w Hrun) _ _ (assoc_In _ _ _ X4)) as [_ Pd0].
    pose proof (run_kq E (ops ++ later) w' Hall) as K.
    assert (Pd : In (DProd (row_qual x) s) (w_db w')) by (rewrite Hdb, in_app_iff; auto).
    assert (Fq : find_quality (w_db w') (row_qual x) = Some s).
    { apply find_quality_some; auto. intros s' I'. eapply (kq_uniq _ _ _ K); eauto. }
    set (wq := set_quals (assoc_set s (row_qual x) (w_quals w1)) (w_next_qual w1) w1).
    assert (Hz : assoc s (w_quals wq) = Some (row_qual x)) by apply assoc_set_same.
    destruct (create_run E dummy (QProd s) (row_qty x) unpackaged_name wq) as (w3 & r0 & Rn & R1 & R2 & R3 & R4 & R5 & R6 & R7); [eauto|].
    change (w_res wq) with (w_res w1) in *.
    assert (N3 : nth_error (w_res w3) (length (w_res w1)) = Some r0) by (rewrite R1; apply nth_last).
    assert (LM : load_product E (w_db w') dummy (r_state r) w1 = (Ok (length (w_res w1)), w3)).
    { unfold load_product. rewrite Hrow. cbn [getval]. unfold bind at 1, ret at 1. rewrite Fq. cbn [getval]. unfold bind at 1, ret at 1.
      unfold bind at 1, modify. fold wq. unfold prod_create. unfold bind at 1, get. rewrite Hz. unfold bind at 1, ret at 1. exact Rn. }
    rewrite (bind_ok _ _ _ _ _ LM).
    rewrite (bind_ok _ _ _ _ _ (rmod_ok _ (with_ids (r_state r) (row_obj x)) _ _ N3)). unfold ret.
    eexists _, _. split; [reflexivity|].
    exists (with_ids (r_state r) (row_obj x) r0). simpl. rewrite R1, !upd_last.
    split; [apply nth_last|]. repeat (split; [congruence|]). rewrite Eq, R2. rewrite R7, Hz. auto.
Qed.

(** Names of qualities in the database. *)
Lemma quality_named : forall E ops w, 0 <= e_eps E -> Forall no_clone ops -> run E ops world0 = Some w ->
  forall k r s, nth_error (w_res w) k = Some r -> r_ctx r = true -> e_eps E < r_qty r -> r_qual r = QProd s ->
  exists x, last_row (r_obj r) (res_rows (w_db w)) = Some x /\ In (DProd (row_qual x) s) (w_db w) /\
    forall z s', In (DProd z s') (w_db w) -> (z = row_qual x <-> s' = s).
Proof.
  intros E ops w He Hn H k r s Hk Hc Hq Hs. pose proof (run_kq E ops w H) as K.
  destruct (C07_last_row_lemma E ops w He Hn H k r Hk Hc Hq) as (x & L & _ & _ & _ & Q & _). rewrite Hs in Q.
  exists x. split; [exact L|]. pose proof (proj2 (kq_in _ _ _ K _ _ (assoc_In _ _ _ Q))) as I. split; [exact I|].
  intros z s' Hz. split; [intros ->; exact (kq_uniq _ _ _ K _ _ _ Hz I)|intros ->].
  pose proof (proj2 (kq_db _ _ _ K _ _ Hz)). congruence.
Qed.
