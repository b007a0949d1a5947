(** * Resources: invariants of the database under every history: compositions (C37), ids (C05). *)
From Verif Require Import Base CompModel CompSpec CompProofs PackageModel
  ResourceModel ResourceSpec ResourceProofs1 ResourceProofs2 ResourceProofs3 ResourceProofs4 ResourceProofs5 ResourceProofs6 ResourceProofs8.
Open Scope Q_scope.
Open Scope m_scope.

Lemma res_rows_app d1 d2 : res_rows (d1 ++ d2) = res_rows d1 ++ res_rows d2.
Proof. apply flat_map_app. Qed.
Lemma comp_table_app d1 d2 k : comp_table (d1 ++ d2) k = comp_table d1 k ++ comp_table d2 k.
Proof. apply flat_map_app. Qed.
Lemma comp_table_rows E x k : comp_table (comp_rows E x) k = if Z.eqb (c_id x) k then normalize (comp_mass E x) 1 else [].
Proof.
  unfold comp_rows. induction (normalize (comp_mass E x) 1) as [|[n f] l IH]; simpl.
  - now destruct (Z.eqb (c_id x) k).
  - rewrite IH. destruct (Z.eqb (c_id x) k); reflexivity.
Qed.
Lemma res_rows_comp E x : res_rows (comp_rows E x) = [].
Proof. unfold comp_rows. induction (normalize (comp_mass E x) 1); simpl; auto. Qed.
Lemma rec_data_rows E b t x w : res_rows (rec_data E b t x w) = [rec_row b t x w].
Proof.
  unfold rec_data. change (res_rows (DRes (rec_row b t x w) :: ?l)) with (rec_row b t x w :: res_rows l). simpl.
  f_equal. destruct (r_qual x); simpl; auto. destruct (nth_error (w_comps w) c); auto. destruct (c_recorded c0); auto.
  apply res_rows_comp.
Qed.

(** ** Invariants of monadic programs *)
Definition pinv (I : world -> Prop) {A} (m : M A) := forall w r w', I w -> m w = (r, w') -> r <> UB -> I w'.

Section Pinv.
Context (I : world -> Prop).
Lemma pinv_bind {A B} (m : M A) (f : A -> M B) : pinv I m -> (forall a, pinv I (f a)) -> pinv I (bind m f).
Proof.
  intros K1 K2 w r w' Hw H N. apply bind_inv in H as [[a [w1 [H1 H2]]]|[[e [H1 H2]]|[H1 H2]]].
  - eapply K2; [|exact H2|auto]. eapply K1; eauto. discriminate.
  - eapply K1; eauto. discriminate.
  - congruence.
Qed.
Lemma pinv_ret {A} (a : A) : pinv I (ret a).
Proof. intros w r w' Hw H N. inversion H; subst; auto. Qed.
Lemma pinv_throw {A} e : pinv I (@throw A e).
Proof. intros w r w' Hw H N. inversion H; subst; auto. Qed.
Lemma pinv_ub {A} : pinv I (@ub A).
Proof. intros w r w' Hw H N. inversion H; subst; congruence. Qed.
Lemma pinv_get : pinv I get.
Proof. intros w r w' Hw H N. inversion H; subst; auto. Qed.
Lemma pinv_lift {A} (x : result A) : pinv I (lift x).
Proof. intros w r w' Hw H N. inversion H; subst; auto. Qed.
Lemma pinv_rget i : pinv I (rget i).
Proof. intros w r w' Hw H N. apply rget_inv in H as [-> _]. auto. Qed.
Lemma pinv_cref i : pinv I (cref i).
Proof. intros w r w' Hw H N. apply cref_inv in H as [-> _]. auto. Qed.
Lemma pinv_deref {A} (o : option A) : pinv I (deref o).
Proof. intros w r w' Hw H N. destruct o; inversion H; subst; auto; congruence. Qed.
Lemma pinv_modify f : (forall w, I w -> I (f w)) -> pinv I (modify f).
Proof. intros Hf w r w' Hw H N. inversion H; subst; auto. Qed.
Lemma pinv_mat_comp_ptr r : pinv I (mat_comp_ptr r).
Proof. unfold mat_comp_ptr. destruct (r_qual r); [apply pinv_ret|apply pinv_ub]. Qed.
Lemma pinv_prod_quality r : pinv I (prod_quality r).
Proof. unfold prod_quality. destruct (r_qual r); [apply pinv_ub|apply pinv_ret]. Qed.
Lemma pinv_get_package E n : pinv I (get_package E n).
Proof.
  unfold get_package. destruct (String.eqb n unpackaged_name); [apply pinv_ret|].
  destruct (find _ _) as [[? ?]|]; [apply pinv_ret|apply pinv_throw].
Qed.
End Pinv.

Create HintDb pinv.
#[export] Hint Resolve pinv_ret pinv_throw pinv_ub pinv_get pinv_lift pinv_rget pinv_cref pinv_deref
  pinv_mat_comp_ptr pinv_prod_quality pinv_get_package : pinv.
Ltac pinv_tac :=
  repeat first
    [ solve [auto with pinv nocore]
    | match goal with |- pinv _ (bind _ _) => apply pinv_bind; intros end
    | match goal with |- pinv _ (match ?x with _ => _ end) => destruct x end
    | match goal with |- pinv _ (if ?x then _ else _) => destruct x end
    | match goal with |- pinv _ (let '(_, _) := ?x in _) => destruct x end ].

(** ** C37 *)
Record I37 (E : env) (w : world) : Prop := mkI37 {
  i37_id : forall k x, nth_error (w_comps w) k = Some x -> c_id x = (Z.of_nat k + 1)%Z;
  i37_next : w_next_comp w = (Z.of_nat (length (w_comps w)) + 1)%Z;
  i37_tab : forall k x, nth_error (w_comps w) k = Some x ->
     comp_table (w_db w) (c_id x) = if c_recorded x then normalize (comp_mass E x) 1 else [];
  i37_dom : forall id n f, In (DComp id n f) (w_db w) -> (1 <= id < w_next_comp w)%Z;
  i37_row : forall r, In r (res_rows (w_db w)) -> row_type r = "Material"%string ->
     exists k x, nth_error (w_comps w) k = Some x /\ c_id x = row_qual r /\ c_recorded x = true
}.

Lemma I37_frame E w w' : w_comps w' = w_comps w -> w_next_comp w' = w_next_comp w -> w_db w' = w_db w ->
  I37 E w -> I37 E w'.
Proof. intros A B C [? ? ? ? ?]. constructor; rewrite ?A, ?B, ?C; auto. Qed.

Lemma I37_rmod E i f : pinv (I37 E) (rmod i f).
Proof. intros w r w' Hw H N. apply rmod_inv in H as [x [_ [_ ->]]]; auto. eapply I37_frame; [..|exact Hw]; reflexivity. Qed.
Lemma I37_modify E f : (forall w, w_comps (f w) = w_comps w) -> (forall w, w_next_comp (f w) = w_next_comp w) ->
  (forall w, w_db (f w) = w_db w) -> pinv (I37 E) (modify f).
Proof. intros A B C. apply pinv_modify. intros w Hw. eapply I37_frame; [..|exact Hw]; auto. Qed.
Lemma I37_emit E d : (forall r, d <> DRes r) -> (forall a b c, d <> DComp a b c) -> pinv (I37 E) (emit d).
Proof.
  intros A B. apply pinv_modify. intros w [h1 h2 h3 h4 h5].
  assert (T : forall k, comp_table (w_db w ++ [d]) k = comp_table (w_db w) k).
  { intros k. rewrite comp_table_app. destruct d; simpl; rewrite ?app_nil_r; auto. exfalso; eapply B; eauto. }
  assert (R : res_rows (w_db w ++ [d]) = res_rows (w_db w)).
  { rewrite res_rows_app. destruct d; simpl; rewrite ?app_nil_r; auto. exfalso; eapply A; eauto. }
  constructor; simpl; auto.
  - intros. rewrite T. eauto.
  - intros id n f H. apply in_app_or in H as [H|[H|[]]]; eauto. exfalso; eapply B; eauto.
  - intros r H. rewrite R in H. eauto.
Qed.
Lemma I37_new_resource E q c y p : pinv (I37 E) (new_resource q c y p).
Proof. intros w r w' Hw H N. unfold new_resource in H. inversion H; subst. eapply I37_frame; [..|exact Hw]; reflexivity. Qed.

Lemma comp_table_none db k : (forall id n f, In (DComp id n f) db -> id <> k) -> comp_table db k = [].
Proof.
  induction db as [|d db IH]; simpl; auto. intros H. rewrite IH by (intros; eapply H; eauto).
  destruct d; simpl; auto. destruct (Z.eqb_spec id k); auto. exfalso. eapply (H id); eauto.
Qed.

Lemma I37_app E w x : I37 E w -> c_id x = w_next_comp w -> c_recorded x = false -> forall l,
  I37 E (set_next_comp (w_next_comp w + 1)%Z (set_lines l (set_comps (w_comps w ++ [x]) w))).
Proof.
  intros [h1 h2 h3 h4 h5] Hid Hrec l.
  assert (C : forall k y, nth_error (w_comps w ++ [x]) k = Some y -> nth_error (w_comps w) k = Some y \/ k = length (w_comps w) /\ y = x).
  { intros k y H. destruct (Nat.lt_ge_cases k (length (w_comps w))).
    - rewrite nth_error_app1 in H by auto. auto.
    - right. rewrite nth_error_app2 in H by auto. destruct (k - length (w_comps w))%nat eqn:D; simpl in H; [|destruct n; discriminate].
      inversion H. split; auto. lia. }
  constructor; simpl; auto.
  - intros k y H. apply C in H as [H|[-> ->]]; eauto. rewrite Hid, h2. reflexivity.
  - rewrite h2, app_length. simpl. lia.
  - intros k y H. apply C in H as [H|[-> ->]]; eauto. rewrite Hrec. apply comp_table_none.
    intros id n f Hi. apply h4 in Hi. lia.
  - intros id n f H. apply h4 in H. lia.
  - intros r H1 H2. destruct (h5 _ H1 H2) as [k [y [A B]]]. exists k, y. split; auto.
    rewrite nth_error_app1; auto. eapply nth_error_lt; eauto.
Qed.
Lemma I37_comp_new E a m : pinv (I37 E) (comp_new a m).
Proof. intros w r w' Hw H N. unfold comp_new in H. inversion H; subst. now apply I37_app. Qed.
Lemma I37_comp_new_in_line E a p l : pinv (I37 E) (comp_new_in_line a p l).
Proof.
  intros w r w' Hw H N. unfold comp_new_in_line in H. inversion H; subst.
  eapply I37_frame; [..|apply (I37_app E w (mkComp (w_next_comp w) a [] false p l) Hw eq_refl eq_refl [])]; reflexivity.
Qed.

Lemma comp_mass_recorded E x : comp_mass E (with_recorded true x) = comp_mass E x.
Proof. reflexivity. Qed.

Lemma I37_tr_record E b i : pinv (I37 E) (tr_record E b i).
Proof.
  intros w r w' Hw H N. apply tr_record_inv in H as [t [x [Ht [Hx [Hc [Hq [_ ->]]]]]]]; auto.
  destruct Hw as [h1 h2 h3 h4 h5].
  assert (RR : res_rows (w_db w ++ rec_data E b t x w) = res_rows (w_db w) ++ [rec_row b t x w]).
  { rewrite res_rows_app, rec_data_rows. reflexivity. }
  destruct (r_qual x) as [c|s] eqn:Eq.
  - destruct (Hq c eq_refl) as [_ [cx Hcx]].
    assert (RC : rec_comps x w = upd (w_comps w) c (with_recorded true cx)).
    { unfold rec_comps. now rewrite Eq, Hcx. }
    assert (Lc := nth_error_lt _ _ _ Hcx).
    assert (NC : forall k y, nth_error (upd (w_comps w) c (with_recorded true cx)) k = Some y ->
       k = c /\ y = with_recorded true cx \/ k <> c /\ nth_error (w_comps w) k = Some y).
    { intros k y Hk. destruct (Nat.eq_dec c k); [subst|].
      - rewrite nth_upd_same in Hk by auto. inversion Hk; auto.
      - rewrite nth_upd_other in Hk by auto. auto. }
    assert (TT : forall k, comp_table (rec_data E b t x w) k =
       if c_recorded cx then [] else if Z.eqb (c_id cx) k then normalize (comp_mass E cx) 1 else []).
    { intros k. unfold rec_data. rewrite Eq, Hcx. destruct (c_recorded cx); [reflexivity|].
      change (comp_table (comp_rows E cx) k = if Z.eqb (c_id cx) k then normalize (comp_mass E cx) 1 else []).
      apply comp_table_rows. }
    constructor; simpl.
    + rewrite RC. intros k y Hk. apply NC in Hk as [[-> ->]|[_ Hk]]; [simpl|]; eauto.
    + rewrite RC, upd_length. auto.
    + rewrite RC. intros k y Hk. rewrite comp_table_app, TT. apply NC in Hk as [[-> ->]|[Hne Hk]].
      * change (c_id (with_recorded true cx)) with (c_id cx). rewrite (h3 _ _ Hcx).
        rewrite Z.eqb_refl. simpl. destruct (c_recorded cx); [apply app_nil_r|reflexivity].
      * rewrite (h3 _ _ Hk). destruct (c_recorded cx); [apply app_nil_r|].
        destruct (Z.eqb_spec (c_id cx) (c_id y)) as [Ez|]; [|apply app_nil_r].
        rewrite (h1 _ _ Hcx), (h1 _ _ Hk) in Ez. lia.
    + intros id n f Hi. apply in_app_or in Hi as [Hi|Hi]; eauto.
      unfold rec_data in Hi. rewrite Eq, Hcx in Hi. simpl in Hi. destruct Hi as [?|[?|Hi]]; try discriminate.
      destruct (c_recorded cx); [contradiction|]. unfold comp_rows in Hi. apply in_map_iff in Hi as [p [Hp _]].
      inversion Hp; subst. rewrite (h1 _ _ Hcx), h2. lia.
    + rewrite RC. rewrite RR. intros r0 Hr Ht0. apply in_app_or in Hr as [Hr|[Hr|[]]].
      * destruct (h5 _ Hr Ht0) as [k [y [A [B C]]]]. destruct (Nat.eq_dec k c).
        -- subst. exists c, (with_recorded true cx). rewrite nth_upd_same by auto. rewrite Hcx in A. inversion A; subst. auto.
        -- exists k, y. rewrite nth_upd_other by auto. auto.
      * subst r0. exists c, (with_recorded true cx). rewrite nth_upd_same by auto. split; auto.
        simpl. unfold qual_val. rewrite Eq, Hcx. auto.
  - assert (RC : rec_comps x w = w_comps w) by (unfold rec_comps; now rewrite Eq).
    constructor; simpl; rewrite ?RC; auto.
    + intros k y Hk. rewrite comp_table_app. unfold rec_data. rewrite Eq. simpl. rewrite app_nil_r. eauto.
    + intros id n f Hi. apply in_app_or in Hi as [Hi|Hi]; eauto.
      unfold rec_data in Hi. rewrite Eq in Hi. simpl in Hi. destruct Hi as [?|[]]; discriminate.
    + rewrite RR. intros r0 Hr Ht0. apply in_app_or in Hr as [Hr|[Hr|[]]]; eauto.
      subst r0. simpl in Ht0. rewrite Eq in Ht0. discriminate.
Qed.

#[export] Hint Resolve I37_rmod I37_new_resource I37_comp_new I37_comp_new_in_line I37_tr_record : pinv.
#[export] Hint Extern 1 (pinv (I37 _) (modify _)) => (apply I37_modify; reflexivity) : pinv.
#[export] Hint Extern 1 (pinv (I37 _) (emit _)) => (apply I37_emit; discriminate) : pinv.

Lemma I37_comp_decay E c d s : pinv (I37 E) (comp_decay E c d s).
Proof. unfold comp_decay, new_decay. pinv_tac. Qed.
#[export] Hint Resolve I37_comp_decay : pinv.
Lemma I37_create E b v : pinv (I37 E) (if b : bool then create_from_mass E v else create_from_atom E v).
Proof. unfold create_from_mass, create_from_atom. pinv_tac. Qed.
Lemma I37_tr_modify E i : pinv (I37 E) (tr_modify E i).
Proof. unfold tr_modify. pinv_tac. Qed.
Lemma I37_tr_extract E i j : pinv (I37 E) (tr_extract E i j).
Proof. unfold tr_extract. pinv_tac. Qed.
Lemma I37_tr_absorb E i j : pinv (I37 E) (tr_absorb E i j).
Proof. unfold tr_absorb. pinv_tac. Qed.
Lemma I37_tr_package E i p : pinv (I37 E) (tr_package E i p).
Proof. unfold tr_package. pinv_tac. Qed.
Lemma I37_tr_create E a i : pinv (I37 E) (tr_create E a i).
Proof. unfold tr_create. pinv_tac. Qed.
#[export] Hint Resolve I37_tr_modify I37_tr_extract I37_tr_absorb I37_tr_package I37_tr_create : pinv.
Lemma I37_transmute E i c : pinv (I37 E) (mat_transmute E i c).
Proof. unfold mat_transmute. pinv_tac. Qed.
#[export] Hint Resolve I37_transmute : pinv.
Lemma I37_decay E i t : pinv (I37 E) (mat_decay E i t).
Proof. unfold mat_decay. cbv zeta. pinv_tac. Qed.
#[export] Hint Resolve I37_decay : pinv.
Lemma I37_mat_comp E i : pinv (I37 E) (mat_comp E i).
Proof. unfold mat_comp. pinv_tac. Qed.
#[export] Hint Resolve I37_mat_comp : pinv.
Lemma I37_extract_comp E i q c t : pinv (I37 E) (mat_extract_comp E i q c t).
Proof. unfold mat_extract_comp. cbv zeta. unfold create_from_mass. pinv_tac. Qed.
#[export] Hint Resolve I37_extract_comp : pinv.
Lemma I37_package_extract E i q p : pinv (I37 E) (package_extract E i q p).
Proof. unfold package_extract, mat_package_extract, prod_package_extract. pinv_tac. Qed.
#[export] Hint Resolve I37_package_extract : pinv.
Lemma I37_package_loop E i n fills : pinv (I37 E) (package_loop E i n fills).
Proof. induction fills; simpl; pinv_tac. Qed.
#[export] Hint Resolve I37_package_loop : pinv.

Lemma I37_step E o : pinv (I37 E) (step E o).
Proof.
  destruct o; simpl; unfold drop, valid_comp, mat_only, res_clone, mat_create, mat_create_untracked, prod_create,
    prod_create_untracked, extract_res, mat_extract_qty, prod_extract, absorb, mat_absorb, prod_absorb, res_decay,
    res_package, change_package, mat_change_package, prod_change_package, create_from_mass, create_from_atom; cbv zeta; pinv_tac.
Qed.

Lemma run_pinv (I : world -> Prop) E : (forall o, pinv I (step E o)) -> forall ops w w', I w -> run E ops w = Some w' -> I w'.
Proof.
  intros K. induction ops as [|o ops IH]; simpl; intros w w' Hw H; [inversion H; subst; auto|].
  destruct (step E o w) as [[u|e|] w1] eqn:Hs; [| |discriminate];
  (eapply IH; [|exact H]); eapply (K o); eauto; discriminate.
Qed.
Lemma I37_0 E : I37 E world0.
Proof. constructor; simpl; try (intros k x H; destruct k; discriminate); try contradiction; auto. Qed.
Lemma reachable_I37 E w : reachable E w -> I37 E w.
Proof. intros [ops [_ H]]. eapply (run_pinv (I37 E) E (I37_step E)); [|exact H]. apply I37_0. Qed.

Lemma C37_ids_lemma E w : reachable E w -> forall k x, nth_error (w_comps w) k = Some x -> c_id x = (Z.of_nat k + 1)%Z.
Proof. intros R. apply (i37_id _ _ (reachable_I37 _ _ R)). Qed.

Lemma C37_recorded_lemma E w : env_ok E -> reachable E w ->
  (forall k x, nth_error (w_comps w) k = Some x ->
     comp_table (w_db w) (c_id x) = [] \/ comp_table (w_db w) (c_id x) = normalize (comp_mass E x) 1) /\
  (forall id, comp_table (w_db w) id <> [] -> exists k x, nth_error (w_comps w) k = Some x /\ c_id x = id) /\
  (forall r, In r (res_rows (w_db w)) -> row_type r = "Material"%string ->
     exists k x, nth_error (w_comps w) k = Some x /\ c_id x = row_qual r /\
       comp_table (w_db w) (row_qual r) = normalize (comp_mass E x) 1 /\
       (0 < total (comp_mass E x) -> qsum (map snd (comp_table (w_db w) (row_qual r))) == 1)).
Proof.
  intros Eo R. destruct (reachable_I37 _ _ R) as [h1 h2 h3 h4 h5]. split; [|split].
  - intros k x H. rewrite (h3 _ _ H). destruct (c_recorded x); auto.
  - intros id H. assert (G : exists n f, In (DComp id n f) (w_db w)).
    { destruct (comp_table (w_db w) id) as [|[n f] l] eqn:T; [congruence|].
      assert (I0 : In (n, f) (comp_table (w_db w) id)) by (rewrite T; left; auto).
      unfold comp_table in I0. apply in_flat_map in I0 as [d [Hd Hi]]. destruct d; simpl in Hi; try contradiction.
      destruct (Z.eqb_spec id0 id); [|contradiction]. destruct Hi as [Hi|[]]. inversion Hi; subst. eauto. }
    destruct G as [n [f G]]. apply h4 in G. rewrite h2 in G.
    destruct (nth_error (w_comps w) (Z.to_nat (id - 1))) as [x|] eqn:Ex.
    + exists (Z.to_nat (id - 1)), x. split; auto. rewrite (h1 _ _ Ex). lia.
    + apply nth_error_None in Ex. lia.
  - intros r H1 H2. destruct (h5 _ H1 H2) as [k [x [A [B C]]]]. exists k, x. split; auto. split; auto.
    rewrite <- B, (h3 _ _ A), C. split; auto. intros T.
    change (total (normalize (comp_mass E x) 1) == 1). apply normalize_total. lra.
Qed.

(** ** C05 (all operations, Clone included) *)
Record I5 (w : world) : Prop := mkI5 {
  i5_nodup : NoDup (map row_id (res_rows (w_db w)));
  i5_rows : forall r, In r (res_rows (w_db w)) -> (0 < row_id r < w_next_state w)%Z;
  i5_res : forall k r, nth_error (w_res w) k = Some r -> (0 < r_state r < w_next_state w)%Z;
  i5_pos : (0 < w_next_state w)%Z
}.
(** Resource [j] is its own tracker's resource, and its state id is not in the database yet. *)
Definition fresh_at (j : nat) (w : world) : Prop :=
  exists r, nth_error (w_res w) j = Some r /\ r_tres r = j /\
    ~ In (r_state r) (map row_id (res_rows (w_db w))).

Lemma I5_rmod i f : (forall r, r_state (f r) = r_state r) -> pinv I5 (rmod i f).
Proof.
  intros Hf w r w' [h1 h2 h3 h4] H N. apply rmod_inv in H as [x [Hx [_ ->]]]; auto.
  constructor; simpl; auto. intros k y Hk. destruct (Nat.eq_dec i k); [subst|].
  - rewrite nth_upd_same in Hk by (eapply nth_error_lt; eauto). inversion Hk; subst. rewrite Hf. eauto.
  - rewrite nth_upd_other in Hk by auto. eauto.
Qed.
Lemma I5_modify f : (forall w, w_res (f w) = w_res w) -> (forall w, w_next_state (f w) = w_next_state w) ->
  (forall w, w_db (f w) = w_db w) -> pinv I5 (modify f).
Proof.
  intros A B C. apply pinv_modify. intros w [h1 h2 h3 h4]. constructor; rewrite ?A, ?B, ?C; auto.
Qed.
Lemma I5_emit d : (forall r, d <> DRes r) -> pinv I5 (emit d).
Proof.
  intros A. apply pinv_modify. intros w [h1 h2 h3 h4].
  assert (R : res_rows (w_db w ++ [d]) = res_rows (w_db w)).
  { rewrite res_rows_app. destruct d; simpl; rewrite ?app_nil_r; auto. exfalso; eapply A; eauto. }
  constructor; simpl; rewrite ?R; auto.
Qed.
Lemma I5_comp_new a m : pinv I5 (comp_new a m).
Proof. intros w r w' [h1 h2 h3 h4] H N. inversion H; subst. constructor; auto. Qed.
Lemma I5_comp_new_in_line a p l : pinv I5 (comp_new_in_line a p l).
Proof. intros w r w' [h1 h2 h3 h4] H N. inversion H; subst. constructor; auto. Qed.

Lemma new_resource_I5 q c y p w j w' : I5 w -> new_resource q c y p w = (Ok j, w') -> I5 w' /\ fresh_at j w'.
Proof.
  intros [h1 h2 h3 h4] H. unfold new_resource in H. inversion H; subst. split.
  - constructor; simpl; auto.
    + intros r Hr. apply h2 in Hr. lia.
    + intros k r Hk. destruct (Nat.lt_ge_cases k (length (w_res w))).
      * rewrite nth_error_app1 in Hk by auto. apply h3 in Hk. lia.
      * rewrite nth_error_app2 in Hk by auto. destruct (k - length (w_res w))%nat as [|n]; simpl in Hk; [|destruct n; discriminate].
        inversion Hk; subst. simpl. lia.
    + lia.
  - eexists. simpl. split; [apply nth_app_new|]. split; [reflexivity|]. simpl. intros Hi.
    apply in_map_iff in Hi as [r [E Hr]]. apply h2 in Hr. lia.
Qed.
Lemma I5_new_resource q c y p : pinv I5 (new_resource q c y p).
Proof. intros w r w' Hw H N. destruct r as [j|e|]; try discriminate. eapply new_resource_I5; eauto. Qed.

Lemma NoDup_snoc (l : list Z) x : NoDup l -> ~ In x l -> NoDup (l ++ [x]).
Proof. intros H N. apply NoDup_Add with (a := x) (l := l); [|split; auto]. rewrite <- (app_nil_r l) at 1. apply Add_app. Qed.

Lemma I5_rec E b i w r w' : I5 w -> (b = true \/ fresh_at i w) -> tr_record E b i w = (r, w') -> r <> UB -> I5 w'.
Proof.
  intros [h1 h2 h3 h4] Hb H N. apply tr_record_inv in H as [t [x [Ht [Hx [Hc [Hq [_ ->]]]]]]]; auto.
  assert (RR : res_rows (w_db w ++ rec_data E b t x w) = res_rows (w_db w) ++ [rec_row b t x w]).
  { rewrite res_rows_app, rec_data_rows. reflexivity. }
  assert (S0 : ~ In (rec_state b w x) (map row_id (res_rows (w_db w))) /\ (0 < rec_state b w x < (if b then w_next_state w + 1 else w_next_state w))%Z).
  { unfold rec_state. destruct b.
    - split; [|lia]. intros Hi. apply in_map_iff in Hi as [r0 [E0 Hr]]. apply h2 in Hr. lia.
    - destruct Hb as [Hb|[r0 [A [B C]]]]; [discriminate|]. rewrite Ht in A. inversion A; subst r0. rewrite B in Hx.
      rewrite Ht in Hx. inversion Hx; subst x. split; eauto. }
  destruct S0 as [S0 S1].
  constructor; simpl.
  - rewrite RR, map_app. apply NoDup_snoc; auto.
  - rewrite RR. intros r0 Hr. apply in_app_or in Hr as [Hr|[Hr|[]]].
    + apply h2 in Hr. destruct b; lia.
    + subst r0. simpl. exact S1.
  - intros k y Hk. destruct (Nat.eq_dec (r_tres t) k); [subst|].
    + rewrite nth_upd_same in Hk by (eapply nth_error_lt; eauto). inversion Hk; subst. exact S1.
    + rewrite nth_upd_other in Hk by auto. apply h3 in Hk. destruct b; lia.
  - destruct b; lia.
Qed.
Lemma I5_rec_true E i : pinv I5 (tr_record E true i).
Proof. intros w r w' Hw H N. eapply I5_rec; eauto. Qed.

#[export] Hint Resolve I5_comp_new I5_comp_new_in_line I5_new_resource I5_rec_true : pinv.
#[export] Hint Extern 1 (pinv I5 (rmod _ _)) => (apply I5_rmod; reflexivity) : pinv.
#[export] Hint Extern 1 (pinv I5 (modify _)) => (apply I5_modify; reflexivity) : pinv.
#[export] Hint Extern 1 (pinv I5 (emit _)) => (apply I5_emit; discriminate) : pinv.

Lemma fresh_rmod i f j w r w' : (forall x, r_state (f x) = r_state x) -> (forall x, r_tres (f x) = r_tres x) ->
  fresh_at j w -> rmod i f w = (r, w') -> r <> UB -> fresh_at j w'.
Proof.
  intros F1 F2 [x [Hx [Hr Hn]]] H N. apply rmod_inv in H as [y [Hy [_ ->]]]; auto.
  destruct (Nat.eq_dec i j); [subst|].
  - rewrite Hx in Hy. inversion Hy; subst y. exists (f x). simpl. rewrite nth_upd_same by (eapply nth_error_lt; eauto).
    rewrite F1, F2. auto.
  - exists x. simpl. rewrite nth_upd_other by auto. auto.
Qed.

Lemma tr_create_I5 E a i w r w' : I5 w -> fresh_at i w -> tr_create E a i w = (r, w') -> r <> UB -> I5 w'.
Proof.
  intros Hw F H N. unfold tr_create in H. mrget H. destruct (negb (r_tracked x)); [inversion H; subst; auto|].
  apply bind_inv in H as [[u [w1 [H1 H]]]|[[e [H1 H]]|[H1 H]]]; [| |congruence].
  2:{ apply rmod_inv in H1 as [? [_ [? _]]]; discriminate. }
  pose proof (I5_rmod i (with_parents 0 0) ltac:(reflexivity) _ _ _ Hw H1 ltac:(discriminate)) as Hw1.
  pose proof (fresh_rmod _ (with_parents 0 0) _ _ _ _ ltac:(reflexivity) ltac:(reflexivity) F H1 ltac:(discriminate)) as F1.
  apply bind_inv in H as [[u2 [w2 [H2 H]]]|[[e [H2 H]]|[H2 H]]]; [| |congruence].
  2:{ apply tr_record_inv in H2 as [? [? [_ [_ [_ [_ [? _]]]]]]]; discriminate. }
  pose proof (I5_rec _ _ _ _ _ _ Hw1 (or_intror F1) H2 ltac:(discriminate)) as Hw2.
  assert (P : pinv I5 (x <- rget (r_tres x); emit (DCreator (r_state x) a))) by pinv_tac.
  eapply P; eauto.
Qed.
Lemma tr_package_I5 E i p w r w' : I5 w -> (p = None \/ fresh_at i w) -> tr_package E i p w = (r, w') -> r <> UB -> I5 w'.
Proof.
  intros Hw F H N. unfold tr_package in H. mrget H. destruct (negb (r_tracked x)); [inversion H; subst; auto|].
  destruct p as [p|].
  - destruct F as [F|F]; [discriminate|]. mrget H. mrget H.
    apply bind_inv in H as [[u [w1 [H1 H]]]|[[e [H1 H]]|[H1 H]]]; [| |congruence].
    2:{ apply rmod_inv in H1 as [? [_ [? _]]]; discriminate. }
    pose proof (I5_rmod i (with_parents (r_state x1) 0) ltac:(reflexivity) _ _ _ Hw H1 ltac:(discriminate)) as Hw1.
    pose proof (fresh_rmod _ (with_parents (r_state x1) 0) _ _ _ _ ltac:(reflexivity) ltac:(reflexivity) F H1 ltac:(discriminate)) as F1.
    eapply I5_rec; eauto.
  - assert (P : pinv I5 (x1 <- rget (r_tres x); rmod i (with_parents (r_state x1) 0);; tr_record E true i)) by pinv_tac.
    eapply P; eauto.
Qed.
Lemma I5_tr_package_None E i : pinv I5 (tr_package E i None).
Proof. intros w r w' Hw H N. eapply tr_package_I5; eauto. Qed.
Lemma I5_tr_modify E i : pinv I5 (tr_modify E i).
Proof. unfold tr_modify. pinv_tac. Qed.
Lemma I5_tr_extract E i j : pinv I5 (tr_extract E i j).
Proof. unfold tr_extract. pinv_tac. Qed.
Lemma I5_tr_absorb E i j : pinv I5 (tr_absorb E i j).
Proof. unfold tr_absorb. pinv_tac. Qed.
#[export] Hint Resolve I5_tr_package_None I5_tr_modify I5_tr_extract I5_tr_absorb : pinv.

(** The two recordings of a state id made by a constructor. *)
Lemma I5_new_create E q c y p a : pinv I5 (i <- new_resource q c y p; tr_create E a i;; ret i).
Proof.
  intros w r w' Hw H N.
  apply bind_inv in H as [[j [w1 [H1 H]]]|[[e [H1 H]]|[H1 H]]]; [|discriminate|congruence].
  apply new_resource_I5 in H1 as [Hw1 F]; auto.
  apply bind_inv in H as [[u [w2 [H2 H]]]|[[e [H2 H]]|[H2 H]]]; [| |congruence].
  - apply tr_create_I5 in H2; auto; [|discriminate]. inversion H; subst. auto.
  - apply tr_create_I5 in H2; auto. discriminate.
Qed.
Lemma I5_new_package E q c y p f i (k : nat -> M nat) : (forall x, r_state (f x) = r_state x) -> (forall x, r_tres (f x) = r_tres x) ->
  (forall j, pinv I5 (k j)) ->
  pinv I5 (j <- new_resource q c y p; rmod j f;; tr_package E j (Some i);; k j).
Proof.
  intros F1 F2 Hk w r w' Hw H N.
  apply bind_inv in H as [[j [w1 [H1 H]]]|[[e [H1 H]]|[H1 H]]]; [|discriminate|congruence].
  apply new_resource_I5 in H1 as [Hw1 F]; auto.
  apply bind_inv in H as [[u [w2 [H2 H]]]|[[e [H2 H]]|[H2 H]]]; [| |congruence].
  2:{ apply rmod_inv in H2 as [? [_ [? _]]]; discriminate. }
  pose proof (I5_rmod j f F1 _ _ _ Hw1 H2 ltac:(discriminate)) as Hw2.
  pose proof (fresh_rmod _ f _ _ _ _ F1 F2 F H2 ltac:(discriminate)) as F3.
  apply bind_inv in H as [[u3 [w3 [H3 H]]]|[[e [H3 H]]|[H3 H]]]; [| |congruence].
  - exact (Hk j _ _ _ (tr_package_I5 _ _ _ _ _ _ Hw2 (or_intror F3) H3 ltac:(discriminate)) H N).
  - exact (tr_package_I5 _ _ _ _ _ _ Hw2 (or_intror F3) H3 ltac:(discriminate)).
Qed.
Lemma I5_new_package' E q c y p i (k : nat -> M nat) : (forall j, pinv I5 (k j)) ->
  pinv I5 (j <- new_resource q c y p; tr_package E j (Some i);; k j).
Proof.
  intros Hk w r w' Hw H N.
  apply bind_inv in H as [[j [w1 [H1 H]]]|[[e [H1 H]]|[H1 H]]]; [|discriminate|congruence].
  apply new_resource_I5 in H1 as [Hw1 F]; auto.
  apply bind_inv in H as [[u3 [w3 [H3 H]]]|[[e [H3 H]]|[H3 H]]]; [| |congruence].
  - exact (Hk j _ _ _ (tr_package_I5 _ _ _ _ _ _ Hw1 (or_intror F) H3 ltac:(discriminate)) H N).
  - exact (tr_package_I5 _ _ _ _ _ _ Hw1 (or_intror F) H3 ltac:(discriminate)).
Qed.

Lemma I5_comp_decay E c d s : pinv I5 (comp_decay E c d s).
Proof. unfold comp_decay, new_decay. pinv_tac. Qed.
#[export] Hint Resolve I5_comp_decay : pinv.
Lemma I5_transmute E i c : pinv I5 (mat_transmute E i c).
Proof. unfold mat_transmute. pinv_tac. Qed.
#[export] Hint Resolve I5_transmute : pinv.
Lemma I5_decay E i t : pinv I5 (mat_decay E i t).
Proof. unfold mat_decay. cbv zeta. pinv_tac. Qed.
#[export] Hint Resolve I5_decay : pinv.
Lemma I5_mat_comp E i : pinv I5 (mat_comp E i).
Proof. unfold mat_comp. pinv_tac. Qed.
#[export] Hint Resolve I5_mat_comp : pinv.
Lemma I5_mat_create E a q c p : pinv I5 (mat_create E a q c p).
Proof. apply I5_new_create. Qed.
Lemma I5_prod_create E a q c p : pinv I5 (prod_create E a q c p).
Proof.
  unfold prod_create. apply pinv_bind; [pinv_tac|]. intros w0. apply pinv_bind; [pinv_tac|]. intros _. apply I5_new_create.
Qed.
Lemma I5_package_extract E i q p : pinv I5 (package_extract E i q p).
Proof.
  unfold package_extract. apply pinv_bind; [pinv_tac|]. intros r. destruct (r_qual r).
  - unfold mat_package_extract. apply pinv_bind; [pinv_tac|]. intros r1. apply pinv_bind; [pinv_tac|]. intros cp.
    destruct (Qltb _ _); [pinv_tac|]. apply pinv_bind; [pinv_tac|]. intros _.
    apply I5_new_package; [reflexivity|reflexivity|]. intros j. pinv_tac.
  - unfold prod_package_extract. apply pinv_bind; [pinv_tac|]. intros r1. apply pinv_bind; [pinv_tac|]. intros cp.
    destruct (Qltb _ _); [pinv_tac|]. apply pinv_bind; [pinv_tac|]. intros _.
    apply I5_new_package'. intros j. pinv_tac.
Qed.
#[export] Hint Resolve I5_mat_create I5_prod_create I5_package_extract : pinv.
Lemma I5_package_loop E i n fills : pinv I5 (package_loop E i n fills).
Proof. induction fills; simpl; pinv_tac. Qed.
#[export] Hint Resolve I5_package_loop : pinv.
Lemma I5_extract_comp E i q c t : pinv I5 (mat_extract_comp E i q c t).
Proof. unfold mat_extract_comp, create_from_mass. cbv zeta. pinv_tac. Qed.
#[export] Hint Resolve I5_extract_comp : pinv.
Lemma I5_clone i : pinv I5 (res_clone i).
Proof.
  intros w r w' [h1 h2 h3 h4] H N. unfold res_clone in H. mrget H. mget H.
  apply bind_inv in H as [[u [w1 [H1 H]]]|[[e [H1 H]]|[H1 H]]]; [|discriminate|discriminate].
  inversion H1; subst; clear H1. inversion H; subst; clear H. constructor; simpl; auto.
  intros k r Hk. destruct (Nat.lt_ge_cases k (length (w_res w))).
  - rewrite nth_error_app1 in Hk by auto. eauto.
  - rewrite nth_error_app2 in Hk by auto. destruct (k - length (w_res w))%nat as [|n]; simpl in Hk; [|destruct n; discriminate].
    inversion Hk; subst. simpl. eauto.
Qed.
#[export] Hint Resolve I5_clone : pinv.

Lemma I5_step E o : pinv I5 (step E o).
Proof.
  destruct o; simpl; unfold drop, valid_comp, mat_only, mat_create_untracked,
    prod_create_untracked, extract_res, mat_extract_qty, prod_extract, absorb, mat_absorb, prod_absorb, res_decay,
    res_package, change_package, mat_change_package, prod_change_package, create_from_mass, create_from_atom; cbv zeta; pinv_tac.
Qed.
Lemma I5_0 : I5 world0.
Proof. constructor; simpl; try (intros k x H; destruct k; discriminate); try contradiction; try lia. constructor. Qed.

Lemma C05_state_ids_lemma E ops w : run E ops world0 = Some w -> NoDup (map row_id (res_rows (w_db w))).
Proof. intros H. apply i5_nodup. eapply (run_pinv I5 E (I5_step E)); [|exact H]. apply I5_0. Qed.
