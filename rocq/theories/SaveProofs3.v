(** * SaveProofs3: inventories are handed out and taken back. *)
From Coq Require Import String.
From Verif Require Import Base CompModel CompSpec PackageModel ResourceModel ResourceSpec BufModel BufSpec
  BufProofs1 BufProofs2 BufProofs7 SaveModel SaveSpec SaveProofs SaveProofs2.
Open Scope Q_scope.

Lemma find_put_other x l i y : x <> y -> find y (inv_put x l i) = find y i.
Proof.
  intros N. unfold inv_put. destruct (find x i) eqn:F.
  - now rewrite find_assign_other.
  - rewrite find_app. destruct (find y i); auto. simpl. destruct (String.eqb_spec x y); congruence.
Qed.
Lemma buf_var_cons x e d y T : buf_var d y T -> buf_var ((x, e) :: d) y T.
Proof. intros [i [Hi Ei]]. exists i. split; auto. now right. Qed.
Lemma same_member_refl a : same_member a a.
Proof. destruct a; simpl; auto. repeat split; auto. Qed.
Lemma same_object_refl o : same_object o o.
Proof. intros x. destruct (find x o); auto. eauto using same_member_refl. Qed.

Section Inv.
Variable E : env.
Variable c : vars.
Hypothesis Hc : class_ok c.

(** Everything out and in again. *)
Lemma out_and_in w T b : settled E w T b -> exists b1 b2,
  buf_pop_n (count b) (w, b) = (Ok (b_rs b), (w, b1)) /\
  buf_push_vector E T (b_rs b) (w, b1) = (Ok tt, (w, b2)) /\ same_member (MBuf T b) (MBuf T b2).
Proof.
  intros [Hu Hcap Hh]. destruct (in_use_BI _ _ _ _ Hu) as [_ [_ HB]].
  destruct (push_into_empty E T w (mkBuf 0 (b_cap b) (b_bulk b) (b_keep b) [] []) (b_rs b)) as [q [Hq P]];
    auto; try reflexivity.
  - apply (bi_nodup _ _ HB).
  - exact (bi_bulk _ _ HB).
  - intros q Eq. destruct (Hcap q Eq) as [A B]. rewrite (bi_qty _ _ HB) in B. auto.
  - eexists _, _. split; [apply pop_everything; auto|]. split; [exact P|]. simpl.
    split; auto. split; auto. split; [rewrite Hq; symmetry; apply (bi_qty _ _ HB)|]. split; auto. split; auto. split; auto.
    intros i. symmetry. apply (bi_pres _ _ HB).
Qed.

Lemma out_pass w : forall d, (forall x e, In (x, e) d -> In (x, e) c) -> NoDup (map fst d) ->
  forall o i, (forall x T, buf_var d x T -> exists b, find x o = Some (MBuf T b) /\ settled E w T b) ->
  exists i' o', run_snapshotinv E (gen_snapshotinv d) i (w, o) = (Ok i', (w, o')) /\ same_object o o' /\
    (forall x T b, buf_var d x T -> find x o = Some (MBuf T b) -> inv_at x i' = b_rs b) /\
    (forall x, (forall T, ~ buf_var d x T) -> find x i' = find x i /\ find x o' = find x o).
Proof.
  induction d as [|[x e] d IH]; intros Sub Nd o i Hd; simpl.
  - exists i, o. split; auto. split; [apply same_object_refl|]. split; auto. intros x T b [j [[] _]].
  - inversion Nd as [|? ? Nx Nd']; subst.
    assert (Nbx : forall T, ~ buf_var d x T). { intros T [j [Hj _]]. apply Nx. eapply in_names; eauto. }
    assert (Skip : (forall T, ~ buf_var ((x, e) :: d) x T) ->
      exists i' o', run_snapshotinv E (gen_snapshotinv d) i (w, o) = (Ok i', (w, o')) /\ same_object o o' /\
        (forall y T b, buf_var ((x, e) :: d) y T -> find y o = Some (MBuf T b) -> inv_at y i' = b_rs b) /\
        (forall y, (forall T, ~ buf_var ((x, e) :: d) y T) -> find y i' = find y i /\ find y o' = find y o)).
    { intros Ne. destruct (IH (fun y e' Hin => Sub y e' (or_intror Hin)) Nd' o i) as [i' [o' [R [S [A B]]]]].
      { intros y T Hy. apply Hd. now apply buf_var_cons. }
      exists i', o'. split; auto. split; auto. split.
      - intros y T b [j [[Y|Y] Ej]] F.
        + injection Y as Ex Ee. subst y e. destruct (Ne T). exists j. split; auto. now left.
        + eapply A; eauto. exists j. auto.
      - intros y N. apply B. intros T Hy. apply (N T). now apply buf_var_cons. }
    destruct e as [[t cap]|z]; simpl.
    2:{ apply Skip. intros T [j [[Y|Y] _]]; [discriminate|]. apply Nx. eapply in_names; eauto. }
    assert (Other : (forall T, t <> TyBuf T) -> forall T, ~ buf_var ((x, Var (mkInfo t cap)) :: d) x T).
    { intros Nt T [j [[Y|Y] Ej]]; [injection Y as <-; simpl in Ej; destruct (Nt T Ej)|]. apply Nx. eapply in_names; eauto. }
    destruct t as [t|T|k T|].
    + apply Skip, Other. discriminate.
    + clear Skip Other. simpl.
      destruct (Hd x T) as [b [F Sb]]; [exists (mkInfo (TyBuf T) cap); split; auto; now left|].
      destruct (out_and_in w T b Sb) as [b1 [b2 [P1 [P2 Sm]]]].
      assert (Mx : forall o', member_of ["invs"%string] x o' = find x o').
      { intros o'. apply (member_of_free c); auto using in_invs. apply (in_names c x (mkInfo (TyBuf T) cap)), Sub. now left. }
      unfold on_buf at 1. cbn [fst snd]. rewrite Mx, F. unfold bbind at 1, bget. cbn [snd]. rewrite P1.
      unfold on_buf. cbn [fst snd]. rewrite Mx, (find_assign_same _ _ _ _ F), inv_at_put_same, P2.
      set (o2 := assign x (MBuf T b2) (assign x (MBuf T b1) o)).
      assert (Fx : find x o2 = Some (MBuf T b2)).
      { unfold o2. apply (find_assign_same _ _ (MBuf T b1)). apply (find_assign_same _ _ _ _ F). }
      assert (Fy : forall y, y <> x -> find y o2 = find y o).
      { intros y N. unfold o2. rewrite !find_assign_other; auto. }
      destruct (IH (fun y e' Hin => Sub y e' (or_intror Hin)) Nd' o2 (inv_put x (b_rs b) i)) as [i' [o' [R [S [A B]]]]].
      { intros y T' Hy. rewrite Fy; [apply Hd; now apply buf_var_cons|]. intros ->. destruct (Nbx T' Hy). }
      exists i', o'. split; auto. destruct (B x Nbx) as [Bi Bo]. split; [|split].
      * intros y. destruct (string_dec y x) as [->|N].
        -- rewrite F, Bo, Fx. eauto.
        -- specialize (S y). rewrite (Fy y N) in S. exact S.
      * intros y T' b' [j [[Y|Y] Ej]] F'.
        -- injection Y as <- <-. simpl in Ej. injection Ej as <-. unfold inv_at. rewrite Bi.
           replace b' with b by congruence. apply inv_at_put_same.
        -- assert (N : y <> x). { intros ->. apply Nx. eapply in_names; eauto. }
           apply (A y T' b'); [exists j; auto|]. rewrite Fy; auto.
      * intros y N. assert (Nyx : y <> x). { intros ->. apply (N T). exists (mkInfo (TyBuf T) cap). split; auto. now left. }
        destruct (B y) as [Yi Yo]. { intros T' Hy. apply (N T'). now apply buf_var_cons. }
        rewrite Yi, Yo, find_put_other, Fy by auto. auto.
    + destruct (ok_nomap _ Hc x _ k T (Sub _ _ (or_introl eq_refl))). reflexivity.
    + apply Skip, Other. discriminate.
Qed.

Lemma snapshot_inv_ok w o : object_of c o -> settled_agent E c w o ->
  exists i o', snapshot_inv E c (w, o) = (Ok i, (w, o')) /\ same_object o o' /\
    (forall x T b, buf_var c x T -> find x o = Some (MBuf T b) -> inv_at x i = b_rs b) /\
    (forall x, (forall T, ~ buf_var c x T) -> find x i = None).
Proof.
  intros Ho Hs. destruct (out_pass w c) with (o := o) (i := @nil (string * list nat)) as [i [o' [R [S [A B]]]]];
    auto using (ok_names _ Hc).
  - intros x T Hx. destruct (of_buf _ _ Ho x T Hx) as [b F]. exists b. split; auto. eapply Hs; eauto.
  - exists i, o'. split; auto. split; auto. split; auto. intros x N. apply B. auto.
Qed.

(** ** Taking back *)
(** An empty buffer with room for these resources. *)
Definition room_for (w : world) (T : elem) (b : buf) (l : list nat) : Prop :=
  b_rs b = [] /\ b_present b = [] /\ b_qty b == 0 /\ NoDup l /\ (forall i, In i l -> kept_ok w T (b_keep b) i) /\
  (b_bulk b = true -> (length l <= 1)%nat) /\ (forall q, b_cap b = Some q -> 0 <= q /\ sumv (vw w) l <= q + e_eps E).
(** The buffer with the resources in. *)
Definition filled (w : world) (b : buf) (l : list nat) (b' : buf) : Prop :=
  b_rs b' = l /\ b_qty b' == sumv (vw w) l /\ b_cap b' = b_cap b /\ b_bulk b' = b_bulk b /\ b_keep b' = b_keep b /\ b_present b' = l.

Lemma in_pass w i : forall d, (forall x e, In (x, e) d -> In (x, e) c) -> NoDup (map fst d) ->
  forall o, (forall x T, buf_var d x T -> exists b, find x o = Some (MBuf T b) /\ room_for w T b (inv_at x i)) ->
  exists o', run_initinv E i (gen_initinv d) (w, o) = (Ok tt, (w, o')) /\
    (forall x T b, buf_var d x T -> find x o = Some (MBuf T b) ->
       exists b', find x o' = Some (MBuf T b') /\ filled w b (inv_at x i) b') /\
    (forall x, (forall T, ~ buf_var d x T) -> find x o' = find x o).
Proof.
  induction d as [|[x e] d IH]; intros Sub Nd o Hd; simpl.
  - exists o. split; auto. split; auto. intros x T b [j [[] _]].
  - inversion Nd as [|? ? Nx Nd']; subst.
    assert (Nbx : forall T, ~ buf_var d x T). { intros T [j [Hj _]]. apply Nx. eapply in_names; eauto. }
    assert (Skip : (forall T, ~ buf_var ((x, e) :: d) x T) ->
      exists o', run_initinv E i (gen_initinv d) (w, o) = (Ok tt, (w, o')) /\
        (forall y T b, buf_var ((x, e) :: d) y T -> find y o = Some (MBuf T b) ->
           exists b', find y o' = Some (MBuf T b') /\ filled w b (inv_at y i) b') /\
        (forall y, (forall T, ~ buf_var ((x, e) :: d) y T) -> find y o' = find y o)).
    { intros Ne. destruct (IH (fun y e' Hin => Sub y e' (or_intror Hin)) Nd' o) as [o' [R [A B]]].
      { intros y T Hy. apply Hd. now apply buf_var_cons. }
      exists o'. split; auto. split.
      - intros y T b [j [[Y|Y] Ej]] F.
        + injection Y as Ex Ee. subst y e. destruct (Ne T). exists j. split; auto. now left.
        + eapply A; eauto. exists j. auto.
      - intros y N. apply B. intros T Hy. apply (N T). now apply buf_var_cons. }
    destruct e as [[t cap]|z]; simpl.
    2:{ apply Skip. intros T [j [[Y|Y] _]]; [discriminate|]. apply Nx. eapply in_names; eauto. }
    assert (Other : (forall T, t <> TyBuf T) -> forall T, ~ buf_var ((x, Var (mkInfo t cap)) :: d) x T).
    { intros Nt T [j [[Y|Y] Ej]]; [injection Y as <-; simpl in Ej; destruct (Nt T Ej)|]. apply Nx. eapply in_names; eauto. }
    destruct t as [t|T|k T|].
    + apply Skip, Other. discriminate.
    + clear Skip Other. simpl.
      destruct (Hd x T) as [b [F [R1 [R2 [R3 [R4 [R5 [R6 R7]]]]]]]]; [exists (mkInfo (TyBuf T) cap); split; auto; now left|].
      destruct (push_into_empty E T w b (inv_at x i)) as [q [Hq P]]; auto.
      assert (Mx : member_of ["inv"%string] x o = find x o).
      { apply (member_of_free c); auto using in_inv. apply (in_names c x (mkInfo (TyBuf T) cap)), Sub. now left. }
      unfold on_buf. cbn [fst snd]. rewrite Mx, F, P.
      set (b2 := mkBuf q (b_cap b) (b_bulk b) (b_keep b) (inv_at x i) (inv_at x i)).
      set (o2 := assign x (MBuf T b2) o).
      assert (Fx : find x o2 = Some (MBuf T b2)) by (apply (find_assign_same _ _ _ _ F)).
      assert (Fy : forall y, y <> x -> find y o2 = find y o) by (intros y N; apply find_assign_other; auto).
      destruct (IH (fun y e' Hin => Sub y e' (or_intror Hin)) Nd' o2) as [o' [R [A B]]].
      { intros y T' Hy. rewrite Fy; [apply Hd; now apply buf_var_cons|]. intros ->. destruct (Nbx T' Hy). }
      exists o'. split; auto. split.
      * intros y T' b' [j [[Y|Y] Ej]] F'.
        -- injection Y as <- <-. simpl in Ej. injection Ej as <-. exists b2. rewrite (B x Nbx), Fx. split; auto.
           replace b' with b by congruence. repeat split; auto.
        -- assert (N : y <> x). { intros ->. apply Nx. eapply in_names; eauto. }
           apply (A y T' b'); [exists j; auto|]. rewrite Fy; auto.
      * intros y N. assert (Nyx : y <> x). { intros ->. apply (N T). exists (mkInfo (TyBuf T) cap). split; auto. now left. }
        rewrite B; [auto|]. intros T' Hy. apply (N T'). now apply buf_var_cons.
    + apply Skip, Other. discriminate.
    + apply Skip, Other. discriminate.
Qed.
Lemma init_inv_ok w i o : (forall x T, buf_var c x T -> exists b, find x o = Some (MBuf T b) /\ room_for w T b (inv_at x i)) ->
  exists o', init_inv E c i (w, o) = (Ok tt, (w, o')) /\
    (forall x T b, buf_var c x T -> find x o = Some (MBuf T b) ->
       exists b', find x o' = Some (MBuf T b') /\ filled w b (inv_at x i) b') /\
    (forall x, (forall T, ~ buf_var c x T) -> find x o' = find x o).
Proof. intros H. apply in_pass; auto using (ok_names _ Hc). Qed.
End Inv.
