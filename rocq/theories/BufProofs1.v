(** * Buffers: what the resource calls do to kinds and quantities. *)
From Verif Require Import Base CompModel CompSpec CompProofs PackageModel
  ResourceModel ResourceSpec ResourceProofs1 ResourceProofs2 ResourceProofs3 ResourceProofs4 ResourceProofs5 ResourceProofs6
  BufModel BufSpec.
Open Scope Q_scope.
Open Scope m_scope.

Definition kindq (q : qual) : option string := match q with QMat _ => None | QProd s => Some s end.
Definition vw (w : world) : list (option string * Q) := map (fun p => (kindq (ph_qual p), ph_qty p)) (pres w).

Lemma vw_len w : length (vw w) = length (w_res w).
Proof. unfold vw. rewrite map_length. apply pres_len. Qed.
Lemma vw_nth w i r : nth_error (w_res w) i = Some r -> nth_error (vw w) i = Some (kindq (r_qual r), r_qty r).
Proof. intros H. apply pres_nth in H. unfold vw. rewrite nth_error_map, H. reflexivity. Qed.
Lemma vw_inv w i x : nth_error (vw w) i = Some x ->
  exists r, nth_error (w_res w) i = Some r /\ x = (kindq (r_qual r), r_qty r).
Proof.
  intros H. unfold vw in H. rewrite nth_error_map in H. destruct (nth_error (pres w) i) eqn:Hp; [|discriminate].
  apply pres_nth_inv in Hp as [r [Hr <-]]. inversion H. exists r. auto.
Qed.
Lemma map_upd {A B} (f : A -> B) l i x : map f (upd l i x) = upd (map f l) i (f x).
Proof. revert i. induction l; destruct i; simpl; auto. now rewrite IHl. Qed.
Lemma vw_upd w w' i p : pres w' = upd (pres w) i p -> vw w' = upd (vw w) i (kindq (ph_qual p), ph_qty p).
Proof. intros H. unfold vw. rewrite H, map_upd. reflexivity. Qed.

Lemma vw_change_package E i pkg w res w' : change_package E i pkg w = (res, w') -> res <> UB -> vw w' = vw w.
Proof.
  intros H N. apply change_package_phys in H as [r [Hr [[[e [_ ->]]|[_ [p' [_ Hp]]]] _]]]; auto.
  rewrite (vw_upd _ _ _ _ Hp). apply upd_same. now apply vw_nth in Hr.
Qed.
Lemma vw_mat_comp E i w res w' : mat_comp E i w = (res, w') -> res <> UB -> vw w' = vw w.
Proof.
  intros H N. apply mat_comp_phys in H as [r [cp [Hr [Eq [[e [_ ->]]|[c' [p' [_ [Hp _]]]]]]]]]; auto.
  rewrite (vw_upd _ _ _ _ Hp). apply upd_same. apply vw_nth in Hr. rewrite Hr, Eq. reflexivity.
Qed.
Lemma vw_res_decay E i t w res w' : res_decay E i t w = (res, w') -> res <> UB -> vw w' = vw w.
Proof.
  intros H N. unfold res_decay in H. mrget H. destruct (r_qual x) eqn:Eq; [|inversion H; auto].
  apply mat_decay_phys in H as [r [cp [Hr [Eq' [_ [[c' [p' Hp]] _]]]]]]; auto.
  rewrite (vw_upd _ _ _ _ Hp). apply upd_same. apply vw_nth in Hr. rewrite Hr, Eq'. reflexivity.
Qed.
Lemma vw_extract E i q w res w' : extract_res E i q w = (res, w') -> res <> UB ->
  exists k a, nth_error (vw w) i = Some (k, a) /\
  ((a < q /\ res = Throw ValueError /\ w' = w) \/
   (q <= a /\ res = Ok (length (vw w)) /\ vw w' = upd (vw w) i (k, a - q) ++ [(k, q)])).
Proof.
  intros H N. unfold extract_res in H. mrget H. exists (kindq (r_qual x)), (r_qty x). split; [now apply vw_nth|].
  assert (F : forall n, pres w' = upd (pres w) i (ph_with_qty (r_qty x - q) (phys_of x)) ++ [n] ->
     kindq (ph_qual n) = kindq (r_qual x) -> ph_qty n = q ->
     vw w' = upd (vw w) i (kindq (r_qual x), r_qty x - q) ++ [(kindq (r_qual x), q)]).
  { intros n Hp Hk Hq. unfold vw. rewrite Hp, map_app, map_upd. simpl. rewrite Hk, Hq. reflexivity. }
  rewrite vw_len.
  destruct (r_qual x) eqn:Eq.
  - apply extract_qty_phys in H as [r2 [cp [Hr [Eq' D]]]]; auto. rewrite Hn in Hr; inversion Hr; subst r2; clear Hr.
    destruct D as [D|[Hq [Hres [Hp _]]]]; [left; auto|]. right. split; auto. split; auto. eapply F; [exact Hp| |]; simpl; rewrite ?Eq; reflexivity.
  - apply prod_extract_phys in H as [r2 [cp [Hr [Eq' D]]]]; auto. rewrite Hn in Hr; inversion Hr; subst r2; clear Hr.
    destruct D as [D|[Hq [Hres [Hp _]]]]; [left; auto|]. right. split; auto. split; auto. eapply F; [exact Hp| |]; simpl; rewrite ?Eq; reflexivity.
Qed.
Lemma vw_absorb E i j w res w' : i <> j -> absorb E i j w = (res, w') -> res <> UB ->
  exists k a b, nth_error (vw w) i = Some (k, a) /\
  ((exists e, res = Throw e /\ vw w' = vw w /\ exists k', nth_error (vw w) j = Some (k', b) /\ (k <> None -> w' = w)) \/
   (res = Ok tt /\ nth_error (vw w) j = Some (k, b) /\ vw w' = upd (upd (vw w) i (k, a + b)) j (k, 0))).
Proof.
  intros Hij H N. unfold absorb in H. mrget H. rename x into a. mrget H. rename x into b.
  exists (kindq (r_qual a)), (r_qty a), (r_qty b). split; [now apply vw_nth|].
  destruct (r_qual a) as [ca|sa] eqn:Ea, (r_qual b) as [cb|sb] eqn:Eb; try (inversion H; subst; congruence).
  - apply mat_absorb_phys in H as [c0 [c1 [w2 [a2 [b2 [[w1 [M1 M2]] [Ha2 [Hb2 D]]]]]]]]; auto.
    assert (V1 := vw_mat_comp _ _ _ _ _ M1 ltac:(discriminate)).
    assert (V2 := vw_mat_comp _ _ _ _ _ M2 ltac:(discriminate)). rewrite V1 in V2.
    assert (Na := vw_nth _ _ _ Hn). assert (Nb := vw_nth _ _ _ Hn0).
    assert (Na2 := vw_nth _ _ _ Ha2). assert (Nb2 := vw_nth _ _ _ Hb2). rewrite V2 in Na2, Nb2.
    rewrite Na in Na2. rewrite Nb in Nb2. inversion Na2 as [[Ka Qa]]. inversion Nb2 as [[Kb Qb]].
    rewrite Ea in *. rewrite Eb in *. simpl in *.
    destruct D as [[x0 [x1 [_ [_ [_ [_ [-> ->]]]]]]]|[-> [q' [cs [p' [Mq [_ [Hp _]]]]]]]].
    + left. exists ValueError. split; auto. split; auto. exists None. split; auto. congruence.
    + right. split; auto. split; auto.
      rewrite (absorb_pair _ _ _ _ (phys_of b2) Hij) in Hp by now apply pres_nth.
      unfold vw. rewrite Hp, !map_upd. fold (vw w2). rewrite V2. simpl.
      assert (Kq : kindq q' = None).
      { inversion Mq; reflexivity. }
      rewrite Kq, <- Kb, Qa, Qb. reflexivity.
  - apply prod_absorb_phys in H as [a2 [b2 [sa' [sb' [Ha2 [Hb2 [Ea' [Eb' D]]]]]]]]; auto.
    rewrite Hn in Ha2; inversion Ha2; subst a2. rewrite Hn0 in Hb2; inversion Hb2; subst b2.
    rewrite Ea in Ea'; inversion Ea'; subst sa'. rewrite Eb in Eb'; inversion Eb'; subst sb'.
    assert (Nb := vw_nth _ _ _ Hn0). rewrite Eb in Nb.
    destruct D as [[_ [-> ->]]|[-> [-> [Hp _]]]].
    + left. exists ValueError. split; auto. split; auto. eauto.
    + right. split; auto. split; auto.
      rewrite (absorb_pair _ _ _ _ (phys_of b) Hij) in Hp by now apply pres_nth.
      unfold vw. rewrite Hp, !map_upd. simpl. rewrite Ea, Eb. reflexivity.
Qed.
