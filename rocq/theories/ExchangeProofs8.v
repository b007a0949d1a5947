(** The exclusive sets of a translated graph, and which unit capacities its nodes carry. *)
From Coq Require Import String QArith List Bool Arith ZArith Lia Lqa Permutation.
From Verif Require Import Base GreedyModel GreedySpec GreedyProofs1 ExchangeModel ExchangeSpec ExchangeProofs1
  ExchangeProofs2 ExchangeProofs3 ExchangeProofs4.
Import ListNotations.
Open Scope Q_scope.

Section Excl.
Variable m : market.

(** Nodes, numbered from [n], of the exclusive bids of [bs] that offer [o]. *)
Definition is_ex (o b : nat) : bool := bd_excl (bid_at m b) && Nat.eqb (rs_id (bd_offer (bid_at m b))) o.
Fixpoint bsel (n : nat) (bs : list nat) (o : nat) : list nat :=
  match bs with [] => [] | b :: t => (if is_ex o b then [n] else []) ++ bsel (S n) t o end.

Lemma bsel_nodes (f : nat -> option nat) o bs : forall n, map Some (seq n (length bs)) = map f bs ->
  map Some (bsel n bs o) = map f (filter (is_ex o) bs).
Proof.
  induction bs as [|b bs IH]; intros n E; simpl in *; auto.
  injection E as E1 E2. rewrite map_app, (IH (S n) E2). destruct (is_ex o b); simpl; [now rewrite E1|auto].
Qed.
Lemma exn_nodes (f : nat -> option nat) rs : forall n, map Some (seq n (length rs)) = map f rs ->
  map (map Some) (exn m n rs) = map (fun r => [f r]) (filter (fun r => rq_excl (req_at m r)) rs).
Proof.
  induction rs as [|b bs IH]; intros n E; simpl in *; auto.
  injection E as E1 E2. rewrite map_app, (IH (S n) E2). destruct (rq_excl (req_at m b)); simpl; [now rewrite E1|auto].
Qed.

Lemma bexs_nodup bs : forall n exs, NoDup (map fst exs) -> NoDup (map fst (bexs m n bs exs)).
Proof.
  induction bs as [|b bs IH]; intros n exs N; simpl; auto. apply IH.
  destruct (bd_excl (bid_at m b)); auto. now apply (mupd_nodup Nat.eqb nateqb_ok).
Qed.

Lemma bexs_find o bs : forall n exs, nfind o (bexs m n bs exs) =
  match nfind o exs with
  | Some l => Some (l ++ bsel n bs o)
  | None => match bsel n bs o with [] => None | l => Some l end
  end.
Proof.
  induction bs as [|b bs IH]; intros n exs; simpl.
  - destruct (nfind o exs); auto. now rewrite app_nil_r.
  - rewrite IH. unfold is_ex. destruct (bd_excl (bid_at m b)); simpl; auto.
    destruct (Nat.eqb_spec (rs_id (bd_offer (bid_at m b))) o) as [->|NE].
    + rewrite nfind_nupd_same. destruct (nfind o exs) as [l|]; simpl; auto. now rewrite <- app_assoc.
    + rewrite nfind_nupd_other by auto. auto.
Qed.

Lemma bsel_empty o bs : forall n, bsel n bs o = [] <-> (forall b, In b bs -> is_ex o b = false).
Proof.
  induction bs as [|b bs IH]; intros n; simpl; [tauto|].
  destruct (is_ex o b) eqn:E; simpl.
  - split; [discriminate|]. intros H. rewrite (H b) in E; auto; discriminate.
  - rewrite IH. split; auto. intros H c [<-|I]; auto.
Qed.

Lemma bexs_sets bs n (f : nat -> option nat) : map Some (seq n (length bs)) = map f bs ->
  let srt := stable_sort (fun x y : nat * list nat => Nat.ltb (fst x) (fst y)) (bexs m n bs []) in
  NoDup (map fst srt) /\
  (forall o, In o (map fst srt) <-> exists b, In b bs /\ bd_excl (bid_at m b) = true /\
                                              rs_id (bd_offer (bid_at m b)) = o) /\
  map (map Some) (map snd srt) = map (fun o => map f (filter (is_ex o) bs)) (map fst srt).
Proof.
  intros E srt.
  assert (ND : NoDup (map fst (bexs m n bs []))) by (apply bexs_nodup; constructor).
  assert (PM : Permutation srt (bexs m n bs [])) by apply sort_perm.
  split; [|split].
  - apply (Permutation_NoDup (l := map fst (bexs m n bs []))); auto. apply Permutation_map. now apply Permutation_sym.
  - intros o. assert (H : In o (map fst srt) <-> In o (map fst (bexs m n bs []))).
    { split; apply Permutation_in; [|apply Permutation_sym]; now apply Permutation_map. }
    rewrite H.
    assert (H2 : In o (map fst (bexs m n bs [])) <-> nfind o (bexs m n bs []) <> None).
    { pose proof (mfind_none Nat.eqb nateqb_ok o (bexs m n bs [])) as MN. unfold nfind.
      destruct (mfind Nat.eqb o (bexs m n bs [])) as [v|] eqn:F.
      - split; [intros _; discriminate|]. intros _. apply (mfind_in Nat.eqb nateqb_ok) in F.
        apply (in_map fst) in F. exact F.
      - split; [|intros K; now elim K]. intros K. apply MN in K; [contradiction|auto]. }
    rewrite H2, bexs_find. cbn [nfind mfind].
    change (nfind o []) with (@None (list nat)).
    assert (BE := bsel_empty o bs n).
    split.
    + intros K. destruct (Exists_dec (fun b => is_ex o b = true) bs (fun b => bool_dec _ _)) as [X|X].
      * apply Exists_exists in X as [b [Ib Xb]]. unfold is_ex in Xb. apply andb_true_iff in Xb as [X1 X2].
        apply Nat.eqb_eq in X2. eauto.
      * elim K. rewrite (proj2 BE); auto. intros b Ib. destruct (is_ex o b) eqn:Xb; auto.
        elim X. apply Exists_exists. eauto.
    + intros [b [Ib [X1 X2]]]. destruct (bsel n bs o) eqn:BS; [|discriminate].
      apply (proj1 BE eq_refl) in Ib. unfold is_ex in Ib. rewrite X1, X2, Nat.eqb_refl in Ib. discriminate.
  - rewrite !map_map. apply map_ext_in. intros [o l] I.
    apply (Permutation_in _ PM) in I. cbn [fst snd].
    apply (in_mfind Nat.eqb nateqb_ok _ _ _ ND) in I.
    change (mfind Nat.eqb o (bexs m n bs [])) with (nfind o (bexs m n bs [])) in I.
    rewrite bexs_find in I. change (nfind o []) with (@None (list nat)) in I. cbv iota in I.
    rewrite <- (bsel_nodes f o bs n E). f_equal. destruct (bsel n bs o); congruence.
Qed.
End Excl.

Section Run.
Variable fd : Q -> Q -> Q.
Variable mgr : nat -> Z.
Variable m : market.
Hypothesis INV : xinv m.
Hypothesis REG : registered m.

Lemma translate_excl m1 g t : translate fd mgr m = Ok (m1, (g, t)) -> represents_excl m g t.
Proof.
  intros T. assert (T2 := T). apply (translate_P2 fd mgr m INV REG) in T as [_ P].
  apply (translate_represents fd mgr m INV REG) in T2. rename T2 into RP.
  destruct (p2_groups _ _ _ _ _ _ P) as [Bs [EG BG]]. cbn [fst] in EG.
  assert (RL := rgroups_length m 0 (x_rports m)).
  split.
  - intros i p E. unfold group_at.
    assert (NE : nth_error (gr_groups g) i = Some (rgroup m (0 + length (flat_map (reqs_of m) (firstn i (x_rports m)))) p)).
    { rewrite EG, nth_error_app1 by (rewrite RL; now apply nth_error_lt in E). now apply rgroups_nth. }
    destruct (rp_rgroup _ _ _ _ _ RP i p E) as [_ [N _]]. unfold group_at in N.
    rewrite (nth_error_nth _ _ _ NE) in *. cbn [rgroup g_nodes g_excl] in *.
    apply (exn_nodes m (fun r => nfind r (r2n t))). exact N.
  - intros i p E.
    destruct (bgroups_nth fd mgr m (x_bports m) _ Bs i p BG E) as [GG [A [B [C D]]]].
    assert (NE : nth_error (gr_groups g) (length (x_rports m) + i) = Some GG).
    { rewrite EG, nth_error_app2 by (rewrite RL; lia). rewrite RL, Nat.add_comm, Nat.add_sub. exact A. }
    destruct (rp_bgroup _ _ _ _ _ RP i p E) as [N _]. unfold group_at in *.
    rewrite (nth_error_nth _ _ _ NE) in *. rewrite D. rewrite B in N.
    destruct (bexs_sets m (bids_of m p) _ (fun b => nfind b (b2n t)) N) as [H1 [H2 H3]].
    eexists. split; [exact H1|]. split; [exact H2|]. exact H3.
Qed.

(** Unit capacities: each node has them for its own arcs only, once per arc. *)
Lemma translate_keys m1 g t : translate fd mgr m = Ok (m1, (g, t)) ->
  forall n, NoDup (map fst (n_ucaps (node_at g n))) /\
    forall k, In k (map fst (n_ucaps (node_at g n))) ->
      exists a, In a (gr_arcs g) /\ akey a = k /\ (n = a_u a \/ n = a_v a).
Proof.
  intros T n. apply (translate_P2 fd mgr m INV REG) in T as [_ P].
  unfold node_at. destruct (nth_error (gr_nodes g) n) as [nd|] eqn:E.
  - rewrite (nth_error_nth _ _ _ E). destruct (p2_keys _ _ _ _ _ _ P n nd E) as [KN KI]. split; auto.
    intros k Ik. destruct (KI k Ik) as [b [Ib [EK H]]]. exists (arcb fd mgr m b).
    assert (AU : a_u (arcb fd mgr m b) = uo m b) by (unfold arcb, arc_new; destruct (_ || _); auto).
    assert (AV : a_v (arcb fd mgr m b) = vo m b) by (unfold arcb, arc_new; destruct (_ || _); auto).
    assert (EA := p2_arcs _ _ _ _ _ _ P). cbn [fst] in EA. rewrite EA. split; [now apply in_map|].
    unfold akey. rewrite AU, AV. auto.
  - apply nth_error_None in E. rewrite nth_overflow by auto. simpl. split; [constructor|contradiction].
Qed.
End Run.
