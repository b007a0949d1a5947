(** * Proofs for C21: the order in terms of declared weights and preferences. *)
From Coq Require Import String QArith List Bool Arith ZArith Lia Lqa Permutation Sorted.
From Verif Require Import Base GreedyModel GreedySpec GreedyProofs1 GreedyProofs2 GreedyProofs3
  GreedyProofs4 GreedyProofs5.
Import ListNotations.
Open Scope Q_scope.

Lemma wlookup_find c ws : wlookup c ws = match find (fun p => String.eqb c (fst p)) ws with Some p => snd p | None => 0 end.
Proof. induction ws as [|[d x] t IH]; cbn; [reflexivity|]. destruct (String.eqb c d); auto. Qed.
Lemma node_weight_is ws n : node_weight ws n = request_weight ws n.
Proof.
  unfold node_weight, request_weight, declared_weight, mean_pref, avg_pref, mean_of. rewrite wlookup_find.
  destruct (n_prefs n) as [|p t]; cbn [map]; [|cbn [List.length]; rewrite map_length]; reflexivity.
Qed.
Lemma group_weight_is ws g G : group_weight ws g G = portfolio_weight ws g G.
Proof.
  unfold group_weight, portfolio_weight, mean_of. destruct (g_nodes (group_at g G)) as [|x t]; [reflexivity|].
  cbn [map]. cbn [List.length]. rewrite map_length.
  assert (E : map (fun n => node_weight ws (node_at g n)) t = map (fun n => request_weight ws (node_at g n)) t)
    by (apply map_ext; intros; apply node_weight_is). rewrite E, node_weight_is. reflexivity.
Qed.
Lemma groups_sorted ws g :
  StronglySorted (fun x y => portfolio_weight ws g y <= portfolio_weight ws g x) (gr_req (condition ws g)).
Proof.
  eapply SS_impl; [|apply condition_groups_desc]. intros x y. cbn. now rewrite !group_weight_is.
Qed.
Lemma nodes_sorted ws g G : In G (gr_req g) ->
  StronglySorted (fun x y => request_weight ws (node_at g y) <= request_weight ws (node_at g x))
    (g_nodes (group_at (condition ws g) G)).
Proof.
  intros H. eapply SS_impl; [|apply condition_nodes_desc; exact H]. intros x y. cbn. now rewrite !node_weight_is.
Qed.
Lemma sorted_precedes {A} (R : A -> A -> Prop) l y x : StronglySorted R l -> precedes l y x -> R y x.
Proof.
  intros S (l1 & l2 & l3 & ->). induction l1 as [|z t IH]; cbn in S; inversion S; subst; auto.
  rewrite Forall_forall in H2. apply H2. rewrite in_app_iff. right. now left.
Qed.
Lemma mean_nonneg l : (forall x, In x l -> 0 <= x) -> 0 <= mean_of l.
Proof.
  intros H. unfold mean_of. destruct l as [|a t]; [lra|]. assert (S : forall l, (forall x, In x l -> 0 <= x) -> 0 <= qsum l).
  { induction l as [|b u IH]; intros K; cbn; [lra|]. pose proof (K b (or_introl eq_refl)). pose proof (IH (fun x Hx => K x (or_intror Hx))). lra. }
  apply Qle_shift_div_l; [change 0 with (inject_Z 0); rewrite <- Zlt_Qlt; cbn [List.length]; lia|]. specialize (S _ H). lra.
Qed.
Definition prefs_nonneg (n : node) := forall k v, In (k, v) (n_prefs n) -> 0 <= v.
Lemma mean_pref_nonneg n : (forall k v, In (k, v) (n_prefs n) -> 0 <= v) -> 0 <= mean_pref n.
Proof. intros H. apply mean_nonneg. intros x Hx. apply in_map_iff in Hx. destruct Hx as ((k, v) & <- & I). eapply H; eauto. Qed.
Lemma factor_bounds m : 0 <= m -> 0 <= m / (1 + m) /\ m / (1 + m) < 1.
Proof. intros H. split; [apply Qle_shift_div_l; lra|apply Qlt_shift_div_r; lra]. Qed.
Lemma factor_mono m p : 0 <= m -> m < p -> m / (1 + m) < p / (1 + p).
Proof.
  intros H L. assert (E : forall z, 0 <= z -> z / (1 + z) == 1 - 1 / (1 + z)) by (intros; field; lra).
  rewrite (E m), (E p) by lra. assert (1 / (1 + p) < 1 / (1 + m)); [|lra].
  apply Qlt_shift_div_l; [lra|]. setoid_replace (1 / (1 + p) * (1 + m)) with ((1 + m) / (1 + p)) by (field; lra).
  apply Qlt_shift_div_r; lra.
Qed.
Lemma heavier_first ws g G x y : In G (gr_req g) ->
  (forall k v, In (k, v) (n_prefs (node_at g x)) -> 0 <= v) -> (forall k v, In (k, v) (n_prefs (node_at g y)) -> 0 <= v) ->
  0 < declared_weight ws (n_commod (node_at g x)) -> 0 <= declared_weight ws (n_commod (node_at g y)) ->
  2 * declared_weight ws (n_commod (node_at g y)) <= declared_weight ws (n_commod (node_at g x)) ->
  ~ precedes (g_nodes (group_at (condition ws g) G)) y x.
Proof.
  intros HG PX PY WX WY D P. pose proof (sorted_precedes _ _ _ _ (nodes_sorted ws g G HG) P) as L. cbn in L.
  unfold request_weight in L. destruct (factor_bounds _ (mean_pref_nonneg _ PX)) as (A & _). destruct (factor_bounds _ (mean_pref_nonneg _ PY)) as (B & C).
  set (a := mean_pref (node_at g x) / _) in *. set (b := mean_pref (node_at g y) / _) in *.
  set (u := declared_weight ws (n_commod (node_at g x))) in *. set (v := declared_weight ws (n_commod (node_at g y))) in *. 
  destruct (Qlt_le_dec 0 v) as [V|V]; [nra|]. assert (v == 0) by lra. rewrite H in L. nra.
Qed.
Lemma preferred_first ws g G x y : In G (gr_req g) ->
  (forall k v, In (k, v) (n_prefs (node_at g y)) -> 0 <= v) ->
  0 < declared_weight ws (n_commod (node_at g x)) ->
  declared_weight ws (n_commod (node_at g x)) == declared_weight ws (n_commod (node_at g y)) ->
  mean_pref (node_at g y) < mean_pref (node_at g x) ->
  ~ precedes (g_nodes (group_at (condition ws g) G)) y x.
Proof.
  intros HG PY WX E D P. pose proof (sorted_precedes _ _ _ _ (nodes_sorted ws g G HG) P) as L. cbn in L.
  unfold request_weight in L. rewrite <- E in L. pose proof (factor_mono _ _ (mean_pref_nonneg _ PY) D) as M.
  set (a := mean_pref (node_at g x) / _) in *. set (b := mean_pref (node_at g y) / _) in *. nra.
Qed.
