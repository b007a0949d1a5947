(** Preconditioning: only reorders, sorts by weight, and keeps graphs well built. *)
From Coq Require Import String QArith List Bool Arith ZArith Lia Lqa Permutation Sorted Qabs.
From Verif Require Import Base GreedyModel GreedySpec GreedyProofs1.
Import ListNotations.
Open Scope Q_scope.

(** Same graph up to the order of request groups and of nodes in groups. *)
Record same (g h : graph) : Prop := mkSame {
  sm_nodes : gr_nodes h = gr_nodes g;
  sm_arcs : gr_arcs h = gr_arcs g;
  sm_sup : gr_sup h = gr_sup g;
  sm_req : Permutation (gr_req h) (gr_req g);
  sm_ms : gr_matches h = gr_matches g;
  sm_len : length (gr_groups h) = length (gr_groups g);
  sm_qty : forall G, g_qty (group_at h G) = g_qty (group_at g G);
  sm_caps : forall G, g_caps (group_at h G) = g_caps (group_at g G);
  sm_excl : forall G, g_excl (group_at h G) = g_excl (group_at g G);
  sm_gn : forall G, Permutation (g_nodes (group_at h G)) (g_nodes (group_at g G));
  sm_gsup : forall G, ~ In G (gr_req g) -> g_nodes (group_at h G) = g_nodes (group_at g G) }.

Lemma same_refl g : same g g.
Proof. constructor; auto. Qed.

Lemma same_node_at g h : same g h -> forall i, node_at h i = node_at g i.
Proof. intros S i. unfold node_at. rewrite (sm_nodes _ _ S). auto. Qed.

Lemma group_at_upd g G H ns : 
  group_at (set_nodes g G ns) H =
    if Nat.eqb H G && Nat.ltb G (length (gr_groups g))
    then mkGroup (g_qty (group_at g G)) ns (g_caps (group_at g G)) (g_excl (group_at g G))
    else group_at g H.
Proof.
  unfold set_nodes, group_at.
  set (d := mkGroup 0 [] [] []).
  destruct (nth_error (gr_groups g) G) as [x|] eqn:E.
  - pose proof (nth_error_lt _ _ _ E) as L. cbn [gr_groups].
    assert (Nat.ltb G (length (gr_groups g)) = true) as -> by (apply Nat.ltb_lt; auto).
    rewrite andb_true_r. destruct (Nat.eqb_spec H G).
    + subst. rewrite (nth_error_nth _ _ d E).
      apply nth_error_nth. rewrite nth_upd_same; auto.
    + destruct (nth_error (gr_groups g) H) eqn:E2.
      * rewrite (nth_error_nth _ _ d E2). apply nth_error_nth. rewrite nth_upd_other; auto.
      * apply nth_error_None in E2. rewrite !nth_overflow; auto. rewrite upd_length. auto.
  - apply nth_error_None in E. destruct (Nat.ltb_spec G (length (gr_groups g))); [lia|].
    rewrite andb_false_r. auto.
Qed.

Lemma set_nodes_same g h G lt : same g h -> In G (gr_req g) ->
  same g (set_nodes h G (stable_sort lt (g_nodes (group_at h G)))).
Proof.
  intros S IG. pose proof (group_at_upd h G) as GA.
  destruct S. constructor; auto.
  - unfold set_nodes. destruct (nth_error _ _); auto.
  - unfold set_nodes. destruct (nth_error _ _); auto.
  - unfold set_nodes. destruct (nth_error _ _); auto.
  - unfold set_nodes. destruct (nth_error _ _); auto.
  - unfold set_nodes. destruct (nth_error _ _); auto.
  - unfold set_nodes. destruct (nth_error _ _); auto. simpl. rewrite upd_length. auto.
  - intros K. rewrite GA. destruct (Nat.eqb_spec K G); simpl; auto.
    subst; destruct (Nat.ltb _ _); simpl; auto.
  - intros K. rewrite GA. destruct (Nat.eqb_spec K G); simpl; auto.
    subst; destruct (Nat.ltb _ _); simpl; auto.
  - intros K. rewrite GA. destruct (Nat.eqb_spec K G); simpl; auto.
    subst; destruct (Nat.ltb _ _); simpl; auto.
  - intros K. rewrite GA. destruct (Nat.eqb_spec K G); simpl; auto.
    subst; destruct (Nat.ltb _ _); simpl; auto. rewrite sort_perm. auto.
  - intros K NK. rewrite GA. destruct (Nat.eqb_spec K G); simpl; auto. subst. tauto.
Qed.

Lemma node_comp_eq w g h l r : (forall i, node_at h i = node_at g i) ->
  node_comp w h l r = node_comp w g l r.
Proof. intros E. unfold node_comp. rewrite !E. auto. Qed.

Definition wdesc (w : weights) (g : graph) : list nat -> Prop :=
  StronglySorted (fun x y => node_weight w (node_at g y) <= node_weight w (node_at g x)).

Lemma swo_node_comp w g : swo (node_comp w g).
Proof. apply (swo_desc (fun n => node_weight w (node_at g n))). Qed.
Lemma swo_group_comp w g : swo (group_comp w g).
Proof. apply (swo_desc (group_weight w g)). Qed.

Lemma SS_impl {A} (R R' : A -> A -> Prop) l : (forall x y, R x y -> R' x y) ->
  StronglySorted R l -> StronglySorted R' l.
Proof.
  intros I. induction 1; constructor; auto. eapply Forall_impl; [|eauto]. auto.
Qed.

Lemma node_sort_desc w g l : wdesc w g (stable_sort (node_comp w g) l).
Proof.
  unfold wdesc. eapply SS_impl; [|apply sort_sorted, swo_node_comp].
  intros x y. unfold nb, node_comp. destruct (Qltb_spec (node_weight w (node_at g x)) (node_weight w (node_at g y)));
    [discriminate|]. intros _. lra.
Qed.

Lemma cond_nodes_spec w g l : forall h, same g h -> incl l (gr_req g) ->
  let h' := fold_left (fun g' G =>
               set_nodes g' G (stable_sort (node_comp w g') (g_nodes (group_at g' G)))) l h in
  same g h' /\ gr_req h' = gr_req h /\
  (forall G, In G l \/ wdesc w g (g_nodes (group_at h G)) -> wdesc w g (g_nodes (group_at h' G))).
Proof.
  induction l as [|G l IH]; intros h S I; cbn [fold_left].
  - split; auto. split; auto. intros G [[]|H]; auto.
  - set (h1 := set_nodes h G (stable_sort (node_comp w h) (g_nodes (group_at h G)))).
    assert (S1 : same g h1) by (apply set_nodes_same; auto; apply I; left; auto).
    destruct (IH h1 S1) as (A & B & C); [intros x Hx; apply I; right; auto|].
    split; auto. split.
    + rewrite B. unfold h1, set_nodes. destruct (nth_error _ _); auto.
    + intros K HK. apply C.
      assert (W : forall x, wdesc w h x -> wdesc w g x).
      { intros x. unfold wdesc. apply SS_impl. intros a b. rewrite !(same_node_at _ _ S). auto. }
      destruct HK as [[<-|HK]|HK]; [right|left; auto|right].
      * unfold h1. rewrite group_at_upd, Nat.eqb_refl. simpl.
        destruct (Nat.ltb_spec G (length (gr_groups h))); simpl.
        -- apply W, node_sort_desc.
        -- unfold group_at. rewrite nth_overflow by auto. simpl. constructor.
      * unfold h1. rewrite group_at_upd. destruct (Nat.eqb_spec K G); simpl; auto.
        destruct (Nat.ltb _ _); subst; auto. simpl. apply W, node_sort_desc.
Qed.

Lemma qsum_perm l l' : Permutation l l' -> qsum l == qsum l'.
Proof.
  induction 1; simpl; lra.
Qed.

Lemma group_weight_same w g h G : same g h -> group_weight w h G == group_weight w g G.
Proof.
  intros S. unfold group_weight. pose proof (sm_gn _ _ S G) as P.
  assert (E : map (fun n => node_weight w (node_at h n)) (g_nodes (group_at h G)) =
              map (fun n => node_weight w (node_at g n)) (g_nodes (group_at h G))).
  { apply map_ext. intros a. now rewrite (same_node_at _ _ S). }
  destruct (g_nodes (group_at h G)) as [|x l].
  - apply Permutation_nil in P. rewrite P. reflexivity.
  - destruct (g_nodes (group_at g G)) as [|y l']; [apply Permutation_sym, Permutation_nil in P; discriminate|].
    rewrite E, (Permutation_length P).
    rewrite (qsum_perm _ _ (Permutation_map (fun n => node_weight w (node_at g n)) P)). reflexivity.
Qed.

Lemma condition_same w g : same g (condition w g).
Proof.
  unfold condition. destruct (cond_nodes_spec w g (gr_req g) g (same_refl g)) as (S & R & _).
  { intros x; auto. }
  fold (condition_nodes w g) in S, R.
  destruct S. constructor; auto. simpl. rewrite sort_perm. auto.
Qed.

Lemma condition_groups w g : gr_groups (condition w g) = gr_groups (condition_nodes w g).
Proof. reflexivity. Qed.

Lemma condition_nodes_desc w g G : In G (gr_req g) -> wdesc w g (g_nodes (group_at (condition w g) G)).
Proof.
  intros H. destruct (cond_nodes_spec w g (gr_req g) g (same_refl g)) as (S & R & D).
  { intros x; auto. }
  apply D. auto.
Qed.

Lemma condition_groups_desc w g :
  StronglySorted (fun x y => group_weight w g y <= group_weight w g x) (gr_req (condition w g)).
Proof.
  unfold condition. cbn [gr_req set_req].
  destruct (cond_nodes_spec w g (gr_req g) g (same_refl g)) as (S & R & _).
  { intros x; auto. }
  fold (condition_nodes w g) in S, R.
  eapply SS_impl; [|apply sort_sorted, swo_group_comp].
  intros x y. unfold nb, group_comp. rewrite <- !(group_weight_same w _ _ _ S).
  destruct (Qltb_spec (group_weight w (condition_nodes w g) x) (group_weight w (condition_nodes w g) y));
    [discriminate|]. intros _. lra.
Qed.

(** ** Well-built graphs stay well built *)
Section WBP.
Variables (fd : Q -> Q -> Q) (g h : graph).
Hypothesis S : same g h.
Let NA := same_node_at _ _ S.

Lemma same_unode a : unode h a = unode g a. Proof. apply NA. Qed.
Lemma same_vnode a : vnode h a = vnode g a. Proof. apply NA. Qed.
Lemma same_ugroup a : ugroup h a = ugroup g a. Proof. unfold ugroup. now rewrite same_unode. Qed.
Lemma same_vgroup a : vgroup h a = vgroup g a. Proof. unfold vgroup. now rewrite same_vnode. Qed.
Lemma same_uunit a i : uunit h a i = uunit g a i. Proof. unfold uunit. now rewrite same_unode. Qed.
Lemma same_vunit a i : vunit h a i = vunit g a i. Proof. unfold vunit. now rewrite same_vnode. Qed.

Lemma same_wb : well_built fd g -> well_built fd h.
Proof.
  intros [A B C D E F G H I].
  assert (RI : forall x, In x (gr_req h) <-> In x (gr_req g)).
  { intros x; split; apply Permutation_in; [|symmetry]; apply S. }
  assert (NI : forall K x, In x (g_nodes (group_at h K)) <-> In x (g_nodes (group_at g K))).
  { intros K x; split; apply Permutation_in; [|symmetry]; apply S. }
  constructor.
  - intros a. rewrite (sm_arcs _ _ S). intros Ha. destruct (A a Ha) as (GU & GV & X).
    exists GU, GV. rewrite same_ugroup, same_vgroup, same_unode, same_vnode, !(sm_caps _ _ S),
      (sm_sup _ _ S), RI, !NI. auto.
  - intros K n HK Hn. rewrite NA. apply B; [apply RI|apply NI]; auto.
  - intros K HK. eapply Permutation_NoDup; [symmetry; apply S|]. apply C. apply RI; auto.
  - intros K HK. rewrite (sm_sup _ _ S). apply D. apply RI; auto.
  - eapply Permutation_NoDup; [symmetry; apply S|]. auto.
  - intros K i c. rewrite (sm_caps _ _ S). apply F.
  - intros n. rewrite NA. auto.
  - intros K HK. rewrite (sm_qty _ _ S). apply H, RI; auto.
  - rewrite (sm_ms _ _ S). auto.
Qed.

Lemma sum_over_ext ms f f' : (forall a q, f a q = f' a q) -> sum_over ms f = sum_over ms f'.
Proof. intros E. unfold sum_over. f_equal. apply map_ext. intros [a q]. apply E. Qed.

Lemma same_on_group ms G : on_group h ms G = on_group g ms G.
Proof. apply sum_over_ext. intros. now rewrite same_ugroup. Qed.
Lemma same_uload ms G i : uload h ms G i = uload g ms G i.
Proof. apply sum_over_ext. intros. now rewrite same_ugroup, same_uunit. Qed.
Lemma same_vload ms G i : vload h ms G i = vload g ms G i.
Proof. apply sum_over_ext. intros. now rewrite same_vgroup, same_vunit. Qed.

Lemma same_room ms a q : room h ms a q <-> room g ms a q.
Proof.
  unfold room. rewrite same_unode, same_vnode, same_ugroup, same_vgroup.
  split; intros (A & B & C & D); (split; [auto|split; [auto|split]]).
  - intros G i c HG Hc. rewrite <- same_vload, <- same_vunit. eapply C; eauto.
    now rewrite (sm_caps _ _ S).
  - intros G HG Hc. destruct (D G HG) as [i [c [X Y]]]; [now rewrite (sm_caps _ _ S)|].
    rewrite (sm_caps _ _ S) in X. exists i, c. rewrite <- same_uload, <- same_uunit. auto.
  - intros G i c HG Hc. rewrite same_vload, same_vunit. eapply C; eauto.
    now rewrite <- (sm_caps _ _ S).
  - intros G HG Hc. destruct (D G HG) as [i [c [X Y]]]; [now rewrite <- (sm_caps _ _ S)|].
    rewrite <- (sm_caps _ _ S) in X. exists i, c. rewrite same_uload, same_uunit. auto.
Qed.

End WBP.

(** ** Reversing the weights *)
Lemma wmin_le w : forall x, wmin x w <= x /\ Forall (fun p => wmin x w <= snd p) w.
Proof.
  induction w as [|[k y] t IH]; intros x; simpl; [split; [lra|constructor]|].
  destruct (Qltb_spec y x); destruct (IH (if Qltb y x then y else x)) as [A B].
  - destruct (Qltb_spec y x); [|lra]. destruct (IH y). split; [lra|]. constructor; simpl; auto.
  - destruct (IH x). split; auto. constructor; simpl; auto. lra.
Qed.
Lemma wmax_ge w : forall x, x <= wmax x w /\ Forall (fun p => snd p <= wmax x w) w.
Proof.
  induction w as [|[k y] t IH]; intros x; simpl; [split; [lra|constructor]|].
  destruct (Qltb_spec x y).
  - destruct (IH y). split; [lra|]. constructor; simpl; auto.
  - destruct (IH x). split; auto. constructor; simpl; auto. lra.
Qed.

Lemma wlookup_rev K (w : weights) c : In c (map fst w) ->
  wlookup c (map (fun p => (fst p, K - snd p)) w) == K - wlookup c w.
Proof.
  induction w as [|[k x] t IH]; simpl; [tauto|]. intros H.
  destruct (String.eqb_spec c k); [lra|]. apply IH. destruct H; auto. congruence.
Qed.

Lemma wlookup_In (w : weights) c : In c (map fst w) -> exists p, In p w /\ snd p = wlookup c w.
Proof.
  induction w as [|[k x] t IH]; simpl; [tauto|]. intros H.
  destruct (String.eqb_spec c k).
  - exists (k, x). auto.
  - destruct IH as [p [A B]]; [destruct H; auto; congruence|]. exists p. auto.
Qed.

Lemma process_rev_lookup (w : weights) c : In c (map fst w) ->
  exists K, wlookup c (process_weights true w) == K - wlookup c w /\
    forall d, In d (map fst w) -> wlookup d (process_weights true w) == K - wlookup d w.
Proof.
  destruct w as [|[k x] t]; [intros []|]. intros H. unfold process_weights.
  exists (wmax x t + wmin x t). split; [|intros d Hd]; apply wlookup_rev; auto.
Qed.

Lemma process_rev_range (w : weights) c : In c (map fst w) ->
  (forall d, In d (map fst w) -> 0 <= wlookup d w) -> NoDup (map fst w) ->
  0 <= wlookup c (process_weights true w).
Proof.
  intros H P ND.
  assert (PP : forall p, In p w -> 0 <= snd p).
  { clear H c. induction w as [|[k x] t IH]; [intros p []|].
    inversion ND; subst. intros p [<-|Hp].
    - specialize (P k). simpl in P. rewrite String.eqb_refl in P. simpl. apply P. auto.
    - apply IH; auto. intros d Hd. specialize (P d (or_intror Hd)). simpl in P.
      destruct (String.eqb_spec d k); auto. subst. simpl in H1. tauto. }
  destruct w as [|[k x] t]; [destruct H|].
  destruct (wmax_ge t x) as [A B].
  assert (M : 0 <= wmin x t).
  { assert (X : 0 <= x) by (apply (PP (k, x)); left; auto).
    assert (Y : forall p, In p t -> 0 <= snd p) by (intros p Hp; apply PP; right; auto).
    clear - X Y. revert x X. induction t as [|[k y] t IH]; simpl; auto. intros x X.
    apply IH; [intros p Hp; apply Y; right; auto|].
    destruct (Qltb y x); auto. apply (Y (k, y)). left; auto. }
  unfold process_weights. rewrite (wlookup_rev (wmax x t + wmin x t) ((k, x) :: t)); auto.
  destruct (wlookup_In _ _ H) as [p [Hp <-]].
  assert (snd p <= wmax x t).
  { destruct Hp as [<-|Hp]; simpl; auto. rewrite Forall_forall in B. auto. }
  lra.
Qed.
