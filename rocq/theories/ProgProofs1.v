(** * Proofs for C52: the rows and columns of the program. *)
From Coq Require Import String QArith List Bool Arith ZArith Lia Lqa Permutation.
From Verif Require Import Base GreedyModel GreedySpec ProgModel ProgSpec.
Import ListNotations.
Open Scope Q_scope.

(** ** Keys and ids *)
Lemma keyb_spec k l : reflect (k = l) (keyb k l).
Proof.
  unfold keyb. destruct k as [a b], l as [c d]. cbn. destruct (Nat.eqb_spec a c); cbn; [|constructor; congruence].
  destruct (Nat.eqb_spec b d); constructor; congruence.
Qed.
Lemma index_nth l : NoDup (map akey l) -> forall i a, nth_error l i = Some a -> index_of (akey a) l = Some i.
Proof.
  induction l as [|b t IH]; intros ND i a H; [destruct i; discriminate|]. inversion ND as [|x y N1 N2]; subst. cbn.
  destruct i as [|i]; cbn in H.
  - injection H as <-. destruct (keyb_spec (akey b) (akey b)); [reflexivity|congruence].
  - destruct (keyb_spec (akey a) (akey b)) as [E|E].
    + exfalso. apply N1. rewrite <- E. apply in_map. exact (nth_error_In _ _ H).
    + now rewrite (IH N2 i a H).
Qed.
Lemma arc_id_nth g i a : NoDup (map akey (gr_arcs g)) -> nth_error (gr_arcs g) i = Some a -> arc_id g (akey a) = i.
Proof. intros ND H. unfold arc_id. now rewrite (index_nth _ ND _ _ H). Qed.
Lemma arc_of_in g a : NoDup (map akey (gr_arcs g)) -> In a (gr_arcs g) -> arc_of g (akey a) = a.
Proof.
  intros ND H. destruct (In_nth_error _ _ H) as (i & Hi). unfold arc_of. rewrite (index_nth _ ND _ _ Hi).
  now apply nth_error_nth.
Qed.
Lemma arc_id_lt g a : NoDup (map akey (gr_arcs g)) -> In a (gr_arcs g) -> (arc_id g (akey a) < length (gr_arcs g))%nat.
Proof.
  intros ND H. destruct (In_nth_error _ _ H) as (i & Hi). rewrite (arc_id_nth g i a ND Hi).
  apply nth_error_Some. congruence.
Qed.
Lemma arc_id_inj g a b : NoDup (map akey (gr_arcs g)) -> In a (gr_arcs g) -> In b (gr_arcs g) ->
  arc_id g (akey a) = arc_id g (akey b) -> a = b.
Proof.
  intros ND Ha Hb E. destruct (In_nth_error _ _ Ha) as (i & Hi). destruct (In_nth_error _ _ Hb) as (j & Hj).
  rewrite (arc_id_nth g i a ND Hi), (arc_id_nth g j b ND Hj) in E. subst. congruence.
Qed.
Lemma akey_inj g a b : NoDup (map akey (gr_arcs g)) -> In a (gr_arcs g) -> In b (gr_arcs g) -> akey a = akey b -> a = b.
Proof. intros ND Ha Hb E. apply (arc_id_inj g); auto. now rewrite E. Qed.

Lemma nodup_app {A} (l m : list A) : NoDup l -> NoDup m -> (forall x, In x l -> ~ In x m) -> NoDup (l ++ m).
Proof.
  intros H K D. induction H as [|x t N1 N2 IH]; [exact K|]. cbn. constructor.
  - rewrite in_app_iff. intros [I|I]; [tauto|]. exact (D x (or_introl eq_refl) I).
  - apply IH. intros y Hy. apply D. now right.
Qed.

(** ** Sums *)
Lemma qsum_app l1 l2 : qsum (l1 ++ l2) == qsum l1 + qsum l2.
Proof. induction l1 as [|x t IH]; cbn; [lra|]. rewrite IH. lra. Qed.
Lemma qsum_map_ext {A} (f h : A -> Q) l : (forall a, In a l -> f a == h a) -> qsum (map f l) == qsum (map h l).
Proof.
  induction l as [|x t IH]; intros H; cbn; [lra|]. rewrite (H x) by (left; auto). rewrite IH by (intros; apply H; right; auto). lra.
Qed.
Lemma qsum_map_le {A} (f h : A -> Q) l : (forall a, In a l -> f a <= h a) -> qsum (map f l) <= qsum (map h l).
Proof.
  induction l as [|x t IH]; intros H; cbn; [lra|]. pose proof (H x (or_introl eq_refl)).
  assert (qsum (map f t) <= qsum (map h t)) by (apply IH; intros; apply H; right; auto). lra.
Qed.
Lemma qsum_filter {A} (p : A -> bool) (f : A -> Q) l : qsum (map f (filter p l)) == qsum (map (fun a => if p a then f a else 0) l).
Proof. induction l as [|x t IH]; cbn; [lra|]. destruct (p x); cbn; rewrite IH; lra. Qed.
Lemma qsum_nonneg {A} (f : A -> Q) l : (forall a, In a l -> 0 <= f a) -> 0 <= qsum (map f l).
Proof.
  induction l as [|x t IH]; intros H; cbn; [lra|]. pose proof (H x (or_introl eq_refl)).
  assert (0 <= qsum (map f t)) by (apply IH; intros; apply H; right; auto). lra.
Qed.
Lemma qsum_one {A} (f : A -> Q) l a : (forall a, In a l -> 0 <= f a) -> In a l -> f a <= qsum (map f l).
Proof.
  intros H Ha. induction l as [|x t IH]; [contradiction|]. cbn.
  assert (0 <= qsum (map f t)) by (apply qsum_nonneg; intros; apply H; right; auto).
  destruct Ha as [->|Ha]; [lra|]. pose proof (H x (or_introl eq_refl)).
  assert (f a <= qsum (map f t)) by (apply IH; [intros; apply H; right; auto|auto]). lra.
Qed.
Lemma qsum_two {A} (f : A -> Q) l a b : (forall a, In a l -> 0 <= f a) -> In a l -> In b l -> a <> b -> f a + f b <= qsum (map f l).
Proof.
  intros H Ha Hb N. induction l as [|x t IH]; [contradiction|]. cbn. pose proof (H x (or_introl eq_refl)) as Hx.
  assert (Ht : forall a, In a t -> 0 <= f a) by (intros; apply H; right; auto).
  destruct Ha as [->|Ha]; destruct Hb as [->|Hb]; [congruence| | |].
  - pose proof (qsum_one f t b Ht Hb). lra.
  - pose proof (qsum_one f t a Ht Ha). lra.
  - specialize (IH Ht Ha Hb). lra.
Qed.
Lemma qsum_flat_map {A B} (f : B -> Q) (h : A -> list B) l : qsum (map f (flat_map h l)) == qsum (map (fun a => qsum (map f (h a))) l).
Proof. induction l as [|x t IH]; cbn; [lra|]. rewrite map_app, qsum_app, IH. lra. Qed.

(** ** A solution as a list of flows; the matches *)
Lemma from_prog_flat eps excl g sol : NoDup (map akey (gr_arcs g)) ->
  prog_matches eps excl g sol =
  flat_map (fun a => let q := flow excl a (sol (arc_id g (akey a))) in if Qltb eps q then [(a, q)] else []) (gr_arcs g).
Proof.
  intros ND. unfold prog_matches.
  assert (K : forall l2 l1, gr_arcs g = l1 ++ l2 ->
    from_prog eps excl l2 (length l1) sol =
    flat_map (fun a => let q := flow excl a (sol (arc_id g (akey a))) in if Qltb eps q then [(a, q)] else []) l2).
  { induction l2 as [|a t IH]; intros l1 E; [reflexivity|]. cbn [from_prog flat_map].
    assert (Hi : nth_error (gr_arcs g) (length l1) = Some a).
    { rewrite E, nth_error_app2 by lia. now rewrite Nat.sub_diag. }
    rewrite (arc_id_nth g _ _ ND Hi). f_equal. specialize (IH (l1 ++ [a])). rewrite <- app_assoc in IH. specialize (IH E).
    rewrite app_length in IH. cbn in IH. rewrite Nat.add_1_r in IH. exact IH. }
  exact (K (gr_arcs g) [] eq_refl).
Qed.
Lemma in_matches eps excl g sol a q : NoDup (map akey (gr_arcs g)) -> In (a, q) (prog_matches eps excl g sol) ->
  In a (gr_arcs g) /\ q = flow excl a (sol (arc_id g (akey a))) /\ eps < q.
Proof.
  intros ND H. rewrite from_prog_flat in H by auto. apply in_flat_map in H. destruct H as (b & Hb & H). cbv zeta in H.
  destruct (Qltb_spec eps (flow excl b (sol (arc_id g (akey b))))); [|contradiction].
  destruct H as [H|[]]. injection H as <- <-. auto.
Qed.
Lemma sum_matches eps excl g sol f : NoDup (map akey (gr_arcs g)) ->
  sum_over (prog_matches eps excl g sol) f ==
  qsum (map (fun a => let q := flow excl a (sol (arc_id g (akey a))) in if Qltb eps q then f a q else 0) (gr_arcs g)).
Proof.
  intros ND. unfold sum_over. rewrite from_prog_flat by auto. rewrite qsum_flat_map. apply qsum_map_ext. intros a _. cbv zeta.
  destruct (Qltb eps _); cbn; lra.
Qed.
Lemma sum_flows g sol f : NoDup (map akey (gr_arcs g)) ->
  sum_over (flows g sol) f == qsum (map (fun a => f a (sol (arc_id g (akey a)))) (gr_arcs g)).
Proof.
  intros ND. unfold sum_over, flows.
  assert (K : forall l2 l1, gr_arcs g = l1 ++ l2 ->
    qsum (map (fun p => f (fst p) (snd p)) (combine l2 (map sol (seq (length l1) (length l2))))) ==
    qsum (map (fun a => f a (sol (arc_id g (akey a)))) l2)).
  { induction l2 as [|a t IH]; intros l1 E; [cbn; lra|]. cbn [length seq map combine fst snd qsum].
    assert (Hi : nth_error (gr_arcs g) (length l1) = Some a).
    { rewrite E, nth_error_app2 by lia. now rewrite Nat.sub_diag. }
    rewrite (arc_id_nth g _ _ ND Hi). specialize (IH (l1 ++ [a])). rewrite <- app_assoc in IH. specialize (IH E).
    rewrite app_length in IH. cbn in IH. rewrite Nat.add_1_r in IH. cbn. rewrite IH. lra. }
  exact (K (gr_arcs g) [] eq_refl).
Qed.

(** ** The capacity rows: sums over the arcs of the group *)
Lemma alookup_in {V} (d : V) k v m : NoDup (map fst m) -> In (k, v) m -> alookup d k m = v.
Proof.
  induction m as [|[k' v'] t IH]; intros ND H; [contradiction|]. inversion ND as [|x y N1 N2]; subst. cbn.
  destruct (keyb_spec k k') as [E|E].
  - subst. destruct H as [H|H]; [congruence|]. exfalso. apply N1. apply (in_map fst) in H. exact H.
  - destruct H as [H|H]; [congruence|auto].
Qed.
Lemma alookup_none {V} (d : V) k m : ~ In k (map fst m) -> alookup d k m = d.
Proof.
  induction m as [|[k' v'] t IH]; intros H; [reflexivity|]. cbn in *. destruct (keyb_spec k k') as [E|E]; [|auto].
  exfalso. apply H. auto.
Qed.

Section Side.
Variables (g : graph) (excl : bool) (G : nat).
Hypothesis PR : prog_ready g.
(** [nd] selects the end of the arc on this side. *)
Variable nd : nat * nat -> nat.
Hypothesis HG : In G (gr_req g ++ gr_sup g).
Hypothesis Hkeys : forall n k, In n (g_nodes (group_at g G)) -> In k (map fst (n_ucaps (node_at g n))) ->
  exists a, In a (gr_arcs g) /\ akey a = k /\ nd k = n.
(** Every arc with an end in this group has as many unit capacities as the group has capacities. *)
Hypothesis Hlen : forall a, In a (gr_arcs g) -> In (nd (akey a)) (g_nodes (group_at g G)) ->
  length (ucaps_of (node_at g (nd (akey a))) a) = length (g_caps (group_at g G)).
Definition here (a : arc) : bool := is_group (n_group (node_at g (nd (akey a)))) G.
Hypothesis Hhere : forall a, In a (gr_arcs g) -> here a = true -> In (nd (akey a)) (g_nodes (group_at g G)).
Definition unit_at (a : arc) (j : nat) : Q := nth j (ucaps_of (node_at g (nd (akey a))) a) 0.
Let gr := group_at g G.
Definition keys_here : list (nat * nat) := flat_map (fun n => map fst (n_ucaps (node_at g n))) (g_nodes gr).

Lemma here_in a : In a (gr_arcs g) -> here a = true <-> In (nd (akey a)) (g_nodes gr).
Proof.
  intros Ha. split; [apply Hhere; auto|]. intros H. unfold here. rewrite (pr_group _ PR G _ HG H). cbn. apply Nat.eqb_refl.
Qed.
Lemma keys_nodup : NoDup keys_here.
Proof.
  unfold keys_here. pose proof (pr_nodes _ PR G HG) as ND. fold gr in ND.
  assert (S : forall n, In n (g_nodes gr) -> In n (g_nodes (group_at g G))) by auto. revert ND S.
  generalize (g_nodes gr). induction l as [|n t IH]; intros ND S; cbn; [constructor|]. inversion ND as [|x y N1 N2]; subst.
  apply nodup_app; [apply (pr_ukeys _ PR)|apply IH; auto; intros; apply S; right; auto|].
  intros k Hk Hk2. apply in_flat_map in Hk2. destruct Hk2 as (m & Hm & Hk2).
  destruct (Hkeys n k (S n (or_introl eq_refl)) Hk) as (a & _ & _ & E1).
  destruct (Hkeys m k (S m (or_intror Hm)) Hk2) as (b & _ & _ & E2). apply N1. congruence.
Qed.
Lemma keys_perm j : (j < length (g_caps gr))%nat -> Permutation keys_here (map akey (filter here (gr_arcs g))).
Proof.
  intros Hj. apply NoDup_Permutation; [apply keys_nodup| |].
  - pose proof (pr_keys _ PR) as ND. clear - ND. induction (gr_arcs g) as [|a t IH]; cbn; [constructor|].
    inversion ND as [|x y N1 N2]; subst. destruct (here a); cbn; [|auto]. constructor; [|auto].
    intros H. apply N1. apply in_map_iff in H. destruct H as (b & E & Hb). apply filter_In in Hb. rewrite <- E. apply in_map. tauto.
  - intros k. split.
    + intros H. unfold keys_here in H. apply in_flat_map in H. destruct H as (n & Hn & Hk).
      destruct (Hkeys n k Hn Hk) as (a & Ha & E & E2). apply in_map_iff. exists a. split; [auto|]. apply filter_In. split; [auto|].
      apply here_in; auto. rewrite E, E2. exact Hn.
    + intros H. apply in_map_iff in H. destruct H as (a & E & Ha). apply filter_In in Ha. destruct Ha as (Ha & Hh).
      apply here_in in Hh; [|auto]. unfold keys_here. apply in_flat_map. exists (nd (akey a)). split; [auto|].
      pose proof (Hlen a Ha Hh) as L. unfold ucaps_of in L. rewrite <- E.
      destruct (in_dec (fun x y => reflect_dec _ _ (keyb_spec x y)) (akey a) (map fst (n_ucaps (node_at g (nd (akey a)))))) as [I|I]; [exact I|].
      rewrite (alookup_none _ _ _ I) in L. cbn in L. fold gr in L. lia.
Qed.
Lemma cap_row_sum j sol : (j < length (g_caps gr))%nat ->
  row_val (cap_entries g excl gr j) sol ==
  qsum (map (fun a => unit_at a j * flow excl a (sol (arc_id g (akey a)))) (filter here (gr_arcs g))).
Proof.
  intros Hj.
  set (F := fun k => coeff g excl k (nth j (alookup [] k (n_ucaps (node_at g (nd k)))) 0) * sol (arc_id g k)).
  transitivity (qsum (map F keys_here)).
  - unfold row_val, cap_entries, keys_here. rewrite !qsum_flat_map. apply qsum_map_ext. intros n Hn.
    rewrite qsum_flat_map. rewrite map_map. apply qsum_map_ext. intros [k uc] He. cbn [fst snd].
    pose proof (pr_len _ PR G n _ HG Hn He) as L. cbn in L.
    destruct (nth_error uc j) as [u|] eqn:U; [|apply nth_error_None in U; fold gr in L; lia].
    assert (Hk : In k (map fst (n_ucaps (node_at g n)))) by (apply (in_map fst) in He; exact He).
    destruct (Hkeys n k Hn Hk) as (a & _ & _ & E2). unfold F. rewrite E2.
    rewrite (alookup_in [] k uc _ (pr_ukeys _ PR n) He). rewrite (nth_error_nth _ _ 0 U). cbn. lra.
  - rewrite (qsum_perm _ _ (Permutation_map F (keys_perm j Hj))). rewrite map_map. apply qsum_map_ext.
    intros a Ha. apply filter_In in Ha. destruct Ha as (Ha & _). unfold F, coeff, flow, unit_at, ucaps_of.
    rewrite (arc_of_in g a (pr_keys _ PR) Ha). destruct (excl && a_excl a); ring.
Qed.
(** A flow on an arc whose column is in the row belongs to the group. *)
Lemma cap_entry_here j e : In e (cap_entries g excl gr j) ->
  exists a, In a (gr_arcs g) /\ here a = true /\ fst e = arc_id g (akey a) /\
    exists u, 0 < u /\ snd e = coeff g excl (akey a) u.
Proof.
  intros H. unfold cap_entries in H. apply in_flat_map in H. destruct H as (n & Hn & H). apply in_flat_map in H.
  destruct H as ([k uc] & He & H). cbn in H. destruct (nth_error uc j) as [u|] eqn:U; [|contradiction].
  destruct H as [<-|[]]. assert (Hk : In k (map fst (n_ucaps (node_at g n)))) by (apply (in_map fst) in He; exact He).
  destruct (Hkeys n k Hn Hk) as (a & Ha & E & E2). exists a. split; [auto|]. split.
  - apply here_in; auto. rewrite E, E2. exact Hn.
  - rewrite E. split; [reflexivity|]. exists u. split; [|reflexivity].
    exact (pr_pos _ PR n _ u He (nth_error_In _ _ U)).
Qed.
End Side.
