(** * Proofs for C52: what every feasible solution respects, and what a cheapest one does. *)
From Coq Require Import String QArith List Bool Arith ZArith Lia Lqa Permutation.
From Verif Require Import Base GreedyModel GreedySpec ProgModel ProgSpec ProgProofs1 ProgProofs2.
Import ListNotations.
Open Scope Q_scope.

Lemma combine_nth_in {A B} (l : list A) (m : list B) i a b : nth_error l i = Some a -> nth_error m i = Some b ->
  In (a, b) (combine l m).
Proof.
  revert m i. induction l as [|x t IH]; intros m i H K; [destruct i; discriminate|]. destruct m as [|y s]; [destruct i; discriminate|].
  destruct i; cbn in *; [injection H as <-; injection K as <-; now left|]. right. eapply IH; eauto.
Qed.

Section Feasible.
Variables (g : graph) (excl : bool) (pseudo : Q) (p : lp) (sol : nat -> Q) (eps : Q).
Hypothesis PR : prog_ready g.
Hypothesis TP : to_prog g excl pseudo = Ok p.
Hypothesis FE : feasible p sol.
Hypothesis He : 0 <= eps.
Let ND := pr_keys _ PR.
Let ms := prog_matches eps excl g sol.
Local Notation n := (length (gr_arcs g)).
Local Notation RG := (filter (fun G => has_arcs g (group_at g G)) (gr_req g)).

Lemma prog_facts :
  (forall a, In a (gr_arcs g) -> 0 < pref_of (unode g a) a) /\
  lp_ncols p = (n + length RG)%nat /\
  (forall a, In a (gr_arcs g) -> lp_col p (arc_id g (akey a)) = acol g excl a) /\
  (forall i, (n <= i < n + length RG)%nat -> lp_col p i = mkLCol pseudo 0 None) /\
  lp_rows p = sup_rows g excl (gr_sup g) ++ req_rows g excl RG n /\
  lp_int p = (if excl then map (fun a => arc_id g (akey a)) (filter a_excl (gr_arcs g)) else []).
Proof. pose proof (to_prog_ok g excl PR pseudo) as K. rewrite TP in K. exact K. Qed.
Lemma sol_bounds a : In a (gr_arcs g) -> 0 <= sol (arc_id g (akey a)) /\ within (sol (arc_id g (akey a))) (arc_ub g excl a).
Proof.
  intros Ha. destruct prog_facts as (_ & N & C & _). destruct FE as (F1 & _).
  specialize (F1 (arc_id g (akey a))). rewrite (C a Ha) in F1. apply F1. rewrite N. pose proof (arc_id_lt g a ND Ha). lia.
Qed.
Lemma flow_nonneg a : In a (gr_arcs g) -> 0 <= flow excl a (sol (arc_id g (akey a))).
Proof.
  intros Ha. pose proof (sol_bounds a Ha) as (B & _). unfold flow. destruct (excl && a_excl a); [|exact B].
  apply Qmult_le_0_compat; [exact B|apply (pr_val _ PR); auto].
Qed.
Lemma alookup_entry k (m : list ((nat * nat) * list Q)) q : In q (alookup [] k m) -> exists e, In e m /\ In q (snd e).
Proof.
  induction m as [|[k' v] t IH]; cbn; [contradiction|]. destruct (keyb k k').
  - intros I. exists (k', v). split; [now left|exact I].
  - intros I. destruct (IH I) as (e & A & B). exists e. split; [now right|auto].
Qed.
Lemma unit_nonneg nd a j : 0 <= unit_at g nd a j.
Proof.
  unfold unit_at, ucaps_of. destruct (nth_in_or_default j (alookup [] (akey a) (n_ucaps (node_at g (nd (akey a))))) 0) as [I|E]; [|rewrite E; lra].
  destruct (alookup_entry _ _ _ I) as (e & A & B). apply Qlt_le_weak. exact (pr_pos _ PR _ e _ A B).
Qed.

(** Sum over the matches of a group's constraint is at most the row. *)
Lemma load_le_row nd G j : (j < length (g_caps (group_at g G)))%nat ->
  sum_over ms (fun a q => if here g G nd a then q * unit_at g nd a j else 0) <=
  qsum (map (fun a => unit_at g nd a j * flow excl a (sol (arc_id g (akey a)))) (filter (here g G nd) (gr_arcs g))).
Proof.
  intros Hj. unfold ms. rewrite sum_matches by auto. rewrite qsum_filter. apply qsum_map_le. intros a Ha. cbv zeta.
  pose proof (flow_nonneg a Ha) as F. pose proof (unit_nonneg nd a j) as U. set (q := flow excl a _) in *. set (u := unit_at g nd a j) in *.
  destruct (Qltb eps q); destruct (here g G nd a); nra.
Qed.

(** T1 *)
Lemma supply_respected G j c : In G (gr_sup g) -> nth_error (g_caps (group_at g G)) j = Some c -> within (vload g ms G j) c.
Proof.
  intros HG Hc. destruct prog_facts as (_ & _ & _ & _ & R & _). destruct FE as (_ & F2 & _).
  assert (Hj : (j < length (g_caps (group_at g G)))%nat) by (apply nth_error_Some; congruence).
  assert (I : In (cap_row g excl false (group_at g G) 0 j c) (lp_rows p)).
  { rewrite R, in_app_iff. left. apply in_sup_rows. exists G. split; [auto|]. left. apply in_cap_rows. exists j, c. auto. }
  destruct (F2 _ I) as (_ & W). cbn in W. destruct c as [c|]; [|exact W]. cbn in *.
  rewrite (sup_row_sum g excl PR G HG j sol Hj) in W. eapply Qle_trans; [|exact W].
  exact (load_le_row snd G j Hj).
Qed.

(** T2, T4 *)
Lemma match_basic a q : In (a, q) ms -> In a (gr_arcs g) /\ eps < q /\ 0 < pref_of (unode g a) a.
Proof.
  intros H. destruct (in_matches _ _ _ _ _ _ ND H) as (A & B & C). destruct prog_facts as (P & _). auto.
Qed.
Lemma match_qty a q : In (a, q) ms -> excl && a_excl a = false -> q <= n_qty (unode g a).
Proof.
  intros H E. destruct (in_matches _ _ _ _ _ _ ND H) as (A & B & C). pose proof (sol_bounds a A) as (_ & W).
  unfold arc_ub in W. unfold flow in B. rewrite E in *. cbn in W. subst q. exact W.
Qed.
Lemma int_arc a : In a (gr_arcs g) -> excl && a_excl a = true -> exists z, sol (arc_id g (akey a)) == inject_Z z.
Proof.
  intros Ha E. apply andb_true_iff in E. destruct E as (E1 & E2). destruct prog_facts as (_ & _ & _ & _ & _ & I).
  destruct FE as (_ & _ & F3). apply F3. rewrite I, E1. apply in_map_iff. exists a. split; [auto|]. apply filter_In. auto.
Qed.
Lemma excl_one a q : In (a, q) ms -> excl && a_excl a = true -> sol (arc_id g (akey a)) == 1.
Proof.
  intros H E. destruct (in_matches _ _ _ _ _ _ ND H) as (A & B & C). destruct (int_arc a A E) as (z & Z).
  pose proof (sol_bounds a A) as (L & W). unfold arc_ub in W. rewrite E in W. cbn in W. unfold flow in B. rewrite E in B.
  pose proof (pr_val _ PR a A) as V. set (s := sol (arc_id g (akey a))) in *.
  assert (S : 0 < s). { destruct (Qlt_le_dec 0 s) as [D|D]; [exact D|]. exfalso. assert (s == 0) by lra. rewrite B in C. nra. }
  rewrite Z in *. change 0 with (inject_Z 0) in S. change 1 with (inject_Z 1) in W. rewrite <- Zlt_Qlt in S. rewrite <- Zle_Qle in W.
  assert (z = 1)%Z by lia. now subst.
Qed.
Lemma match_excl a q : In (a, q) ms -> excl && a_excl a = true -> q == a_exclval a.
Proof.
  intros H E. pose proof (excl_one a q H E) as O. destruct (in_matches _ _ _ _ _ _ ND H) as (A & B & C).
  unfold flow in B. rewrite E in B. rewrite B, O. ring.
Qed.
Lemma matches_once : NoDup (map fst ms).
Proof.
  unfold ms. rewrite from_prog_flat by auto. pose proof ND as N0. clear - N0.
  set (f := fun a => _). assert (K : forall a x, In x (map fst (f a)) -> x = a).
  { intros a x H. unfold f in H. destruct (Qltb _ _); cbn in H; [destruct H as [<-|[]]; auto|contradiction]. }
  assert (K2 : forall a, NoDup (map fst (f a))).
  { intros a. unfold f. destruct (Qltb _ _); cbn; repeat constructor; auto. }
  clearbody f. induction (gr_arcs g) as [|a t IH]; cbn; [constructor|]. rewrite map_app.
  inversion N0 as [|x y N1 N2]; subst. apply nodup_app; auto. intros x Hx Hy. apply K in Hx. subst x. apply N1.
  apply in_map_iff in Hy. destruct Hy as ([b q] & E & Hb). cbn in E. subst b. apply in_flat_map in Hb. destruct Hb as (c & Hc & Hb).
  apply (in_map fst) in Hb. apply K in Hb. cbn in Hb. subst. now apply in_map.
Qed.

(** T3 *)
Lemma excl_group G ns a1 q1 a2 q2 : excl = true -> In G (gr_req g ++ gr_sup g) -> In ns (g_excl (group_at g G)) ->
  In (a1, q1) ms -> In (a2, q2) ms -> touches a1 ns -> touches a2 ns -> a1 = a2.
Proof.
  intros EX HG Hns H1 H2 T1 T2. destruct (in_matches _ _ _ _ _ _ ND H1) as (A1 & _). destruct (in_matches _ _ _ _ _ _ ND H2) as (A2 & _).
  assert (DEC : {akey a1 = akey a2} + {akey a1 <> akey a2}) by (exact (reflect_dec _ _ (keyb_spec _ _))).
  destruct DEC as [E|N]; [now apply (akey_inj g)|]. exfalso.
  assert (X : forall a, In a (gr_arcs g) -> touches a ns -> excl && a_excl a = true).
  { intros a Ha T. rewrite EX. cbn. rewrite (pr_exarc _ PR a Ha). destruct T as [T|T];
    destruct (pr_excl _ PR G ns _ HG Hns T) as (_ & Q); rewrite Q; [reflexivity|apply orb_true_r]. }
  set (es := flat_map (fun n => map (fun a => (arc_id g (akey a), 1)) (arcs_of g n)) ns).
  assert (IE : forall a, In a (gr_arcs g) -> touches a ns -> In (arc_id g (akey a), 1) es).
  { intros a Ha T. unfold es. apply in_flat_map. destruct T as [T|T]; [exists (a_u a)|exists (a_v a)]; (split; [exact T|]);
      (apply in_map_iff; exists a; split; [reflexivity|]); unfold arcs_of; apply in_flat_map; exists a; (split; [exact Ha|]);
      rewrite Nat.eqb_refl; apply in_or_app; [left|right]; now left. }
  assert (ES : forall e, In e es -> exists a, In a (gr_arcs g) /\ e = (arc_id g (akey a), 1)).
  { intros e H. unfold es in H. apply in_flat_map in H. destruct H as (m & _ & H). apply in_map_iff in H. destruct H as (a & <- & H).
    exists a. split; [|reflexivity]. unfold arcs_of in H. apply in_flat_map in H. destruct H as (b & Hb & H).
    apply in_app_or in H. destruct H as [H|H]; destruct (Nat.eqb _ _); cbn in H; try contradiction; destruct H as [<-|[]]; auto. }
  assert (R : In (mkLRow es 0 (Some 1)) (lp_rows p)).
  { assert (R1 : In (mkLRow es 0 (Some 1)) (excl_rows g (group_at g G))).
    { unfold excl_rows. apply in_flat_map. exists ns. split; [auto|]. unfold excl_row. fold es.
      pose proof (IE a1 A1 T1) as I. destruct es; [contradiction|now left]. }
    destruct prog_facts as (_ & _ & _ & _ & R & _). rewrite R, in_app_iff. apply in_app_or in HG. destruct HG as [HG|HG].
    - right. apply in_req_rows. 
      assert (HR : In G RG).
      { destruct (arc_has g PR a1 A1) as (GU & B1 & _ & B3). destruct (pr_arc _ PR a1 A1) as (GU' & GV & C1 & C2 & C3 & C4 & _).
        destruct T1 as [T|T]; destruct (pr_excl _ PR G ns _ (req_in g G HG) Hns T) as (Q & _).
        - assert (GU = G); [|now subst]. apply filter_In in B1. destruct B1 as (B1 & _).
          apply (same_group g PR _ _ (a_u a1)); auto using req_in.
        - exfalso. assert (GV = G) by (apply (same_group g PR _ _ (a_v a1)); auto using req_in, sup_in). subst GV.
          pose proof (pr_groups _ PR) as PG. apply in_split in HG. destruct HG as (l1 & l2 & E). rewrite E in PG.
          rewrite <- app_assoc in PG. cbn in PG. apply NoDup_remove_2 in PG. apply PG. rewrite !in_app_iff. auto. }
      apply In_nth_error in HR. destruct HR as (m & HR). exists m, G. split; [exact HR|]. right. auto.
    - left. apply in_sup_rows. exists G. split; [auto|]. right. auto. }
  destruct FE as (_ & F2 & _). destruct (F2 _ R) as (_ & W). cbn in W. unfold row_val in W.
  pose proof (qsum_two (fun e : nat * Q => snd e * sol (fst e)) es (arc_id g (akey a1), 1) (arc_id g (akey a2), 1)) as Q.
  cbn in Q. assert (NN : (arc_id g (akey a1), 1) <> (arc_id g (akey a2), 1)).
  { intros E. apply (f_equal fst) in E. cbn in E. apply (arc_id_inj g) in E; auto. congruence. }
  assert (PS : forall e, In e es -> 0 <= snd e * sol (fst e)).
  { intros e He'. destruct (ES e He') as (a & Ha & ->). cbn. pose proof (sol_bounds a Ha). lra. }
  specialize (Q PS (IE a1 A1 T1) (IE a2 A2 T2) NN).
  rewrite (excl_one a1 q1 H1 (X a1 A1 T1)) in Q. rewrite (excl_one a2 q2 H2 (X a2 A2 T2)) in Q. lra.
Qed.
End Feasible.

(** T5 *)
Lemma prog_refuses g excl pseudo : prog_ready g ->
  (to_prog g excl pseudo = Throw ValueError /\ exists a, In a (gr_arcs g) /\ pref_of (unode g a) a <= 0) \/
  (exists p, to_prog g excl pseudo = Ok p /\ forall a, In a (gr_arcs g) -> 0 < pref_of (unode g a) a).
Proof.
  intros PR. pose proof (to_prog_ok g excl PR pseudo) as K. destruct (to_prog g excl pseudo) as [p|e|]; [right|left|contradiction].
  - exists p. split; [reflexivity|]. apply K.
  - destruct K as (-> & K). auto.
Qed.
