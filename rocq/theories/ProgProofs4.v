(** * Proofs for C52: cheapest solutions. *)
From Coq Require Import String QArith List Bool Arith ZArith Lia Lqa Permutation.
From Verif Require Import Base GreedyModel GreedySpec ProgModel ProgSpec ProgProofs1 ProgProofs2 ProgProofs3.
Import ListNotations.
Open Scope Q_scope.

(** ** Changing one column *)
Definition cof (es : list (nat * Q)) (i : nat) : Q := qsum (map (fun e => if Nat.eqb (fst e) i then snd e else 0) es).
Lemma row_val_set es sol i v : row_val es (fset sol i v) == row_val es sol + (v - sol i) * cof es i.
Proof.
  unfold row_val, cof. induction es as [|e t IH]; cbn; [lra|]. rewrite IH. unfold fset at 1.
  destruct (Nat.eqb_spec (fst e) i) as [->|N]; ring.
Qed.
Lemma cof_app es fs i : cof (es ++ fs) i == cof es i + cof fs i.
Proof. unfold cof. rewrite map_app, qsum_app. reflexivity. Qed.
Lemma cof_zero es i : (forall e, In e es -> fst e <> i) -> cof es i == 0.
Proof.
  intros H. unfold cof. induction es as [|e t IH]; cbn; [lra|]. rewrite IH by (intros; apply H; now right).
  destruct (Nat.eqb_spec (fst e) i) as [E|_]; [|lra]. exfalso. exact (H e (or_introl eq_refl) E).
Qed.
Lemma cof_nonneg es i : (forall e, In e es -> 0 <= snd e) -> 0 <= cof es i.
Proof. intros H. apply qsum_nonneg. intros e He. cbv beta. destruct (Nat.eqb _ _); [auto|lra]. Qed.
Lemma cof_ge es e : (forall e, In e es -> 0 <= snd e) -> In e es -> snd e <= cof es (fst e).
Proof.
  intros H He. pose proof (qsum_one (fun x : nat * Q => if Nat.eqb (fst x) (fst e) then snd x else 0) es e) as Q.
  cbv beta in Q. rewrite Nat.eqb_refl in Q. apply Q; auto. intros x Hx. destruct (Nat.eqb _ _); [auto|lra].
Qed.
Lemma objective_set p sol i v : (i < lp_ncols p)%nat ->
  objective p (fset sol i v) == objective p sol + (v - sol i) * lc_obj (lp_col p i).
Proof.
  intros Hi. unfold objective.
  assert (K : forall l, NoDup l ->
    qsum (map (fun j => lc_obj (lp_col p j) * fset sol i v j) l) ==
    qsum (map (fun j => lc_obj (lp_col p j) * sol j) l) + (if in_dec Nat.eq_dec i l then (v - sol i) * lc_obj (lp_col p i) else 0)).
  { induction l as [|x t IH]; intros ND; [cbn; lra|]. inversion ND; subst. cbn [map qsum]. rewrite (IH H2). unfold fset at 1.
    destruct (in_dec Nat.eq_dec i t) as [I|I]; destruct (in_dec Nat.eq_dec i (x :: t)) as [J|J]; destruct (Nat.eqb_spec x i) as [E|E];
      subst; try contradiction; try (exfalso; apply J; now right); try (exfalso; apply J; now left);
      try (exfalso; destruct J as [J|J]; [congruence|contradiction]); try ring. }
  rewrite (K (seq 0 (lp_ncols p)) (seq_NoDup _ _)).
  destruct (in_dec Nat.eq_dec i (seq 0 (lp_ncols p))) as [I|I]; [reflexivity|]. exfalso; apply I; apply in_seq; lia.
Qed.
Lemma small_step (L : list (Q * Q)) : Forall (fun p => 0 <= fst p /\ 0 < snd p) L -> forall b, 0 < b ->
  exists d, 0 < d /\ d <= b /\ Forall (fun p => d * fst p <= snd p) L.
Proof.
  induction 1 as [|[c s] t (Hc & Hs) _ IH]; intros b Hb; [exists b; repeat split; [auto|lra|constructor]|]. cbn in *.
  assert (P : 0 < s / (c + 1)) by (apply Qlt_shift_div_l; lra).
  destruct (Qlt_le_dec b (s / (c + 1))) as [D|D].
  - destruct (IH b Hb) as (d & A & B & C). exists d. split; [auto|]. split; [auto|]. constructor; [|auto]. cbn.
    assert (E : s == s / (c + 1) * (c + 1)) by (field; lra). set (r := s / (c + 1)) in *. rewrite E. nra.
  - destruct (IH (s / (c + 1)) P) as (d & A & B & C). exists d. split; [auto|]. split; [lra|]. constructor; [|auto]. cbn.
    assert (E : s == s / (c + 1) * (c + 1)) by (field; lra). set (r := s / (c + 1)) in *. rewrite E. nra.
Qed.
Lemma fset_same {V} (f : nat -> V) i v : fset f i v i = v.
Proof. unfold fset. now rewrite Nat.eqb_refl. Qed.
Lemma fset_other {V} (f : nat -> V) i j v : j <> i -> fset f i v j = f j.
Proof. intros H. unfold fset. destruct (Nat.eqb_spec j i); [contradiction|reflexivity]. Qed.

Section Optimal.
Variables (g : graph) (pseudo : Q) (p : lp) (sol : nat -> Q).
Hypothesis PR : prog_ready g.
Hypothesis TP : to_prog g false pseudo = Ok p.
Hypothesis OP : optimal p sol.
Let ND := pr_keys _ PR.
Let FE : feasible p sol := proj1 OP.
Local Notation n := (length (gr_arcs g)).
Local Notation RG := (filter (fun G => has_arcs g (group_at g G)) (gr_req g)).
Local Notation id a := (arc_id g (akey a)).

Let PF := prog_facts g false pseudo p PR TP.

(** Rows of this program. *)
Lemma sup_rows_in r : In r (sup_rows g false (gr_sup g)) <-> exists G j c, In G (gr_sup g) /\
  nth_error (g_caps (group_at g G)) j = Some c /\ r = mkLRow (cap_entries g false (group_at g G) j) 0 c.
Proof.
  rewrite in_sup_rows. split.
  - intros (G & H & [K|(K & _)]); [|discriminate]. apply in_cap_rows in K. destruct K as (j & c & A & ->). exists G, j, c. auto.
  - intros (G & j & c & H & A & ->). exists G. split; [auto|]. left. apply in_cap_rows. exists j, c. auto.
Qed.
Lemma req_rows_in r : In r (req_rows g false RG n) <-> exists m G j c, nth_error RG m = Some G /\
  nth_error (g_caps (group_at g G)) j = Some c /\ r = mkLRow (cap_entries g false (group_at g G) j ++ [((n + m)%nat, 1)]) (row_lb c) None.
Proof.
  rewrite in_req_rows. split.
  - intros (m & G & H & [K|(K & _)]); [|discriminate]. apply in_cap_rows in K. destruct K as (j & c & A & ->). exists m, G, j, c. auto.
  - intros (m & G & j & c & H & A & ->). exists m, G. split; [auto|]. left. apply in_cap_rows. exists j, c. auto.
Qed.
Lemma coeff_false k u : coeff g false k u = u.
Proof. reflexivity. Qed.
Lemma RG_req m G : nth_error RG m = Some G -> In G (gr_req g).
Proof. intros H. apply nth_error_In, filter_In in H. tauto. Qed.
Lemma RG_inj m m' G : nth_error RG m = Some G -> nth_error RG m' = Some G -> m = m'.
Proof.
  intros H K. assert (N : NoDup RG).
  { apply NoDup_filter. pose proof (pr_groups _ PR) as P. clear - P. induction (gr_req g) as [|x t IH]; cbn in *; [constructor|].
    inversion P; subst. constructor; [rewrite in_app_iff in *; tauto|auto]. }
  pose proof (proj1 (NoDup_nth_error RG) N m m') as Q. apply Q; [apply nth_error_Some; congruence|congruence].
Qed.
Lemma sup_entry_id G j e : In G (gr_sup g) -> In e (cap_entries g false (group_at g G) j) ->
  (fst e < n)%nat /\ 0 < snd e /\ exists a, In a (gr_arcs g) /\ fst e = id a /\ vgroup g a = Some G.
Proof.
  intros HG He. destruct (sup_entry g false PR G HG j e He) as (a & A & B & C & u & D & E). rewrite C. split; [now apply arc_id_lt|].
  rewrite E, coeff_false. split; [auto|]. exists a. split; [auto|]. split; [auto|]. unfold here in B. unfold vgroup, vnode.
  cbn in B. unfold is_group in B. destruct (n_group (node_at g (a_v a))); [|discriminate]. apply Nat.eqb_eq in B. now subst.
Qed.
Lemma req_entry_id G j e : In G (gr_req g) -> In e (cap_entries g false (group_at g G) j) ->
  (fst e < n)%nat /\ 0 < snd e /\ exists a, In a (gr_arcs g) /\ fst e = id a /\ ugroup g a = Some G.
Proof.
  intros HG He. destruct (req_entry g false PR G HG j e He) as (a & A & B & C & u & D & E). rewrite C. split; [now apply arc_id_lt|].
  rewrite E, coeff_false. split; [auto|]. exists a. split; [auto|]. split; [auto|]. unfold here in B. unfold ugroup, unode.
  cbn in B. unfold is_group in B. destruct (n_group (node_at g (a_u a))); [|discriminate]. apply Nat.eqb_eq in B. now subst.
Qed.
Lemma price a : In a (gr_arcs g) -> lc_obj (lp_col p (id a)) == 1 / pref_of (unode g a) a.
Proof. intros Ha. destruct PF as (_ & _ & C & _). rewrite (C a Ha). reflexivity. Qed.
Lemma price_pos a : In a (gr_arcs g) -> 0 < lc_obj (lp_col p (id a)).
Proof.
  intros Ha. rewrite price by auto. destruct PF as (P & _). specialize (P a Ha). apply Qlt_shift_div_l; lra.
Qed.
Lemma id_col a : In a (gr_arcs g) -> (id a < lp_ncols p)%nat.
Proof. intros Ha. destruct PF as (_ & N & _). rewrite N. pose proof (arc_id_lt g a ND Ha). lia. Qed.
Lemma int_nil : lp_int p = [].
Proof. destruct PF as (_ & _ & _ & _ & _ & I). exact I. Qed.
Lemma uload_flows G j : In G (gr_req g) -> (j < length (g_caps (group_at g G)))%nat ->
  row_val (cap_entries g false (group_at g G) j) sol == uload g (flows g sol) G j.
Proof.
  intros HG Hj. rewrite (req_row_sum g false PR G HG j sol Hj). unfold uload. rewrite sum_flows by auto. rewrite qsum_filter.
  apply qsum_map_ext. intros a Ha. unfold here, ugroup, unode. cbn. destruct (is_group _ G); [|reflexivity].
  unfold unit_at, uunit, unode, flow. cbn. ring.
Qed.
Lemma vload_flows G j : In G (gr_sup g) -> (j < length (g_caps (group_at g G)))%nat ->
  row_val (cap_entries g false (group_at g G) j) sol == vload g (flows g sol) G j.
Proof.
  intros HG Hj. rewrite (sup_row_sum g false PR G HG j sol Hj). unfold vload. rewrite sum_flows by auto. rewrite qsum_filter.
  apply qsum_map_ext. intros a Ha. unfold here, vgroup, vnode. cbn. destruct (is_group _ G); [|reflexivity].
  unfold unit_at, vunit, vnode, flow. cbn. ring.
Qed.
Lemma ug_in a G : In a (gr_arcs g) -> ugroup g a = Some G -> In G (gr_req g) /\ exists m, nth_error RG m = Some G.
Proof.
  intros Ha H. destruct (arc_has g PR a Ha) as (GU & A & _ & B). assert (E : GU = G).
  { apply filter_In in A. destruct A as (A & _). pose proof (pr_group _ PR GU _ (req_in g _ A) B) as K. unfold ugroup, unode in H. congruence. }
  subst. split; [apply filter_In in A; tauto|]. now apply In_nth_error.
Qed.

(** A cheapest solution gives a request group no more than its loosest constraint. *)
Lemma not_over G a : In a (gr_arcs g) -> ugroup g a = Some G -> 0 < sol (id a) ->
  exists j c, nth_error (g_caps (group_at g G)) j = Some c /\ uload g (flows g sol) G j <= row_lb c.
Proof.
  intros Ha HU HP. destruct (ug_in a G Ha HU) as (HG & m & Hm). set (caps := g_caps (group_at g G)).
  destruct PF as (PF1 & PF2 & PF3 & PF4 & PF5 & PF6).
  assert (D : (exists j c, nth_error caps j = Some c /\ uload g (flows g sol) G j <= row_lb c) \/
              (forall j c, nth_error caps j = Some c -> row_lb c < uload g (flows g sol) G j)).
  { assert (K : forall l, (forall j, In j l -> exists c, nth_error caps j = Some c) ->
      (exists j c, nth_error caps j = Some c /\ uload g (flows g sol) G j <= row_lb c) \/
      (forall j c, In j l -> nth_error caps j = Some c -> row_lb c < uload g (flows g sol) G j)).
    { induction l as [|j t IH]; intros HJ; [right; intros j c []|]. destruct IH as [IH|IH]; [intros; apply HJ; now right|now left|].
      destruct (HJ j (or_introl eq_refl)) as (c & Hc). destruct (Qlt_le_dec (row_lb c) (uload g (flows g sol) G j)) as [L|L].
      - right. intros j' c' [<-|I] H; [|now apply IH]. congruence.
      - left. exists j, c. auto. }
    destruct (K (seq 0 (length caps))) as [L|R].
    - intros j Hj. apply in_seq in Hj. destruct (nth_error caps j) eqn:E; [eauto|]. apply nth_error_None in E. lia.
    - now left.
    - right. intros j c Hc. apply (R j c); [|auto]. apply in_seq. assert (j < length caps)%nat by (apply nth_error_Some; congruence). lia. }
  destruct D as [D|D]; [exact D|]. exfalso.
  assert (PSOL : forall b, In b (gr_arcs g) -> 0 <= sol (id b)) by (intros b Hb; apply (sol_bounds g false pseudo p sol PR TP FE b Hb)).
  assert (FX : forall i, (n <= i < n + length RG)%nat -> 0 <= sol i).
  { intros i Hi. destruct FE as (F1 & _). specialize (F1 i). rewrite (PF4 i Hi) in F1. apply F1. rewrite PF2. lia. }
  assert (Mlt : (m < length RG)%nat) by (apply nth_error_Some; congruence).
  (* slacks *)
  set (ent := fun j => cap_entries g false (group_at g G) j).
  destruct (small_step (map (fun j => (cof (ent j) (id a), uload g (flows g sol) G j -
               match nth_error caps j with Some c => row_lb c | None => 0 end)) (seq 0 (length caps)))) with (b := sol (id a))
    as (d & D1 & D2 & D3).
  { apply Forall_forall. intros q Hq. apply in_map_iff in Hq. destruct Hq as (j & <- & Hj). apply in_seq in Hj. cbn [fst snd].
    split; [apply cof_nonneg; intros e He; destruct (req_entry_id G j e HG He) as (_ & X & _); lra|].
    destruct (nth_error caps j) as [c|] eqn:Hc; [pose proof (D j c Hc); lra|]. apply nth_error_None in Hc. lia. }
  { exact HP. }
  rewrite Forall_forall in D3.
  set (sol' := fset sol (id a) (sol (id a) - d)).
  assert (P' : forall b, In b (gr_arcs g) -> 0 <= sol' (id b) /\ sol' (id b) <= sol (id b)).
  { intros b Hb. unfold sol'. destruct (Nat.eq_dec (id b) (id a)) as [E|E]; [rewrite E, fset_same; lra|].
    rewrite fset_other by auto. pose proof (PSOL b Hb). lra. }
  assert (F' : feasible p sol').
  { split; [|split].
    - intros i Hi. destruct FE as (F1 & _). specialize (F1 i Hi). destruct (Nat.eq_dec i (id a)) as [->|E].
      + rewrite (PF3 a Ha) in *. cbn in *. unfold sol'. rewrite fset_same. lra.
      + unfold sol'. rewrite fset_other by auto. exact F1.
    - intros r Hr. destruct FE as (_ & F2 & _). pose proof (F2 r Hr) as (Lb & Ub). rewrite PF5, in_app_iff in Hr.
      destruct Hr as [Hr|Hr].
      + apply sup_rows_in in Hr. destruct Hr as (G' & j & c & HG' & Hc & ->). cbn [lr_coef lr_lb lr_ub] in *.
        assert (CF : 0 <= cof (cap_entries g false (group_at g G') j) (id a)).
        { apply cof_nonneg. intros e He. destruct (sup_entry_id G' j e HG' He) as (_ & X & _). lra. }
        split.
        * unfold row_val. apply qsum_nonneg. intros e He. destruct (sup_entry_id G' j e HG' He) as (_ & X & b & Hb & -> & _).
          destruct (P' b Hb) as (Y & _). apply Qmult_le_0_compat; lra.
        * destruct c as [c|]; [|exact I]. cbn in *. unfold sol'. rewrite row_val_set. nra.
      + apply req_rows_in in Hr. destruct Hr as (m' & G' & j & c & HG' & Hc & ->). cbn [lr_coef lr_lb lr_ub] in *.
        split; [|exact I]. unfold sol'. rewrite row_val_set. rewrite cof_app.
        assert (CF : cof [((n + m')%nat, 1)] (id a) == 0).
        { apply cof_zero. intros e [<-|[]]. cbn. pose proof (arc_id_lt g a ND Ha). lia. }
        rewrite CF. destruct (Nat.eq_dec G G') as [<-|NG].
        * pose proof (RG_inj _ _ _ Hm HG'). subst m'.
          assert (Hj : (j < length caps)%nat) by (apply nth_error_Some; unfold caps; congruence).
          specialize (D3 (cof (ent j) (id a), uload g (flows g sol) G j - row_lb c)).
          cbn [fst snd] in D3. assert (Q3 : d * cof (ent j) (id a) <= uload g (flows g sol) G j - row_lb c).
          { apply D3. apply in_map_iff. exists j. split; [|apply in_seq; lia]. unfold caps. now rewrite Hc. }
          unfold ent in Q3.
          assert (RV : row_val (cap_entries g false (group_at g G) j ++ [((n + m)%nat, 1)]) sol == uload g (flows g sol) G j + sol (n + m)%nat).
          { unfold row_val. rewrite map_app, qsum_app. fold (row_val (cap_entries g false (group_at g G) j) sol).
            rewrite (uload_flows G j HG Hj). cbn. lra. }
          rewrite RV. pose proof (FX (n + m)%nat). assert (0 <= sol (n + m)%nat) by (apply FX; lia). nra.
        * assert (CZ : cof (cap_entries g false (group_at g G') j) (id a) == 0).
          { apply cof_zero. intros e He. destruct (req_entry_id G' j e (RG_req _ _ HG') He) as (_ & _ & b & Hb & -> & Hg).
            intros E. apply (arc_id_inj g) in E; auto. subst. congruence. }
          rewrite CZ. lra.
    - intros i Hi. rewrite int_nil in Hi. contradiction. }
  pose proof (proj2 OP sol' F') as O. unfold sol' in O. rewrite objective_set in O by (now apply id_col).
  pose proof (price_pos a Ha). nra.
Qed.

(** No avoidable unmet demand. *)
Lemma no_waste a G GV : In a (gr_arcs g) -> ugroup g a = Some G -> vgroup g a = Some GV ->
  1 / pref_of (unode g a) a < pseudo ->
  (forall j, (j < length (g_caps (group_at g G)))%nat -> 1 <= uunit g a j) ->
  sol (id a) < n_qty (unode g a) ->
  (forall j c, nth_error (g_caps (group_at g GV)) j = Some (Some c) -> vload g (flows g sol) GV j < c) ->
  forall j c, nth_error (g_caps (group_at g G)) j = Some c -> row_lb c <= uload g (flows g sol) G j.
Proof.
  intros Ha HU HV PC HUn HQ HS j0 c0 Hc0. destruct (Qlt_le_dec (uload g (flows g sol) G j0) (row_lb c0)) as [LT|]; [exfalso|auto].
  destruct (ug_in a G Ha HU) as (HG & m & Hm).
  destruct PF as (PF1 & PF2 & PF3 & PF4 & PF5 & PF6).
  assert (Mlt : (m < length RG)%nat) by (apply nth_error_Some; congruence).
  assert (HGV : In GV (gr_sup g)).
  { destruct (pr_arc _ PR a Ha) as (GU' & GV' & _ & _ & A & B & _). pose proof (pr_group _ PR GV' _ (sup_in g _ A) B) as K.
    unfold vgroup, vnode in HV. assert (GV = GV') by congruence. now subst. }
  pose proof (arc_id_lt g a ND Ha) as IDlt. set (F := (n + m)%nat).
  assert (PSOL : forall b, In b (gr_arcs g) -> 0 <= sol (id b)) by (intros b Hb; apply (sol_bounds g false pseudo p sol PR TP FE b Hb)).
  assert (FX : forall i, (n <= i < n + length RG)%nat -> 0 <= sol i).
  { intros i Hi. destruct FE as (F1 & _). specialize (F1 i). rewrite (PF4 i Hi) in F1. apply F1. rewrite PF2. lia. }
  assert (RV : forall j, (j < length (g_caps (group_at g G)))%nat ->
    row_val (cap_entries g false (group_at g G) j ++ [(F, 1)]) sol == uload g (flows g sol) G j + sol F).
  { intros j Hj. unfold row_val. rewrite map_app, qsum_app. fold (row_val (cap_entries g false (group_at g G) j) sol).
    rewrite (uload_flows G j HG Hj). cbn. lra. }
  assert (FPOS : 0 < sol F).
  { destruct FE as (_ & F2 & _). destruct (F2 (mkLRow (cap_entries g false (group_at g G) j0 ++ [(F, 1)]) (row_lb c0) None)) as (L & _).
    - rewrite PF5, in_app_iff. right. apply req_rows_in. exists m, G, j0, c0. auto.
    - cbn [lr_lb lr_coef] in L. rewrite RV in L by (apply nth_error_Some; congruence). lra. }
  set (vcaps := g_caps (group_at g GV)). set (ent := fun j => cap_entries g false (group_at g GV) j).
  assert (B0 : 0 < qmin (sol F) (n_qty (unode g a) - sol (id a))) by (destruct (qmin_cases (sol F) (n_qty (unode g a) - sol (id a))) as [-> | ->]; lra).
  destruct (small_step (map (fun j => (cof (ent j) (id a),
               match nth_error vcaps j with Some (Some c) => c - vload g (flows g sol) GV j | _ => 1 end)) (seq 0 (length vcaps))))
    with (b := qmin (sol F) (n_qty (unode g a) - sol (id a))) as (d & D1 & D2 & D3).
  { apply Forall_forall. intros q Hq. apply in_map_iff in Hq. destruct Hq as (j & <- & Hj). apply in_seq in Hj. cbn [fst snd].
    split; [apply cof_nonneg; intros e He; destruct (sup_entry_id GV j e HGV He) as (_ & X & _); lra|].
    destruct (nth_error vcaps j) as [[c|]|] eqn:Hc; [pose proof (HS j c Hc); lra| |]; reflexivity. }
  { exact B0. }
  rewrite Forall_forall in D3.
  assert (D4 : d <= sol F /\ d <= n_qty (unode g a) - sol (id a)).
  { pose proof (qmin_l (sol F) (n_qty (unode g a) - sol (id a))). pose proof (qmin_r (sol F) (n_qty (unode g a) - sol (id a))). lra. }
  destruct D4 as (D4 & D5).
  set (sol1 := fset sol (id a) (sol (id a) + d)). set (sol2 := fset sol1 F (sol F - d)).
  assert (NF : F <> id a) by (unfold F; lia).
  assert (S1F : sol1 F = sol F) by (unfold sol1; now rewrite fset_other).
  assert (RS : forall es, row_val es sol2 == row_val es sol + d * cof es (id a) - d * cof es F).
  { intros es. unfold sol2. rewrite row_val_set. rewrite S1F. unfold sol1. rewrite row_val_set. ring. }
  assert (F' : feasible p sol2).
  { split; [|split].
    - intros i Hi. destruct FE as (F1 & _). specialize (F1 i Hi). destruct (Nat.eq_dec i F) as [->|E1].
      + unfold sol2. rewrite fset_same. rewrite (PF4 F) in * by (unfold F; lia). cbn in *. split; [lra|exact I].
      + unfold sol2. rewrite fset_other by auto. unfold sol1. destruct (Nat.eq_dec i (id a)) as [->|E].
        * rewrite fset_same. rewrite (PF3 a Ha) in *. cbn in *. fold (unode g a). lra.
        * rewrite fset_other by auto. exact F1.
    - intros r Hr. destruct FE as (_ & F2 & _). pose proof (F2 r Hr) as (Lb & Ub). rewrite PF5, in_app_iff in Hr.
      destruct Hr as [Hr|Hr].
      + apply sup_rows_in in Hr. destruct Hr as (G' & j & c & HG' & Hc & ->). cbn [lr_coef lr_lb lr_ub] in *.
        assert (CF : 0 <= cof (cap_entries g false (group_at g G') j) (id a)).
        { apply cof_nonneg. intros e He. destruct (sup_entry_id G' j e HG' He) as (_ & X & _). lra. }
        assert (CF2 : cof (cap_entries g false (group_at g G') j) F == 0).
        { apply cof_zero. intros e He. destruct (sup_entry_id G' j e HG' He) as (X & _). unfold F. lia. }
        split; [rewrite RS, CF2; nra|]. destruct c as [c|]; [|exact I]. cbn [within] in *.
        destruct (Nat.eq_dec GV G') as [<-|NG].
        * assert (Hj : (j < length vcaps)%nat) by (apply nth_error_Some; unfold vcaps; congruence).
          assert (Q3 : d * cof (ent j) (id a) <= c - vload g (flows g sol) GV j).
          { specialize (D3 (cof (ent j) (id a), c - vload g (flows g sol) GV j)). cbn [fst snd] in D3. apply D3.
            apply in_map_iff. exists j. split; [|apply in_seq; lia]. unfold vcaps. now rewrite Hc. }
          unfold ent in Q3. rewrite RS, CF2, (vload_flows GV j HGV Hj). lra.
        * assert (CZ : cof (cap_entries g false (group_at g G') j) (id a) == 0).
          { apply cof_zero. intros e He. destruct (sup_entry_id G' j e HG' He) as (_ & _ & b & Hb & -> & Hg).
            intros E. apply (arc_id_inj g) in E; auto. subst. congruence. }
          rewrite RS, CF2, CZ. lra.
      + apply req_rows_in in Hr. destruct Hr as (m' & G' & j & c & HG' & Hc & ->). cbn [lr_coef lr_lb lr_ub] in *.
        split; [|exact I]. rewrite RS, !cof_app.
        assert (CF : cof [((n + m')%nat, 1)] (id a) == 0).
        { apply cof_zero. intros e [<-|[]]. cbn. lia. }
        assert (CE : cof (cap_entries g false (group_at g G') j) F == 0).
        { apply cof_zero. intros e He. destruct (req_entry_id G' j e (RG_req _ _ HG') He) as (X & _). unfold F. lia. }
        rewrite CF, CE. destruct (Nat.eq_dec G G') as [<-|NG].
        * pose proof (RG_inj _ _ _ Hm HG'). subst m'.
          assert (Hj : (j < length (g_caps (group_at g G)))%nat) by (apply nth_error_Some; congruence).
          assert (C1 : 1 <= cof (cap_entries g false (group_at g G) j) (id a)).
          { assert (IE : In (id a, uunit g a j) (cap_entries g false (group_at g G) j)).
            { destruct (arc_has g PR a Ha) as (GU & A & B & C). assert (GU = G).
              { apply filter_In in A. destruct A as (A & _). pose proof (pr_group _ PR GU _ (req_in g _ A) C) as K. unfold ugroup, unode in HU. congruence. }
              subst GU. unfold group_keys in B. apply in_flat_map in B. destruct B as (x & Hx & B). apply in_map_iff in B.
              destruct B as ([k uc] & E & B). cbn in E. pose proof (f_equal fst E) as E1. pose proof (f_equal snd E) as E2. cbn [fst snd] in E1, E2. subst x k.
              unfold cap_entries. apply in_flat_map. exists (a_u a). split; [auto|]. apply in_flat_map. exists (akey a, uc). split; [auto|].
              cbn [fst snd]. unfold uunit, unode, ucaps_of. rewrite (alookup_in [] (akey a) uc _ (pr_ukeys _ PR _) B).
              pose proof (pr_len _ PR G _ _ (req_in g G HG) Hx B) as L. cbn in L.
              destruct (nth_error uc j) as [u|] eqn:U; [|apply nth_error_None in U; lia]. rewrite (nth_error_nth _ _ 0 U). now left. }
            pose proof (cof_ge (cap_entries g false (group_at g G) j) (id a, uunit g a j)) as Q. cbn [fst snd] in Q.
            pose proof (HUn j Hj). assert (uunit g a j <= cof (cap_entries g false (group_at g G) j) (id a)); [|lra].
            apply Q; [|exact IE]. intros e He. destruct (req_entry_id G j e HG He) as (_ & X & _). lra. }
          assert (CFF : cof [((n + m)%nat, 1)] F == 1).
          { unfold cof, F. cbn. rewrite Nat.eqb_refl. lra. }
          rewrite CFF. nra.
        * assert (CZ : cof (cap_entries g false (group_at g G') j) (id a) == 0).
          { apply cof_zero. intros e He. destruct (req_entry_id G' j e (RG_req _ _ HG') He) as (_ & _ & b & Hb & -> & Hg).
            intros E. apply (arc_id_inj g) in E; auto. subst. congruence. }
          assert (CFF : cof [((n + m')%nat, 1)] F == 0).
          { apply cof_zero. intros e [<-|[]]. cbn. unfold F. intros E. assert (m' = m) by lia. subst. congruence. }
          rewrite CZ, CFF. lra.
    - intros i Hi. rewrite int_nil in Hi. contradiction. }
  pose proof (proj2 OP sol2 F') as O. unfold sol2 in O. rewrite objective_set in O by (rewrite PF2; unfold F; lia).
  rewrite S1F in O. unfold sol1 in O. rewrite objective_set in O by (now apply id_col).
  rewrite (price a Ha) in O. rewrite (PF4 F) in O by (unfold F; lia). cbn [lc_obj] in O. set (ca := 1 / pref_of (unode g a) a) in *. nra.
Qed.
End Optimal.

(** The pseudo-cost is above every arc's cost. *)
Lemma pseudo_from_le g arcs : (forall a, In a arcs -> 0 <= a_exclval a /\ 0 < arc_pref g (akey a)) -> forall m q,
  pseudo_from g false arcs m = Some q -> m <= q /\ forall a, In a arcs -> 1 / arc_pref g (akey a) <= q.
Proof.
  induction arcs as [|a t IH]; intros H m q K; cbn in K; [injection K as <-; split; [lra|contradiction]|].
  destruct (H a (or_introl eq_refl)) as (V & P). unfold arc_cost in K.
  destruct (Qeqb_spec (arc_pref g (akey a)) 0) as [Z|Z]; [lra|]. cbn [andb] in K.
  assert (CP : 0 < 1 / arc_pref g (akey a)) by (apply Qlt_shift_div_l; lra).
  assert (H' : forall b, In b t -> 0 <= a_exclval b /\ 0 < arc_pref g (akey b)) by (intros; apply H; now right).
  set (c := 1 / arc_pref g (akey a)) in *.
  assert (QM : forall x y, x <= qmax x y /\ y <= qmax x y) by (intros x y; unfold qmax; destruct (Qltb_spec x y); lra).
  destruct (a_excl a && Qltb (a_exclval a) 1) eqn:E.
  - destruct (Qeqb_spec (a_exclval a) 0) as [Z0|Z0].
    + destruct (Qeqb_spec c 0) as [C0|C0]; [lra|discriminate].
    + apply andb_true_iff in E. destruct E as (_ & E). destruct (Qltb_spec (a_exclval a) 1) as [L|L]; [|discriminate].
      destruct (IH H' _ _ K) as (A & B). destruct (QM m (c * (1 / a_exclval a))) as (Q1 & Q2).
      assert (CC : c <= c * (1 / a_exclval a)).
      { assert (1 <= 1 / a_exclval a) by (apply Qle_shift_div_l; lra). set (r := 1 / a_exclval a) in *. nra. }
      split; [lra|]. intros b [<-|Hb]; [fold c; lra|auto].
  - destruct (IH H' _ _ K) as (A & B). destruct (QM m c) as (Q1 & Q2). split; [lra|]. intros b [<-|Hb]; [fold c; lra|auto].
Qed.
Lemma pseudo_above g q a : prog_ready g -> (forall a, In a (gr_arcs g) -> 0 < pref_of (unode g a) a) ->
  pseudo_cost g false = Some q -> In a (gr_arcs g) -> 1 / pref_of (unode g a) a < q.
Proof.
  intros PR P H Ha. unfold pseudo_cost in H. destruct (pseudo_from g false (gr_arcs g) 0) as [m|] eqn:E; [|discriminate].
  cbn in H. injection H as <-. apply pseudo_from_le in E.
  - destruct E as (E1 & E2). specialize (E2 a Ha). rewrite (arc_pref_in g PR a Ha) in E2.
    assert (0 < 1 / pref_of (unode g a) a) by (specialize (P a Ha); apply Qlt_shift_div_l; lra). lra.
  - intros b Hb. split; [now apply (pr_val _ PR)|]. rewrite (arc_pref_in g PR b Hb). auto.
Qed.
