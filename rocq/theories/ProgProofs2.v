(** * Proofs for C52: the program as a whole. *)
From Coq Require Import String QArith List Bool Arith ZArith Lia Lqa Permutation.
From Verif Require Import Base GreedyModel GreedySpec ProgModel ProgSpec ProgProofs1.
Import ListNotations.
Open Scope Q_scope.

Section Prog.
Variables (g : graph) (excl : bool).
Hypothesis PR : prog_ready g.
Let ND := pr_keys _ PR.
Local Notation has G := (has_arcs g (group_at g G)).
Local Notation n := (length (gr_arcs g)).
Local Notation RG := (filter (fun G => has_arcs g (group_at g G)) (gr_req g)).

(** ** Sides *)
Lemma req_in G : In G (gr_req g) -> In G (gr_req g ++ gr_sup g).
Proof. rewrite in_app_iff. auto. Qed.
Lemma sup_in G : In G (gr_sup g) -> In G (gr_req g ++ gr_sup g).
Proof. rewrite in_app_iff. auto. Qed.
Lemma u_keys G : In G (gr_req g) -> forall m k, In m (g_nodes (group_at g G)) -> In k (map fst (n_ucaps (node_at g m))) ->
  exists a, In a (gr_arcs g) /\ akey a = k /\ fst k = m.
Proof. intros HG m k Hm Hk. destruct (pr_u _ PR G m k HG Hm Hk) as (a & A & B & C). exists a. rewrite <- B. auto. Qed.
Lemma v_keys G : In G (gr_sup g) -> forall m k, In m (g_nodes (group_at g G)) -> In k (map fst (n_ucaps (node_at g m))) ->
  exists a, In a (gr_arcs g) /\ akey a = k /\ snd k = m.
Proof. intros HG m k Hm Hk. destruct (pr_v _ PR G m k HG Hm Hk) as (a & A & B & C). exists a. rewrite <- B. auto. Qed.
Lemma same_group G H m : In G (gr_req g ++ gr_sup g) -> In H (gr_req g ++ gr_sup g) ->
  In m (g_nodes (group_at g G)) -> In m (g_nodes (group_at g H)) -> G = H.
Proof. intros A B C D. pose proof (pr_group _ PR _ _ A C). pose proof (pr_group _ PR _ _ B D). congruence. Qed.
Lemma u_len G : In G (gr_req g) -> forall a, In a (gr_arcs g) -> In (fst (akey a)) (g_nodes (group_at g G)) ->
  length (ucaps_of (node_at g (fst (akey a))) a) = length (g_caps (group_at g G)).
Proof.
  intros HG a Ha Hn. destruct (pr_arc _ PR a Ha) as (GU & GV & A & B & _ & _ & C & _).
  assert (GU = G) by (apply (same_group _ _ (a_u a)); auto using req_in). subst. exact C.
Qed.
Lemma v_len G : In G (gr_sup g) -> forall a, In a (gr_arcs g) -> In (snd (akey a)) (g_nodes (group_at g G)) ->
  length (ucaps_of (node_at g (snd (akey a))) a) = length (g_caps (group_at g G)).
Proof.
  intros HG a Ha Hn. destruct (pr_arc _ PR a Ha) as (GU & GV & _ & _ & A & B & _ & C & _).
  assert (GV = G) by (apply (same_group _ _ (a_v a)); auto using sup_in). subst. exact C.
Qed.
Lemma u_here G a : In a (gr_arcs g) -> here g G fst a = true -> In (fst (akey a)) (g_nodes (group_at g G)).
Proof.
  intros Ha H. destruct (pr_arc _ PR a Ha) as (GU & GV & A & B & _). unfold here in H. cbn in *.
  rewrite (pr_group _ PR GU _ (req_in _ A) B) in H. cbn in H. apply Nat.eqb_eq in H. now subst.
Qed.
Lemma v_here G a : In a (gr_arcs g) -> here g G snd a = true -> In (snd (akey a)) (g_nodes (group_at g G)).
Proof.
  intros Ha H. destruct (pr_arc _ PR a Ha) as (GU & GV & _ & _ & A & B & _). unfold here in H. cbn in *.
  rewrite (pr_group _ PR GV _ (sup_in _ A) B) in H. cbn in H. apply Nat.eqb_eq in H. now subst.
Qed.
Definition sup_row_sum G (HG : In G (gr_sup g)) := cap_row_sum g excl G PR snd (sup_in G HG) (v_keys G HG) (v_len G HG) (v_here G).
Definition req_row_sum G (HG : In G (gr_req g)) := cap_row_sum g excl G PR fst (req_in G HG) (u_keys G HG) (u_len G HG) (u_here G).
Definition sup_entry G (HG : In G (gr_sup g)) := cap_entry_here g excl G PR snd (sup_in G HG) (v_keys G HG) (v_here G).
Definition req_entry G (HG : In G (gr_req g)) := cap_entry_here g excl G PR fst (req_in G HG) (u_keys G HG) (u_here G).

(** ** Columns *)
Definition arc_ub (a : arc) : option Q := if excl && a_excl a then Some 1 else Some (n_qty (node_at g (a_u a))).
Definition arc_price (a : arc) : Q := (if excl && a_excl a then a_exclval a else 1) / pref_of (unode g a) a.
Definition acol (a : arc) : lcol := mkLCol (arc_price a) 0 (arc_ub a).
Lemma arc_pref_in a : In a (gr_arcs g) -> arc_pref g (akey a) = pref_of (unode g a) a.
Proof. intros Ha. unfold arc_pref, unode. now rewrite (arc_of_in g a ND Ha). Qed.
Definition keys_ok (l : list (nat * (nat * nat))) : Prop :=
  forall m k, In (m, k) l -> exists a, In a (gr_arcs g) /\ akey a = k /\ a_u a = m.
Lemma set_cols_ok l : keys_ok l -> forall f,
  match set_arc_cols g excl l f with
  | Ok f' =>
      (forall a m, In a (gr_arcs g) -> In (m, akey a) l -> f' (arc_id g (akey a)) = acol a /\ 0 < pref_of (unode g a) a) /\
      (forall a, In a (gr_arcs g) -> f (arc_id g (akey a)) = acol a -> f' (arc_id g (akey a)) = acol a) /\
      (forall i, (n <= i)%nat -> f' i = f i)
  | Throw e => e = ValueError /\ exists a, In a (gr_arcs g) /\ pref_of (unode g a) a <= 0
  | UB => False
  end.
Proof.
  induction l as [|[m k] t IH]; intros KO f; cbn [set_arc_cols].
  { split; [intros a m Ha []|]. split; auto. }
  assert (KO' : keys_ok t) by (intros m' k' H; apply KO; now right).
  destruct (KO m k (or_introl eq_refl)) as (a & Ha & Ek & Em). unfold set_arc_col. subst k. rewrite (arc_pref_in a Ha).
  destruct (Qleb_spec (pref_of (unode g a) a) 0) as [P|P]; [split; [auto|eauto]|].
  unfold arc_cost. rewrite (arc_pref_in a Ha). destruct (Qeqb_spec (pref_of (unode g a) a) 0) as [Z|Z]; [lra|].
  cbn. rewrite (arc_of_in g a ND Ha).
  replace (mkLCol ((if excl && a_excl a then a_exclval a else 1) / pref_of (unode g a) a) 0
             (if excl && a_excl a then Some 1 else Some (n_qty (node_at g m)))) with (acol a) by (unfold acol, arc_price, arc_ub; now rewrite Em).
  specialize (IH KO' (col_set f (arc_id g (akey a)) (acol a))).
  destruct (set_arc_cols g excl t _) as [f'|e|]; [|exact IH|exact IH].
  destruct IH as (I1 & I2 & I3).
  assert (S : f' (arc_id g (akey a)) = acol a).
  { apply I2; auto. unfold col_set, fset. now rewrite Nat.eqb_refl. }
  split; [|split].
  - intros b m' Hb [E|Hb2].
    + apply (f_equal snd) in E. cbn [snd] in E. assert (a = b) by (apply (akey_inj g); auto). subst b. split; [exact S|lra].
    + now apply (I1 b m').
  - intros b Hb Eb. apply I2; auto. unfold col_set, fset. destruct (Nat.eqb_spec (arc_id g (akey b)) (arc_id g (akey a))) as [E|E]; [|exact Eb].
    apply (arc_id_inj g) in E; auto. now subst.
  - intros i Hi. rewrite (I3 i Hi). unfold col_set, fset. destruct (Nat.eqb_spec i (arc_id g (akey a))) as [E|E]; [|reflexivity].
    pose proof (arc_id_lt g a ND Ha). lia.
Qed.
Lemma group_keys_ok G : In G (gr_req g) -> keys_ok (group_keys g (group_at g G)).
Proof.
  intros HG m k H. unfold group_keys in H. apply in_flat_map in H. destruct H as (m' & Hm & H). apply in_map_iff in H.
  destruct H as (e & E & He). injection E as -> <-. apply (pr_u _ PR G m); auto. now apply in_map.
Qed.
Lemma not_too_many G : In G (gr_req g ++ gr_sup g) -> too_many_ucaps g (group_at g G) = false.
Proof.
  intros HG. unfold too_many_ucaps. apply not_true_iff_false. intros H. apply existsb_exists in H. destruct H as (m & Hm & H).
  apply existsb_exists in H. destruct H as (e & He & H). apply Nat.ltb_lt in H. rewrite (pr_len _ PR G m e HG Hm He) in H. lia.
Qed.

(** ** Rows *)
Definition sup_rows (Gs : list nat) : list lrow :=
  flat_map (fun G => cap_rows_from g excl false (group_at g G) 0 0 (g_caps (group_at g G)) ++
                     (if excl then excl_rows g (group_at g G) else [])) Gs.
Fixpoint req_rows (Gs : list nat) (off : nat) : list lrow :=
  match Gs with
  | [] => []
  | G :: t => (cap_rows_from g excl true (group_at g G) off 0 (g_caps (group_at g G)) ++
               (if excl then excl_rows g (group_at g G) else [])) ++ req_rows t (S off)
  end.
Lemma cap_rows_nofaux gr f f' j cs : cap_rows_from g excl false gr f j cs = cap_rows_from g excl false gr f' j cs.
Proof. revert j. induction cs as [|c t IH]; intros j; cbn; [reflexivity|]. now rewrite IH. Qed.
Lemma xl_sup Gs : (forall G, In G Gs -> In G (gr_sup g)) -> forall x,
  xlate_grps g excl false Gs x = Ok (mkXst (x_col x) (x_rows x ++ sup_rows Gs) (x_off x)).
Proof.
  induction Gs as [|G t IH]; intros HS x; cbn.
  - rewrite app_nil_r. now destruct x.
  - unfold xlate_grp. cbn. rewrite (not_too_many G) by (apply sup_in, HS; now left).
    rewrite IH by (intros; apply HS; now right). cbn. rewrite (cap_rows_nofaux _ (x_off x) 0). now rewrite <- app_assoc.
Qed.
Lemma xl_req Gs : (forall G, In G Gs -> In G (gr_req g)) -> forall x,
  match xlate_grps g excl true Gs x with
  | Ok x' =>
      x_off x' = (x_off x + length (filter (fun G => has G) Gs))%nat /\
      x_rows x' = x_rows x ++ req_rows (filter (fun G => has G) Gs) (x_off x) /\
      (forall a G m, In a (gr_arcs g) -> In G Gs -> has G = true -> In (m, akey a) (group_keys g (group_at g G)) ->
         x_col x' (arc_id g (akey a)) = acol a /\ 0 < pref_of (unode g a) a) /\
      (forall a, In a (gr_arcs g) -> x_col x (arc_id g (akey a)) = acol a -> x_col x' (arc_id g (akey a)) = acol a) /\
      (forall i, (n <= i)%nat -> x_col x' i = x_col x i)
  | Throw e => e = ValueError /\ exists a, In a (gr_arcs g) /\ pref_of (unode g a) a <= 0
  | UB => False
  end.
Proof.
  induction Gs as [|G t IH]; intros HS x; cbn [xlate_grps].
  { cbn. split; [lia|]. split; [now rewrite app_nil_r|]. split; [intros a G m Ha []|]. split; auto. }
  assert (HS' : forall G, In G t -> In G (gr_req g)) by (intros; apply HS; now right).
  assert (HG : In G (gr_req g)) by (apply HS; now left).
  unfold xlate_grp. cbn [andb filter]. destruct (has G) eqn:Hh; cbn [negb].
  - rewrite (not_too_many G) by (now apply req_in).
    pose proof (set_cols_ok _ (group_keys_ok G HG) (x_col x)) as C.
    destruct (set_arc_cols g excl (group_keys g (group_at g G)) (x_col x)) as [col|e|]; [|exact C|exact C].
    destruct C as (C1 & C2 & C3).
    specialize (IH HS' (mkXst col (x_rows x ++ cap_rows_from g excl true (group_at g G) (x_off x) 0 (g_caps (group_at g G)) ++
              (if excl then excl_rows g (group_at g G) else [])) (S (x_off x)))).
    destruct (xlate_grps g excl true t _) as [x'|e|]; [|exact IH|exact IH]. cbn in IH. destruct IH as (I1 & I2 & I3 & I4 & I5).
    cbn. split; [rewrite I1; lia|]. split; [rewrite I2; now rewrite <- !app_assoc|]. split; [|split].
    + intros a H m Ha [<-|HH] Hb Hm; [|now apply (I3 a H m)]. destruct (C1 a m Ha Hm) as (D1 & D2). split; [now apply I4|exact D2].
    + intros a Ha E. apply I4; auto.
    + intros i Hi. rewrite (I5 i Hi). now apply C3.
  - specialize (IH HS' x). destruct (xlate_grps g excl true t x) as [x'|e|]; [|exact IH|exact IH].
    destruct IH as (I1 & I2 & I3 & I4 & I5). split; [exact I1|]. split; [exact I2|]. split; [|split; auto].
    intros a H m Ha [<-|HH] Hb Hm; [congruence|now apply (I3 a H m)].
Qed.
Lemma arc_has a : In a (gr_arcs g) -> exists GU, In GU RG /\ In (a_u a, akey a) (group_keys g (group_at g GU)) /\
  In (a_u a) (g_nodes (group_at g GU)).
Proof.
  intros Ha. destruct (pr_arc _ PR a Ha) as (GU & GV & A & B & _ & _ & C & _ & P). exists GU. split; [|split; [|exact B]].
  - apply filter_In. split; [auto|]. unfold has_arcs. apply existsb_exists. exists (a_u a). split; [auto|].
    destruct (n_prefs (node_at g (a_u a))); [contradiction|reflexivity].
  - unfold group_keys. apply in_flat_map. exists (a_u a). split; [auto|].
    destruct (in_dec (fun x y => reflect_dec _ _ (keyb_spec x y)) (akey a) (map fst (n_ucaps (node_at g (a_u a))))) as [I|I].
    + apply in_map_iff in I. destruct I as (e & E & He). apply in_map_iff. exists e. rewrite E. auto.
    + exfalso. unfold ucaps_of in C. rewrite (alookup_none _ _ _ I) in C. cbn in C. apply (pr_caps _ PR GU A).
      destruct (g_caps (group_at g GU)); [reflexivity|discriminate].
Qed.

(** The whole program. *)
Lemma to_prog_ok pseudo :
  match to_prog g excl pseudo with
  | Ok p =>
      (forall a, In a (gr_arcs g) -> 0 < pref_of (unode g a) a) /\
      lp_ncols p = (n + length RG)%nat /\
      (forall a, In a (gr_arcs g) -> lp_col p (arc_id g (akey a)) = acol a) /\
      (forall i, (n <= i < n + length RG)%nat -> lp_col p i = mkLCol pseudo 0 None) /\
      lp_rows p = sup_rows (gr_sup g) ++ req_rows RG n /\
      lp_int p = (if excl then map (fun a => arc_id g (akey a)) (filter a_excl (gr_arcs g)) else [])
  | Throw e => e = ValueError /\ exists a, In a (gr_arcs g) /\ pref_of (unode g a) a <= 0
  | UB => False
  end.
Proof.
  unfold to_prog. rewrite xl_sup by auto. cbn [x_rows x_col x_off app].
  pose proof (xl_req (gr_req g) (fun _ H => H) (mkXst (fun _ => zero_col) (sup_rows (gr_sup g)) n)) as K. cbn [x_rows x_col x_off] in K.
  destruct (xlate_grps g excl true (gr_req g) _) as [x|e|]; [|exact K|exact K].
  destruct K as (K1 & K2 & K3 & K4 & K5).
  assert (C : forall a, In a (gr_arcs g) -> x_col x (arc_id g (akey a)) = acol a /\ 0 < pref_of (unode g a) a).
  { intros a Ha. destruct (arc_has a Ha) as (GU & A & B & _). apply filter_In in A. apply (K3 a GU (a_u a)); tauto. }
  cbn [lp_ncols lp_col lp_rows lp_int]. split; [intros a Ha; apply (C a Ha)|]. split; [reflexivity|]. split; [|split; [|split; auto]].
  - intros a Ha. pose proof (arc_id_lt g a ND Ha). replace (Nat.leb n (arc_id g (akey a))) with false; [apply (C a Ha)|].
    symmetry. apply Nat.leb_gt. lia.
  - intros i Hi. rewrite K1. replace (Nat.leb n i) with true by (symmetry; apply Nat.leb_le; lia).
    replace (Nat.ltb i (n + length RG)) with true by (symmetry; apply Nat.ltb_lt; lia). reflexivity.
Qed.

(** Membership in the rows. *)
Lemma in_cap_rows request gr f cs : forall j r, In r (cap_rows_from g excl request gr f j cs) <->
  exists i c, nth_error cs i = Some c /\ r = cap_row g excl request gr f (j + i) c.
Proof.
  induction cs as [|c t IH]; intros j r; cbn.
  - split; [contradiction|]. intros (i & c & H & _). destruct i; discriminate.
  - rewrite IH. split.
    + intros [<-|(i & c' & H & ->)]; [exists O, c; split; [auto|now rewrite Nat.add_0_r]|]. exists (S i), c'. split; [auto|].
      f_equal. lia.
    + intros ([|i] & c' & H & ->).
      * injection H as <-. left. now rewrite Nat.add_0_r.
      * right. exists i, c'. split; [auto|]. f_equal. lia.
Qed.
Lemma in_req_rows Gs : forall off r, In r (req_rows Gs off) <->
  exists m G, nth_error Gs m = Some G /\
   (In r (cap_rows_from g excl true (group_at g G) (off + m) 0 (g_caps (group_at g G))) \/ (excl = true /\ In r (excl_rows g (group_at g G)))).
Proof.
  induction Gs as [|G t IH]; intros off r; cbn [req_rows].
  - split; [contradiction|]. intros (m & G & H & _). destruct m; discriminate.
  - rewrite !in_app_iff, IH. split.
    + intros [[H|H]|(m & G' & A & B)].
      * exists O, G. rewrite Nat.add_0_r. split; [reflexivity|now left].
      * exists O, G. split; [reflexivity|]. right. destruct excl; [auto|contradiction].
      * exists (S m), G'. split; [exact A|]. now rewrite Nat.add_succ_r.
    + intros ([|m] & G' & A & B).
      * injection A as <-. rewrite Nat.add_0_r in B. left. destruct B as [B|(E & B)]; [now left|]. rewrite E. now right.
      * right. exists m, G'. split; [exact A|]. now rewrite Nat.add_succ_r in B.
Qed.
Lemma in_sup_rows Gs r : In r (sup_rows Gs) <-> exists G, In G Gs /\
   (In r (cap_rows_from g excl false (group_at g G) 0 0 (g_caps (group_at g G))) \/ (excl = true /\ In r (excl_rows g (group_at g G)))).
Proof.
  unfold sup_rows. rewrite in_flat_map. split; intros (G & H & K); exists G; (split; [auto|]); rewrite in_app_iff in *.
  - destruct K as [K|K]; [now left|]. right. destruct excl; [auto|contradiction].
  - destruct K as [K|(E & K)]; [now left|]. right. now rewrite E.
Qed.
End Prog.
