(** * Proofs for C52: what cheapest solutions guarantee, and concrete exchanges. *)
From Coq Require Import String QArith List Bool Arith ZArith Lia Lqa Permutation.
From Verif Require Import Base GreedyModel GreedySpec GreedyExamples ProgModel ProgSpec
  ProgProofs1 ProgProofs2 ProgProofs3 ProgProofs4.
Import ListNotations.
Open Scope Q_scope.

Lemma flows_in g sol a q : NoDup (map akey (gr_arcs g)) -> In (a, q) (flows g sol) ->
  In a (gr_arcs g) /\ q = sol (arc_id g (akey a)).
Proof.
  intros ND H. unfold flows in H.
  assert (K : forall l2 l1, gr_arcs g = l1 ++ l2 -> In (a, q) (combine l2 (map sol (seq (length l1) (length l2)))) ->
     In a (gr_arcs g) /\ q = sol (arc_id g (akey a))).
  { induction l2 as [|x t IH]; intros l1 E I; [contradiction|]. cbn in I. destruct I as [I|I].
    - pose proof (f_equal fst I) as I1. pose proof (f_equal snd I) as I2. cbn [fst snd] in I1, I2. subst x q.
      split; [rewrite E; apply in_elt|]. f_equal. symmetry. apply arc_id_nth; auto. rewrite E, nth_error_app2, Nat.sub_diag; auto.
    - apply (IH (l1 ++ [x])); [rewrite E, <- app_assoc; reflexivity|]. rewrite app_length. cbn [length]. now rewrite Nat.add_1_r. }
  exact (K _ [] eq_refl H).
Qed.

(** ** There is always a solution *)
Lemma row_lb_big c : row_lb c <= big_cap.
Proof. unfold row_lb. destruct c as [x|]; [|lra]. destruct (Qltb_spec big_cap x); lra. Qed.
Lemma row_lb_le c : 0 <= big_cap -> within (row_lb c) c.
Proof. intros H. unfold row_lb, within. destruct c as [x|]; [|exact I]. destruct (Qltb_spec big_cap x); lra. Qed.
Lemma big_nonneg : 0 <= big_cap.
Proof. unfold big_cap. change 0 with (inject_Z 0). rewrite <- Zle_Qle. lia. Qed.

Definition s0 (n i : nat) : Q := if Nat.ltb i n then 0 else big_cap.
Lemma always_feasible g excl pseudo p : prog_ready g -> to_prog g excl pseudo = Ok p ->
  (forall G j c, nth_error (g_caps (group_at g G)) j = Some (Some c) -> 0 <= c) ->
  (forall a, In a (gr_arcs g) -> 0 <= n_qty (unode g a)) ->
  exists sol, feasible p sol.
Proof.
  intros PR TP CN QN. destruct (prog_facts g excl pseudo p PR TP) as (P1 & P2 & P3 & P4 & P5 & P6).
  pose proof (pr_keys _ PR) as ND.
  set (n := length (gr_arcs g)) in *. exists (s0 n).
  assert (Z : forall a, In a (gr_arcs g) -> s0 n (arc_id g (akey a)) = 0).
  { intros a Ha. pose proof (arc_id_lt g a ND Ha) as L. unfold s0. destruct (Nat.ltb_spec (arc_id g (akey a)) n); [reflexivity|]. unfold n in *. lia. }
  assert (RZ : forall es, (forall e, In e es -> exists a, In a (gr_arcs g) /\ fst e = arc_id g (akey a)) ->
    row_val es (s0 n) == 0).
  { induction es as [|e t IH]; intros H; cbn; [lra|]. unfold row_val in IH. rewrite IH by (intros; apply H; now right).
    destruct (H e (or_introl eq_refl)) as (a & Ha & ->). rewrite (Z a Ha). lra. }
  assert (EXR : forall gr ns r, In ns (g_excl gr) -> In r (excl_row g ns) ->
     row_val (lr_coef r) (s0 n) == 0 /\ lr_lb r = 0 /\ lr_ub r = Some 1).
  { intros gr ns r Hns Hr. unfold excl_row in Hr.
    destruct (flat_map (fun n => map (fun a => (arc_id g (akey a), 1)) (arcs_of g n)) ns) as [|e0 es] eqn:E; [contradiction|].
    destruct Hr as [<-|[]]. cbn [lr_coef lr_lb lr_ub]. split; [|auto]. apply RZ. intros e He. rewrite <- E in He.
    apply in_flat_map in He. destruct He as (x & Hx & He). apply in_map_iff in He. destruct He as (a & <- & Ha). exists a.
    split; [|reflexivity]. unfold arcs_of in Ha. apply in_flat_map in Ha. destruct Ha as (b & Hb & Ha). rewrite in_app_iff in Ha.
    destruct Ha as [Ha|Ha]; [destruct (Nat.eqb (a_u b) x)|destruct (Nat.eqb (a_v b) x)]; cbn in Ha; intuition (subst; auto). }
  split; [|split].
  - intros i Hi. rewrite P2 in Hi. unfold s0. destruct (Nat.ltb_spec i n) as [L|L].
    + destruct (nth_error (gr_arcs g) i) as [a|] eqn:E; [|apply nth_error_None in E; unfold n in L; lia].
      pose proof (nth_error_In _ _ E) as Ha. pose proof (arc_id_nth g i a ND E) as EI. rewrite <- EI, (P3 a Ha). unfold acol. cbn [lc_lb lc_ub].
      split; [lra|]. unfold arc_ub. destruct (excl && a_excl a); cbn; [lra|]. now apply QN.
    + rewrite (P4 i) by lia. cbn. split; [apply big_nonneg|exact I].
  - intros r Hr. rewrite P5, in_app_iff in Hr. destruct Hr as [Hr|Hr].
    + apply in_sup_rows in Hr. destruct Hr as (G & HG & [K|(-> & K)]).
      * apply in_cap_rows in K. destruct K as (j & c & Hc & ->). unfold cap_row. cbn [lr_coef lr_lb lr_ub].
        assert (E0 : row_val (cap_entries g excl (group_at g G) j) (s0 n) == 0).
        { apply RZ. intros e He. destruct (sup_entry g excl PR G HG j e He) as (a & A & _ & C & _). eauto. }
        split; [rewrite E0; lra|]. destruct c as [c|]; [|exact I]. cbn. rewrite E0. eapply CN; eauto.
      * unfold excl_rows in K. apply in_flat_map in K. destruct K as (ns & Hns & K).
        destruct (EXR (group_at g G) ns r Hns K) as (A & -> & ->). cbn [within]. lra.
    + apply in_req_rows in Hr. destruct Hr as (m & G & HG & [K|(-> & K)]).
      * apply in_cap_rows in K. destruct K as (j & c & Hc & ->). unfold cap_row. cbn [lr_coef lr_lb lr_ub].
        assert (HG' : In G (gr_req g)) by (apply nth_error_In, filter_In in HG; tauto).
        assert (E0 : row_val (cap_entries g excl (group_at g G) j ++ [((n + m)%nat, 1)]) (s0 n) == big_cap).
        { unfold row_val. rewrite map_app, qsum_app. fold (row_val (cap_entries g excl (group_at g G) j) (s0 n)).
          rewrite RZ; [|intros e He; destruct (req_entry g excl PR G HG' j e He) as (a & A & _ & C & _); eauto].
          cbn [map qsum fst snd]. unfold s0. destruct (Nat.ltb_spec (n + m) n); [lia|]. lra. }
        split; [|exact I]. fold n. rewrite E0. apply row_lb_big.
      * unfold excl_rows in K. apply in_flat_map in K. destruct K as (ns & Hns & K).
        destruct (EXR (group_at g G) ns r Hns K) as (A & -> & ->). cbn [within]. lra.
  - intros i Hi. rewrite P6 in Hi. destruct excl; [|contradiction]. apply in_map_iff in Hi. destruct Hi as (a & <- & Ha).
    apply filter_In in Ha. rewrite (Z a) by tauto. exists 0%Z. reflexivity.
Qed.

(** ** Requests *)
Lemma request_loosest g pseudo p sol eps G : prog_ready g -> to_prog g false pseudo = Ok p -> optimal p sol -> 0 <= eps ->
  (forall G j c, nth_error (g_caps (group_at g G)) j = Some (Some c) -> 0 <= c) ->
  In G (gr_req g) ->
  exists j c, nth_error (g_caps (group_at g G)) j = Some c /\ within (uload g (prog_matches eps false g sol) G j) c.
Proof.
  intros PR TP OP He CN HG. pose proof (pr_keys _ PR) as ND.
  assert (LE : forall j, (j < length (g_caps (group_at g G)))%nat ->
     uload g (prog_matches eps false g sol) G j <= uload g (flows g sol) G j).
  { intros j Hj. rewrite <- (uload_flows g sol PR G j HG Hj).
    rewrite (req_row_sum g false PR G HG j sol Hj).
    exact (load_le_row g false pseudo p sol eps PR TP (proj1 OP) fst G j Hj). }
  destruct (existsb (fun a => is_group (ugroup g a) G && Qltb 0 (sol (arc_id g (akey a)))) (gr_arcs g)) eqn:E.
  - apply existsb_exists in E. destruct E as (a & Ha & E). apply andb_true_iff in E. destruct E as (E1 & E2).
    assert (UG : ugroup g a = Some G).
    { unfold is_group in E1. destruct (ugroup g a); [|discriminate]. apply Nat.eqb_eq in E1. now subst. }
    destruct (Qltb_spec 0 (sol (arc_id g (akey a)))) as [P|]; [|discriminate].
    destruct (not_over g pseudo p sol PR TP OP G a Ha UG P) as (j & c & Hc & L). exists j, c. split; [auto|].
    specialize (LE j). destruct c as [c|]; [|exact I]. cbn.
    pose proof (row_lb_le (Some c) big_nonneg) as RL. cbn [within] in RL.
    assert (j < length (g_caps (group_at g G)))%nat by (apply nth_error_Some; congruence).
    specialize (LE H). lra.
  - pose proof (pr_caps _ PR G HG) as NE. destruct (g_caps (group_at g G)) as [|c cs] eqn:EC; [congruence|].
    exists 0%nat, c. split; [reflexivity|]. destruct c as [c|]; [|exact I]. cbn [within].
    assert (U0 : uload g (prog_matches eps false g sol) G 0 <= 0).
    { eapply Qle_trans; [apply LE; cbn; lia|]. unfold uload. rewrite sum_flows by auto.
      assert (K : forall l, (forall a, In a l -> In a (gr_arcs g)) ->
         qsum (map (fun a => if is_group (ugroup g a) G then sol (arc_id g (akey a)) * uunit g a 0 else 0) l) <= 0).
      { induction l as [|a t IH]; intros HL; cbn; [lra|]. assert (Ha : In a (gr_arcs g)) by (apply HL; now left).
        assert (IHt := IH (fun b Hb => HL b (or_intror Hb))). 
        assert (X : (if is_group (ugroup g a) G then sol (arc_id g (akey a)) * uunit g a 0 else 0) <= 0); [|lra].
        destruct (is_group (ugroup g a) G) eqn:IG; [|lra].
        assert (NP : ~ 0 < sol (arc_id g (akey a))).
        { intros P. assert (existsb (fun a => is_group (ugroup g a) G && Qltb 0 (sol (arc_id g (akey a)))) (gr_arcs g) = true); [|congruence].
          apply existsb_exists. exists a. split; [auto|]. rewrite IG. cbn. destruct (Qltb_spec 0 (sol (arc_id g (akey a)))); [reflexivity|contradiction]. }
        pose proof (unit_nonneg g PR fst a 0) as UN. change (unit_at g fst a 0) with (uunit g a 0) in UN.
        assert (sol (arc_id g (akey a)) <= 0) by lra. set (u := uunit g a 0) in *. set (x := sol _) in *. nra. }
      apply K. auto. }
    assert (0 <= c); [|lra]. apply (CN G 0%nat). now rewrite EC.
Qed.

Lemma no_avoidable g pseudo p sol G GV a q : prog_ready g ->
  pseudo_cost g false = Some pseudo -> to_prog g false pseudo = Ok p -> optimal p sol ->
  In (a, q) (flows g sol) -> ugroup g a = Some G -> vgroup g a = Some GV ->
  (forall j, (j < length (g_caps (group_at g G)))%nat -> 1 <= uunit g a j) ->
  q < n_qty (unode g a) ->
  (forall j c, nth_error (g_caps (group_at g GV)) j = Some (Some c) -> vload g (flows g sol) GV j < c) ->
  forall j c, nth_error (g_caps (group_at g G)) j = Some (Some c) -> c <= big_cap -> c <= uload g (flows g sol) G j.
Proof.
  intros PR PC TP OP IF UG VG UN Q VS j c Hc Hb. destruct (flows_in g sol a q (pr_keys _ PR) IF) as (Ha & ->).
  assert (L : 1 / pref_of (unode g a) a < pseudo).
  { apply (pseudo_above g pseudo a PR); auto. apply (prog_facts g false pseudo p PR TP). }
  pose proof (no_waste g pseudo p sol PR TP OP a G GV Ha UG VG L UN Q VS j (Some c) Hc) as R. cbn in R.
  destruct (Qltb_spec big_cap c); lra.
Qed.

(** ** Concrete exchanges *)
Definition pN (G : nat) (q : Q) (ex : bool) prefs caps := mkNode (Some G) q ex "fuel" 1 prefs caps.

(** A decision procedure for [prog_ready], used on the examples only. *)
Fixpoint nodupb {A} (e : A -> A -> bool) (l : list A) : bool :=
  match l with [] => true | x :: t => negb (existsb (e x) t) && nodupb e t end.
Lemma nodupb_ok {A} (e : A -> A -> bool) l : (forall x y, x = y -> e x y = true) -> nodupb e l = true -> NoDup l.
Proof.
  intros R. induction l as [|x t IH]; cbn; intros H; [constructor|]. apply andb_true_iff in H. destruct H as (H & K).
  constructor; [|auto]. intros I. apply negb_true_iff in H. assert (existsb (e x) t = true); [|congruence].
  apply existsb_exists. exists x. split; [auto|now apply R].
Qed.
Definition all_nodes (g : graph) : list nat := seq 0 (length (gr_nodes g)).
Definition grps (g : graph) := gr_req g ++ gr_sup g.
Definition ready_check (g : graph) : bool :=
  let cs := fun n => n_ucaps (node_at g n) in
  nodupb keyb (map akey (gr_arcs g)) &&
  forallb (fun n => nodupb keyb (map fst (cs n))) (all_nodes g) &&
  forallb (fun G => nodupb Nat.eqb (g_nodes (group_at g G)) &&
    forallb (fun n => match n_group (node_at g n) with Some H => Nat.eqb H G | None => false end) (g_nodes (group_at g G))) (grps g) &&
  nodupb Nat.eqb (grps g) &&
  forallb (fun G => forallb (fun n => forallb (fun e => existsb (fun a => keyb (akey a) (fst e) && Nat.eqb (a_u a) n) (gr_arcs g)) (cs n))
    (g_nodes (group_at g G))) (gr_req g) &&
  forallb (fun G => forallb (fun n => forallb (fun e => existsb (fun a => keyb (akey a) (fst e) && Nat.eqb (a_v a) n) (gr_arcs g)) (cs n))
    (g_nodes (group_at g G))) (gr_sup g) &&
  forallb (fun a => existsb (fun GU => existsb (fun x => Nat.eqb x (a_u a)) (g_nodes (group_at g GU)) &&
      Nat.eqb (length (ucaps_of (node_at g (a_u a)) a)) (length (g_caps (group_at g GU)))) (gr_req g) &&
    existsb (fun GV => existsb (fun x => Nat.eqb x (a_v a)) (g_nodes (group_at g GV)) &&
      Nat.eqb (length (ucaps_of (node_at g (a_v a)) a)) (length (g_caps (group_at g GV)))) (gr_sup g) &&
    existsb (fun e => keyb (fst e) (akey a)) (n_prefs (node_at g (a_u a))) &&
    eqb (a_excl a) (n_excl (node_at g (a_u a)) || n_excl (node_at g (a_v a))) && Qleb 0 (a_exclval a)) (gr_arcs g) &&
  forallb (fun G => match g_caps (group_at g G) with [] => false | _ => true end) (gr_req g) &&
  forallb (fun n => forallb (fun e => forallb (fun u => Qltb 0 u) (snd e)) (cs n)) (all_nodes g) &&
  forallb (fun G => forallb (fun n => forallb (fun e : (nat * nat) * list Q => Nat.eqb (length (snd e)) (length (g_caps (group_at g G)))) (cs n))
    (g_nodes (group_at g G))) (grps g) &&
  forallb (fun G => forallb (forallb (fun n => existsb (Nat.eqb n) (g_nodes (group_at g G)) && n_excl (node_at g n)))
    (g_excl (group_at g G))) (grps g).
Lemma eqb_self x y : x = y -> Nat.eqb x y = true.
Proof. now intros ->; apply Nat.eqb_refl. Qed.
Lemma keyb_self x y : x = y -> keyb x y = true.
Proof. intros ->. unfold keyb. now rewrite !Nat.eqb_refl. Qed.
Lemma node_default g n : (length (gr_nodes g) <= n)%nat -> n_ucaps (node_at g n) = [].
Proof. intros H. unfold node_at. now rewrite nth_overflow by auto. Qed.
Lemma ready_ok g : ready_check g = true -> prog_ready g.
Proof.
  unfold ready_check. intros H. repeat (apply andb_true_iff in H; let K := fresh "K" in destruct H as (H & K)).
  assert (IN : forall n e, In e (n_ucaps (node_at g n)) -> In n (all_nodes g)).
  { intros n e He. destruct (Nat.lt_ge_cases n (length (gr_nodes g))) as [L|L]; [apply in_seq; lia|].
    rewrite (node_default g n L) in He. contradiction. }
  rewrite forallb_forall in *.
  constructor.
  - apply (nodupb_ok keyb); [apply keyb_self|auto].
  - intros n. destruct (n_ucaps (node_at g n)) as [|e t] eqn:E; [constructor|]. rewrite <- E.
    apply (nodupb_ok keyb); [apply keyb_self|]. apply K8. apply (IN n e). rewrite E. now left.
  - intros G HG. specialize (K7 G HG). apply andb_true_iff in K7. apply (nodupb_ok Nat.eqb); [apply eqb_self|tauto].
  - intros G n HG Hn. specialize (K7 G HG). apply andb_true_iff in K7. destruct K7 as (_ & K7). rewrite forallb_forall in K7.
    specialize (K7 n Hn). destruct (n_group (node_at g n)); [|discriminate]. apply Nat.eqb_eq in K7. now subst.
  - apply (nodupb_ok Nat.eqb); [apply eqb_self|auto].
  - intros G n k HG Hn Hk. specialize (K5 G HG). rewrite forallb_forall in K5. specialize (K5 n Hn). rewrite forallb_forall in K5.
    apply in_map_iff in Hk. destruct Hk as (e & <- & He). specialize (K5 e He). apply existsb_exists in K5.
    destruct K5 as (a & Ha & E). apply andb_true_iff in E. destruct E as (E1 & E2). exists a. split; [auto|].
    split; [|now apply Nat.eqb_eq]. unfold keyb in E1. apply andb_true_iff in E1. destruct E1 as (E1 & E3).
    apply Nat.eqb_eq in E1, E3. destruct (fst e); cbn in *. unfold akey in *. cbn in *. congruence.
  - intros G n k HG Hn Hk. specialize (K4 G HG). rewrite forallb_forall in K4. specialize (K4 n Hn). rewrite forallb_forall in K4.
    apply in_map_iff in Hk. destruct Hk as (e & <- & He). specialize (K4 e He). apply existsb_exists in K4.
    destruct K4 as (a & Ha & E). apply andb_true_iff in E. destruct E as (E1 & E2). exists a. split; [auto|].
    split; [|now apply Nat.eqb_eq]. unfold keyb in E1. apply andb_true_iff in E1. destruct E1 as (E1 & E3).
    apply Nat.eqb_eq in E1, E3. destruct (fst e); cbn in *. unfold akey in *. cbn in *. congruence.
  - intros a Ha. specialize (K3 a Ha). repeat (apply andb_true_iff in K3; let L := fresh "L" in destruct K3 as (K3 & L)).
    apply existsb_exists in K3. destruct K3 as (GU & HGU & K3). apply andb_true_iff in K3. destruct K3 as (K3 & K3').
    apply existsb_exists in K3. destruct K3 as (x & Hx & Ex). apply Nat.eqb_eq in Ex, K3'. subst x.
    apply existsb_exists in L2. destruct L2 as (GV & HGV & L2). apply andb_true_iff in L2. destruct L2 as (L2 & L2').
    apply existsb_exists in L2. destruct L2 as (y & Hy & Ey). apply Nat.eqb_eq in Ey, L2'. subst y.
    exists GU, GV. repeat (split; [auto|]). apply existsb_exists in L1. destruct L1 as (e & He & E1).
    apply in_map_iff. exists e. split; [|auto]. unfold keyb in E1. apply andb_true_iff in E1. destruct E1 as (E1 & E3).
    apply Nat.eqb_eq in E1, E3. destruct (fst e); cbn in *. unfold akey in *. cbn in *. congruence.
  - intros G HG E. specialize (K2 G HG). rewrite E in K2. discriminate.
  - intros n e u He Hu. specialize (K1 n (IN n e He)). rewrite forallb_forall in K1. specialize (K1 e He). rewrite forallb_forall in K1.
    specialize (K1 u Hu). destruct (Qltb_spec 0 u); [auto|discriminate].
  - intros G n e HG Hn He. specialize (K0 G HG). rewrite forallb_forall in K0. specialize (K0 n Hn). rewrite forallb_forall in K0.
    now apply Nat.eqb_eq, K0.
  - intros G ns n HG Hns Hn. specialize (K G HG). rewrite forallb_forall in K. specialize (K ns Hns). rewrite forallb_forall in K.
    specialize (K n Hn). apply andb_true_iff in K. destruct K as (K & K'). split; [|auto]. apply existsb_exists in K.
    destruct K as (x & Hx & E). apply Nat.eqb_eq in E. now subst.
  - intros a Ha. specialize (K3 a Ha). repeat (apply andb_true_iff in K3; let L := fresh "L" in destruct K3 as (K3 & L)).
    now apply eqb_prop.
  - intros a Ha. specialize (K3 a Ha). repeat (apply andb_true_iff in K3; let L := fresh "L" in destruct K3 as (K3 & L)).
    destruct (Qleb_spec 0 (a_exclval a)); [auto|discriminate].
Qed.

Definition the_lp (r : result lp) : lp := match r with Ok p => p | _ => mkLP 0 (fun _ => zero_col) [] [] end.
Definition sol_of (l : list Q) (i : nat) : Q := nth i l 0.
Ltac feas := split; [|split];
  [intros i Hi; do 6 (destruct i as [|i]; [vm_compute; split; (discriminate || exact I || auto)|]); vm_compute in Hi; lia
  |intros r Hr; vm_compute in Hr; repeat (destruct Hr as [<-|Hr]; [vm_compute; split; (discriminate || exact I)|]); contradiction
  |intros i Hi; vm_compute in Hi; contradiction].

(** Request group 0 (10 wanted, node 0); bid 1 offers 5 and is in an unconstrained supply group. *)
Definition o1 : graph := mkGraph
  [pN 0 10 false [((0%nat, 1%nat), 1)] [((0%nat, 1%nat), [1])]; pN 1 5 false [] [((0%nat, 1%nat), [])]]
  [mkGroup 10 [0%nat] [Some 10] []; mkGroup 0 [1%nat] [] []] [0%nat] [1%nat]
  [mkArc 0 1 false 0] [].
Definition o1_lp := the_lp (to_prog o1 false (11 # 10)).
Ltac obj_of p n := unfold objective; change (lp_ncols p) with n; cbn [seq map qsum].
Lemma o1_opt : optimal o1_lp (sol_of [10; 0]).
Proof.
  split; [feas|]. intros s (F1 & F2 & _).
  destruct (F1 1%nat) as (B & _); [vm_compute; lia|].
  destruct (F2 (mkLRow [(0%nat, 1); (1%nat, 1)] 10 None)) as (L & _); [vm_compute; auto|].
  assert (C0 : lc_obj (lp_col o1_lp 0) == 1) by (vm_compute; reflexivity).
  assert (C1 : lc_obj (lp_col o1_lp 1) == 11 # 10) by (vm_compute; reflexivity).
  obj_of o1_lp 2%nat. rewrite C0, C1. cbn in B. unfold row_val in L. cbn in L. cbn. lra.
Qed.
Lemma offer_exceeded : exists g pseudo p sol a q, prog_ready g /\ pseudo_cost g false = Some pseudo /\
  to_prog g false pseudo = Ok p /\ optimal p sol /\ In (a, q) (prog_matches (1 # 1000000) false g sol) /\ n_qty (vnode g a) < q.
Proof.
  exists o1, (11 # 10), o1_lp, (sol_of [10; 0]), (mkArc 0 1 false 0), 10.
  split; [apply ready_ok; vm_compute; reflexivity|]. split; [vm_compute; reflexivity|]. split; [reflexivity|]. split; [apply o1_opt|].
  split; [vm_compute; auto|vm_compute; reflexivity].
Qed.

(** Request group 0 wants 20 in all: 10 for node 0 and 10 for node 1. Two bids of 10 (nodes 2 and 3) on node 0. *)
Definition o2 : graph := mkGraph
  [pN 0 10 false [((0%nat, 2%nat), 1); ((0%nat, 3%nat), 1)] [((0%nat, 2%nat), [1]); ((0%nat, 3%nat), [1])];
   pN 0 10 false [] [];
   pN 1 10 false [] [((0%nat, 2%nat), [1])]; pN 2 10 false [] [((0%nat, 3%nat), [1])]]
  [mkGroup 20 [0%nat; 1%nat] [Some 20] []; mkGroup 0 [2%nat] [Some 10] []; mkGroup 0 [3%nat] [Some 10] []]
  [0%nat] [1%nat; 2%nat]
  [mkArc 0 2 false 0; mkArc 0 3 false 0] [].
Definition o2_lp := the_lp (to_prog o2 false (11 # 10)).
Lemma o2_opt : optimal o2_lp (sol_of [10; 10; 0]).
Proof.
  split; [feas|]. intros s (F1 & F2 & _).
  destruct (F1 2%nat) as (B & _); [vm_compute; lia|].
  destruct (F2 (mkLRow [(0%nat, 1); (1%nat, 1); (2%nat, 1)] 20 None)) as (L & _); [vm_compute; auto|].
  assert (C0 : lc_obj (lp_col o2_lp 0) == 1) by (vm_compute; reflexivity).
  assert (C1 : lc_obj (lp_col o2_lp 1) == 1) by (vm_compute; reflexivity).
  assert (C2 : lc_obj (lp_col o2_lp 2) == 11 # 10) by (vm_compute; reflexivity).
  obj_of o2_lp 3%nat. rewrite C0, C1, C2. cbn in B. unfold row_val in L. cbn in L. cbn. lra.
Qed.
Lemma request_exceeded : exists g pseudo p sol n, prog_ready g /\ pseudo_cost g false = Some pseudo /\
  to_prog g false pseudo = Ok p /\ optimal p sol /\ n_qty (node_at g n) < on_unode (prog_matches (1 # 1000000) false g sol) n.
Proof.
  exists o2, (11 # 10), o2_lp, (sol_of [10; 10; 0]), 0%nat.
  split; [apply ready_ok; vm_compute; reflexivity|]. split; [vm_compute; reflexivity|]. split; [reflexivity|]. split; [apply o2_opt|].
  vm_compute; reflexivity.
Qed.

(** Request group 0 wants 10 (node 0); two exclusive bids of 7. *)
Definition o3 : graph := mkGraph
  [pN 0 10 false [((0%nat, 1%nat), 1); ((0%nat, 2%nat), 1)] [((0%nat, 1%nat), [1]); ((0%nat, 2%nat), [1])];
   pN 1 7 true [] [((0%nat, 1%nat), [1])]; pN 2 7 true [] [((0%nat, 2%nat), [1])]]
  [mkGroup 10 [0%nat] [Some 10] []; mkGroup 0 [1%nat] [Some 10] [[1%nat]]; mkGroup 0 [2%nat] [Some 10] [[2%nat]]]
  [0%nat] [1%nat; 2%nat]
  [mkArc 0 1 true 7; mkArc 0 2 true 7] [].
Definition o3_lp := the_lp (to_prog o3 true (77 # 10)).
Lemma o3_opt : optimal o3_lp (sol_of [1; 1; 0]).
Proof.
  split.
  - split; [|split];
    [intros i Hi; do 6 (destruct i as [|i]; [vm_compute; split; (discriminate || exact I || auto)|]); vm_compute in Hi; lia
    |intros r Hr; vm_compute in Hr; repeat (destruct Hr as [<-|Hr]; [vm_compute; split; (discriminate || exact I)|]); contradiction
    |intros i Hi; vm_compute in Hi; destruct Hi as [<-|[<-|[]]]; exists 1%Z; reflexivity].
  - intros s (F1 & F2 & F3).
    destruct (F1 0%nat) as (A0 & A1); [vm_compute; lia|].
    destruct (F1 1%nat) as (B0 & B1); [vm_compute; lia|].
    destruct (F1 2%nat) as (B & _); [vm_compute; lia|].
    destruct (F2 (mkLRow [(0%nat, 7); (1%nat, 7); (2%nat, 1)] 10 None)) as (L & _); [vm_compute; auto 10|].
    destruct (F3 0%nat) as (z0 & Z0); [vm_compute; auto|]. destruct (F3 1%nat) as (z1 & Z1); [vm_compute; auto|].
    assert (C0 : lc_obj (lp_col o3_lp 0) == 7) by (vm_compute; reflexivity).
    assert (C1 : lc_obj (lp_col o3_lp 1) == 7) by (vm_compute; reflexivity).
    assert (C2 : lc_obj (lp_col o3_lp 2) == 77 # 10) by (vm_compute; reflexivity).
    obj_of o3_lp 3%nat. rewrite C0, C1, C2. cbn in A0, A1, B0, B1, B. unfold row_val in L. cbn in L. cbn.
    assert (D : forall x z, 0 <= x -> x <= 1 -> x == inject_Z z -> x == 0 \/ x == 1).
    { intros x z P Q E. rewrite E in P, Q. change 0 with (inject_Z 0) in P. change 1 with (inject_Z 1) in Q.
      rewrite <- Zle_Qle in P, Q. assert (z = 0 \/ z = 1)%Z as [-> | ->] by lia; rewrite E; [left|right]; reflexivity. }
    destruct (D _ _ A0 A1 Z0) as [E0|E0]; destruct (D _ _ B0 B1 Z1) as [E1|E1]; rewrite E0, E1 in *; lra.
Qed.
Lemma exclusive_over : exists g pseudo p sol G, prog_ready g /\ pseudo_cost g true = Some pseudo /\
  to_prog g true pseudo = Ok p /\ optimal p sol /\ In G (gr_req g) /\
  forall j c, nth_error (g_caps (group_at g G)) j = Some c -> ~ within (uload g (prog_matches (1 # 1000000) true g sol) G j) c.
Proof.
  exists o3, (77 # 10), o3_lp, (sol_of [1; 1; 0]), 0%nat.
  split; [apply ready_ok; vm_compute; reflexivity|]. split; [vm_compute; reflexivity|]. split; [reflexivity|]. split; [apply o3_opt|].
  split; [now left|]. intros [|[|j]] c H; vm_compute in H; try discriminate. injection H as <-. vm_compute. intros N. now apply N.
Qed.

(** A request for 10 with two bids in supply groups of 20; the solver splits it 4 to 6. *)
Definition o4 : graph := mkGraph
  [pN 0 10 false [((0%nat, 1%nat), 1); ((0%nat, 2%nat), 1)] [((0%nat, 1%nat), [1]); ((0%nat, 2%nat), [1])];
   pN 1 7 false [] [((0%nat, 1%nat), [1])]; pN 2 7 false [] [((0%nat, 2%nat), [1])]]
  [mkGroup 10 [0%nat] [Some 10] []; mkGroup 0 [1%nat] [Some 20] []; mkGroup 0 [2%nat] [Some 20] []]
  [0%nat] [1%nat; 2%nat]
  [mkArc 0 1 false 0; mkArc 0 2 false 0] [].
Definition o4_lp := the_lp (to_prog o4 false (11 # 10)).
Lemma o4_opt : optimal o4_lp (sol_of [4; 6; 0]).
Proof.
  split; [feas|]. intros s (F1 & F2 & _).
  destruct (F1 2%nat) as (B & _); [vm_compute; lia|].
  destruct (F2 (mkLRow [(0%nat, 1); (1%nat, 1); (2%nat, 1)] 10 None)) as (L & _); [vm_compute; auto|].
  assert (C0 : lc_obj (lp_col o4_lp 0) == 1) by (vm_compute; reflexivity).
  assert (C1 : lc_obj (lp_col o4_lp 1) == 1) by (vm_compute; reflexivity).
  assert (C2 : lc_obj (lp_col o4_lp 2) == 11 # 10) by (vm_compute; reflexivity).
  obj_of o4_lp 3%nat. rewrite C0, C1, C2. cbn in B. unfold row_val in L. cbn in L. cbn. lra.
Qed.
Lemma o4_ready : prog_ready o4. Proof. apply ready_ok. vm_compute. reflexivity. Qed.

(** GreedyExamples.exG, whose arc 1-4 is exclusive (5): a solution of its program. *)
Definition exG_lp := the_lp (to_prog exG true (55 # 10)).
Lemma exG_feasible : feasible exG_lp (sol_of [6; 4; 1; 0; 0]).
Proof.
  split; [|split];
    [intros i Hi; do 6 (destruct i as [|i]; [vm_compute; split; (discriminate || exact I || auto)|]); vm_compute in Hi; lia
    |intros r Hr; vm_compute in Hr; repeat (destruct Hr as [<-|Hr]; [vm_compute; split; (discriminate || exact I)|]); contradiction
    |intros i Hi; vm_compute in Hi; destruct Hi as [<-|[]]; exists 1%Z; reflexivity].
Qed.
Lemma exG_ready : prog_ready exG. Proof. apply ready_ok. vm_compute. reflexivity. Qed.

(** With exclusive orders off, an exclusive bid of nothing makes the cost of leaving demand unmet infinite. *)
Definition o5 : graph := mkGraph
  [pN 0 10 false [((0%nat, 1%nat), 1)] [((0%nat, 1%nat), [1])]; pN 1 0 true [] [((0%nat, 1%nat), [1])]]
  [mkGroup 10 [0%nat] [Some 10] []; mkGroup 0 [1%nat] [Some 10] [[1%nat]]]
  [0%nat] [1%nat] [mkArc 0 1 true 0] [].
Lemma o5_infinite : prog_ready o5 /\ (forall a, In a (gr_arcs o5) -> 0 < pref_of (unode o5 a) a) /\ pseudo_cost o5 false = None.
Proof.
  split; [apply ready_ok; vm_compute; reflexivity|]. split; [|vm_compute; reflexivity].
  intros a [<-|[]]. vm_compute. reflexivity.
Qed.
