(** Proofs for C22. *)
From Coq Require Import String QArith List Bool Arith ZArith Lia Lqa.
From Verif Require Import Base GreedyModel GreedySpec GreedyExamples ExchangeModel ExchangeProofs1 LoadSolverModel.
Import ListNotations.
Open Scope Q_scope.

Lemma streqb_ok a b : String.eqb a b = true <-> a = b.
Proof. apply String.eqb_eq. Qed.

Lemma mupd_keys {V} k (f : option V -> V) m :
  map fst (mupd String.eqb k f m) = map fst m ++ (if existsb (String.eqb k) (map fst m) then [] else [k]).
Proof.
  induction m as [|[k' v] m IH]; simpl; auto.
  destruct (String.eqb k k') eqn:E; simpl.
  - now rewrite app_nil_r.
  - now rewrite IH.
Qed.
Lemma mupd_nodup {V} k (f : option V -> V) m : NoDup (map fst m) -> NoDup (map fst (mupd String.eqb k f m)).
Proof.
  intros N. rewrite mupd_keys. destruct (existsb _ _) eqn:E.
  - now rewrite app_nil_r.
  - rewrite <- (rev_involutive (map fst m ++ [k])), rev_app_distr. apply NoDup_rev. simpl. constructor.
    + intros I. rewrite <- in_rev in I. assert (T : existsb (String.eqb k) (map fst m) = true).
      { apply existsb_exists. exists k. split; auto. apply String.eqb_refl. }
      congruence.
    + now apply NoDup_rev.
Qed.
Lemma declared_nodup ds : NoDup (map fst (declared ds)).
Proof.
  unfold declared. assert (G : forall acc : list (string * Q), NoDup (map fst acc) -> NoDup (map fst (fold_left (fun acc d => mupd String.eqb (fst d)
      (fun _ => match snd d with Some p => p | None => -(1) end) acc) ds acc))).
  { induction ds as [|d ds IH]; intros acc N; simpl; auto. apply IH. now apply mupd_nodup. }
  apply G. constructor.
Qed.
Lemma declared_nonempty ds : ds <> [] -> declared ds <> [].
Proof.
  intros N E. assert (L : length (declared ds) = 0%nat) by now rewrite E.
  unfold declared in L. destruct ds as [|d ds]; [congruence|]. simpl in L.
  assert (G : forall ds (acc : list (string * Q)), acc <> [] -> length (fold_left (fun acc d => mupd String.eqb (fst d)
      (fun _ => match snd d with Some p => p | None => -(1) end) acc) ds acc) <> 0%nat).
  { clear. induction ds as [|d ds IH]; intros acc N; simpl.
    - destruct acc; [congruence|discriminate].
    - apply IH. destruct acc as [|[k v] acc]; [congruence|]. simpl. destruct (String.eqb _ k); discriminate. }
  apply (G ds _) in L; auto. discriminate.
Qed.

(** The code's column is not in the table. *)
Lemma sim_ignores name ds : ds <> [] -> sim_weights name ds = Ok [].
Proof.
  intros N. apply declared_nonempty in N. unfold sim_weights, solver_weights.
  destruct (declared ds) as [|[c x] m] eqn:E; [congruence|]. cbn [process_commods].
  unfold load_greedy, load_precon. cbn [commod_table tb_rows map length read_order fst].
  unfold get_str, get_num, get_val. cbn [tb_rows tb_fields nth_error index_of].
  reflexivity.
Qed.

Lemma nth_rows (pre : list (string * Q)) c o suf :
  nth_error (tb_rows (commod_table (pre ++ (c, o) :: suf))) (length pre) = Some [DStr c; DNum o].
Proof. unfold commod_table. cbn [tb_rows]. rewrite map_app, nth_error_app2, map_length, Nat.sub_diag by (rewrite map_length; lia). reflexivity. Qed.

Lemma read_matching : forall suf pre, NoDup (map fst (pre ++ suf)) ->
  read_order "SolutionPriority" (commod_table (pre ++ suf)) (length pre) (length suf) pre = Ok (pre ++ suf).
Proof.
  induction suf as [|[c o] suf IH]; intros pre N; cbn [length read_order].
  - now rewrite app_nil_r.
  - assert (GV : forall f, get_val (commod_table (pre ++ (c, o) :: suf)) f (length pre) =
       match index_of f ["Commodity"%string; "SolutionPriority"%string] with
       | None => Throw KeyError
       | Some i => match nth_error [DStr c; DNum o] i with Some v => Ok v | None => UB end end).
    { intros f. unfold get_val. assert (NR := nth_rows pre c o suf).
      destruct (tb_rows (commod_table (pre ++ (c, o) :: suf))) as [|r0 rs0]; [now destruct pre|].
      rewrite NR. reflexivity. }
    unfold get_str, get_num. rewrite !GV. cbn [index_of String.eqb Ascii.eqb Bool.eqb option_map nth_error].
    assert (F : mfind String.eqb c pre = None).
    { apply (mfind_none String.eqb streqb_ok). intros I. rewrite map_app in N. simpl in N.
      apply NoDup_remove_2 in N. apply N. apply in_or_app; auto. }
    rewrite (mupd_fresh String.eqb c (fun _ => o) pre F).
    replace (pre ++ (c, o) :: suf) with ((pre ++ [(c, o)]) ++ suf) in * by (now rewrite <- app_assoc).
    replace (S (length pre)) with (length (pre ++ [(c, o)])) by (rewrite app_length; simpl; lia).
    now apply IH.
Qed.

Lemma wlookup_mfind c w : wlookup c w = match mfind String.eqb c w with Some x => x | None => 0 end.
Proof. induction w as [|[c' x] w IH]; simpl; auto. destruct (String.eqb c c'); auto. Qed.
Lemma mfind_map c (f : Q -> Q) m :
  mfind String.eqb c (map (fun p : string * Q => (fst p, f (snd p))) m) = option_map f (mfind String.eqb c m).
Proof. induction m as [|[c' x] m IH]; simpl; auto. destruct (String.eqb c c'); auto. Qed.

Lemma matching_order ds m : process_commods (declared ds) = Ok m ->
  exists w, solver_weights "SolutionPriority" "greedy" ds = Ok w /\
  forall c1 c2 p1 p2, mfind String.eqb c1 m = Some p1 -> mfind String.eqb c2 m = Some p2 ->
    p1 < p2 -> wlookup c2 w < wlookup c1 w.
Proof.
  intros E. assert (ND : NoDup (map fst m)).
  { assert (K : map fst m = map fst (declared ds)).
    { unfold process_commods in E. destruct (declared ds) as [|[c x] t] eqn:D; [discriminate|].
      injection E as <-. cbn [map fst]. f_equal. rewrite map_map. cbn [fst]. reflexivity. }
    rewrite K. apply declared_nodup. }
  exists (process_weights true m). split.
  - unfold solver_weights. rewrite E. unfold load_greedy, load_precon.
    assert (R := read_matching m [] ND). cbn [app length] in R.
    replace (length (tb_rows (commod_table m))) with (length m) by (cbn; now rewrite map_length).
    rewrite R. reflexivity.
  - intros c1 c2 p1 p2 F1 F2 LT. unfold process_weights.
    destruct m as [|[c x] t]; [discriminate|].
    rewrite !wlookup_mfind, !(mfind_map _ (fun q => wmax x t + wmin x t - q)), F1, F2. simpl. lra.
Qed.

(** What ProcessCommodities makes of the declared priorities: declared ones are kept and
    the others come after all of them. *)
Lemma max_fold t : forall x, let mx := fold_left (fun best (p : string * Q) => if Qltb best (snd p) then snd p else best) t x in
  x <= mx /\ (forall c p, In (c, p) t -> p <= mx).
Proof.
  induction t as [|[c y] t IH]; intros x; simpl; [split; [lra|contradiction]|].
  destruct (IH (if Qltb x y then y else x)) as [A B]. cbv zeta in *. split.
  - destruct (Qltb_spec x y); lra.
  - intros c' p [[= <- <-]|I]; [destruct (Qltb_spec x y); lra|]. eapply B; eauto.
Qed.
Lemma processed ds m : process_commods (declared ds) = Ok m ->
  forall c p, mfind String.eqb c (declared ds) = Some p ->
    exists p', mfind String.eqb c m = Some p' /\ (1 <= p -> p' = p) /\
      (p < 1 -> forall c2 p2, mfind String.eqb c2 (declared ds) = Some p2 -> 1 <= p2 -> p2 < p').
Proof.
  unfold process_commods. destruct (declared ds) as [|[c0 x] t] eqn:D; [discriminate|].
  intros [= <-] c p F. set (mx0 := fold_left _ t x). set (mx := if Qltb mx0 1 then 0 else mx0).
  exists (if Qltb p 1 then mx + 1 else p).
  assert (MM := mfind_map c (fun q => if Qltb q 1 then mx + 1 else q) ((c0, x) :: t)). cbn [map fst snd] in MM.
  split; [rewrite MM, F; reflexivity|]. destruct (Qltb_spec p 1) as [L|L].
  - split; [lra|]. intros _ c2 p2 F2 L2.
    destruct (max_fold t x) as [A B]. fold mx0 in A, B.
    assert (p2 <= mx0).
    { apply (mfind_in String.eqb streqb_ok) in F2. destruct F2 as [[= <- <-]|I]; [exact A|]. eapply B; eauto. }
    unfold mx. destruct (Qltb_spec mx0 1); lra.
  - split; [auto|]. intros X. lra.
Qed.

(** ** A simulation in which the priorities matter *)
Definition prDecls : list commod_decl := [("A"%string, Some 1); ("B"%string, Some 2)].
Definition prNode (G : nat) (q : Q) (c : string) prefs caps := mkNode (Some G) q false c 1 prefs caps.
Definition pr_nodes : list node :=
  [ prNode 0 5 "B" [((0%nat, 2%nat), 1)] [((0%nat, 2%nat), [1])];
    prNode 1 5 "A" [((1%nat, 3%nat), 1)] [((1%nat, 3%nat), [1])];
    prNode 2 5 "B" [] [((0%nat, 2%nat), [1])];
    prNode 2 5 "A" [] [((1%nat, 3%nat), [1])] ].
Definition prG : graph :=
  mkGraph pr_nodes
    [ mkGroup 5 [0%nat] [Some 5] []; mkGroup 5 [1%nat] [Some 5] []; mkGroup 0 [2%nat; 3%nat] [Some 5] [] ]
    [0%nat; 1%nat] [2%nat] [mkArc 0 2 false 0; mkArc 1 3 false 0] [].
Lemma prG_wb : well_built fdx prG.
Proof.
  constructor.
  - intros a [<-|[<-|[]]]; [exists 0%nat, 2%nat|exists 1%nat, 2%nat]; vm_compute; repeat split; auto; repeat constructor.
  - intros G n [<-|[<-|[]]] [<-|[]]; reflexivity.
  - intros G [<-|[<-|[]]]; repeat constructor; auto.
  - intros G [<-|[<-|[]]] [E|[]]; discriminate.
  - repeat constructor; simpl; intuition discriminate.
  - intros G i c. destruct G as [|[|[|[|G]]]]; destruct i as [|[|[|i]]]; intros E;
      vm_compute in E; try discriminate; injection E as <-; vm_compute; discriminate.
  - intros n. destruct n as [|[|[|[|n]]]]; vm_compute; try discriminate. destruct n; vm_compute; discriminate.
  - intros G [<-|[<-|[]]]; vm_compute; discriminate.
  - reflexivity.
Qed.
Definition prSolved (w : weights) : graph :=
  match solve fdx (1 # 1000) (Some w) prG with Ok h => h | _ => prG end.
Lemma priorities_refuted_proof : exists ds g w g' GA GB,
  declared ds = [("A"%string, 1); ("B"%string, 2)] /\
  well_built fdx g /\ sim_weights "greedy" ds = Ok w /\ solve fdx (1 # 1000) (Some w) g = Ok g' /\
  In GA (gr_req g) /\ In GB (gr_req g) /\
  (forall n, In n (g_nodes (group_at g GA)) -> n_commod (node_at g n) = "A"%string) /\
  (forall n, In n (g_nodes (group_at g GB)) -> n_commod (node_at g n) = "B"%string) /\
  g_qty (group_at g GA) == 5 /\ on_group g (gr_matches g') GA == 0 /\
  g_qty (group_at g GB) == 5 /\ on_group g (gr_matches g') GB == 5 /\
  exists w' g'', solver_weights "SolutionPriority" "greedy" ds = Ok w' /\
    solve fdx (1 # 1000) (Some w') g = Ok g'' /\
    on_group g (gr_matches g'') GA == 5 /\ on_group g (gr_matches g'') GB == 0.
Proof.
  exists prDecls, prG, [], (prSolved []), 1%nat, 0%nat.
  split; [reflexivity|]. split; [exact prG_wb|]. split; [vm_compute; reflexivity|].
  split; [vm_compute; reflexivity|]. split; [simpl; auto|]. split; [simpl; auto|].
  split; [intros n [<-|[]]; reflexivity|]. split; [intros n [<-|[]]; reflexivity|].
  split; [vm_compute; reflexivity|]. split; [vm_compute; reflexivity|].
  split; [vm_compute; reflexivity|]. split; [vm_compute; reflexivity|].
  exists (process_weights true [("A"%string, 1); ("B"%string, 2)]),
    (prSolved (process_weights true [("A"%string, 1); ("B"%string, 2)])).
  split; [vm_compute; reflexivity|]. split; [vm_compute; reflexivity|]. split; vm_compute; reflexivity.
Qed.
