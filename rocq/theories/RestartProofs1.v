(** LoadInitialAgents: the agent tree. *)
From Coq Require Import String List ZArith Bool Arith Lia Permutation.
From Verif Require Import Base SimModel SimSpec RestartModel RestartSpec.
Import ListNotations.
Local Open Scope Z_scope.

Section T.
Context {C : Type}.
Local Notation um := (zmap (Z * lagent C)).
Local Notation am := (zmap (lagent C)).
(** An agent whose line of recorded parents, within the agents to be loaded, ends in an agent without parent. *)
Inductive rooted (m : um) : Z -> Prop :=
| rooted_top id x : zfind id m = Some (-1, x) -> rooted m id
| rooted_under id pid x : zfind id m = Some (pid, x) -> rooted m pid -> rooted m id.
Definition up (pid : Z) : option Z := if Z.eqb pid (-1) then None else Some pid.
Record state := mkSt { st_seen : um; st_ahead : um; st_ag : am; st_en : list Z }.
Definition ready (ag : am) (e : Z * (Z * lagent C)) : bool :=
  Z.eqb (fst (snd e)) (-1) || match zfind (fst (snd e)) ag with Some _ => true | None => false end.
Definition next (s : state) : state :=
  match st_ahead s with
  | [] => s
  | e :: rest =>
      let s1 := if ready (st_ag s) e then
                  mkSt (st_seen s) rest (zset (fst e) (connect_to (up (fst (snd e))) (snd (snd e))) (st_ag s)) (st_en s ++ [fst e])
                else mkSt (st_seen s ++ [e]) rest (st_ag s) (st_en s) in
      match rest with [] => mkSt [] (st_seen s1) (st_ag s1) (st_en s1) | _ => s1 end
  end.
Definition bt (fuel : nat) (s : state) := build_tree fuel (st_seen s) (st_ahead s) (st_ag s) (st_en s).
Lemma bt_step f s : st_ahead s <> [] -> bt (Datatypes.S f) s = bt f (next s).
Proof.
  destruct s as [seen [|[id [pid m]] rest] ag en]; [contradiction|]. intros _.
  unfold bt, next, ready, up. cbn [st_seen st_ahead st_ag st_en fst snd build_tree].
  destruct (Z.eqb pid (-1)); simpl; [destruct rest; reflexivity|].
  destruct (zfind pid ag); simpl; destruct rest; reflexivity.
Qed.
Definition unbuilt (s : state) : um := st_seen s ++ st_ahead s.
Context (m : um) (Sm : zsorted m).
Record ok (s : state) : Prop := {
  o_wrap : st_ahead s = [] -> st_seen s = [];
  o_un : forall id v, In (id, v) (unbuilt s) -> zfind id m = Some v;
  o_dis : NoDup (zkeys (unbuilt s) ++ st_en s);
  o_all : forall id v, zfind id m = Some v -> In (id, v) (unbuilt s) \/ In id (st_en s);
  o_keys : forall id, In id (st_en s) <-> zfind id (st_ag s) <> None;
  o_sort : zsorted (st_ag s);
  o_ag : forall id x, zfind id (st_ag s) = Some x -> exists pid y, zfind id m = Some (pid, y) /\ x = connect_to (up pid) y /\ rooted m id;
  o_first : parents_first (fun id => match zfind id m with Some (pid, _) => up pid | None => None end) (st_en s) }.
Lemma parents_first_snoc f l id : parents_first f l -> match f id with Some p => In p l | None => True end -> parents_first f (l ++ [id]).
Proof.
  intros H Hi l1 x l2 E. destruct l2 as [|y l2] using rev_ind.
  - apply app_inj_tail in E. destruct E as [-> ->]. exact Hi.
  - clear IHl2. rewrite app_comm_cons, app_assoc in E. apply app_inj_tail in E. destruct E as [E ->]. apply (H l1 x l2 E).
Qed.
Lemma ok_next s : ok s -> ok (next s).
Proof.
  intros [W U D A K S G F]. destruct s as [seen [|[id [pid x]] rest] ag en]; [constructor; auto|].
  set (s := mkSt seen ((id, (pid, x)) :: rest) ag en) in *.
  assert (P : exists s1, (st_ag (next s) = st_ag s1 /\ st_en (next s) = st_en s1 /\ unbuilt (next s) = unbuilt s1 /\ (st_ahead (next s) = [] -> st_seen (next s) = [])) /\
     s1 = if ready ag (id, (pid, x)) then mkSt seen rest (zset id (connect_to (up pid) x) ag) (en ++ [id]) else mkSt (seen ++ [(id, (pid, x))]) rest ag en).
  { eexists. split; [|reflexivity]. unfold next, s. cbn [st_ahead st_ag st_seen st_en fst snd].
    destruct (ready ag (id, (pid, x))); destruct rest; unfold unbuilt; cbn [st_ahead st_ag st_seen st_en]; rewrite ?app_nil_r; repeat split; auto; discriminate. }
  destruct P as (s1 & (E1 & E2 & E3 & E4) & Es).
  assert (Hid : zfind id m = Some (pid, x)) by (apply U; unfold unbuilt, s; simpl; apply in_or_app; right; now left).
  unfold unbuilt in *. unfold s in *. cbn [st_ahead st_ag st_seen st_en] in *. unfold zkeys in *. rewrite map_app in *. cbn [map fst] in *.
  destruct (ready ag (id, (pid, x))) eqn:R; subst s1; cbn [st_ahead st_ag st_seen st_en] in *.
  - assert (Perm : Permutation ((map fst seen ++ id :: map fst rest) ++ en) ((map fst seen ++ map fst rest) ++ en ++ [id])).
    { rewrite app_assoc. rewrite <- Permutation_cons_append. change (id :: (map fst seen ++ map fst rest) ++ en) with ((id :: map fst seen ++ map fst rest) ++ en).
      apply Permutation_app_tail. symmetry. apply Permutation_middle. }
    assert (Nid : zfind id ag = None).
    { destruct (zfind id ag) eqn:Z; [|reflexivity]. exfalso. assert (I : In id en) by (apply K; congruence).
      rewrite <- app_assoc in D. apply NoDup_remove_2 in D. apply D. rewrite !in_app_iff. auto. }
    assert (Par : match up pid with Some p => In p en | None => True end).
    { unfold up, ready in *. simpl in R. destruct (Z.eqb pid (-1)); [exact Logic.I|]. apply K. simpl in R. destruct (zfind pid ag); congruence. }
    constructor; unfold unbuilt in *; rewrite ?E1, ?E2, ?E3.
    + exact E4.
    + intros k v Hk. apply U. rewrite in_app_iff in *. simpl. tauto.
    + unfold zkeys. rewrite map_app. eapply Permutation_NoDup; eauto.
    + intros k v Hk. destruct (A k v Hk) as [I|I].
      * rewrite in_app_iff in I. simpl in I. destruct I as [I|[I|I]].
        -- left. rewrite in_app_iff. auto.
        -- right. injection I as -> _. rewrite in_app_iff. simpl. auto.
        -- left. rewrite in_app_iff. auto.
      * right. rewrite in_app_iff. auto.
    + intros k. rewrite in_app_iff. simpl. destruct (Z.eq_dec id k) as [<-|N].
      * rewrite zfind_zset_same. split; [congruence|auto].
      * rewrite zfind_zset_other by exact N. rewrite <- K. tauto.
    + now apply zset_sorted.
    + intros k v Hk. destruct (Z.eq_dec id k) as [<-|N].
      * rewrite zfind_zset_same in Hk. injection Hk as <-. exists pid, x. split; [exact Hid|]. split; [reflexivity|].
        unfold up in Par. destruct (Z.eqb_spec pid (-1)) as [->|Np]; [now apply (rooted_top m id x)|].
        apply (rooted_under m id pid x Hid). apply K in Par. destruct (zfind pid ag) as [y|] eqn:Ey; [|congruence].
        destruct (G pid y Ey) as (p2 & y2 & _ & _ & Hr). exact Hr.
      * rewrite zfind_zset_other in Hk by exact N. now apply G.
    + apply parents_first_snoc; [exact F|]. rewrite Hid. exact Par.
  - constructor; unfold unbuilt in *; rewrite ?E1, ?E2, ?E3, <- ?app_assoc; auto.
    unfold zkeys. rewrite !map_app. exact D.
Qed.
Lemma ok_start : ok (mkSt [] m [] []).
Proof.
  constructor; cbn [st_ahead st_ag st_seen st_en]; unfold unbuilt; cbn [st_ahead st_seen app].
  - auto.
  - intros id v I. now apply zsorted_In_find.
  - rewrite app_nil_r. now apply zsorted_NoDup.
  - intros id v H. left. now apply zfind_In.
  - intros id. simpl. split; [contradiction|congruence].
  - exact Logic.I.
  - intros id x H. discriminate.
  - intros l1 id l2 E. destruct l1; discriminate.
Qed.

(** ** Agents that cannot be reached *)
Lemma stuck id v : zfind id m = Some v -> ~ rooted m id -> forall fuel s, ok s -> bt fuel s = None.
Proof.
  intros Hv Nr fuel. induction fuel as [|f IH]; intros s O; [reflexivity|].
  assert (I : In (id, v) (unbuilt s)).
  { destruct (o_all _ O id v Hv) as [I|I]; [exact I|]. exfalso. apply (o_keys _ O) in I.
    destruct (zfind id (st_ag s)) as [x|] eqn:E; [|congruence]. destruct (o_ag _ O id x E) as (? & ? & _ & _ & R). contradiction. }
  assert (Na : st_ahead s <> []). { intros E. unfold unbuilt in I. rewrite (o_wrap _ O E), E in I. exact I. }
  rewrite bt_step by exact Na. apply IH. now apply ok_next.
Qed.

(** ** Progress *)
Definition steps_to (s s' : state) : Prop := exists k, forall f, bt (k + f) s = bt f s'.
Lemma steps_refl s : steps_to s s. Proof. exists 0%nat. auto. Qed.
Lemma steps_cons s s' : st_ahead s <> [] -> steps_to (next s) s' -> steps_to s s'.
Proof. intros N (k & H). exists (Datatypes.S k). intros f. simpl. rewrite bt_step by exact N. apply H. Qed.
Lemma steps_trans s s1 s2 : steps_to s s1 -> steps_to s1 s2 -> steps_to s s2.
Proof. intros (k & H) (j & J). exists (k + j)%nat. intros f. rewrite <- Nat.add_assoc, H. apply J. Qed.
Definition left (s : state) : nat := length (unbuilt s).
Lemma next_ready s e rest : st_ahead s = e :: rest -> ready (st_ag s) e = true -> (left (next s) < left s)%nat.
Proof.
  intros E R. unfold left, unbuilt, next. rewrite E, R. cbn [st_ahead st_ag st_seen st_en].
  destruct rest; cbn [st_ahead st_seen]; rewrite !app_length; simpl; lia.
Qed.
Lemma next_not s e rest : st_ahead s = e :: rest -> ready (st_ag s) e = false -> rest <> [] ->
  next s = mkSt (st_seen s ++ [e]) rest (st_ag s) (st_en s).
Proof. intros E R N. unfold next. rewrite E, R. destruct rest; [contradiction|reflexivity]. Qed.
Lemma next_wrap s e : st_ahead s = [e] -> ready (st_ag s) e = false -> next s = mkSt [] (st_seen s ++ [e]) (st_ag s) (st_en s).
Proof. intros E R. unfold next. rewrite E, R. reflexivity. Qed.
(** From here to the end of the list, something is built, or the loop starts over with everything still there. *)
Lemma pass ahead : forall s, ok s -> st_ahead s = ahead -> ahead <> [] ->
  (exists s', steps_to s s' /\ ok s' /\ (left s' < left s)%nat) \/
  (Forall (fun e => ready (st_ag s) e = false) ahead /\ steps_to s (mkSt [] (st_seen s ++ ahead) (st_ag s) (st_en s)) /\ ok (mkSt [] (st_seen s ++ ahead) (st_ag s) (st_en s))).
Proof.
  induction ahead as [|e rest IH]; intros s O E N; [contradiction|].
  assert (Na : st_ahead s <> []) by congruence.
  destruct (ready (st_ag s) e) eqn:R.
  - left. exists (next s). split; [apply steps_cons; [exact Na|apply steps_refl]|]. split; [now apply ok_next|]. eapply next_ready; eauto.
  - destruct rest as [|e2 rest].
    + right. rewrite <- (next_wrap s e E R). split; [constructor; [exact R|constructor]|].
      split; [apply steps_cons; [exact Na|apply steps_refl]|now apply ok_next].
    + assert (En : next s = mkSt (st_seen s ++ [e]) (e2 :: rest) (st_ag s) (st_en s)) by (apply next_not; auto; discriminate).
      assert (On : ok (next s)) by now apply ok_next.
      destruct (IH (next s) On) as [(s' & S1 & O1 & L1)|(F & S1 & O1)].
      * now rewrite En.
      * discriminate.
      * left. exists s'. split; [now apply steps_cons|]. split; [exact O1|]. unfold left, unbuilt in *. rewrite En in L1. cbn [st_ahead st_seen] in L1.
        rewrite E, <- app_assoc in *. exact L1.
      * right. rewrite En in F, S1, O1. cbn [st_ahead st_seen st_ag st_en] in F, S1, O1. rewrite <- app_assoc in S1, O1.
        split; [constructor; [exact R|exact F]|]. split; [|exact O1]. apply steps_cons; [exact Na|]. rewrite En. exact S1.
Qed.
Lemma progress s : ok s -> (forall id v, zfind id m = Some v -> rooted m id) -> unbuilt s <> [] ->
  exists s', steps_to s s' /\ ok s' /\ (left s' < left s)%nat.
Proof.
  intros O Hr Nu.
  (* some agent still to be built is ready *)
  assert (X : exists e, In e (unbuilt s) /\ ready (st_ag s) e = true).
  { destruct (unbuilt s) as [|[id v] l] eqn:El; [contradiction|]. assert (I : In (id, v) (unbuilt s)) by (rewrite El; now left). rewrite <- El. clear El l Nu.
    assert (R := Hr id v (o_un _ O id v I)). revert v I. induction R as [id x H|id pid x H R IH]; intros v I.
    - rewrite (o_un _ O id v I) in H. injection H as ->. exists (id, (-1, x)). split; [exact I|reflexivity].
    - rewrite (o_un _ O id v I) in H. injection H as ->.
      destruct (ready (st_ag s) (id, (pid, x))) eqn:Rd; [eauto|].
      assert (Hp : exists w, zfind pid m = Some w) by (inversion R; eauto). destruct Hp as (w & Hw).
      destruct (o_all _ O pid w Hw) as [Ip|Ip]; [now apply (IH w)|]. exfalso. unfold ready in Rd. simpl in Rd.
      apply (o_keys _ O) in Ip. destruct (zfind pid (st_ag s)); [|congruence]. now rewrite orb_true_r in Rd. }
  destruct X as (e & I & R).
  assert (Na : st_ahead s <> []). { intros E. unfold unbuilt in Nu. rewrite (o_wrap _ O E), E in Nu. now apply Nu. }
  destruct (pass (st_ahead s) s O eq_refl Na) as [H|(F & S1 & O1)]; [exact H|].
  set (s1 := mkSt [] (st_seen s ++ st_ahead s) (st_ag s) (st_en s)) in *.
  assert (Na1 : st_ahead s1 <> []) by exact Nu.
  destruct (pass (st_ahead s1) s1 O1 eq_refl Na1) as [(s' & S2 & O2 & L2)|(F2 & _ & _)].
  - exists s'. split; [eapply steps_trans; eauto|]. split; [exact O2|exact L2].
  - exfalso. rewrite Forall_forall in F2. specialize (F2 e I). simpl in F2. congruence.
Qed.
Lemma finishes : (forall id v, zfind id m = Some v -> rooted m id) -> forall n s, (left s <= n)%nat -> ok s ->
  exists s', steps_to s s' /\ ok s' /\ unbuilt s' = [].
Proof.
  intros Hr n. induction n as [|n IH]; intros s L O.
  - exists s. split; [apply steps_refl|]. split; [exact O|]. unfold left in L. destruct (unbuilt s); [reflexivity|simpl in L; lia].
  - destruct (unbuilt s) as [|e l] eqn:E; [exists s; split; [apply steps_refl|auto]|].
    destruct (progress s O Hr) as (s1 & S1 & O1 & L1); [congruence|].
    destruct (IH s1) as (s2 & S2 & O2 & U2); [lia|exact O1|]. exists s2. split; [eapply steps_trans; eauto|auto].
Qed.

(** ** The result *)
Lemma tree_ok : (forall id v, zfind id m = Some v -> rooted m id) ->
  exists n agents enter, (forall fuel, (n <= fuel)%nat -> build_tree fuel [] m [] [] = Some (agents, enter)) /\
    zsorted agents /\
    (forall id, zfind id agents = match zfind id m with Some (pid, x) => Some (connect_to (up pid) x) | None => None end) /\
    NoDup enter /\ (forall id, In id enter <-> zfind id m <> None) /\
    parents_first (fun id => match zfind id m with Some (pid, _) => up pid | None => None end) enter.
Proof.
  intros Hr. destruct (finishes Hr (left (mkSt [] m [] [])) (mkSt [] m [] []) (le_n _) ok_start) as (s & (k & S1) & O & U).
  exists (k + 1)%nat, (st_ag s), (st_en s).
  assert (A : st_ahead s = []) by (unfold unbuilt in U; now apply app_eq_nil in U).
  assert (In_m : forall id, In id (st_en s) <-> zfind id m <> None).
  { intros id. split.
    - intros I. apply (o_keys _ O) in I. destruct (zfind id (st_ag s)) as [x|] eqn:E; [|congruence].
      destruct (o_ag _ O id x E) as (? & ? & H & _). congruence.
    - intros H. destruct (zfind id m) as [v|] eqn:E; [|congruence]. destruct (o_all _ O id v E) as [I|I]; [|exact I]. rewrite U in I. contradiction. }
  split; [|split; [|split; [|split; [|split]]]].
  - intros fuel Hf. replace fuel with (k + (Datatypes.S (fuel - k - 1)))%nat by lia.
    specialize (S1 (Datatypes.S (fuel - k - 1))). unfold bt in S1. cbn [st_ahead st_ag st_seen st_en] in S1. rewrite S1, A. reflexivity.
  - apply (o_sort _ O).
  - intros id. destruct (zfind id m) as [[pid x]|] eqn:E.
    + assert (H : zfind id (st_ag s) <> None) by (apply (o_keys _ O), In_m; congruence).
      destruct (zfind id (st_ag s)) as [y|] eqn:Ey; [|congruence]. destruct (o_ag _ O id y Ey) as (p2 & y2 & H2 & -> & _). congruence.
    + destruct (zfind id (st_ag s)) as [y|] eqn:Ey; [|reflexivity]. destruct (o_ag _ O id y Ey) as (p2 & y2 & H2 & _). congruence.
  - assert (D := o_dis _ O). rewrite U in D. exact D.
  - exact In_m.
  - apply (o_first _ O).
Qed.
Lemma tree_stuck id v : zfind id m = Some v -> ~ rooted m id -> forall fuel, build_tree fuel [] m [] [] = None.
Proof. intros H N fuel. exact (stuck id v H N fuel (mkSt [] m [] []) ok_start). Qed.
End T.
