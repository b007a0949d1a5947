(** A file that is complete is loaded. *)
From Coq Require Import String Ascii List ZArith Bool Arith Lia Permutation.
From Verif Require Import Base SpecModel SimModel LoaderModel LoaderSpec LoaderProofs LoaderProofs2 LoaderProofs3 LoaderProofs4 LoaderProofs5 LoaderProofs6.
From Verif Require PpModel.
Import PpModel(xml(..), Name, QPath, find_path, get_string, sub_tree, find, nmatches).
Import ListNotations.
Local Open Scope string_scope.

Lemma bind_step {A B} (m : M A) (k : A -> M B) s a s1 : m s = (Normal a, s1) -> bind m k s = k a s1.
Proof. intro H. unfold bind. rewrite H. reflexivity. Qed.

Lemma bind_gets {A B} (f : sim -> A) (k : A -> M B) s : bind (gets f) k s = k (f s) s.
Proof. reflexivity. Qed.
Lemma bind_modify {B} (f : sim -> sim) (k : unit -> M B) s : bind (modify f) k s = k tt (f s).
Proof. reflexivity. Qed.

(** ** Archetypes *)
Lemma spec_loop_all {x} : forall l0 l pre specs u,
  find_path (map Name ["archetypes"; "spec"]) x = (pre ++ l)%list ->
  Forall2 says_archetype l l0 -> NoDup (map full_name l0) ->
  (forall a, In a l0 -> ~ In (full_name a) u) ->
  spec_loop x (seq (List.length pre) (List.length l)) specs u = Ok (specs ++ map as_spec l0)%list.
Proof.
  induction l0 as [|a l0 IH]; intros l pre specs u Hf F N U.
  - inversion F; subst. simpl. rewrite app_nil_r. reflexivity.
  - inversion F as [|y ? l' ? Ha F']; subst. simpl seq. cbn [spec_loop].
    assert (E : sub_tree x (path ["archetypes"; "spec"]) (List.length pre) = Ok y).
    { unfold sub_tree. rewrite find_ok, Hf, nth_app_last_gen. reflexivity. }
    rewrite E. cbn [rbind]. rewrite (read_spec_says _ _ Ha). cbn [rbind].
    replace (S (List.length pre)) with (List.length (pre ++ [y])%list) by (rewrite app_length; simpl; lia).
    assert (Hf' : find_path (map Name ["archetypes"; "spec"]) x = ((pre ++ [y]) ++ l')%list)
      by (rewrite <- app_assoc; exact Hf).
    assert (Ex : existsb (String.eqb (spec_str (as_spec a))) u = false).
    { destruct (existsb _ u) eqn:X; [|reflexivity]. apply existsb_exists in X. destruct X as (z & Hz & Ez).
      apply String.eqb_eq in Ez. subst z. destruct (U a (or_introl eq_refl) Hz). }
    rewrite Ex. cbn [map] in N. apply NoDup_cons_iff in N. destruct N as [Na N].
    rewrite (IH _ _ _ _ Hf' F' N).
    + rewrite <- app_assoc. reflexivity.
    + intros b Hb [Eb|Hin].
      * apply Na. change (full_name a) with (spec_str (as_spec a)). rewrite Eb. apply in_map, Hb.
      * apply (U b (or_intror Hb) Hin).
Qed.
Lemma parse_specs_all x l : says_archetypes x l -> NoDup (map full_name l) -> l <> [] -> parse_specs x = Ok (map as_spec l).
Proof.
  intros [(k & ->) F] N Ne. unfold parse_specs. rewrite nmatches_ok. cbn [rbind].
  assert (F' : Forall2 says_archetype (find_path (map Name ["archetypes"; "spec"]) (XElem "simulation" k)) l)
    by (rewrite find2; exact F).
  assert (Z := spec_loop_all l _ [] [] [] eq_refl F' N (fun a _ H => H)). cbn [List.length] in Z. rewrite Z. cbn [rbind List.app]. destruct l; [congruence|reflexivity].
Qed.
Lemma spec_for_alias l a : NoDup (map alias_of l) -> In a l -> spec_for (map as_spec l) (alias_of a) = as_spec a.
Proof.
  unfold spec_for. generalize (mkSpec "" "" "" "") as acc. induction l as [|b l IH]; intros acc N Hi; [destruct Hi|]. destruct Hi as [->|Hin].
  - simpl. rewrite String.eqb_refl. inversion N as [|? ? Na N']; subst.
    clear IH N. induction l as [|b l IH]; simpl; [reflexivity|].
    destruct (String.eqb_spec (alias_of b) (alias_of a)) as [E|E]; [exfalso; apply Na; simpl; auto|].
    inversion N'; subst. apply IH; auto. intro; apply Na; simpl; auto.
  - cbn [map fold_left]. inversion N as [|? ? Na N']; subst. apply IH; auto.
Qed.

(** ** Contexts in which everything can be built *)
Definition sound (c : core) : Prop :=
  (forall k y, nth_error (c_h c) k = Some y -> a_alive y = true) /\
  (forall n k, sfind n (c_p c) = Some k -> (k < List.length (c_h c))%nat).
Lemma deref_ok s a y : nth_error (c_h (core_of s)) a = Some y -> a_alive y = true -> exists z, deref a s = (Normal z, s) /\ bare z = y.
Proof.
  simpl. rewrite nth_error_map. unfold deref, get. destruct (nth_error (heap (w s)) a) as [z|]; simpl; [|discriminate].
  intros H L. injection H as <-. simpl in L. rewrite L. eauto.
Qed.
Lemma deref_sound s a : sound (core_of s) -> (a < List.length (c_h (core_of s)))%nat -> exists z, deref a s = (Normal z, s).
Proof.
  intros [A _] L. destruct (nth_error (c_h (core_of s)) a) as [y|] eqn:E; [|apply nth_error_None in E; lia].
  destruct (deref_ok s a y E (A _ _ E)) as (z & H & _). eauto.
Qed.
Lemma deref_exists s a z s' : deref a s = (Normal z, s') -> exists_in s a.
Proof.
  unfold deref, get, exists_in. destruct (nth_error (heap (w s)) a) as [y|]; [|discriminate].
  destruct (a_alive y) eqn:L; [eauto|discriminate].
Qed.

Section Total.
Variable beh : hook -> sim -> prog.
Variable cond : nat -> sim -> bool.
Variable fuel : nat.
Hypothesis Hquiet : quiet_code beh.
Hypothesis Henter : forall a, ends_normally beh cond fuel (HEnter a).
Hypothesis Hnote : forall p a, ends_normally beh cond fuel (HBuildNotify p a).

Lemma modify_agent_ok a f s : sound (core_of s) -> (a < List.length (c_h (core_of s)))%nat ->
  exists s', modify_agent a f s = (Normal tt, s').
Proof. intros Sd L. destruct (deref_sound s a Sd L) as (z & E). unfold modify_agent. rewrite (bind_step _ _ _ _ _ E). eexists. reflexivity. Qed.
Lemma sound_upd c h : sound c -> List.length h = List.length (c_h c) ->
  (forall k y, nth_error h k = Some y -> a_alive y = true) -> sound (with_h h c).
Proof. intros [A B] L H. split; [exact H|]. simpl. rewrite L. exact B. Qed.
Lemma alive_upd h a v : (forall k y, nth_error h k = Some y -> a_alive y = true) -> a_alive v = true ->
  forall k y, nth_error (upd h a v) k = Some y -> a_alive y = true.
Proof.
  intros H Hv k y E. destruct (Nat.eq_dec a k) as [->|N].
  - destruct (Nat.lt_ge_cases k (List.length h)) as [L|L].
    + rewrite nth_upd_same in E by exact L. congruence.
    + apply nth_error_lt in E. rewrite upd_length in E. lia.
  - rewrite nth_upd_other in E by exact N. eauto.
Qed.

Lemma sound_app c v n t e : sound c -> a_alive v = true -> sound (mkC (c_h c ++ [v]) (c_p c) n t e).
Proof.
  intros [A B] Hv. split; simpl.
  - intros k y H. destruct (Nat.lt_ge_cases k (List.length (c_h c))) as [L|L].
    + rewrite nth_error_app1 in H by exact L. eauto.
    + rewrite nth_error_app2 in H by exact L. destruct (k - _)%nat as [|j]; simpl in H; [injection H as <-; exact Hv|destruct j; discriminate].
  - intros m k H. apply B in H. rewrite app_length. lia.
Qed.
Lemma step_sound e c c' : sound c -> step_core e c c' -> sound c' /\ c_p c' = c_p c /\ List.length (c_h c') = S (List.length (c_h c)).
Proof.
  intros Sd (m & v & pid & F & Hm & _ & ->). split; [apply sound_app; [exact Sd|reflexivity]|]. simpl. rewrite app_length. simpl. split; [reflexivity|lia].
Qed.

Lemma keeps_sound {A} (m : M A) s a s' : keeps m -> m s = (Normal a, s') -> core_of s' = core_of s.
Proof. apply kept. Qed.

Lemma connect_ok m par s : sound (core_of s) -> (m < List.length (c_h (core_of s)))%nat ->
  match par with Some q => (q < m)%nat | None => True end ->
  exists s', connect m par s = (Normal tt, s') /\ sound (core_of s') /\ List.length (c_h (core_of s')) = List.length (c_h (core_of s)).
Proof.
  intros Sd L Hp. destruct par as [q|]; simpl connect; [|eexists; split; [reflexivity|auto]].
  destruct (Nat.eqb_spec q m) as [->|Nq]; [lia|].
  destruct (deref_sound s q Sd) as (z & E); [lia|]. rewrite (bind_step _ _ _ _ _ E).
  destruct (modify_agent_ok m (set_parent (Some q) (a_id z)) s Sd L) as (s1 & E1). rewrite (bind_step _ _ _ _ _ E1).
  destruct (nth_error (c_h (core_of s)) m) as [y|] eqn:Ey; [|apply nth_error_None in Ey; lia].
  destruct (modify_agent_core' _ _ _ _ _ _ E1 Ey) as [C _]; [reflexivity|].
  assert (S1 : sound (core_of s1)).
  { rewrite C. apply sound_upd; [exact Sd|apply upd_length|]. apply alive_upd; [apply Sd|]. simpl. eapply (proj1 Sd); eauto. }
  assert (L1 : List.length (c_h (core_of s1)) = List.length (c_h (core_of s))) by (rewrite C; apply upd_length).
  destruct (modify_agent_ok q (fun y => set_kids (pins m (a_kids y)) y) s1 S1) as (s2 & E2); [lia|].
  exists s2. split; [exact E2|]. rewrite (modify_kids_core _ _ _ _ E2). auto.
Qed.

Lemma register_ok a s : sound (core_of s) -> (a < List.length (c_h (core_of s)))%nat -> exists s', register a s = (Normal tt, s').
Proof. intros Sd L. destruct (deref_sound s a Sd L) as (z & E). unfold register. rewrite (bind_step _ _ _ _ _ E). eexists. reflexivity. Qed.
Lemma enter_ok a s : sound (core_of s) -> (a < List.length (c_h (core_of s)))%nat -> exists s', enter_notify a s = (Normal tt, s').
Proof.
  intros Sd L. destruct (deref_sound s a Sd L) as (z & E). unfold enter_notify. rewrite (bind_step _ _ _ _ _ E).
  destruct (a_kind z); try (eexists; reflexivity); try (apply register_ok; assumption).
Qed.

Hypothesis Hfuel : (2 <= fuel)%nat.
Lemma build_ok name par s : sound (core_of s) ->
  (exists k, sfind name (c_p (core_of s)) = Some k) ->
  match par with Some q => (q < List.length (c_h (core_of s)))%nat | None => True end ->
  exists s', build_agent beh cond fuel name par s = (Normal (List.length (c_h (core_of s))), s') /\
    sound (core_of s') /\ c_p (core_of s') = c_p (core_of s) /\ List.length (c_h (core_of s')) = S (List.length (c_h (core_of s))).
Proof.
  intros Sd (k & F) Hp.
  assert (X : exists a s', build_agent beh cond fuel name par s = (Normal a, s')).
  2: { destruct X as (a & s' & E). destruct (build_agent_core _ _ _ _ _ _ _ _ Hquiet E) as [-> St].
       exists s'. split; [exact E|]. eapply step_sound; eauto. }
  unfold build_agent.
  assert (Cr : exists a s1, create_agent None name s = (Normal a, s1)).
  { unfold create_agent. rewrite bind_gets.
    change (sfind name (protos (w s))) with (sfind name (c_p (core_of s))). rewrite F.
    destruct (deref_sound s k Sd) as (z & Ez); [apply (proj2 Sd) in F; exact F|]. rewrite (bind_step _ _ _ _ _ Ez).
    eexists. eexists. reflexivity. }
  destruct Cr as (a & s1 & Cr). rewrite (bind_step _ _ _ _ _ Cr).
  destruct (create_core _ _ _ _ Cr) as (m & v & _ & Hm & -> & C1).
  set (N := List.length (c_h (core_of s))) in *.
  assert (S1 : sound (core_of s1)) by (rewrite C1; apply sound_app; [exact Sd|reflexivity]).
  assert (L1 : List.length (c_h (core_of s1)) = S N) by (rewrite C1; simpl; rewrite app_length; simpl; unfold N; simpl; lia).
  assert (B : exists s2, do_cmd beh cond fuel (CBuild N par) s1 = (Normal tt, s2) /\ sound (core_of s2) /\ List.length (c_h (core_of s2)) = S N).
  { assert (Ef : exists f, fuel = S (S f)) by (exists (fuel - 2)%nat; lia). destruct Ef as (f & Ef). rewrite Ef. unfold do_cmd. cbn [exec].
    set (t1 := emit (EBuild N par) s1).
    assert (T1 : core_of t1 = core_of s1) by (apply core_emit_quiet; reflexivity).
    assert (St1 : sound (core_of t1)) by (rewrite T1; exact S1).
    assert (Lt1 : List.length (c_h (core_of t1)) = S N) by (rewrite T1; exact L1).
    destruct (deref_sound t1 N St1) as (z & Ez); [lia|].
    destruct (connect_ok N par t1 St1) as (t2 & E2 & St2 & Lt2); [lia|destruct par; [exact Hp|exact I]|].
    assert (LN2 : (N < List.length (c_h (core_of t2)))%nat) by lia.
    destruct (modify_agent_ok N (set_enter (tm (ti t2))) t2 St2 LN2) as (t3 & E3).
    destruct (nth_error (c_h (core_of t2)) N) as [y|] eqn:Ey; [|apply nth_error_None in Ey; lia].
    destruct (modify_agent_core' _ _ _ _ _ _ E3 Ey) as [C3 _]; [reflexivity|].
    assert (St3 : sound (core_of t3)).
    { rewrite C3. apply sound_upd; [exact St2|apply upd_length|]. apply alive_upd; [apply St2|]. simpl. eapply (proj1 St2); eauto. }
    assert (Lt3 : List.length (c_h (core_of t3)) = List.length (c_h (core_of t2))) by (rewrite C3; apply upd_length).
    destruct (enter_ok N t3 St3) as (t4 & E4); [lia|].
    pose proof (kept _ _ _ _ (keeps_enter N) E4) as C4.
    destruct (Henter N (S f) t4) as (t5 & E5); [right; lia| |].
    { intros q [<-|[]]. destruct (deref_sound t4 N) as (z4 & Ez4); [rewrite C4; exact St3|rewrite C4; lia|].
      eapply deref_exists; eauto. }
    pose proof (kept _ _ _ _ (keeps_quiet beh cond _ _ (proj1 (Hquiet _) _)) E5) as C5.
    assert (C53 : core_of t5 = core_of t3) by congruence.
    destruct (deref_sound t5 N) as (z5 & Ez5); [rewrite C53; exact St3|rewrite C53; lia|].
    assert (Run : (modify (emit (EBuild N par)) ;; deref N ;; connect N par ;; now <- gets (fun s => tm (ti s)) ;;
       modify_agent N (set_enter now) ;; enter_notify N ;; prg <- gets (beh (HEnter N)) ;; exec beh cond (S f) prg ;;
       x <- deref N ;; modify (emit (EEntry N (a_id x) (a_proto x) (a_pid x) (a_life x) (a_enter x)))) s1 =
       (Normal tt, emit (EEntry N (a_id z5) (a_proto z5) (a_pid z5) (a_life z5) (a_enter z5)) t5)).
    { rewrite bind_modify; fold t1. rewrite (bind_step _ _ _ _ _ Ez). rewrite (bind_step _ _ _ _ _ E2).
      rewrite bind_gets. rewrite (bind_step _ _ _ _ _ E3). rewrite (bind_step _ _ _ _ _ E4).
      rewrite bind_gets. rewrite (bind_step _ _ _ _ _ E5). rewrite (bind_step _ _ _ _ _ Ez5). reflexivity. }
    eexists. split.
    - rewrite (bind_step _ _ _ _ _ Run). reflexivity.
    - rewrite core_emit. split.
      + destruct St3 as [A3 B3]. rewrite C53. split; [exact A3|exact B3].
      + cbn [c_h]. rewrite C53. lia. }
  destruct B as (s2 & B1 & S2 & L2). rewrite (bind_step _ _ _ _ _ B1).
  destruct par as [q|].
  - destruct (deref_sound s2 q S2) as (z & Ez); [lia|].
    set (t := emit (EBuildNotify q N) s2).
    assert (St : sound (core_of t) /\ List.length (c_h (core_of t)) = S N).
    { unfold t. rewrite core_emit. split; [destruct S2 as [A B]; split; [exact A|exact B]|exact L2]. }
    destruct (deref_sound t q (proj1 St)) as (z2 & Ez2); [lia|].
    destruct (Hnote q N fuel t) as (t5 & E5); [left; reflexivity| |].
    { intros j [<-|[<-|[]]]; [eapply deref_exists; eauto|].
      destruct (deref_sound t N (proj1 St)) as (z3 & Ez3); [lia|]. eapply deref_exists; eauto. }
    exists N, t5.
    assert (Run : (deref q ;; modify (emit (EBuildNotify q N)) ;; call beh cond fuel q (HBuildNotify q N)) s2 = (Normal tt, t5)).
    { rewrite (bind_step _ _ _ _ _ Ez). rewrite bind_modify; fold t. unfold call.
      rewrite (bind_step _ _ _ _ _ Ez2). rewrite bind_gets. exact E5. }
    rewrite (bind_step _ _ _ _ _ Run). reflexivity.
  - exists N, s2. reflexivity.
Qed.
End Total.
