(** A flat file that is complete is loaded; one with an agent whose parent is missing never is. *)
From Coq Require Import String Ascii List ZArith Bool Arith Lia Permutation.
From Verif Require Import Base SpecModel SimModel LoaderModel LoaderSpec LoaderProofs LoaderProofs2 LoaderProofs3 LoaderProofs4 LoaderProofs5 LoaderProofs6 LoaderProofs7 LoaderProofs8.
From Verif Require PpModel.
Import PpModel(xml(..), Name, QPath, find_path, get_string, sub_tree, find, nmatches).
Import ListNotations.
Local Open Scope string_scope.

Section Flat.
Variable beh : hook -> sim -> prog.
Variable cond : nat -> sim -> bool.
Variable fuel : nat.
Hypothesis Henter : forall a, ends_normally beh cond fuel (HEnter a).
Hypothesis Hnote : forall p a, ends_normally beh cond fuel (HBuildNotify p a).
Hypothesis Hfuel : (2 <= fuel)%nat.

Lemma deref_ends a s : fst (deref a s) <> NoFuel.
Proof. unfold deref. destruct (get s a); discriminate. Qed.
Lemma modify_agent_ends a f s : fst (modify_agent a f s) <> NoFuel.
Proof. unfold modify_agent. apply bind_ends; [apply deref_ends|discriminate]. Qed.
Lemma gets_ends {A} (f : sim -> A) s : fst (gets f s) <> NoFuel. Proof. discriminate. Qed.
Lemma modify_ends f s : fst (modify f s) <> NoFuel. Proof. discriminate. Qed.
Lemma register_ends a s : fst (register a s) <> NoFuel.
Proof. unfold register. apply bind_ends; [apply deref_ends|discriminate]. Qed.
Lemma enter_ends a s : fst (enter_notify a s) <> NoFuel.
Proof.
  unfold enter_notify. apply bind_ends; [apply deref_ends|]. intros z s1.
  destruct (a_kind z); try discriminate; try apply register_ends;
    repeat (apply bind_ends; [discriminate|intros]); try apply register_ends; discriminate.
Qed.
Lemma connect_ends a par s : fst (connect a par s) <> NoFuel.
Proof.
  destruct par as [p|]; simpl; [|discriminate]. destruct (_ =? _)%nat; [discriminate|].
  apply bind_ends; [apply deref_ends|intros]. apply bind_ends; [apply modify_agent_ends|intros]. apply modify_agent_ends.
Qed.
Hypothesis Hquiet : quiet_code beh.
Lemma build_ends proto par s : fst (build_agent beh cond fuel proto par s) <> NoFuel.
Proof.
  unfold build_agent. apply bind_ends_in.
  { unfold create_agent. apply bind_ends; [apply gets_ends|]. intros [p|] s1; [|discriminate].
    apply bind_ends; [apply deref_ends|intros]. apply bind_ends; [discriminate|intros]. discriminate. }
  intros a s1 Cr. destruct (create_core _ _ _ _ Cr) as (m & v & _ & _ & Ea & C1).
  set (c := child v (c_n (core_of s)) (-1) None (-1)) in *.
  assert (Hc : nth_error (c_h (core_of s1)) a = Some c) by (rewrite C1, Ea; apply nth_app_last).
  assert (La : (a < List.length (c_h (core_of s1)))%nat) by (apply nth_error_Some; congruence).
  apply bind_ends_in.
  { assert (Ef : exists f, fuel = S (S f)) by (exists (fuel - 2)%nat; lia). destruct Ef as (f & Ef). rewrite Ef. unfold do_cmd. cbn [exec].
    assert (Inner : fst ((modify (emit (EBuild a par)) ;; deref a ;; connect a par ;; now <- gets (fun s => tm (ti s)) ;;
       modify_agent a (set_enter now) ;; enter_notify a ;; prg <- gets (beh (HEnter a)) ;; exec beh cond (S f) prg ;;
       x <- deref a ;; modify (emit (EEntry a (a_id x) (a_proto x) (a_pid x) (a_life x) (a_enter x)))) s1) <> NoFuel).
    { rewrite bind_modify. set (t1 := emit (EBuild a par) s1).
      assert (T1 : core_of t1 = core_of s1) by (apply core_emit_quiet; reflexivity).
      apply bind_ends_in; [apply deref_ends|]. intros z t2 Ez. apply deref_normal in Ez. destruct Ez as (-> & _ & _ & _).
      apply bind_ends_in; [apply connect_ends|]. intros u2 t3 E3. rewrite <- T1 in Hc, La.
      destruct (connect_core _ _ _ _ _ _ E3 Hc) as (pid & _ & C3). rewrite bind_gets.
      apply bind_ends_in; [apply modify_agent_ends|]. intros u4 t4 E4.
      assert (H3 := f_equal (fun c => nth_error (c_h c) a) C3). cbn [with_h c_h] in H3. rewrite nth_upd_same in H3 by exact La.
      destruct (modify_agent_core' _ _ _ _ _ _ E4 H3) as [C4 _]; [reflexivity|].
      apply bind_ends_in; [apply enter_ends|]. intros u5 t5 E5.
      pose proof (kept _ _ _ _ (keeps_enter a) E5) as C5.
      rewrite bind_gets. apply bind_ends.
      - destruct (Henter a (S f) t5) as (t' & E); [right; lia| |rewrite E; discriminate].
        intros q [<-|[]].
        assert (H5 := f_equal (fun c => nth_error (c_h c) a) C5). cbv beta in H5. rewrite C4 in H5. cbn [with_h c_h] in H5.
        rewrite nth_upd_same in H5 by (apply nth_error_Some; congruence).
        destruct (deref_ok _ _ _ H5 eq_refl) as (zz & Ez & _). eapply deref_exists; eauto.
      - intros. apply bind_ends; [apply deref_ends|intros; apply modify_ends]. }
    match type of Inner with fst (?m s1) <> _ => 
      assert (Outer : fst ((m ;; ret (@None nat)) s1) <> NoFuel) by (apply bind_ends; [exact Inner|discriminate]) end.
    clear Inner. match type of Outer with fst ?z <> _ => destruct z as [[r|e| |] s2] eqn:Z end; simpl in Outer.
    - clear Outer. cbn [exec] in Z. rewrite Z. discriminate.
    - clear Outer. cbn [exec] in Z. rewrite Z. discriminate.
    - clear Outer. cbn [exec] in Z. rewrite Z. discriminate.
    - congruence. }
  intros u s2 E2. destruct (build_core _ _ _ _ _ _ _ _ _ Hquiet E2 Hc) as (pid & _ & C2).
  apply bind_ends; [|discriminate]. destruct par as [p|]; [|discriminate].
  apply bind_ends_in; [apply deref_ends|]. intros z t Ez. apply deref_normal in Ez. destruct Ez as (-> & _ & _ & _).
  rewrite bind_modify. set (t := emit (EBuildNotify p a) s2).
  unfold call. apply bind_ends_in; [apply deref_ends|]. intros z2 t2 Ez2. assert (D := deref_exists _ _ _ _ Ez2).
  apply deref_normal in Ez2. destruct Ez2 as (-> & _ & _ & _).
  rewrite bind_gets.
  destruct (Hnote p a fuel t) as (t' & E); [left; reflexivity| |rewrite E; discriminate].
  intros q [<-|[<-|[]]]; [exact D|].
  assert (H5 := f_equal (fun c => nth_error (c_h c) a) C2). cbv beta in H5. cbn [c_h] in H5. rewrite nth_upd_same in H5 by exact La.
  destruct (deref_ok s2 _ _ H5 eq_refl) as (zz & Ezz & _). apply deref_exists in Ezz. exact Ezz.
Qed.

Variable names : list string.
Variable table : list (string * (string * string)).
Hypothesis Htable : forall x proto parent, find_last x table = Some (proto, parent) -> In proto names.

Lemma find_last_in {A} n (l : list (string * A)) v : find_last n l = Some v -> In (n, v) l.
Proof. intro H. destruct (find_last_some _ _ _ H) as (l1 & l2 & -> & _). apply in_elt. Qed.
Lemma place_fine : forall n pre post seen s, ready names 0 s ->
  (forall x, In x (pre ++ post)%list -> find_last x table <> None) ->
  (forall m k, In (m, k) seen -> (k < List.length (c_h (core_of s)))%nat) -> (post = [] -> pre = []) ->
  fst (place beh cond fuel n table pre post seen s) = NoFuel \/
  exists r s', place beh cond fuel n table pre post seen s = (Normal r, s').
Proof.
  induction n as [|n IH]; intros pre post seen s R Ht Hs Hpp; [left; reflexivity|].
  destruct post as [|name post].
  - rewrite (Hpp eq_refl). right. eexists. eexists. reflexivity.
  - simpl place. destruct (find_last name table) as [[proto parent]|] eqn:F; [|destruct (Ht name (in_elt _ _ _) F)].
    assert (Go : forall pre' seen' s1, ready names 0 s1 -> (forall x, In x (pre' ++ post)%list -> In x (pre ++ name :: post)%list) ->
      (forall m k, In (m, k) seen' -> (k < List.length (c_h (core_of s1)))%nat) ->
      fst (match post with [] => place beh cond fuel n table [] pre' seen' | _ => place beh cond fuel n table pre' post seen' end s1) = NoFuel \/
      exists r s', match post with [] => place beh cond fuel n table [] pre' seen' | _ => place beh cond fuel n table pre' post seen' end s1 = (Normal r, s')).
    { intros pre' seen' s1 R1 Hin Hs1. destruct post as [|y post].
      - apply IH; auto. intros x Hx. apply Ht, Hin. rewrite app_nil_r. exact Hx.
      - apply IH; auto. discriminate. }
    assert (Built : forall par, match par with Some q => (q < List.length (c_h (core_of s)))%nat | None => True end ->
      fst ((a <- build_agent beh cond fuel proto par ;;
       match post with [] => place beh cond fuel n table [] pre (seen ++ [(name, a)]) | _ => place beh cond fuel n table pre post (seen ++ [(name, a)]) end) s) = NoFuel \/
      exists r s', (a <- build_agent beh cond fuel proto par ;;
       match post with [] => place beh cond fuel n table [] pre (seen ++ [(name, a)]) | _ => place beh cond fuel n table pre post (seen ++ [(name, a)]) end) s = (Normal r, s')).
    { intros par Hp.
      destruct (build_ready beh cond fuel Hquiet Henter Hnote Hfuel names proto par (List.length (c_h (core_of s))) s) as (a & s1 & E & La & R1).
      - destruct R as (A & B & _). split; [exact A|]. split; [exact B|lia].
      - eapply Htable; eauto.
      - exact Hp.
      - rewrite (bind_step _ _ _ _ _ E). apply Go.
        + destruct R1 as (A1 & B1 & _). split; [exact A1|]. split; [exact B1|lia].
        + intros x Hx. rewrite in_app_iff in *. simpl. tauto.
        + destruct R1 as (_ & _ & L1). intros m k Hk. apply in_app_or in Hk. destruct Hk as [Hk|[Hk|[]]].
          * specialize (Hs _ _ Hk). lia.
          * injection Hk as <- <-. lia. }
    destruct (String.eqb parent ""); [apply Built; exact I|].
    destruct (find_last parent seen) as [p|] eqn:Fp.
    + apply Built. eapply Hs. apply find_last_in. exact Fp.
    + apply Go; auto. intros x Hx. rewrite <- app_assoc in Hx. exact Hx.
Qed.
End Flat.

Lemma read_members : forall qes ms s, Forall2 says_member qes ms -> collect read_agent qes s = (Normal (map row_of ms), s).
Proof.
  induction 1 as [|qe m qes ms (A & B & C & _) F IH]; [reflexivity|]. simpl collect.
  assert (E : read_agent qe s = (Normal (row_of m), s)).
  { unfold read_agent. rewrite (lift_step _ _ _ _ (get_says _ _ _ A)), (lift_step _ _ _ _ (get_says _ _ _ B)), (lift_step _ _ _ _ (opt_says _ _ _ "" C)). reflexivity. }
  rewrite (bind_step _ _ _ _ _ E), (bind_step _ _ _ _ _ IH). reflexivity.
Qed.

Lemma flat_file_complete beh cond make read fuel n x f s0 :
  quiet_code beh -> (forall a, ends_normally beh cond fuel (HEnter a)) ->
  (forall p a, ends_normally beh cond fuel (HBuildNotify p a)) -> (2 <= fuel)%nat ->
  says_flat x f -> flat_complete make read x f -> rooted (fl_members f) -> fresh s0 ->
  ((List.length (fl_members f) + 1) * (List.length (fl_members f) + 1) <= n)%nat ->
  exists r s, load_flat_file beh cond make read fuel n x s0 = (Normal r, s).
Proof.
  intros Hq He Hb Hf Sf (Ga & Nn & Gp & Dep) Ro Fr N.
  assert (End := flat_ends beh cond make read fuel n x f s0 Sf Ro (build_ends beh cond fuel He Hb Hf Hq) N).
  destruct Sf as (Ar & Fp & Fm).
  destruct (fresh_sound _ Fr) as [S0 P0].
  unfold load_flat_file in *. rewrite (lift_step _ _ _ _ (parse_specs_all _ _ Ar (proj2 (proj2 Ga)) (proj1 Ga))) in *.
  unfold load_flat_agents in *.
  destruct (protos_ok make read _ Ga _ _ s0 Fp Gp Nn (fun p _ => P0 _) S0) as (r & s1 & E & S1 & D1).
  rewrite <- find1, <- over_collect in E. rewrite (bind_step _ _ _ _ _ E) in *.
  assert (E2 := read_members _ _ s1 Fm). rewrite <- find1, <- over_collect in E2. rewrite (bind_step _ _ _ _ _ E2) in *.
  cbv zeta in *.
  destruct (place_fine beh cond fuel He Hb Hf Hq (map pr_name (fl_protos f)) (map row_of (fl_members f))) with
    (n := n) (pre := @nil string) (post := fold_left (fun acc e => sset_ins (fst e) acc) (map row_of (fl_members f)) [])
    (seen := @nil (string * nat)) (s := s1) as [B|(rr & s2 & B)].
  - intros y proto parent Hy. destruct (last_row _ _ _ Hy) as (m & (l1 & l2 & Em & _) & V). injection V as -> _.
    apply Dep. rewrite Em. apply in_elt.
  - split; [exact S1|]. split; [|lia]. intros m Hm. apply D1. left. exact Hm.
  - intros y Hy. apply names_in in Hy. destruct Hy as [[]|Hy]. intro C. apply find_last_none in C. contradiction.
  - intros ? ? [].
  - reflexivity.
  - exfalso. apply End. unfold bind at 1. destruct (place _ _ _ _ _ _ _ _ s1) as [o s2]. simpl in B. subst o. reflexivity.
  - rewrite (bind_step _ _ _ _ _ B). eexists. eexists. reflexivity.
Qed.

(** ** Agents whose parent is missing *)
Lemma flat_parents beh cond make read fuel n x f s0 r s :
  quiet_code beh -> (forall c, make (mkSpec "" "" "" "") <> Ok c) -> says_flat x f -> fresh s0 ->
  load_flat_file beh cond make read fuel n x s0 = (Normal r, s) -> rooted (fl_members f).
Proof.
  intros Hq Hm Sf Fr E. destruct r as [ps placed].
  destruct (flat_loaded _ _ _ _ _ _ _ _ _ _ _ _ Hq Hm Sf Fr E) as (_ & order & pl & (Nd & Io & _ & Co) & _ & _).
  assert (Pos : forall n, In n order -> exists k, nth_error order k = Some n) by (intros m Hi; apply In_nth_error, Hi).
  exists (fun m => match find_last m (combine order (seq 0 (List.length order))) with Some k => k | None => 0%nat end).
  intros m me q Ls Pq.
  assert (In m order).
  { apply Io. destruct Ls as (l1 & l2 & Eq & Nm & _). rewrite Eq, map_app. simpl. apply in_elt_inv || (apply in_or_app; right; left; exact Nm). }
  destruct (Pos _ H) as (k & Ek). destruct (Co _ _ Ek) as (me' & par & Ls' & _ & Par).
  assert (me' = me).
  { destruct Ls as (l1 & l2 & E1 & N1 & O1), Ls' as (l1' & l2' & E2 & N2 & O2). rewrite E1 in E2. clear - E2 N1 O1 N2 O2.
    revert l1' E2. induction l1 as [|a l1 IH]; intros [|b l1'] E2; simpl in E2; injection E2 as Ea E2.
    - congruence.
    - exfalso. apply O1. rewrite E2, map_app. apply in_or_app. right. left. exact N2.
    - exfalso. apply O2. rewrite <- E2, map_app. apply in_or_app. right. left. exact N1.
    - eapply IH; eauto. }
  subst me'. rewrite Pq in Par. destruct Par as (j & Lj & Ej & _).
  split; [apply Io; eapply nth_error_In; eauto|].
  assert (Rk : forall i y, nth_error order i = Some y -> find_last y (combine order (seq 0 (List.length order))) = Some i).
  { intros i y Hi. destruct (find_last y (combine order (seq 0 (List.length order)))) as [v|] eqn:F.
    - rewrite <- (firstn_all order) in F at 1. apply find_combine in F. destruct F as (i' & _ & Hi' & ->). simpl. f_equal.
      apply (proj1 (NoDup_nth_error order) Nd); [apply nth_error_Some; congruence|congruence].
    - exfalso. apply find_last_none in F. apply F. apply nth_error_In in Hi. revert Hi.
      generalize 0%nat. clear. induction order as [|a order IH]; intros b Hi; [exact Hi|]. simpl in *. destruct Hi as [->|Hi]; [left; reflexivity|right; apply IH, Hi]. }
  rewrite (Rk _ _ Ek), (Rk _ _ Ej). exact Lj.
Qed.

Lemma lone_place beh cond fuel nm proto parent : parent <> "" -> forall n s,
  place beh cond fuel n [(nm, (proto, parent))] [] [nm] [] s = (NoFuel, s).
Proof.
  intros Np n. induction n as [|n IH]; intro s; [reflexivity|]. cbn [place find_last]. rewrite String.eqb_refl.
  destruct (String.eqb_spec parent "") as [|_]; [contradiction|]. cbn [List.app]. apply IH.
Qed.
