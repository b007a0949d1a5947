(** What building an agent and adding a prototype do to a context, with quiet user code. *)
From Coq Require Import String Ascii List ZArith Bool Arith Lia.
From Verif Require Import Base SpecModel SimModel LoaderModel LoaderSpec.
Import ListNotations.
Local Open Scope string_scope.

Lemma bind_normal {A B} (m : M A) (k : A -> M B) s b s' :
  bind m k s = (Normal b, s') -> exists a s1, m s = (Normal a, s1) /\ k a s1 = (Normal b, s').
Proof. unfold bind. destruct (m s) as [[a|e| |] s1] eqn:E; try discriminate. eauto. Qed.
Ltac nb H := let a := fresh "a" in let s := fresh "s" in let E := fresh "E" in
  apply bind_normal in H; destruct H as (a & s & E & H).

Ltac nv E := injection E; clear E; intros; subst.

Definition bare (x : agent) : agent := set_kids [] x.
Record core := mkC { c_h : list agent; c_p : list (string * nat); c_n : Z; c_t : Z; c_e : list event }.
Definition core_of (s : sim) : core :=
  mkC (map bare (heap (w s))) (protos (w s)) (nid (w s)) (tm (ti s)) (entries (log s)).

(** [m] leaves the core alone *)
Definition keeps {A} (m : M A) : Prop := forall s, core_of (snd (m s)) = core_of s.
Lemma keeps_ret {A} (a : A) : keeps (ret a). Proof. intro s. reflexivity. Qed.
Lemma keeps_raise {A} e : keeps (@raise A e). Proof. intro s. reflexivity. Qed.
Lemma keeps_deref a : keeps (deref a). Proof. intro s. unfold deref. destruct (get s a); reflexivity. Qed.
Lemma keeps_gets {A} (f : sim -> A) : keeps (gets f). Proof. intro s. reflexivity. Qed.
Lemma keeps_bind {A B} (m : M A) (k : A -> M B) : keeps m -> (forall a, keeps (k a)) -> keeps (bind m k).
Proof.
  intros H K s. unfold bind. specialize (H s). destruct (m s) as [[a|e| |] s1]; simpl in *; auto.
  rewrite K. exact H.
Qed.
Lemma keeps_each {A} (f : A -> M unit) l : (forall x, keeps (f x)) -> keeps (each f l).
Proof. intro H. induction l; simpl; [apply keeps_ret|apply keeps_bind; auto]. Qed.
Lemma entries_app l e : entries (l ++ [e]) = (entries l ++ if is_entry (snd e) then [snd e] else [])%list.
Proof. unfold entries. rewrite map_app, filter_app. simpl. destruct (is_entry (snd e)); reflexivity. Qed.
Lemma core_emit e s : core_of (emit e s) =
  mkC (c_h (core_of s)) (c_p (core_of s)) (c_n (core_of s)) (c_t (core_of s)) (c_e (core_of s) ++ if is_entry e then [e] else [])%list.
Proof. unfold core_of, emit. simpl. rewrite entries_app. reflexivity. Qed.
Lemma core_emit_quiet e s : is_entry e = false -> core_of (emit e s) = core_of s.
Proof. intro H. rewrite core_emit, H, app_nil_r. reflexivity. Qed.
Lemma keeps_modify f : (forall s, core_of (f s) = core_of s) -> keeps (modify f).
Proof. intros H s. apply H. Qed.
Lemma core_with_ti f s : (forall t, tm (f t) = tm t) -> core_of (with_ti f s) = core_of s.
Proof. intro H. unfold core_of. simpl. rewrite H. reflexivity. Qed.

Lemma keeps_register a : keeps (register a).
Proof.
  apply keeps_bind; [apply keeps_deref|]. intro x. apply keeps_modify. intro s.
  rewrite core_emit_quiet by reflexivity. apply core_with_ti. reflexivity.
Qed.
Lemma keeps_unregister a : keeps (unregister a).
Proof.
  apply keeps_bind; [apply keeps_deref|]. intro x. apply keeps_modify. intro s.
  rewrite core_emit_quiet by reflexivity. apply core_with_ti. reflexivity.
Qed.
Lemma keeps_sched_build p n t : keeps (sched_build p n t).
Proof.
  apply keeps_bind; [apply keeps_gets|]. intro now. apply keeps_bind.
  { destruct p; [apply keeps_bind; [apply keeps_deref|intro; apply keeps_ret]|apply keeps_ret]. }
  intro pid. apply keeps_bind.
  { intro s. unfold timer_sched_build. destruct (Z.leb _ _); reflexivity. }
  intros _. apply keeps_modify. intro s. apply core_emit_quiet. reflexivity.
Qed.
Lemma keeps_sched_decom m t : keeps (sched_decom m t).
Proof.
  apply keeps_bind; [apply keeps_gets|]. intro now. apply keeps_bind.
  { intro s. unfold timer_sched_decom. destruct (Z.ltb _ _); reflexivity. }
  intros _. apply keeps_bind; [apply keeps_deref|]. intros _. apply keeps_modify. intro s. apply core_emit_quiet. reflexivity.
Qed.
Lemma keeps_inst_tock cond i : keeps (inst_tock cond i).
Proof.
  apply keeps_bind; [apply keeps_deref|]. intro x. apply keeps_each. intro c.
  apply keeps_bind; [apply keeps_deref|]. intro y. apply keeps_bind; [apply keeps_gets|]. intro now.
  destruct (_ && _); [|apply keeps_ret]. apply keeps_bind; [apply keeps_gets|]. intro ok.
  destruct (_ || _); [apply keeps_sched_decom|apply keeps_ret].
Qed.

Section Core.
Variable beh : hook -> sim -> prog.
Variable cond : nat -> sim -> bool.
Hypothesis Hquiet : quiet_code beh.

Lemma keeps_quiet fuel : forall p, quiet p -> keeps (exec beh cond fuel p).
Proof.
  induction fuel as [|f IH]; intros p Q.
  { intro s. reflexivity. }
  destruct Q as [|e|c k Hc Hk]; [apply keeps_ret|apply keeps_raise|].
  intro s. cbn [exec].
  assert (K : forall m : M (option nat), keeps m -> core_of (snd (match m s with
     | (Normal v, s1) => exec beh cond f (k (Ok v)) s1
     | (Raised e, s1) => exec beh cond f (k (Throw e)) s1
     | (Undef, s1) => (Undef, s1)
     | (NoFuel, s1) => (NoFuel, s1) end)) = core_of s).
  { intros m Km. specialize (Km s). destruct (m s) as [[v|e| |] s1]; simpl in Km |- *; auto;
      rewrite (IH _ (Hk _)); exact Km. }
  destruct c; try contradiction; apply K; apply keeps_bind; try (intros; apply keeps_ret).
  - apply keeps_register.
  - apply keeps_unregister.
  - apply keeps_sched_build.
  - apply keeps_sched_decom.
  - apply keeps_modify. intro s'. rewrite core_emit_quiet by reflexivity. apply core_with_ti. reflexivity.
  - apply keeps_modify. intro s'. apply core_with_ti. reflexivity.
  - apply keeps_inst_tock.
Qed.
End Core.

Lemma kept {A} (m : M A) s a s' : keeps m -> m s = (Normal a, s') -> core_of s' = core_of s.
Proof. intros K E. specialize (K s). rewrite E in K. exact K. Qed.

Lemma core_set a x s : core_of (set_agent a x s) =
  mkC (upd (c_h (core_of s)) a (bare x)) (c_p (core_of s)) (c_n (core_of s)) (c_t (core_of s)) (c_e (core_of s)).
Proof. unfold core_of, set_agent, with_w, with_heap. simpl. rewrite map_upd. reflexivity. Qed.
Lemma deref_normal a s x s' : deref a s = (Normal x, s') ->
  s' = s /\ nth_error (heap (w s)) a = Some x /\ a_alive x = true /\ nth_error (c_h (core_of s)) a = Some (bare x).
Proof.
  unfold deref, get. destruct (nth_error (heap (w s)) a) as [y|] eqn:E; [|discriminate].
  destruct (a_alive y) eqn:L; [|discriminate]. intro H. injection H as <- <-. repeat split; auto.
  simpl. rewrite nth_error_map, E. reflexivity.
Qed.
Lemma modify_agent_core a f s s' x : modify_agent a f s = (Normal tt, s') ->
  nth_error (c_h (core_of s)) a = Some x -> (forall y, bare (f y) = f (bare y)) ->
  core_of s' = mkC (upd (c_h (core_of s)) a (f x)) (c_p (core_of s)) (c_n (core_of s)) (c_t (core_of s)) (c_e (core_of s)) /\
  a_alive x = true.
Proof.
  intros H E C. unfold modify_agent in H. nb H. apply deref_normal in E0. destruct E0 as (-> & En & L & Eb).
  injection H as <-. rewrite core_set, C. rewrite Eb in E. injection E as <-. auto.
Qed.
Lemma modify_kids_core a f s s' : modify_agent a (fun y => set_kids (f y) y) s = (Normal tt, s') -> core_of s' = core_of s.
Proof.
  intros H. unfold modify_agent in H. nb H. apply deref_normal in E. destruct E as (-> & En & L & Eb).
  injection H as <-. rewrite core_set.
  replace (bare (set_kids (f a0) a0)) with (bare a0) by (destruct a0; reflexivity).
  rewrite upd_same by exact Eb. reflexivity.
Qed.

(** ** Building an agent *)
Definition child (v : agent) (n now : Z) (par : option nat) (pid : Z) : agent :=
  mkA n (a_kind v) (a_shim v) (a_proto v) (a_spec v) (a_life v) now par pid [] true.
Definition born (v : agent) (k : nat) (n now : Z) (par : option nat) (pid : Z) : list event :=
  EEntry k n (a_proto v) pid (a_life v) now :: match par with Some q => [EBuildNotify q k] | None => [] end.
Definition pid_in (h : list agent) (par : option nat) (pid : Z) : Prop :=
  match par with Some q => exists y, nth_error h q = Some y /\ pid = a_id y | None => pid = (-1)%Z end.
Definition step_core (e : string * option nat) (c c' : core) : Prop :=
  exists m v pid, sfind (fst e) (c_p c) = Some m /\ nth_error (c_h c) m = Some v /\ pid_in (c_h c) (snd e) pid /\
    c' = mkC (c_h c ++ [child v (c_n c) (c_t c) (snd e) pid]) (c_p c) (c_n c + 1) (c_t c)
             (c_e c ++ born v (List.length (c_h c)) (c_n c) (c_t c) (snd e) pid).

Lemma keeps_enter a : keeps (enter_notify a).
Proof.
  apply keeps_bind; [apply keeps_deref|]. intro x.
  assert (C : forall d, keeps (count_agent x d)) by (intros d; apply keeps_modify; intro s; reflexivity).
  assert (T : forall f, keeps (set_traders f)) by (intros f; apply keeps_modify; intro s; reflexivity).
  destruct (a_kind x); auto using keeps_register.
  apply keeps_bind; [apply C|]. intros _. apply keeps_bind; [apply T|]. intros _. apply keeps_register.
Qed.

Lemma nth_app_last {A} (l : list A) x : nth_error (l ++ [x]) (List.length l) = Some x.
Proof. rewrite nth_error_app2, Nat.sub_diag by lia. reflexivity. Qed.
Lemma upd_app_last {A} (l : list A) x y : upd (l ++ [x]) (List.length l) y = (l ++ [y])%list.
Proof. induction l; simpl; congruence. Qed.

Lemma create_core name s a s' : create_agent None name s = (Normal a, s') ->
  exists m v, sfind name (c_p (core_of s)) = Some m /\ nth_error (c_h (core_of s)) m = Some v /\
    a = List.length (c_h (core_of s)) /\
    core_of s' = mkC (c_h (core_of s) ++ [child v (c_n (core_of s)) (-1) None (-1)]) (c_p (core_of s)) (c_n (core_of s) + 1)
                     (c_t (core_of s)) (c_e (core_of s)).
Proof.
  unfold create_agent. intro H. nb H. injection E as <- <-.
  destruct (sfind name (protos (w s))) as [m|] eqn:F; [|discriminate].
  nb H. apply deref_normal in E. destruct E as (-> & En & L & Eb). nb H. injection E as <- <-.
  nb H. nv E. nv H.
  exists m, (bare a0). repeat split; auto.
  - simpl. rewrite map_length. reflexivity.
  - rewrite core_emit_quiet by reflexivity. rewrite core_emit_quiet by reflexivity. unfold core_of. simpl.
    rewrite map_app. simpl. reflexivity.
Qed.

Definition with_h (h : list agent) (c : core) : core := mkC h (c_p c) (c_n c) (c_t c) (c_e c).
Lemma with_h_same c : with_h (c_h c) c = c. Proof. destruct c; reflexivity. Qed.
Lemma modify_agent_core' a f s s' x u : modify_agent a f s = (Normal u, s') ->
  nth_error (c_h (core_of s)) a = Some x -> (forall y, bare (f y) = f (bare y)) ->
  core_of s' = with_h (upd (c_h (core_of s)) a (f x)) (core_of s) /\ a_alive x = true.
Proof. destruct u. apply modify_agent_core. Qed.

Lemma connect_core m par s s' v u : connect m par s = (Normal u, s') ->
  nth_error (c_h (core_of s)) m = Some v ->
  exists pid, match par with Some q => (exists y, nth_error (c_h (core_of s)) q = Some y /\ pid = a_id y) /\ q <> m
              | None => pid = a_pid v end /\
    core_of s' = with_h (upd (c_h (core_of s)) m (set_parent (match par with Some _ => par | None => a_parent v end) pid v)) (core_of s).
Proof.
  intros H Hv. destruct par as [q|].
  - simpl in H. destruct (Nat.eqb_spec q m) as [|Nqm]; [discriminate|].
    nb H. apply deref_normal in E. destruct E as (-> & _ & _ & Eq).
    nb H. destruct (modify_agent_core' _ _ _ _ _ _ E Hv) as [C _]; [reflexivity|].
    destruct u. apply modify_kids_core in H.
    exists (a_id a). split; [split; [exists (bare a); auto|exact Nqm]|]. rewrite H, C. reflexivity.
  - injection H; intros; subst. exists (a_pid v). split; [reflexivity|].
    replace (set_parent (a_parent v) (a_pid v) v) with v by (destruct v; reflexivity).
    rewrite upd_same by exact Hv. symmetry. apply with_h_same.
Qed.

Lemma upd_upd {A} : forall (l : list A) i x y, upd (upd l i x) i y = upd l i y.
Proof. induction l; destruct i; simpl; intros; congruence. Qed.
Lemma build_core beh cond fuel m par s s' v u :
  quiet_code beh ->
  do_cmd beh cond fuel (CBuild m par) s = (Normal u, s') ->
  nth_error (c_h (core_of s)) m = Some v ->
  exists pid, match par with Some q => (exists y, nth_error (c_h (core_of s)) q = Some y /\ pid = a_id y) /\ q <> m
              | None => pid = a_pid v end /\
    let v' := set_enter (c_t (core_of s)) (set_parent (match par with Some _ => par | None => a_parent v end) pid v) in
    core_of s' = mkC (upd (c_h (core_of s)) m v')
      (c_p (core_of s)) (c_n (core_of s)) (c_t (core_of s))
      (c_e (core_of s) ++ [EEntry m (a_id v) (a_proto v) pid (a_life v) (c_t (core_of s))]).
Proof.
  intros Q H Hv. unfold do_cmd in H. destruct fuel as [|f]; [discriminate|]. cbn [exec] in H.
  match type of H with (match ?m s with _ => _ end = _) => destruct (m s) as [[r|e| |] s1] eqn:E end; try discriminate;
    [|destruct f; discriminate].
  destruct f as [|f]; [discriminate|]. cbn [exec] in H. nv H.
  nb E. nv E. rename E0 into E.
  nb E. nv E0. (* emit EBuild *)
  set (s1 := emit (EBuild m par) s) in *.
  assert (C1 : core_of s1 = core_of s) by (apply core_emit_quiet; reflexivity).
  rewrite <- C1 in Hv |- *. clearbody s1. clear C1 s.
  nb E. apply deref_normal in E0. destruct E0 as (-> & _ & _ & Em).
  nb E. destruct (connect_core _ _ _ _ _ _ E0 Hv) as (pid & Hpid & C2).
  exists pid. split; [exact Hpid|]. clear E0 Hpid.
  set (v1 := set_parent (match par with Some _ => par | None => a_parent v end) pid v) in *.
  assert (Lm : (m < List.length (c_h (core_of s1)))%nat) by (apply nth_error_Some; congruence).
  nb E. nv E0. nb E.
  assert (Ht : tm (ti s0) = c_t (core_of s1)) by (change (tm (ti s0)) with (c_t (core_of s0)); rewrite C2; reflexivity).
  rewrite Ht in E0.
  assert (Hv1 : nth_error (c_h (core_of s0)) m = Some v1) by (rewrite C2; apply nth_upd_same; exact Lm).
  destruct (modify_agent_core' _ _ _ _ _ _ E0 Hv1) as [C3 _]; [reflexivity|].
  nb E. pose proof (kept _ _ _ _ (keeps_enter m) E1) as C4.
  nb E. nv E2. nb E. pose proof (kept _ _ _ _ (keeps_quiet beh cond _ _ (proj1 (Q _) _)) E2) as C5.
  nb E. apply deref_normal in E3. destruct E3 as (-> & _ & _ & Ex). nv E.
  rewrite core_emit. simpl is_entry. cbv iota.
  assert (C : core_of s2 = with_h (upd (c_h (core_of s1)) m (set_enter (c_t (core_of s1)) v1)) (core_of s1)).
  { rewrite C5, C4, C3, C2. simpl. rewrite upd_upd. reflexivity. }
  rewrite C in Ex |- *. cbn [with_h c_h c_p c_n c_t c_e] in *. rewrite nth_upd_same in Ex by exact Lm. apply (f_equal (fun o => match o with Some x => x | None => a5 end)) in Ex. cbv beta iota in Ex.
  assert (X1 := f_equal a_id Ex). assert (X2 := f_equal a_proto Ex). assert (X3 := f_equal a_pid Ex).
  assert (X4 := f_equal a_life Ex). assert (X5 := f_equal a_enter Ex). clear Ex. cbn in X1, X2, X3, X4, X5.
  rewrite <- X1, <- X2, <- X3, <- X4, <- X5. reflexivity.
Qed.

Lemma build_agent_core beh cond fuel name par s a s' :
  quiet_code beh ->
  build_agent beh cond fuel name par s = (Normal a, s') ->
  a = List.length (c_h (core_of s)) /\ step_core (name, par) (core_of s) (core_of s').
Proof.
  intros Q H. unfold build_agent in H. nb H.
  destruct (create_core _ _ _ _ E) as (m & v & F & Hm & -> & C1). clear E.
  nb H.
  assert (Hc : nth_error (c_h (core_of s0)) (List.length (c_h (core_of s))) = Some (child v (c_n (core_of s)) (-1) None (-1)))
    by (rewrite C1; simpl; apply nth_app_last).
  destruct (build_core _ _ _ _ _ _ _ _ _ Q E Hc) as (pid & Hp & C2). clear E.
  nb H. nv H. split; [reflexivity|].
  exists m, v, pid. split; [exact F|]. split; [exact Hm|]. cbn [fst snd].
  rewrite C1 in Hp, C2. cbn [c_h c_p c_n c_t c_e child a_pid a_id a_proto a_life a_parent] in Hp, C2.
  rewrite upd_app_last in C2.
  destruct par as [q|].
  - destruct Hp as [(y & Hy & ->) Nq].
    assert (Lq : (q < List.length (c_h (core_of s)))%nat).
    { assert (L : (q < List.length (c_h (core_of s) ++ [child v (c_n (core_of s)) (-1) None (-1)]))%nat)
        by (apply nth_error_Some; congruence). rewrite app_length in L. simpl in L. simpl in Nq |- *. lia. }
    rewrite nth_error_app1 in Hy by exact Lq.
    split; [exists y; auto|].
    nb E. apply deref_normal in E0. destruct E0 as (-> & _). nb E. nv E0.
    unfold call in E. nb E. apply deref_normal in E0. destruct E0 as (-> & _). nb E. nv E0.
    rewrite (kept _ _ _ _ (keeps_quiet beh cond _ _ (proj2 (Q _) _ _)) E).
    rewrite core_emit. simpl is_entry. cbv iota. rewrite C2. cbn [c_h c_p c_n c_t c_e].
    rewrite <- app_assoc. reflexivity.
  - nv E. split; [reflexivity|]. rewrite C2. reflexivity.
Qed.

(** ** Adding a prototype *)
Lemma lift_normal {A} (r : result A) s a s' : lift r s = (Normal a, s') -> r = Ok a /\ s' = s.
Proof. destruct r; simpl; intro H; try discriminate. nv H. auto. Qed.

Lemma load_proto_core make read specs qe s r s' :
  load_proto make read specs qe s = (Normal r, s') ->
  forall name alias life,
  PpModel.get_string qe (path ["name"]) 0 = Ok name ->
  (forall cfg, PpModel.sub_tree qe (path ["config"]) 0 = Ok cfg -> element_name cfg 0 = Ok alias) ->
  opt_int qe (path ["lifetime"]) (-1) = Ok life ->
  exists cls, make (spec_for specs alias) = Ok cls /\
    r = (List.length (c_h (core_of s)), qe) /\
    sfind name (c_p (core_of s)) = None /\
    core_of s' = mkC (c_h (core_of s) ++ [mkA (c_n (core_of s)) (fst cls) (snd cls) name (spec_str (spec_for specs alias)) life
                                            (-1) None (-1) [] true])
      ((name, List.length (c_h (core_of s))) :: c_p (core_of s)) (c_n (core_of s) + 1) (c_t (core_of s)) (c_e (core_of s)).
Proof.
  intros H name alias life Hn Ha Hl. unfold load_proto in H.
  nb H. apply lift_normal in E. destruct E as [E ->]. rewrite Hn in E. nv E.
  nb H. apply lift_normal in E. destruct E as [E ->]. apply Ha in E.
  nb H. apply lift_normal in E0. destruct E0 as [E0 ->]. rewrite E in E0. nv E0.
  nb H. apply lift_normal in E0. destruct E0 as [E0 ->]. rename a2 into cls.
  nb H. nv E1.
  nb H. apply lift_normal in E1. destruct E1 as [E1 ->]. rewrite Hn in E1. nv E1.
  nb H. apply lift_normal in E1. destruct E1 as [E1 ->]. rewrite Hl in E1. nv E1.
  nb H. apply lift_normal in E1. destruct E1 as [_ ->].
  nb H. 
  match type of E1 with modify_agent _ _ ?x = _ => set (s1 := x) in * end.
  assert (C1 : core_of s1 = mkC (c_h (core_of s) ++ [mkA (c_n (core_of s)) (fst cls) (snd cls) "" (spec_str (spec_for specs a1)) (-1)
                  (-1) None (-1) [] true]) (c_p (core_of s)) (c_n (core_of s) + 1) (c_t (core_of s)) (c_e (core_of s))).
  { unfold s1. rewrite core_emit_quiet by reflexivity. unfold core_of. simpl. rewrite map_app. reflexivity. }
  assert (Len : List.length (heap (w s)) = List.length (c_h (core_of s))) by (simpl; rewrite map_length; reflexivity).
  rewrite Len in E1, H. clearbody s1.
  assert (Hv : nth_error (c_h (core_of s1)) (List.length (c_h (core_of s))) = Some (mkA (c_n (core_of s)) (fst cls) (snd cls) "" (spec_str (spec_for specs a1)) (-1)
                  (-1) None (-1) [] true)) by (rewrite C1; apply nth_app_last).
  destruct (modify_agent_core' _ _ _ _ _ _ E1 Hv) as [C2 _]; [reflexivity|].
  nb H. nv H. exists cls. split; [exact E0|]. split; [reflexivity|].
  unfold add_prototype in E2. nb E2. nv E3.
  destruct (sfind a2 (protos (w s2))) eqn:F; [discriminate|]. cbn [negb andb] in E2.
  nb E2. apply deref_normal in E3. destruct E3 as (-> & _). nv E2.
  assert (P : protos (w s2) = c_p (core_of s)) by (change (protos (w s2)) with (c_p (core_of s2)); rewrite C2, C1; reflexivity).
  rewrite P in F. split; [exact F|].
  rewrite core_emit_quiet by reflexivity. 
  assert (C3 : forall x, core_of (with_w (fun y => mkW (heap y) (nid y) (alist y) ((a2, x) :: protos y) (nproto y) (nspec y) (traders y)) s2)
     = mkC (c_h (core_of s2)) ((a2, x) :: c_p (core_of s2)) (c_n (core_of s2)) (c_t (core_of s2)) (c_e (core_of s2))) by reflexivity.
  rewrite C3, C2. rewrite C1. cbn [with_h c_h c_p c_n c_t c_e]. rewrite upd_app_last. reflexivity.
Qed.
