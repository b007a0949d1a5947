(** From steps on cores to what the context holds. *)
From Coq Require Import String Ascii List ZArith Bool Arith Lia.
From Verif Require Import Base SpecModel SimModel LoaderModel LoaderSpec LoaderProofs LoaderProofs2 LoaderProofs3.
Import ListNotations.
Local Open Scope string_scope.

Definition numbered (h : list agent) : Prop := forall k x, nth_error h k = Some x -> a_id x = Z.of_nat k.
Lemma numbered_app h x : numbered h -> a_id x = Z.of_nat (List.length h) -> numbered (h ++ [x]).
Proof.
  intros N E k y H. destruct (Nat.lt_ge_cases k (List.length h)) as [L|L].
  - rewrite nth_error_app1 in H by exact L. apply N, H.
  - rewrite nth_error_app2 in H by exact L. destruct (k - List.length h)%nat as [|j] eqn:D.
    + simpl in H. injection H as <-. rewrite E. f_equal. lia.
    + simpl in H. destruct j; discriminate.
Qed.

Lemma padd_spec l c c' : padd l c c' -> numbered (c_h c) -> c_n c = Z.of_nat (List.length (c_h c)) ->
  numbered (c_h c') /\ c_n c' = Z.of_nat (List.length (c_h c')) /\ c_t c' = c_t c /\ c_e c' = c_e c /\
  c_h c' = (c_h c ++ map (fun '(k, m) => proto_agent (Z.of_nat k) m) (combine (seq (List.length (c_h c)) (List.length l)) l))%list /\
  NoDup (map (fun m => pr_name (fst m)) l) /\
  (forall m, In m l -> sfind (pr_name (fst m)) (c_p c) = None) /\
  (forall n k, sfind n (c_p c') = Some k <->
     sfind n (c_p c) = Some k \/ exists j m, nth_error l j = Some m /\ pr_name (fst m) = n /\ k = (List.length (c_h c) + j)%nat).
Proof.
  induction 1 as [c|m l c c' F P IH]; intros N E.
  - cbn [List.length seq combine map]. rewrite app_nil_r. do 5 (split; [auto|]). split; [constructor|]. split; [intros m []|].
    intros n k. split; [auto|]. intros [H|(j & m & H & _)]; [exact H|]. destruct j; discriminate.
  - destruct IH as (I1 & I2 & I3 & I4 & I5 & I6 & I7 & I8).
    { apply numbered_app; [exact N|]. simpl. exact E. }
    { simpl. rewrite E, app_length. simpl. lia. }
    cbn [add1 c_h c_p c_t c_e] in *. repeat split; auto.
    + rewrite I5, <- app_assoc. f_equal. cbn [List.length seq combine map List.app]. f_equal; [rewrite E; reflexivity|].
      rewrite app_length. simpl. rewrite Nat.add_1_r. reflexivity.
    + simpl. constructor; [|exact I6]. intro Hin. apply in_map_iff in Hin. destruct Hin as (m' & Em & Hm').
      specialize (I7 _ Hm'). rewrite Em in I7. simpl in I7. rewrite String.eqb_refl in I7. discriminate.
    + intros m' [<-|Hm']; [exact F|]. specialize (I7 _ Hm'). simpl in I7.
      destruct (String.eqb _ _); [discriminate|exact I7].
    + intro H. apply I8 in H. destruct H as [H|(j & m' & Hj & En & ->)].
      * simpl in H. destruct (String.eqb_spec n (pr_name (fst m))) as [->|Nn].
        -- injection H as <-. right. exists 0%nat, m. repeat split. lia.
        -- left. exact H.
      * right. exists (S j), m'. repeat split; auto. rewrite app_length. simpl. lia.
    + intros H. apply I8. destruct H as [H|(j & m' & Hj & En & ->)].
      * left. simpl. destruct (String.eqb_spec n (pr_name (fst m))) as [->|Nn]; [congruence|exact H].
      * destruct j as [|j]; simpl in Hj.
        -- injection Hj as <-. left. simpl. rewrite <- En, String.eqb_refl. f_equal. lia.
        -- right. exists j, m'. repeat split; auto. rewrite app_length. simpl. lia.
Qed.

Definition made_agent (now : Z) (k : nat) (par : option nat) (m : proto * class) : agent :=
  mkA (Z.of_nat k) (fst (fst (snd m))) (snd (fst (snd m))) (pr_name (fst m)) (snd (snd m)) (life_of (fst m)) now par (number_of par) [] true.

Lemma built_spec l ps c c' : built l c c' -> numbered (c_h c) -> c_n c = Z.of_nat (List.length (c_h c)) ->
  (forall n k, sfind n (c_p c) = Some k -> exists m, nth_error ps k = Some m /\ pr_name (fst m) = n /\
     nth_error (c_h c) k = Some (proto_agent (Z.of_nat k) m)) ->
  c_p c' = c_p c /\
  exists made, Forall2 (fun e m => In m ps /\ pr_name (fst m) = fst e) l made /\
    c_h c' = (c_h c ++ map (fun '(k, ((_, par), m)) => made_agent (c_t c) k par m)
                 (combine (seq (List.length (c_h c)) (List.length l)) (combine l made)))%list /\
    c_e c' = (c_e c ++ flat_map (fun '(k, ((_, par), m)) => agent_events (c_t c) k par (fst m))
                 (combine (seq (List.length (c_h c)) (List.length l)) (combine l made)))%list.
Proof.
  induction 1 as [c|[n par] l c c1 c' S B IH]; intros N E Hp.
  - split; [reflexivity|]. exists []. simpl. rewrite !app_nil_r. repeat split; constructor.
  - destruct S as (m & v & pid & F & Hv & Hpid & ->). cbn [fst snd] in *.
    destruct (Hp _ _ F) as (pm & Hm & En & Hh). rewrite Hh in Hv. injection Hv as <-.
    assert (Epid : pid = number_of par).
    { destruct par as [q|]; simpl in *; [|exact Hpid]. destruct Hpid as (y & Hy & ->). apply N in Hy. exact Hy. }
    subst pid. cbn [c_h c_p c_n c_t c_e] in *.
    destruct IH as (I1 & made & I2 & I3 & I4).
    { apply numbered_app; [exact N|]. simpl. exact E. }
    { rewrite E, app_length. simpl. lia. }
    { intros n' k' F'. destruct (Hp _ _ F') as (m' & ? & ? & ?). exists m'. repeat split; auto.
      rewrite nth_error_app1; [assumption|]. apply nth_error_Some. congruence. }
    split; [exact I1|]. exists (pm :: made). split; [constructor; [split; [eapply nth_error_In; eauto|exact En]|exact I2]|].
    cbn [List.length seq combine map flat_map].
    rewrite app_length in I3, I4. cbn [List.length] in I3, I4. rewrite Nat.add_1_r in I3, I4. split.
    + rewrite I3, <- app_assoc. cbn [List.app]. f_equal. f_equal.
      unfold child, made_agent, proto_agent. cbn. rewrite E. reflexivity.
    + rewrite I4, <- app_assoc. f_equal. unfold born, agent_events. cbn [proto_agent a_proto a_life]. rewrite E.
      destruct par; reflexivity.
Qed.

Lemma view_bare x : view (bare x) = view x. Proof. reflexivity. Qed.
Lemma map_view_bare l : map view (map bare l) = map view l.
Proof. rewrite map_map. apply map_ext. intro. reflexivity. Qed.
Lemma nth_combine_l {A B} : forall (l : list A) (l' : list B) k, List.length l = List.length l' ->
  option_map fst (nth_error (combine l l') k) = nth_error l k.
Proof. induction l; destruct l', k; simpl; intros; try discriminate; auto. Qed.
Lemma F2_length {A B} (R : A -> B -> Prop) l l' : Forall2 R l l' -> List.length l = List.length l'.
Proof. induction 1; simpl; congruence. Qed.

Lemma assemble make archs ps classes pl s0 s c1 :
  Forall2 (fun p cls => class_of make archs (pr_class p) cls) ps classes ->
  fresh s0 -> padd (combine ps classes) (core_of s0) c1 -> built pl c1 (core_of s) ->
  holds make archs ps pl s0 s.
Proof.
  intros Fc (F1 & F2 & F3) P B.
  assert (Len := F2_length _ _ _ Fc).
  assert (LC : List.length (combine ps classes) = List.length ps) by (rewrite combine_length, <- Len; apply Nat.min_id).
  destruct (padd_spec _ _ _ P) as (I1 & I2 & I3 & I4 & I5 & I6 & I7 & I8).
  { simpl. rewrite F1. intros k y H. destruct k; discriminate. }
  { simpl. rewrite F1, F2. reflexivity. }
  assert (H0 : c_h (core_of s0) = []) by (simpl; rewrite F1; reflexivity).
  assert (P0 : c_p (core_of s0) = []) by (simpl; exact F3).
  rewrite H0 in I5, I8. rewrite P0 in I8. cbn [List.length List.app Nat.add] in I5, I8. rewrite LC in I5.
  destruct (built_spec _ (combine ps classes) _ _ B I1 I2) as (J1 & made & J2 & J3 & J4).
  { intros n k H. apply I8 in H. destruct H as [H|(j & m & Hj & En & ->)]; [discriminate|].
    exists m. repeat split; auto. rewrite I5, nth_error_map.
    assert (L : (j < List.length ps)%nat) by (rewrite <- LC; apply nth_error_Some; congruence).
    assert (X : nth_error (combine (seq 0 (List.length ps)) (combine ps classes)) j = Some (j, m)).
    { clear - Hj L LC. rewrite <- LC in *. remember (combine ps classes) as q. clear Heqq LC.
      assert (G : forall (q : list (proto * class)) b j m, nth_error q j = Some m ->
        nth_error (combine (seq b (List.length q)) q) j = Some ((b + j)%nat, m)).
      { clear. induction q as [|y q IH]; intros b [|j] m H; simpl in *; try discriminate.
        - injection H as <-. rewrite Nat.add_0_r. reflexivity.
        - rewrite (IH (S b) j m H). rewrite Nat.add_succ_r. reflexivity. }
      apply (G q 0%nat j m Hj). }
    rewrite X. reflexivity. }
  assert (L1 : List.length (c_h c1) = List.length ps).
  { rewrite (padd_length _ _ _ P), H0, LC. reflexivity. }
  unfold holds. split.
  { rewrite <- (map_map fst pr_name) in I6.
    replace ps with (map fst (combine ps classes)); [exact I6|]. clear - Len. revert classes Len.
    induction ps; destruct classes; simpl; intros; try discriminate; f_equal; auto. }
  exists classes, made. split; [exact Fc|]. split; [exact J2|]. rewrite L1 in J3, J4. split; [|split].
  - transitivity (map view (c_h (core_of s))); [symmetry; apply map_view_bare|]. rewrite J3, map_app, I5, !map_map. f_equal.
    + apply map_ext. intros [k [p [[kd sh] st]]]. reflexivity.
    + rewrite I3. apply map_ext. intros [k [[n par] [p [[kd sh] st]]]]. reflexivity.
  - intros n k. change (protos (w s)) with (c_p (core_of s)). rewrite J1, I8.
    rewrite <- (nth_combine_l ps classes k Len). split.
    + intros [H|(j & m & Hj & En & ->)]; [discriminate|]. rewrite Hj. simpl. rewrite En. reflexivity.
    + intro H. right. destruct (nth_error (combine ps classes) k) as [m|] eqn:Em; [|discriminate].
      simpl in H. injection H as H. exists k, m. auto.
  - change (entries (log s)) with (c_e (core_of s)). change (entries (log s0)) with (c_e (core_of s0)).
    rewrite J4, I4, I3. f_equal. apply flat_map_ext'. intros [k [[n par] [p cls]]]. reflexivity.
Qed.

(** ** The main format *)
Lemma insts_protos : forall qes rs, Forall2 says_region qes rs ->
  Forall2 says_proto (flat_map (children "institution") qes) (flat_map (fun r => map in_self (re_insts r)) rs).
Proof.
  induction 1 as [|qe r qes rs [_ H] F IH]; simpl; [constructor|]. apply Forall2_app; [|exact IH].
  clear - H. induction H as [|a b ? ? [Hp _] ? IH]; simpl; constructor; auto.
Qed.
Lemma regions_protos : forall qes rs, Forall2 says_region qes rs -> Forall2 says_proto qes (map re_self rs).
Proof. induction 1 as [|qe r qes rs [H _] F IH]; simpl; constructor; auto. Qed.
Lemma combine_app {A B} : forall (l1 : list A) (l1' : list B) l2 l2', List.length l1 = List.length l1' ->
  combine (l1 ++ l2) (l1' ++ l2') = (combine l1 l1' ++ combine l2 l2')%list.
Proof. induction l1; destruct l1'; simpl; intros; try discriminate; auto. f_equal. auto. Qed.

Lemma file_loaded beh cond make read fuel x i s0 r s :
  quiet_code beh -> (forall c, make (mkSpec "" "" "" "") <> Ok c) ->
  says_input x i -> fresh s0 ->
  load_file beh cond make read fuel x s0 = (Normal r, s) ->
  holds make (archetypes i) (prototypes i) (placements i) s0 s /\
  r = combine (seq 0 (List.length (prototypes i))) (prototype_elements x).
Proof.
  intros Q Nn (Ha & Hf & Hr) Fr H. unfold load_file in H.
  nb H. apply lift_normal in E. destruct E as [Es ->]. unfold load_agents in H.
  nb H. rewrite over_collect, find1 in E.
  destruct (protos_loaded make read x _ _ Ha Es Nn _ _ _ _ _ Hf E) as (c1 & K1 & -> & P1).
  nb H. rewrite over_collect, find2 in E0.
  destruct (protos_loaded make read x _ _ Ha Es Nn _ _ _ _ _ (insts_protos _ _ Hr) E0) as (c2 & K2 & -> & P2).
  nb H. rewrite over_collect, find1 in E1.
  destruct (protos_loaded make read x _ _ Ha Es Nn _ _ _ _ _ (regions_protos _ _ Hr) E1) as (c3 & K3 & -> & P3).
  nb H. rewrite over_collect, find1 in E2. nv H.
  pose proof (regions_loaded _ _ _ Q _ _ _ _ _ Hr E2) as B.
  assert (K : Forall2 (fun p cls => class_of make (archetypes i) (pr_class p) cls) (prototypes i) (c1 ++ c2 ++ c3))
    by (apply Forall2_app; [|apply Forall2_app]; assumption).
  assert (Pa : padd (combine (prototypes i) (c1 ++ c2 ++ c3)) (core_of s0) (core_of s3)).
  { unfold prototypes. rewrite combine_app by (eapply F2_length; eauto). rewrite combine_app by (eapply F2_length; eauto).
    eapply padd_app; [exact P1|]. eapply padd_app; [exact P2|exact P3]. }
  assert (H0 : List.length (c_h (core_of s0)) = 0%nat) by (simpl; rewrite (proj1 Fr); reflexivity).
  assert (LL : List.length (c_h (core_of s3)) = List.length (prototypes i)).
  { rewrite (padd_length _ _ _ Pa), H0, combine_length, <- (F2_length _ _ _ K). simpl. apply Nat.min_id. }
  rewrite LL in B. split; [eapply assemble; eauto|].
  change (map bare (heap (w s0))) with (c_h (core_of s0)). change (map bare (heap (w s1))) with (c_h (core_of s1)).
  change (map bare (heap (w s2))) with (c_h (core_of s2)).
  rewrite (padd_length _ _ _ P2), (padd_length _ _ _ P1), H0.
  rewrite !combine_length, <- (F2_length _ _ _ K1), <- (F2_length _ _ _ K2), !Nat.min_id. cbn [Nat.add].
  unfold prototypes, prototype_elements. rewrite !app_length, !seq_app.
  rewrite combine_app by (rewrite seq_length; symmetry; eapply F2_length; eauto).
  rewrite combine_app by (rewrite seq_length; symmetry; eapply F2_length, insts_protos; eauto).
  reflexivity.
Qed.
