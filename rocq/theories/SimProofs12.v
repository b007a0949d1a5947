(** What the rows of AgentEntry say. *)
From Coq Require Import String List ZArith Bool Arith Lia.
From Verif Require Import Base SimModel SimSpec SimProofs1 SimProofs2 SimProofs3 SimProofs4 SimProofs5 SimProofs6 SimProofs7 SimProofs8 SimProofs9 SimProofs11.
Import ListNotations.
Local Open Scope Z_scope.

(** ** The recorded parent *)
Definition pid_ok (s : sim) : Prop := forall a x, nth_error (heap (w s)) a = Some x ->
  a_pid x = -1 \/ exists q z, a_pid x = Z.of_nat q /\ q <> a /\ In (z, EBuild a (Some q)) (log s).
Definition ip (s : sim) : Prop := ids_ok (w s) /\ pid_ok s.
Definition pider (s s' : sim) : Prop := ip s -> ip s'.
Lemma ip_same s s' suf : log s' = log s ++ suf -> heap (w s') = heap (w s) -> nid (w s') = nid (w s) -> pider s s'.
Proof.
  intros L Hh Hn [[I1 I2] P]. unfold ip, ids_ok, pid_ok in *. rewrite Hh, Hn, L. split; [auto|].
  intros a x Hx. destruct (P a x Hx) as [E|(q & z & E & Nq & I)]; [auto|]. right. exists q, z. rewrite in_app_iff. auto.
Qed.
Lemma ip_map s s' suf f : log s' = log s ++ suf -> length (heap (w s')) = length (heap (w s)) -> nid (w s') = nid (w s) ->
  (forall b, nth_error (heap (w s')) b = option_map (f b) (nth_error (heap (w s)) b)) ->
  (forall b y, a_id (f b y) = a_id y) ->
  (ids_ok (w s) -> forall b y, nth_error (heap (w s)) b = Some y -> a_pid (f b y) = a_pid y \/ a_pid (f b y) = -1 \/
     exists q z, a_pid (f b y) = Z.of_nat q /\ q <> b /\ In (z, EBuild b (Some q)) suf) -> pider s s'.
Proof.
  intros L Hl Hn F Fi Fp [Ii P]. assert (Fp' := Fp Ii). destruct Ii as [I1 I2]. split; [split|].
  - congruence.
  - intros a y Hy. rewrite F in Hy. destruct (nth_error (heap (w s)) a) as [x|] eqn:E; [|discriminate]. injection Hy as <-.
    rewrite Fi. now apply I2.
  - intros a y Hy. rewrite F in Hy. destruct (nth_error (heap (w s)) a) as [x|] eqn:E; [|discriminate]. injection Hy as <-.
    rewrite L. destruct (Fp' a x E) as [X|[X|(q & z & X & Nq & Y)]].
    + rewrite X. destruct (P a x E) as [Z|(q & z & Z & Nq & Y)]; [auto|]. right. exists q, z. rewrite in_app_iff. auto.
    + auto.
    + right. exists q, z. rewrite in_app_iff. auto.
Qed.
Lemma pid_new k sh pr sp l : keeps pider (construct k sh pr sp l).
Proof.
  intros s o s' [= <- <-] _ [[I1 I2] P]. split; [split|]; simpl.
  - rewrite app_length. simpl. lia.
  - intros a y Hy. destruct (nth_app_split _ _ _ _ Hy) as [Ho|[-> <-]]; [auto|exact I1].
  - intros a y Hy. simpl in Hy. destruct (nth_app_split _ _ _ _ Hy) as [Ho|[-> <-]]; [|auto].
    destruct (P a y Ho) as [E|(q & z & E & Nq & I)]; [auto|]. right. exists q, z. simpl. rewrite in_app_iff. auto.
Qed.
Lemma destroyed_pid a x b y : a_pid (destroyed a x b y) = a_pid y \/ a_pid (destroyed a x b y) = -1.
Proof.
  unfold destroyed. destruct (match a_parent x with Some p => _ | None => _ end), (existsb _ _), (Nat.eqb b a); simpl; auto.
Qed.
Lemma destroyed_id a x b y : a_id (destroyed a x b y) = a_id y.
Proof. unfold destroyed. destruct (match a_parent x with Some p => _ | None => _ end), (existsb _ _), (Nat.eqb b a); reflexivity. Qed.
Lemma joined_id z a p pid b y : a_id (joined z a p pid b y) = a_id y.
Proof. unfold joined. destruct (Nat.eqb b a), p as [q|]; try reflexivity. destruct (Nat.eqb b q); reflexivity. Qed.
Lemma pid_del a : keeps pider (del_agent a).
Proof.
  intros s o s' H N. apply del_normal in H; [|exact N].
  destruct H as [_ [[_ ->]|(Ia & x & L & E1 & E2 & E3 & E4 & E5 & E6 & E7 & E8 & F)]]; [unfold pider; auto|].
  eapply ip_map; eauto; [intros; apply destroyed_id|]. intros _ b y _. destruct (destroyed_pid a x b y); auto.
Qed.
Lemma pid_refl s : pider s s. Proof. unfold pider; auto. Qed.
Lemma pid_trans a b c : pider a b -> pider b c -> pider a c. Proof. unfold pider; auto. Qed.
Lemma pid_emit e s : pider s (emit e s).
Proof. eapply ip_same; reflexivity. Qed.
Lemma pid_coarse : coarse pider.
Proof.
  constructor.
  - intros. apply pid_emit.
  - intros f s. apply (ip_same _ _ []); auto. simpl. now rewrite app_nil_r.
  - intros f s o s' [= <- <-] _. apply (ip_same _ _ []); auto. simpl. now rewrite app_nil_r.
  - intros. apply pid_new.
  - intros s a x n G. apply get_nth in G. destruct G as [G _].
    assert (La : (a < length (heap (w s)))%nat) by (apply nth_error_Some; congruence).
    apply (ip_map _ _ [] (fun b y => if Nat.eqb b a then set_life n y else y)).
    + simpl. now rewrite app_nil_r.
    + simpl. apply upd_length.
    + reflexivity.
    + intros b. rewrite set_agent_nth by exact La. destruct (Nat.eqb_spec b a) as [->|]; [rewrite G; reflexivity|].
      destruct (nth_error _ b); reflexivity.
    + intros b y. destruct (Nat.eqb b a); reflexivity.
    + intros _ b y _. left. destruct (Nat.eqb b a); reflexivity.
  - apply create_from_del; auto using pid_new, pid_del, pid_refl, pid_emit; apply pid_trans.
  - intros a s o s' H N. apply base_normal in H; [|exact N].
    destruct H as (_ & x & L & T & Ln & Nn & _ & _ & _ & [(Ni & El & Eh & _)|(Ia & E1 & E3 & F)]).
    + eapply ip_same; eauto.
    + eapply ip_map; eauto; [intros; apply destroyed_id|]. intros _ b y _. destruct (destroyed_pid a x b y); auto.
  - intros a p s o s' H N. apply front_normal in H; [|exact N].
    destruct H as [(_ & _ & ->)|(_ & Nq & x & pid & L & Lq & El & E2 & Ln & E4 & E5 & _ & _ & F)]; [apply pid_emit|].
    eapply ip_map; eauto; [intros; apply joined_id|].
    intros [_ Ids] b y Hb. unfold joined. destruct (Nat.eqb_spec b a) as [->|].
    + destruct p as [q|]; simpl; [|auto]. right; right. destruct (Lq q eq_refl) as (u & [Hu _] & ->).
      exists q, (tm (ti s)). split; [now apply Ids|]. split; [congruence|]. now left.
    + left. destruct p as [q|]; [destruct (Nat.eqb b q)|]; reflexivity.
  - intros n a ov s o s' H N. unfold add_prototype, bind at 1, gets in H. destruct (_ && _); [injection H as <- <-; unfold pider; auto|].
    apply deref_inv in H; [|exact N]. destruct H as (x & G & H). injection H as <- <-.
    eapply ip_same; reflexivity.
Qed.

(** ** The rows *)
Definition entries (l : history) : list nat := flat_map (fun x => match snd x with EEntry a _ _ _ _ _ => [a] | _ => [] end) l.
Lemma entries_app a b : entries (a ++ b) = entries a ++ entries b. Proof. apply flat_map_app. Qed.
Definition cnt (l : list nat) (a : nat) : nat := count_occ Nat.eq_dec l a.
Lemma cnt_app l m a : cnt (l ++ m) a = (cnt l a + cnt m a)%nat. Proof. apply count_occ_app. Qed.
Definition rows_ok (l : history) : Prop := forall pre z a id pr pid life en post,
  l = pre ++ (z, EEntry a id pr pid life en) :: post ->
  en = z /\ id = Z.of_nat a /\ (exists p, p <> Some a /\ In (z, EBuild a p) pre) /\
  (pid = -1 \/ exists q z', pid = Z.of_nat q /\ q <> a /\ In (z', EBuild a (Some q)) pre).
Lemma rows_app l m : rows_ok l -> entries m = [] -> rows_ok (l ++ m).
Proof.
  intros Hl Hm pre z a id pr pid life en post E.
  destruct (split_app _ _ _ _ E) as [(k & -> & Ek)|(k & -> & Ek)].
  - exfalso. rewrite Ek, entries_app in Hm. simpl in Hm. apply app_eq_nil in Hm. destruct Hm. discriminate.
  - destruct k as [|x k]; simpl in Ek.
    + exfalso. rewrite <- Ek in Hm. discriminate Hm.
    + injection Ek as <- ->. eapply Hl. reflexivity.
Qed.
Definition m2 (s s' : sim) : Prop := enters s s' /\ exists suf, log s' = log s ++ suf /\ entries suf = [].
Lemma m2_refl s : m2 s s. Proof. split; [apply enters_refl|]. exists []. rewrite app_nil_r. auto. Qed.
Lemma m2_trans a b c : m2 a b -> m2 b c -> m2 a c.
Proof.
  intros [E1 (s1 & L1 & H1)] [E2 (s2 & L2 & H2)]. split; [eapply enters_trans; eauto|]. exists (s1 ++ s2).
  rewrite L2, L1, app_assoc, entries_app, H1, H2. auto.
Qed.
Lemma m2_emit e s : is_entry e = false -> m2 s (emit e s).
Proof.
  intros He. split; [now apply enters_same|]. exists [(tm (ti s), e)]. split; [reflexivity|]. destruct e; simpl in *; try discriminate; reflexivity.
Qed.
Lemma m2_micro : micro2 m2.
Proof.
  destruct enters_micro as [A B C D E]. constructor.
  - intros e s He. unfold inner2 in He. apply andb_prop in He. destruct He as [_ He]. apply m2_emit. now destruct (is_entry e).
  - intros f s T. split; [now apply B|]. exists []. simpl. rewrite app_nil_r. auto.
  - intros f s H1 H2. split; [now apply C|]. exists []. simpl. rewrite app_nil_r. auto.
  - intros k sh pr sp l s o s' H N. split; [eapply D; eauto|]. unfold construct in H. injection H as <- <-.
    eexists. split; [reflexivity|reflexivity].
  - intros s a x y G H. split; [eapply E; eauto|]. exists []. simpl. rewrite app_nil_r. auto.
Qed.
(** One row at most for each build. *)
Definition counts (s s' : sim) : Prop := exists suf, log s' = log s ++ suf /\ forall a, (cnt (entries suf) a <= cnt (entered suf) a)%nat.
Lemma counts_refl s : counts s s. Proof. exists []. rewrite app_nil_r. auto. Qed.
Lemma counts_trans a b c : counts a b -> counts b c -> counts a c.
Proof.
  intros (s1 & L1 & H1) (s2 & L2 & H2). exists (s1 ++ s2). rewrite L2, L1, app_assoc, entries_app, entered_app.
  split; [reflexivity|]. intros x. rewrite !cnt_app. specialize (H1 x). specialize (H2 x). lia.
Qed.
Lemma counts_quiet s s' suf : log s' = log s ++ suf -> entries suf = [] -> counts s s'.
Proof. intros L E. exists suf. rewrite E. split; [exact L|]. intros a. simpl. lia. Qed.
Definition ir (s : sim) : Prop := ip s /\ rows_ok (log s).
Definition er (s s' : sim) : Prop := enters s s' /\ counts s s' /\ (ir s -> ir s').
Lemma er_refl s : er s s. Proof. split; [apply enters_refl|]. split; [apply counts_refl|auto]. Qed.
Lemma er_trans a b c : er a b -> er b c -> er a c.
Proof. intros (A1 & B1 & C1) (A2 & B2 & C2). split; [eapply enters_trans; eauto|]. split; [eapply counts_trans; eauto|auto]. Qed.
Lemma er_from s s' : m2 s s' -> pider s s' -> er s s'.
Proof.
  intros [E (suf & L & H)] P. split; [exact E|]. split; [eapply counts_quiet; eauto|]. intros [I R]. split; [now apply P|].
  rewrite L. now apply rows_app.
Qed.
Lemma er_keeps {A} (m : M A) : keeps m2 m -> keeps pider m -> keeps er m.
Proof. intros H1 H2 s o s' E N. apply er_from; [eapply H1|eapply H2]; eauto. Qed.
Section B.
Context (beh : hook -> sim -> prog) (cond : nat -> sim -> bool) (fuel : nat).
Lemma er_build a p (q : M unit) : keeps er q -> keeps er (build_front a p ;; q ;; build_back a).
Proof.
  intros Hq s o s' H N.
  assert (Kf : keeps er (build_front a p)).
  { apply er_keeps; [apply m_front; auto using m2_refl, m2_micro; apply m2_trans|apply (z_front _ pid_coarse)]. }
  destruct (bind_inv _ _ _ _ _ H) as [([] & s1 & E1 & E2)|(No & o1 & E1 & N1 & U)].
  2:{ eapply Kf; eauto. intros E; apply N; now apply U. }
  assert (R1 := Kf _ _ _ E1 ltac:(discriminate)).
  destruct (bind_inv _ _ _ _ _ E2) as [([] & s2 & E3 & E4)|(No & o1 & E3 & N1 & U)].
  2:{ eapply er_trans; [exact R1|]. eapply Hq; eauto. intros E; apply N; now apply U. }
  assert (R2 := Hq _ _ _ E3 ltac:(discriminate)).
  apply front_normal in E1; [|discriminate].
  destruct E1 as [(_ & D & _)|(_ & Nq & x & pid & [L1 L2] & Lq & El & _ & Ln & _ & _ & _ & _ & F)]; [discriminate|].
  unfold build_back in E4. apply deref_inv in E4; [|exact N]. destruct E4 as (y & G & E4). unfold modify in E4. injection E4 as <- <-.
  apply get_nth in G. destruct G as [Gy _].
  destruct R1 as ((T1 & Hl1 & En1) & (f1 & Lf1 & C1) & I1). destruct R2 as ((T2 & Hl2 & En2) & (f2 & Lf2 & C2) & I2).
  assert (Hy : nth_error (heap (w s1)) a = Some (joined (tm (ti s)) a p pid a x)) by (rewrite F, L1; reflexivity).
  assert (Enj : a_enter (joined (tm (ti s)) a p pid a x) = tm (ti s)).
  { unfold joined. rewrite Nat.eqb_refl. destruct p as [r|]; [|reflexivity]. destruct (Nat.eqb_spec a r); [congruence|reflexivity]. }
  assert (La : (a < length (heap (w s1)))%nat) by (apply nth_error_Some; congruence).
  assert (Ey : a_enter y = tm (ti s)).
  { destruct (En2 _ _ Gy) as [E|[(z & Hz & E)|E]]; [congruence|congruence|lia]. }
  assert (Lf : f1 = (tm (ti s), EBuild a p) :: match a_kind x with KOther => [] | _ => [(tm (ti s), EReg a)] end).
  { rewrite Lf1 in El. now apply app_inv_head in El. }
  split; [|split].
  - split; [simpl; congruence|]. split; [simpl; lia|]. intros b z Hz. simpl in Hz.
    destruct (En2 _ _ Hz) as [E|[(z1 & Hz1 & E)|E]].
    + left. congruence.
    + destruct (En1 _ _ Hz1) as [E0|[(z0 & Hz0 & E0)|E0]]; [left; congruence|right; left; exists z0; split; [exact Hz0|congruence]|auto].
    + right; right. lia.
  - exists (f1 ++ f2 ++ [(tm (ti s2), EEntry a (a_id y) (a_proto y) (a_pid y) (a_life y) (a_enter y))]).
    split. { simpl. rewrite Lf2, Lf1, <- !app_assoc. reflexivity. }
    intros b. rewrite !entries_app, !entered_app, !cnt_app. specialize (C2 b).
    assert (X1 : entries f1 = []) by (rewrite Lf; destruct (a_kind x); reflexivity).
    assert (X2 : entered f1 = [a]).
    { rewrite Lf. change ((tm (ti s), EBuild a p) :: ?m) with ([(tm (ti s), EBuild a p)] ++ m). rewrite entered_app.
      destruct p as [r|]; simpl; [destruct (Nat.eqb_spec r a); [congruence|]|]; destruct (a_kind x); reflexivity. }
    rewrite X1, X2. simpl. destruct (Nat.eq_dec a b); simpl; unfold cnt in *; simpl; lia.
  - intros I. destruct (I2 (I1 I)) as [[[Ii1 Ii2] Ip] Ir]. split.
    + split; [split; auto|]. intros b z Hz. simpl in Hz. destruct (Ip b z Hz) as [E|(r & t & E & Nr & It)]; [auto|].
      right. exists r, t. simpl. rewrite in_app_iff. auto.
    + simpl. intros pre z b id pr pi life en post E.
      destruct (split_at _ _ _ _ _ _ (eq_sym E)) as [(r & Er & Es)|[(-> & Es & _)|(m & -> & Em)]].
      * eapply Ir. rewrite Er. reflexivity.
      * injection Es as -> -> -> -> -> -> ->. split; [congruence|]. split; [now apply Ii2|]. split.
        -- exists p. split; [exact Nq|]. rewrite Lf2, Lf1, Lf, !in_app_iff. left. right. left. congruence.
        -- destruct (Ip a y Gy) as [X|(r & t & X & Nr & It)]; [auto|]. right. exists r, t. auto.
      * destruct m; discriminate Em.
Qed.
Lemma er_atoms : batoms er cond.
Proof.
  assert (A := coarse_atoms _ pid_refl pid_trans pid_coarse cond).
  constructor.
  - intros. apply er_keeps; [apply (m_register _ m2_refl m2_trans m2_micro)|apply (at_reg _ _ A)].
  - intros. apply er_keeps; [apply (m_unregister _ m2_refl m2_trans m2_micro)|apply (at_unreg _ _ A)].
  - intros. apply er_keeps; [apply (m_sched_build _ m2_refl m2_trans m2_micro)|apply (at_schedb _ _ A)].
  - intros. apply er_keeps; [apply (m_sched_decom _ m2_refl m2_trans m2_micro)|apply (at_schedd _ _ A)].
  - apply er_keeps; [|apply (at_kill _ _ A)].
    apply keeps_modify. intros s. eapply m2_trans; [|apply m2_emit; reflexivity]. apply (mi_timer2 _ m2_micro). reflexivity.
  - apply er_keeps; [|apply (at_snap _ _ A)]. apply keeps_modify. intros s. apply (mi_timer2 _ m2_micro). reflexivity.
  - intros. apply er_keeps; [apply (mi_new2 _ m2_micro)|apply (at_new _ _ A)].
  - intros. apply er_keeps; [apply (m_create _ m2_refl m2_trans m2_micro)|apply (at_create _ _ A)].
  - intros. apply er_keeps; [apply (m_add _ m2_refl m2_trans m2_micro)|apply (at_proto _ _ A)].
  - intros. apply er_keeps; [apply (m_life _ m2_refl m2_micro)|apply (at_life _ _ A)].
  - intros. apply er_keeps; [apply (m_force _ m2_refl m2_micro)|apply (at_force _ _ A)].
  - intros. now apply er_build.
  - intros. apply er_keeps; [apply (m_kind_decom _ m2_refl m2_trans m2_micro)|apply (at_decom _ _ A)].
Qed.
End B.
