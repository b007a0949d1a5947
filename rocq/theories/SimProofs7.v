(** Invariants of the agents: one life each, mutual acyclic links, counters, prototypes. *)
From Coq Require Import String List ZArith Bool Arith Lia.
From Verif Require Import Base SimModel SimSpec SimProofs1 SimProofs2 SimProofs3 SimProofs4 SimProofs5 SimProofs6.
Import ListNotations.
Local Open Scope Z_scope.

Lemma nth_app_split {A} (l : list A) x i y : nth_error (l ++ [x]) i = Some y -> nth_error l i = Some y \/ (i = length l /\ x = y).
Proof.
  intros H. destruct (Nat.lt_ge_cases i (length l)) as [L|L].
  - left. now rewrite nth_error_app1 in H.
  - right. rewrite nth_error_app2 in H by exact L. destruct (i - length l)%nat as [|k] eqn:E; [|destruct k; discriminate].
    simpl in H. split; [lia|congruence].
Qed.
Lemma NoDup_app_one {A} (l : list A) x : NoDup l -> ~ In x l -> NoDup (l ++ [x]).
Proof.
  intros D N. induction D as [|y l Hy D IH]; simpl; [constructor; [auto|constructor]|]. simpl in N. constructor.
  - rewrite in_app_iff. simpl. intuition.
  - apply IH. tauto.
Qed.
Lemma pins_in a b l : In b (pins a l) <-> b = a \/ In b l.
Proof.
  induction l as [|x l IH]; simpl; [intuition|]. destruct (Nat.ltb a x); [simpl; intuition|].
  destruct (Nat.eqb_spec a x) as [->|N]; simpl; [intuition|]. rewrite IH. intuition.
Qed.
Lemma pdel_in a b l : In b (pdel a l) <-> b <> a /\ In b l.
Proof.
  unfold pdel. rewrite filter_In. destruct (Nat.eqb_spec b a); simpl; intuition congruence.
Qed.
Lemma exits_app a b : exits (a ++ b) = exits a ++ exits b. Proof. apply flat_map_app. Qed.
Lemma entered_app a b : entered (a ++ b) = entered a ++ entered b. Proof. apply flat_map_app. Qed.
Lemma plain_exits e : plain e = true -> forall t, exits [(t, e)] = [].
Proof. destruct e; try reflexivity; discriminate. Qed.
Lemma plain_entered e : plain e = true -> forall t, entered [(t, e)] = [].
Proof. destruct e; try reflexivity; discriminate. Qed.

(** ** One life *)
Record life_ok (s : sim) : Prop := {
  l_list : forall a x, live s a x -> In a (alist (w s));
  l_gone : forall a, In a (exits (log s)) -> exists x, nth_error (heap (w s)) a = Some x /\ a_alive x = false;
  l_once : NoDup (exits (log s)) }.
Definition lifer (s s' : sim) : Prop := life_ok s -> life_ok s'.
Lemma life_emit e s : plain e = true -> lifer s (emit e s).
Proof.
  intros P [A B C]. constructor; simpl; auto; rewrite exits_app, plain_exits, app_nil_r by exact P; auto.
Qed.
Lemma life_set a x s y : get s a = Some x -> a_alive y = a_alive x -> life_ok s -> life_ok (set_agent a y s).
Proof.
  intros G Ay [A B C]. apply get_nth in G. destruct G as [G Ax].
  assert (L : (a < length (heap (w s)))%nat) by (apply nth_error_Some; congruence).
  constructor; auto.
  - intros b z [Hz Az]. rewrite set_agent_nth in Hz by exact L. destruct (Nat.eqb_spec b a) as [->|Nb].
    + apply (A a x). split; auto.
    + apply (A b z). split; auto.
  - intros b Hb. simpl in Hb. destruct (B b Hb) as (z & Hz & Az). destruct (Nat.eqb_spec b a) as [E|Nb].
    + subst. congruence.
    + exists z. rewrite set_agent_nth by exact L. destruct (Nat.eqb_spec b a); [contradiction|auto].
Qed.
Lemma life_refl s : lifer s s. Proof. unfold lifer; auto. Qed.
Lemma life_trans a b c : lifer a b -> lifer b c -> lifer a c. Proof. unfold lifer; auto. Qed.
Lemma life_new k sh pr sp l : keeps lifer (construct k sh pr sp l).
Proof.
  intros s o s' [= <- <-] _ [A B C].
    constructor; simpl; rewrite ?exits_app, ?app_nil_r; auto.
    + intros a x [Hx Ax]. simpl in Hx. destruct (nth_app_split _ _ _ _ Hx) as [Ho|[-> _]].
      * apply pins_in. right. apply (A a x). split; auto.
      * apply pins_in. now left.
    + intros a Ha. destruct (B a Ha) as (x & Hx & Ax). exists x. split; [|exact Ax].
      rewrite nth_error_app1; [exact Hx|]. apply nth_error_Some. congruence.
Qed.
Lemma life_del a : keeps lifer (del_agent a).
Proof.
  intros s o s' H N [A B C]. apply del_normal in H; [|exact N].
    destruct H as [_ [[_ ->]|(Ia & x & L & E1 & E2 & E3 & E4 & E5 & E6 & E7 & E8 & F)]]; [constructor; auto|].
    constructor; rewrite ?E1, ?exits_app, ?app_nil_r; auto.
    + intros b z [Hz Az]. rewrite F in Hz. destruct (nth_error (heap (w s)) b) as [z0|] eqn:E0; [|discriminate].
      injection Hz as <-. rewrite destroyed_alive in Az. apply andb_prop in Az. destruct Az as [Az Nb].
      rewrite E3. apply pdel_in. split; [destruct (Nat.eqb_spec b a); [discriminate|assumption]|]. apply (A b z0). split; auto.
    + intros b Hb. destruct (B b Hb) as (z & Hz & Az). exists (destroyed a x b z). rewrite F, Hz. split; [reflexivity|].
      rewrite destroyed_alive, Az. reflexivity.
Qed.
Lemma life_coarse : coarse lifer.
Proof.
  constructor.
  - intros. now apply life_emit.
  - intros f s [A B C]. constructor; auto.
  - intros f s o s' [= <- <-] _ [A B C]. constructor; auto.
  - intros. apply life_new.
  - intros s a x n G. intros I. eapply life_set; eauto.
  - apply create_from_del; auto using life_new, life_del, life_refl, life_emit; apply life_trans.
  - intros a s o s' H N [A B C]. apply base_normal in H; [|exact N].
    destruct H as (_ & x & L & T & _ & _ & _ & _ & _ & [(Ni & _)|(Ia & E1 & E3 & F)]); [exfalso; apply Ni; eapply A; eauto|].
    assert (Na : ~ In a (exits (log s))).
    { intros Ha. destruct (B a Ha) as (z & Hz & Az). destruct L as [L1 L2]. congruence. }
    constructor; rewrite ?E1, ?exits_app; auto.
    + intros b z [Hz Az]. rewrite F in Hz. destruct (nth_error (heap (w s)) b) as [z0|] eqn:E0; [|discriminate].
      injection Hz as <-. rewrite destroyed_alive in Az. apply andb_prop in Az. destruct Az as [Az Nb].
      rewrite E3. apply pdel_in. split; [destruct (Nat.eqb_spec b a); [discriminate|assumption]|]. apply (A b z0). split; auto.
    + simpl. intros b Hb. apply in_app_or in Hb. destruct Hb as [Hb|[<-|[]]].
      * destruct (B b Hb) as (z & Hz & Az). exists (destroyed a x b z). rewrite F, Hz. split; [reflexivity|].
        rewrite destroyed_alive, Az. reflexivity.
      * destruct L as [L1 L2]. exists (destroyed a x a x). rewrite F, L1. split; [reflexivity|].
        rewrite destroyed_alive, Nat.eqb_refl, andb_false_r. reflexivity.
    + simpl. apply NoDup_app_one; auto.
  - intros a p s o s' H N [A B C]. apply front_normal in H; [|exact N].
    destruct H as [(_ & _ & ->)|(_ & _ & x & pid & L & Lq & El & E2 & E3 & E4 & E5 & _ & _ & F)].
    + constructor; simpl; auto; rewrite exits_app, app_nil_r; auto.
    + assert (X : exits (log s') = exits (log s)).
      { rewrite El, exits_app. destruct (a_kind x); simpl; now rewrite app_nil_r. }
      constructor; rewrite ?X; auto.
      * intros b z [Hz Az]. rewrite F in Hz. destruct (nth_error (heap (w s)) b) as [z0|] eqn:E0; [|discriminate].
        injection Hz as <-. rewrite joined_alive in Az. rewrite E2. apply (A b z0). split; auto.
      * intros b Hb. destruct (B b Hb) as (z & Hz & Az). eexists. rewrite F, Hz. split; [reflexivity|]. now rewrite joined_alive.
  - intros n a ov s o s' H N [A B C]. unfold add_prototype, bind at 1, gets in H. destruct (_ && _); [injection H as <- <-; constructor; auto|].
    apply deref_inv in H; [|exact N]. destruct H as (x & G & H). injection H as <- <-.
    constructor; simpl; auto; rewrite exits_app, app_nil_r; auto.
Qed.
Lemma run_life beh cond fuel setup t0 d o s' : simulate beh cond fuel setup t0 d = (o, s') -> o <> Undef -> life_ok s'.
Proof.
  intros H N. refine (coarse_simulate lifer _ _ life_coarse _ _ _ _ _ _ _ _ H N _).
  - unfold lifer; auto.
  - unfold lifer; auto.
  - constructor; simpl; auto.
    + intros a x [Hx _]. simpl in Hx. destruct a; discriminate.
    + intros a [].
    + constructor.
Qed.

(** ** Links *)
Definition before (l : list nat) (p a : nat) : Prop := exists l1 l2 l3, l = l1 ++ p :: l2 ++ a :: l3.
Lemma before_app l m p a : before l p a -> before (l ++ m) p a.
Proof.
  intros (l1 & l2 & l3 & ->). exists l1, l2, (l3 ++ m). rewrite <- !app_assoc. simpl. rewrite <- !app_assoc. reflexivity.
Qed.
Lemma before_last l p a : In p l -> before (l ++ [a]) p a.
Proof. intros H. apply in_split in H. destruct H as (l1 & l2 & ->). exists l1, l2, []. rewrite <- app_assoc. reflexivity. Qed.
Lemma before_in l p a : before l p a -> In p l /\ In a l.
Proof. intros (l1 & l2 & l3 & ->). split; apply in_or_app; right; [now left|]. right. apply in_or_app. right. now left. Qed.
Lemma nodup_split {A} (l1 : list A) x l2 m1 m2 : NoDup (l1 ++ x :: l2) -> l1 ++ x :: l2 = m1 ++ x :: m2 -> l1 = m1 /\ l2 = m2.
Proof.
  intros D E. destruct (split_at _ _ _ _ _ _ E) as [(r & -> & ->)|[(-> & _ & ->)|(m & -> & ->)]]; auto; exfalso.
  - rewrite E in D. apply NoDup_remove_2 in D. apply D. rewrite !in_app_iff. simpl. auto.
  - apply NoDup_remove_2 in D. apply D. rewrite !in_app_iff. simpl. auto.
Qed.
Lemma before_irrefl l p : NoDup l -> ~ before l p p.
Proof.
  intros D (l1 & l2 & l3 & ->). apply NoDup_remove_2 in D. apply D. rewrite !in_app_iff. simpl. auto.
Qed.
Lemma before_trans l p q a : NoDup l -> before l p q -> before l q a -> before l p a.
Proof.
  intros D (l1 & l2 & l3 & E1) (m1 & m2 & m3 & E2).
  assert (E3 : (l1 ++ p :: l2) ++ q :: l3 = m1 ++ q :: m2 ++ a :: m3) by (rewrite <- app_assoc; simpl; congruence).
  destruct (nodup_split (l1 ++ p :: l2) q l3 m1 (m2 ++ a :: m3)) as [<- ->].
  - rewrite <- app_assoc. simpl. congruence.
  - exact E3.
  - exists l1, (l2 ++ q :: m2), m3. rewrite E1, <- app_assoc. reflexivity.
Qed.

Lemma orderly_prefix l m : orderly (l ++ m) -> orderly l.
Proof. intros H pre t a p post E. apply (H pre t a p (post ++ m)). rewrite E, <- app_assoc. reflexivity. Qed.
Lemma orderly_nodup l : orderly l -> NoDup (entered l).
Proof.
  induction l as [|[t e] l IH] using rev_ind; intros H; [constructor|].
  rewrite entered_app. specialize (IH (orderly_prefix _ _ H)).
  destruct e; simpl; rewrite ?app_nil_r; try exact IH.
  destruct (H l t a parent []) as [Na _]; [reflexivity|].
  destruct parent as [q|]; [destruct (Nat.eqb q a); simpl; rewrite ?app_nil_r; [exact IH|]|]; now apply NoDup_app_one.
Qed.

Record links (s : sim) : Prop := {
  k_up : forall a x p, live s a x -> a_parent x = Some p -> exists y, live s p y /\ In a (a_kids y) /\ a_pid x = a_id y;
  k_down : forall a x c, live s a x -> In c (a_kids x) -> exists y, live s c y /\ a_parent y = Some a;
  k_none : forall a x, live s a x -> a_parent x = None -> a_pid x = -1;
  k_order : forall a x p, live s a x -> a_parent x = Some p -> before (entered (log s)) p a }.
Definition linker (s s' : sim) : Prop := exists suf, log s' = log s ++ suf /\ (orderly (log s') -> links s -> links s').
Lemma linker_refl s : linker s s. Proof. exists []. rewrite app_nil_r. auto. Qed.
Lemma linker_trans a b c : linker a b -> linker b c -> linker a c.
Proof.
  intros (s1 & L1 & H1) (s2 & L2 & H2). exists (s1 ++ s2). rewrite L2, L1, app_assoc. split; [reflexivity|].
  intros O K. rewrite L2, L1 in H2. apply H2; [exact O|]. rewrite L1 in H1. apply H1; [|exact K]. eapply orderly_prefix; eauto.
Qed.
(** States with the same heap and more builds in the history. *)
Lemma links_same s s' m : heap (w s') = heap (w s) -> entered (log s') = entered (log s) ++ m -> links s -> links s'.
Proof.
  intros Eh Ee [A B D C]. unfold live in *. constructor; unfold live; rewrite ?Eh, ?Ee; auto.
  intros a x p L P. apply before_app. eapply C; eauto.
Qed.
Lemma live_inj s a x y : live s a x -> live s a y -> x = y.
Proof. intros [A _] [B _]. congruence. Qed.
Lemma links_destroyed s s' a x : links s -> live s a x -> entered (log s') = entered (log s) ->
  (forall b, nth_error (heap (w s')) b = option_map (destroyed a x b) (nth_error (heap (w s)) b)) -> links s'.
Proof.
  intros [A B D C] La Ee F.
  assert (L' : forall b z', live s' b z' -> exists z, live s b z /\ b <> a /\ z' = destroyed a x b z).
  { intros b z' [Hz Az]. rewrite F in Hz. destruct (nth_error (heap (w s)) b) as [z|] eqn:E0; [|discriminate].
    simpl in Hz. injection Hz as <-. rewrite destroyed_alive in Az. apply andb_prop in Az. destruct Az as [Az Nb].
    exists z. split; [split; auto|]. split; [destruct (Nat.eqb_spec b a); [discriminate|assumption]|reflexivity]. }
  assert (Li : forall b z, live s b z -> b <> a -> live s' b (destroyed a x b z)).
  { intros b z [Hz Az] Nb. split; [rewrite F, Hz; reflexivity|]. rewrite destroyed_alive, Az. destruct (Nat.eqb_spec b a); [contradiction|reflexivity]. }
  assert (Ka : forall b, existsb (Nat.eqb b) (a_kids x) = true <-> In b (a_kids x)) by (intros; apply existsb_nat).
  constructor.
  - intros b z' p Lb P. destruct (L' _ _ Lb) as (z & Lz & Nb & ->). rewrite destroyed_parent in P.
    destruct (existsb (Nat.eqb b) (a_kids x)) eqn:Ek; [discriminate|].
    destruct (A _ _ _ Lz P) as (y & Ly & Iy & Py).
    assert (Np : p <> a). { intros ->. assert (y = x) by (eapply live_inj; eauto). subst y. apply Ka in Iy. congruence. }
    exists (destroyed a x p y). split; [now apply Li|]. split.
    + rewrite destroyed_kids. destruct (match a_parent x with Some p0 => _ | None => _ end); [|exact Iy]. apply pdel_in. auto.
    + rewrite destroyed_pid, Ek. destruct (destroyed_rest a x p y) as [-> _]. exact Py.
  - intros b z' c Lb I. destruct (L' _ _ Lb) as (z & Lz & Nb & ->). rewrite destroyed_kids in I.
    assert (I0 : In c (a_kids z) /\ c <> a).
    { destruct (a_parent x) as [p|] eqn:Px.
      - destruct (Nat.eqb_spec b p) as [->|Nbp]; [apply pdel_in in I; tauto|]. split; [exact I|]. intros ->.
        destruct (B _ _ _ Lz I) as (y & Ly & Py). assert (y = x) by (eapply live_inj; eauto). congruence.
      - split; [exact I|]. intros ->. destruct (B _ _ _ Lz I) as (y & Ly & Py). assert (y = x) by (eapply live_inj; eauto). congruence. }
    destruct I0 as [I0 Nc]. destruct (B _ _ _ Lz I0) as (y & Ly & Py).
    exists (destroyed a x c y). split; [now apply Li|]. rewrite destroyed_parent.
    destruct (existsb (Nat.eqb c) (a_kids x)) eqn:Ek; [|exact Py]. exfalso. apply Ka in Ek.
    destruct (B _ _ _ La Ek) as (y' & Ly' & Py'). assert (y' = y) by (eapply live_inj; eauto). congruence.
  - intros b z' Lb P. destruct (L' _ _ Lb) as (z & Lz & Nb & ->). rewrite destroyed_parent in P. rewrite destroyed_pid.
    destruct (existsb _ _); [reflexivity|]. eapply D; eauto.
  - intros b z' p Lb P. destruct (L' _ _ Lb) as (z & Lz & Nb & ->). rewrite destroyed_parent in P.
    destruct (existsb _ _); [discriminate|]. rewrite Ee. eapply C; eauto.
Qed.
Lemma links_emit e s : plain e = true -> linker s (emit e s).
Proof.
  intros P. exists [(tm (ti s), e)]. split; [reflexivity|]. intros _. apply links_same with (m := []); [reflexivity|].
  simpl. now rewrite entered_app, plain_entered.
Qed.
Lemma links_new k sh pr sp l : keeps linker (construct k sh pr sp l).
Proof.
  intros s o s' [= <- <-] _. eexists. split; [reflexivity|]. intros _ [A B D C].
    set (s' := emit _ _).
    assert (L' : forall b z, live s' b z -> live s b z \/ (b = length (heap (w s)) /\ a_parent z = None /\ a_kids z = [] /\ a_pid z = -1)).
    { intros b z [Hz Az]. simpl in Hz. destruct (nth_app_split _ _ _ _ Hz) as [Ho|[-> <-]]; [left; split; auto|right; auto]. }
    assert (Li : forall b z, live s b z -> live s' b z).
    { intros b z [Hz Az]. split; [|exact Az]. simpl. rewrite nth_error_app1; [exact Hz|]. apply nth_error_Some. congruence. }
    assert (Ee : entered (log s') = entered (log s)). { simpl. rewrite entered_app. simpl. now rewrite app_nil_r. }
    constructor.
    + intros b z p Lb P. destruct (L' _ _ Lb) as [Lo|(_ & E & _)]; [|congruence]. destruct (A _ _ _ Lo P) as (y & Ly & Iy). eauto.
    + intros b z c Lb I. destruct (L' _ _ Lb) as [Lo|(_ & _ & E & _)]; [|rewrite E in I; destruct I]. destruct (B _ _ _ Lo I) as (y & Ly & Iy). eauto.
    + intros b z Lb P. destruct (L' _ _ Lb) as [Lo|(_ & _ & _ & E)]; eauto.
    + intros b z p Lb P. destruct (L' _ _ Lb) as [Lo|(_ & E & _)]; [|congruence]. rewrite Ee. eauto.
Qed.
Lemma links_del a : keeps linker (del_agent a).
Proof.
  intros s o s' H N. apply del_normal in H; [|exact N].
    destruct H as [_ [[_ ->]|(Ia & x & L & E1 & E2 & E3 & E4 & E5 & E6 & E7 & E8 & F)]]; [apply linker_refl|].
    eexists. split; [exact E1|]. intros _ K. eapply links_destroyed; eauto. rewrite E1, entered_app. simpl. now rewrite app_nil_r.
Qed.
Lemma links_coarse : coarse linker.
Proof.
  constructor.
  - intros e s P. exists [(tm (ti s), e)]. split; [reflexivity|]. intros _. apply links_same with (m := []); [reflexivity|].
    simpl. now rewrite entered_app, plain_entered.
  - intros f s. exists []. rewrite app_nil_r. split; [reflexivity|]. intros _. apply links_same with (m := []); simpl; rewrite ?app_nil_r; reflexivity.
  - intros f s o s' [= <- <-] _. exists []. simpl. rewrite app_nil_r. split; [reflexivity|]. intros _. apply links_same with (m := []); simpl; rewrite ?app_nil_r; reflexivity.
  - intros. apply links_new.
  - intros s a x n G. exists []. simpl. rewrite app_nil_r. split; [reflexivity|]. intros _ [A B D C].
    apply get_nth in G. destruct G as [G Ax]. assert (L : (a < length (heap (w s)))%nat) by (apply nth_error_Some; congruence).
    set (s' := set_agent a (set_life n x) s).
    assert (L' : forall b z, live s' b z -> exists y, live s b y /\ a_parent z = a_parent y /\ a_kids z = a_kids y /\ a_pid z = a_pid y).
    { intros b z [Hz Az]. unfold s' in Hz. rewrite set_agent_nth in Hz by exact L. destruct (Nat.eqb_spec b a) as [->|Nb].
      - injection Hz as <-. exists x. split; [split; auto|auto].
      - exists z. split; [split; auto|auto]. }
    assert (Li : forall b z, live s b z -> exists y, live s' b y /\ a_parent y = a_parent z /\ a_kids y = a_kids z /\ a_id y = a_id z).
    { intros b z [Hz Az]. unfold live, s'. rewrite set_agent_nth by exact L. destruct (Nat.eqb_spec b a) as [->|Nb].
      - assert (z = x) by congruence. subst z. eexists. split; [split; [reflexivity|exact Ax]|auto].
      - exists z. auto. }
    constructor.
    + intros b z p Lb P. destruct (L' _ _ Lb) as (y & Ly & E1 & E2 & E5). rewrite E1 in P. destruct (A _ _ _ Ly P) as (q & Lq & Iq & Pq).
      destruct (Li _ _ Lq) as (q' & Lq' & E3 & E4 & E6). exists q'. rewrite E4, E6, E5. auto.
    + intros b z c Lb I. destruct (L' _ _ Lb) as (y & Ly & E1 & E2 & E5). rewrite E2 in I. destruct (B _ _ _ Ly I) as (q & Lq & Iq).
      destruct (Li _ _ Lq) as (q' & Lq' & E3 & E4 & E6). exists q'. rewrite E3. auto.
    + intros b z Lb P. destruct (L' _ _ Lb) as (y & Ly & E1 & E2 & E5). rewrite E5. eapply D; eauto. congruence.
    + intros b z p Lb P. destruct (L' _ _ Lb) as (y & Ly & E1 & E2 & E5). rewrite E1 in P. eapply C; eauto.
  - apply create_from_del; auto using links_new, links_del, linker_refl, links_emit; apply linker_trans.
  - intros a s o s' H N. apply base_normal in H; [|exact N].
    destruct H as (_ & x & L & T & _ & _ & _ & _ & _ & [(Ni & El & Eh & _)|(Ia & E1 & E3 & F)]).
    + eexists. split; [exact El|]. intros _. apply links_same with (m := []); [exact Eh|]. rewrite El, entered_app. reflexivity.
    + eexists. split; [exact E1|]. intros _ K. eapply links_destroyed; eauto. rewrite E1, entered_app. simpl. now rewrite app_nil_r.
  - intros a p s o s' H N. apply front_normal in H; [|exact N].
    destruct H as [(-> & _ & ->)|(_ & Np & x & pid & L & Lq & El & E2 & E3 & E4 & E5 & _ & _ & F)].
    + eexists. split; [reflexivity|]. intros _. eapply links_same; [reflexivity|]. simpl. rewrite entered_app. reflexivity.
    + eexists. split; [exact El|]. intros O [A B D C].
      destruct (O (log s) (tm (ti s)) a p (match a_kind x with KOther => [] | _ => [(tm (ti s), EReg a)] end) El) as [Na Pq].
      assert (Ee : entered (log s') = entered (log s) ++ [a]).
      { rewrite El. change ((tm (ti s), EBuild a p) :: ?m) with ([(tm (ti s), EBuild a p)] ++ m).
        rewrite !entered_app. destruct p as [q|]; simpl.
        - destruct (Nat.eqb_spec q a); [congruence|]. destruct (a_kind x); reflexivity.
        - destruct (a_kind x); reflexivity. }
      assert (Pa : a_parent x = None).
      { destruct (a_parent x) as [q|] eqn:E; [|reflexivity]. exfalso. apply Na. apply (before_in _ q a). eapply C; eauto. }
      assert (Nk : forall b z, live s b z -> ~ In a (a_kids z)).
      { intros b z Lb I. destruct (B _ _ _ Lb I) as (y & Ly & Py). assert (y = x) by (eapply live_inj; eauto). congruence. }
      assert (L' : forall b z', live s' b z' -> exists z, live s b z /\ z' = joined (tm (ti s)) a p pid b z).
      { intros b z' [Hz Az]. rewrite F in Hz. destruct (nth_error (heap (w s)) b) as [z|] eqn:E0; [|discriminate].
        simpl in Hz. injection Hz as <-. rewrite joined_alive in Az. exists z. split; [split; auto|reflexivity]. }
      assert (Li : forall b z, live s b z -> live s' b (joined (tm (ti s)) a p pid b z)).
      { intros b z [Hz Az]. split; [rewrite F, Hz; reflexivity|]. now rewrite joined_alive. }
      assert (Jp : forall b z, a_parent (joined (tm (ti s)) a p pid b z) = if Nat.eqb b a then (match p with Some q => Some q | None => a_parent z end) else a_parent z).
      { intros b z. unfold joined. destruct (Nat.eqb b a); [destruct p; reflexivity|]. destruct (match p with Some q => _ | None => _ end); reflexivity. }
      assert (Jd : forall b z, a_pid (joined (tm (ti s)) a p pid b z) = if Nat.eqb b a then (match p with Some q => pid | None => a_pid z end) else a_pid z).
      { intros b z. unfold joined. destruct (Nat.eqb b a); [destruct p; reflexivity|]. destruct (match p with Some q => _ | None => _ end); reflexivity. }
      assert (Jk : forall b z, a_kids (joined (tm (ti s)) a p pid b z) = if negb (Nat.eqb b a) && match p with Some q => Nat.eqb b q | None => false end then pins a (a_kids z) else a_kids z).
      { intros b z. unfold joined. destruct (Nat.eqb b a); simpl; [destruct p; reflexivity|]. destruct (match p with Some q => _ | None => _ end); reflexivity. }
      assert (Jk2 : forall b z c, In c (a_kids z) -> In c (a_kids (joined (tm (ti s)) a p pid b z))).
      { intros b z c I. rewrite Jk. destruct (_ && _); [|exact I]. apply pins_in. auto. }
      constructor.
      * intros b z' q Lb P. destruct (L' _ _ Lb) as (z & Lz & ->). rewrite Jp in P. rewrite Jd.
        destruct (Nat.eqb_spec b a) as [->|Nb].
        -- assert (z = x) by (eapply live_inj; eauto). subst z. destruct p as [p|]; [|congruence]. injection P as <-.
           destruct (Lq _ eq_refl) as (y & Ly & Ey). exists (joined (tm (ti s)) a (Some p) pid p y). split; [now apply Li|]. split.
           ++ rewrite Jk. destruct (Nat.eqb_spec p a); [congruence|]. rewrite Nat.eqb_refl. simpl. apply pins_in. auto.
           ++ destruct (joined_rest (tm (ti s)) a (Some p) pid p y) as [-> _]. exact Ey.
        -- destruct (A _ _ _ Lz P) as (y & Ly & Iy & Py). exists (joined (tm (ti s)) a p pid q y). split; [now apply Li|]. split; [auto|].
           destruct (joined_rest (tm (ti s)) a p pid q y) as [-> _]. exact Py.
      * intros b z' c Lb I. destruct (L' _ _ Lb) as (z & Lz & ->). rewrite Jk in I.
        destruct (negb (Nat.eqb b a) && match p with Some q => Nat.eqb b q | None => false end) eqn:E.
        -- apply andb_prop in E. destruct E as [E Ep]. destruct p as [q|]; [|discriminate]. apply Nat.eqb_eq in Ep. subst q.
           apply pins_in in I. destruct I as [->|I].
           ++ exists (joined (tm (ti s)) a (Some b) pid a x). split; [now apply Li|]. rewrite Jp, Nat.eqb_refl. reflexivity.
           ++ destruct (B _ _ _ Lz I) as (y & Ly & Py). exists (joined (tm (ti s)) a (Some b) pid c y). split; [now apply Li|].
              rewrite Jp. destruct (Nat.eqb_spec c a) as [Ec|]; [rewrite Ec in I; destruct (Nk _ _ Lz I)|exact Py].
        -- destruct (B _ _ _ Lz I) as (y & Ly & Py). exists (joined (tm (ti s)) a p pid c y). split; [now apply Li|].
           rewrite Jp. destruct (Nat.eqb_spec c a) as [Ec|]; [rewrite Ec in I; destruct (Nk _ _ Lz I)|exact Py].
      * intros b z' Lb P. destruct (L' _ _ Lb) as (z & Lz & ->). rewrite Jp in P. rewrite Jd.
        destruct (Nat.eqb b a); [destruct p; [discriminate|]|]; eauto.
      * intros b z' q Lb P. destruct (L' _ _ Lb) as (z & Lz & ->). rewrite Jp in P. rewrite Ee.
        destruct (Nat.eqb_spec b a) as [->|Nb].
        -- assert (z = x) by (eapply live_inj; eauto). subst z. destruct p as [p|]; [|congruence]. injection P as <-. now apply before_last.
        -- apply before_app. eauto.
  - intros n a ov s o s' H N. unfold add_prototype, bind at 1, gets in H. destruct (_ && _); [injection H as <- <-; apply linker_refl|].
    apply deref_inv in H; [|exact N]. destruct H as (x & G & H). injection H as <- <-.
    eexists. split; [reflexivity|]. intros _. apply links_same with (m := []); [reflexivity|]. simpl. now rewrite entered_app.
Qed.
Lemma run_links beh cond fuel setup t0 d o s' : simulate beh cond fuel setup t0 d = (o, s') -> o <> Undef ->
  orderly (log s') -> links s'.
Proof.
  intros H N O. destruct (coarse_simulate linker linker_refl linker_trans links_coarse _ _ _ _ _ _ _ _ H N) as (suf & L & X).
  apply X; [exact O|]. constructor; intros a x; intros; match goal with L : live _ _ _ |- _ => destruct L as [L _]; simpl in L; destruct a; discriminate end.
Qed.
Lemma links_acyclic s a : links s -> NoDup (entered (log s)) -> ~ ancestor s a a.
Proof.
  intros K D.
  assert (X : forall p b, ancestor s p b -> before (entered (log s)) p b).
  { induction 1 as [p b (x & L & P)|p q b (x & L & P) _ IH].
    - eapply k_order; eauto.
    - eapply before_trans; [exact D| |exact IH]. eapply k_order; eauto. }
  intros H. apply X in H. now apply before_irrefl in H.
Qed.
