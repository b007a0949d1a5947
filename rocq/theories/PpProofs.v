(** * Proofs: the order on values, sets and maps *)
From Coq Require Import Ascii Sorted.
From Verif Require Import Base PpModel PpSpec.
Open Scope string_scope.
Open Scope list_scope.

Section ValInd.
  Variable P : val -> Prop.
  Hypothesis Hu : P VUndef.
  Hypothesis Hp : forall p, P (VP p).
  Hypothesis Hs : forall l, Forall P l -> P (VSeq l).
  Hypothesis He : forall l, Forall P l -> P (VSet l).
  Hypothesis Hr : forall a b, P a -> P b -> P (VPair a b).
  Hypothesis Hm : forall l, Forall (fun p => P (fst p) /\ P (snd p)) l -> P (VMap l).
  Fixpoint val_ind2 (v : val) : P v :=
    match v with
    | VUndef => Hu
    | VP p => Hp p
    | VSeq l => Hs l ((fix go l := match l return Forall P l with
                                   | [] => Forall_nil _
                                   | x :: l => Forall_cons x (val_ind2 x) (go l)
                                   end) l)
    | VSet l => He l ((fix go l := match l return Forall P l with
                                   | [] => Forall_nil _
                                   | x :: l => Forall_cons x (val_ind2 x) (go l)
                                   end) l)
    | VPair a b => Hr a b (val_ind2 a) (val_ind2 b)
    | VMap l => Hm l ((fix go l := match l return Forall (fun p => P (fst p) /\ P (snd p)) l with
                                   | [] => Forall_nil _
                                   | x :: l => Forall_cons x (conj (val_ind2 (fst x))
                                                                   (val_ind2 (snd x))) (go l)
                                   end) l)
    end.
End ValInd.

Lemma bool_cmp_opp a b : bool_cmp a b = CompOpp (bool_cmp b a).
Proof. now destruct a, b. Qed.
Lemma pv_cmp_opp a b : pv_cmp a b = CompOpp (pv_cmp b a).
Proof.
  destruct a, b; simpl; auto.
  - apply bool_cmp_opp.
  - apply Z.compare_antisym.
  - unfold Qcompare. apply Z.compare_antisym.
  - apply String.compare_antisym.
  - apply String.compare_antisym.
Qed.
Lemma pv_cmp_refl a : pv_cmp a a = Eq.
Proof.
  destruct a; simpl.
  - now destruct b.
  - apply Z.compare_refl.
  - unfold Qcompare. apply Z.compare_refl.
  - assert (H := String.compare_antisym s s). now destruct (String.compare s s).
  - assert (H := String.compare_antisym s s). now destruct (String.compare s s).
Qed.
Lemma then_cmp_opp c d : CompOpp (then_cmp c d) = then_cmp (CompOpp c) (CompOpp d).
Proof. now destruct c. Qed.

Definition lcmp := fix lst (l m : list val) {struct l} : comparison :=
    match l, m with
    | [], [] => Eq
    | [], _ :: _ => Lt
    | _ :: _, [] => Gt
    | x :: l, y :: m => then_cmp (val_cmp x y) (lst l m)
    end.
Definition mcmp := fix prs (l m : list (val * val)) {struct l} : comparison :=
    match l, m with
    | [], [] => Eq
    | [], _ :: _ => Lt
    | _ :: _, [] => Gt
    | (x, x') :: l, (y, y') :: m =>
        then_cmp (then_cmp (val_cmp x y) (val_cmp x' y')) (prs l m)
    end.

Lemma val_cmp_opp a : forall b, val_cmp a b = CompOpp (val_cmp b a).
Proof.
  assert (L : forall l, Forall (fun a => forall b, val_cmp a b = CompOpp (val_cmp b a)) l ->
                        forall m, lcmp l m = CompOpp (lcmp m l)).
  { induction 1 as [|x l Hx _ IH]; intros [|y m]; simpl; auto.
    rewrite then_cmp_opp, <- Hx, <- IH. auto. }
  induction a using val_ind2; intros [| | | | |]; try reflexivity.
  - apply pv_cmp_opp.
  - apply (L l H).
  - apply (L l H).
  - simpl. rewrite then_cmp_opp, <- IHa1, <- IHa2. auto.
  - change (mcmp l l0 = CompOpp (mcmp l0 l)). revert l0.
    induction H as [|[x x'] l [Hx Hx'] _ IH]; intros [|[y y'] m]; simpl; auto.
    simpl in Hx, Hx'. rewrite !then_cmp_opp, <- Hx, <- Hx', <- IH. auto.
Qed.
Lemma val_cmp_refl a : val_cmp a a = Eq.
Proof. assert (H := val_cmp_opp a a). now destruct (val_cmp a a). Qed.
Lemma val_cmp_gt a b : val_cmp a b = Gt -> val_cmp b a = Lt.
Proof. intro H. rewrite val_cmp_opp, H. reflexivity. Qed.

(** ** Sets *)
Lemma set_insert_hd x l z : HdRel (fun a b => val_cmp a b = Lt) z l -> val_cmp z x = Lt ->
  HdRel (fun a b => val_cmp a b = Lt) z (set_insert x l).
Proof.
  intros H Hz. destruct l as [|y l]; simpl; [now constructor|].
  inversion H; subst. destruct (val_cmp x y); constructor; auto.
Qed.
Lemma set_insert_sorted x l : Sorted (fun a b => val_cmp a b = Lt) l ->
  Sorted (fun a b => val_cmp a b = Lt) (set_insert x l).
Proof.
  induction 1 as [|y l S IH H]; simpl; [repeat constructor|].
  destruct (val_cmp x y) eqn:E.
  - now constructor.
  - constructor; [now constructor|now constructor].
  - constructor; [exact IH|]. apply set_insert_hd; auto. now apply val_cmp_gt.
Qed.
Lemma set_insert_in x l y : In y (set_insert x l) -> y = x \/ In y l.
Proof.
  induction l as [|z l IH]; simpl; [intuition|].
  destruct (val_cmp x z); simpl; intuition.
Qed.
Lemma set_insert_keeps x l y : In y l -> In y (set_insert x l).
Proof.
  induction l as [|z l IH]; simpl; [intuition|].
  destruct (val_cmp x z); simpl; intuition.
Qed.
Lemma set_insert_has x l : exists y, In y (set_insert x l) /\ val_cmp x y = Eq.
Proof.
  induction l as [|z l IH]; simpl.
  - exists x. split; [now left|apply val_cmp_refl].
  - destruct (val_cmp x z) eqn:E.
    + exists z. split; [now left|auto].
    + exists x. split; [now left|apply val_cmp_refl].
    + destruct IH as (y & H & Hy). exists y. split; [now right|auto].
Qed.
Lemma set_of_nil : set_of [] [].
Proof. split; [constructor|split; intros x []]. Qed.
Lemma set_of_insert vs l x : set_of vs l -> set_of (vs ++ [x]) (set_insert x l).
Proof.
  intros (S & H1 & H2). split; [now apply set_insert_sorted|]. split.
  - intros y H. apply in_app_iff. destruct (set_insert_in _ _ _ H); [right; left; auto|left; auto].
  - intros z H. apply in_app_iff in H. destruct H as [H|[<-|[]]].
    + destruct (H2 z H) as (y & H3 & H4). exists y. split; auto. now apply set_insert_keeps.
    + apply set_insert_has.
Qed.

(** ** Maps *)
Notation klt := (fun a b : val * val => val_cmp (fst a) (fst b) = Lt).
Lemma map_put_hd k v l z : HdRel klt z l -> val_cmp (fst z) k = Lt -> HdRel klt z (map_put k v l).
Proof.
  intros H Hz. destruct l as [|[k' v'] l]; simpl; [now constructor|].
  inversion H; subst. destruct (val_cmp k k'); constructor; auto.
Qed.
Lemma map_put_sorted k v l : Sorted klt l -> Sorted klt (map_put k v l).
Proof.
  induction 1 as [|[k' v'] l S IH H]; simpl; [repeat constructor|].
  destruct (val_cmp k k') eqn:E.
  - constructor; auto. inversion H; subst; constructor; auto.
  - constructor; [now constructor|now constructor].
  - constructor; [exact IH|]. apply map_put_hd; auto. simpl. now apply val_cmp_gt.
Qed.

(** ** The order is transitive *)
Definition cE {A} (cmp : A -> A -> comparison) a b := forall c, cmp a b = Eq -> cmp a c = cmp b c.
Definition cT {A} (cmp : A -> A -> comparison) a b :=
  forall c, cmp a b = Lt -> cmp b c = Lt -> cmp a c = Lt.

Lemma string_cmp_trans a : forall b, cT String.compare a b.
Proof.
  induction a as [|x a IH]; intros [|y b] [|z c]; simpl; try congruence.
  unfold Ascii.compare.
  destruct (N.compare_spec (N_of_ascii x) (N_of_ascii y)) as [E|E|E]; try congruence;
    destruct (N.compare_spec (N_of_ascii y) (N_of_ascii z)) as [F|F|F]; try congruence; intros H1 H2.
  - rewrite E, F, N.compare_refl. now apply (IH b).
  - rewrite E. now apply N.compare_lt_iff in F; rewrite F.
  - rewrite <- F. now apply N.compare_lt_iff in E; rewrite E.
  - assert (G : (N_of_ascii x < N_of_ascii z)%N) by lia.
    apply N.compare_lt_iff in G. now rewrite G.
Qed.
Lemma pv_cE a b : cE pv_cmp a b.
Proof.
  intros c H. destruct a, b; simpl in H; try discriminate.
  - now destruct b0, b.
  - apply Z.compare_eq in H. now subst.
  - apply Qeq_alt in H. destruct c; simpl; auto. now apply Qcompare_comp.
  - apply String.compare_eq_iff in H. now subst.
  - apply String.compare_eq_iff in H. now subst.
Qed.
Lemma pv_cT a b : cT pv_cmp a b.
Proof.
  intros c. destruct a, b; simpl; try discriminate; destruct c; simpl; try congruence; auto.
  - now destruct b0, b, b1.
  - rewrite !Z.compare_lt_iff. lia.
  - rewrite <- !Qlt_alt. intros; lra.
  - apply string_cmp_trans.
  - apply string_cmp_trans.
Qed.

Lemma then_cE {A B} (f : A -> A -> comparison) (g : B -> B -> comparison) a a' b b' c d :
  cE f a a' -> cE g b b' -> then_cmp (f a a') (g b b') = Eq ->
  then_cmp (f a c) (g b d) = then_cmp (f a' c) (g b' d).
Proof.
  intros Hf Hg H. destruct (f a a') eqn:E; simpl in H; try discriminate.
  now rewrite (Hf c E), (Hg d H).
Qed.
Lemma then_cT {A B} (f : A -> A -> comparison) (g : B -> B -> comparison) a a' b b' c d :
  cE f a a' -> cT f a a' -> cT g b b' ->
  (f a' c = Eq -> forall x, f x a' = f x c) ->
  then_cmp (f a a') (g b b') = Lt -> then_cmp (f a' c) (g b' d) = Lt ->
  then_cmp (f a c) (g b d) = Lt.
Proof.
  intros He Hf Hg Hr H1 H2.
  destruct (f a a') eqn:E; simpl in H1; try discriminate.
  - rewrite (He c E). destruct (f a' c) eqn:F; simpl in *; try discriminate; auto.
  - destruct (f a' c) eqn:F; simpl in H2; try discriminate.
    + rewrite <- (Hr eq_refl a), E. reflexivity.
    + rewrite (Hf c E F). reflexivity.
Qed.

Lemma val_cE a : forall b, cE val_cmp a b.
Proof.
  assert (L : forall l, Forall (fun a => forall b, cE val_cmp a b) l ->
                        forall m n, lcmp l m = Eq -> lcmp l n = lcmp m n).
  { induction 1 as [|x l Hx _ IH]; intros [|y m]; simpl; try discriminate; intros [|z n]; auto.
    intro H. apply (then_cE val_cmp lcmp); auto. intros k E. now apply IH. }
  induction a using val_ind2; intros [] c E; simpl in E; try discriminate.
  - reflexivity.
  - destruct c; simpl; auto; now apply pv_cE.
  - destruct c; simpl; auto; now apply L.
  - destruct c; simpl; auto; now apply L.
  - destruct c; simpl; auto; apply (then_cE val_cmp val_cmp); auto.
  - destruct c as [| | | | |l1]; auto. change (mcmp l l0 = Eq) in E. change (mcmp l l1 = mcmp l0 l1).
    revert l0 l1 E. induction H as [|[x x'] l [Hx Hx'] _ IH]; intros [|[y y'] m] n;
      simpl; try discriminate; destruct n as [|[z z'] n]; auto.
    simpl in Hx, Hx'. intro E.
    apply (then_cE (fun p q : val * val => then_cmp (val_cmp (fst p) (fst q))
                                             (val_cmp (snd p) (snd q))) mcmp
             (x, x') (y, y') l m (z, z') n); simpl; auto.
    + intros [w w'] F. simpl in *. now apply (then_cE val_cmp val_cmp).
    + intros k F. now apply IH.
Qed.
Lemma val_cER a b c : val_cmp a b = Eq -> val_cmp c a = val_cmp c b.
Proof. intro H. rewrite (val_cmp_opp c a), (val_cmp_opp c b). f_equal. now apply val_cE. Qed.

Lemma mcmp_E l m n : mcmp l m = Eq -> mcmp l n = mcmp m n.
Proof. exact (val_cE (VMap l) (VMap m) (VMap n)). Qed.

Lemma val_cT a : forall b, cT val_cmp a b.
Proof.
  assert (L : forall l, Forall (fun a => forall b, cT val_cmp a b) l ->
                        forall m, cT lcmp l m).
  { induction 1 as [|x l Hx _ IH]; intros [|y m] [|z n]; simpl; try discriminate; auto.
    apply (then_cT val_cmp lcmp); auto.
    - intros k E. now apply val_cE.
    - intros E k. now apply val_cER. }
  induction a using val_ind2; intros [] c; simpl; try discriminate; destruct c; try discriminate; auto.
  - apply pv_cT.
  - now apply L.
  - now apply L.
  - apply (then_cT val_cmp val_cmp); auto.
    + intros k E. now apply val_cE.
    + intros E k. now apply val_cER.
  - change (mcmp l l0 = Lt -> mcmp l0 l1 = Lt -> mcmp l l1 = Lt). revert l0 l1.
    induction H as [|[x x'] l [Hx Hx'] _ IH]; intros [|[y y'] m] n;
      simpl; try discriminate; destruct n as [|[z z'] n]; try discriminate; auto.
    simpl in Hx, Hx'.
    apply (then_cT (fun p q : val * val => then_cmp (val_cmp (fst p) (fst q))
                                             (val_cmp (snd p) (snd q))) mcmp
             (x, x') (y, y') l m (z, z') n); simpl.
    + intros [w w'] F. simpl in *. apply (then_cE val_cmp val_cmp); auto; intros k E; now apply val_cE.
    + intros [w w']. simpl. apply (then_cT val_cmp val_cmp); auto.
      * intros k E. now apply val_cE.
      * intros E k. now apply val_cER.
    + intros k. apply IH.
    + intros F [w w']. simpl.
      destruct (val_cmp y z) eqn:E1; simpl in F; try discriminate.
      now rewrite (val_cER _ _ w E1), (val_cER _ _ w' F).
Qed.

Lemma sorted_strong l : Sorted klt l -> StronglySorted klt l.
Proof. apply Sorted_StronglySorted. intros x y z. apply val_cT. Qed.

Lemma map_put_in k v l k' v' : StronglySorted klt l -> In (k', v') (map_put k v l) ->
  (v' = v /\ val_cmp k k' = Eq) \/ (In (k', v') l /\ val_cmp k k' <> Eq).
Proof.
  induction 1 as [|[k1 v1] l S IH H]; simpl.
  - intros [E|[]]. injection E as <- <-. left. split; auto. apply val_cmp_refl.
  - assert (G : val_cmp k k1 = Eq \/ val_cmp k k1 = Lt -> forall p, In p l -> val_cmp k (fst p) = Lt).
    { intros C p Hp. rewrite Forall_forall in H. specialize (H p Hp). simpl in H.
      destruct C as [C|C]; [now rewrite (val_cE _ _ _ C)|now apply (val_cT k k1)]. }
    destruct (val_cmp k k1) eqn:E; simpl.
    + intros [F|F].
      * injection F as <- <-. left. auto.
      * right. split; auto. specialize (G (or_introl eq_refl) _ F). simpl in G. congruence.
    + intros [F|[F|F]].
      * injection F as <- <-. left. split; auto. apply val_cmp_refl.
      * injection F as <- <-. right. split; auto. congruence.
      * right. split; auto. specialize (G (or_intror eq_refl) _ F). simpl in G. congruence.
    + intros [F|F].
      * injection F as <- <-. right. split; auto. congruence.
      * destruct (IH F) as [C|[C D]]; auto.
Qed.
Lemma map_put_has k v l : exists k', In (k', v) (map_put k v l) /\ val_cmp k k' = Eq.
Proof.
  induction l as [|[k1 v1] l IH]; simpl.
  - exists k. split; [now left|apply val_cmp_refl].
  - destruct (val_cmp k k1) eqn:E.
    + exists k1. split; [now left|auto].
    + exists k. split; [now left|apply val_cmp_refl].
    + destruct IH as (y & H & Hy). exists y. split; [now right|auto].
Qed.
Lemma map_put_keeps k v l k1 v1 : In (k1, v1) l -> exists v2, In (k1, v2) (map_put k v l).
Proof.
  induction l as [|[k2 v2] l IH]; simpl; [intros []|].
  destruct (val_cmp k k2) eqn:E; simpl.
  - intros [H|H]; [injection H as <- <-; eauto|eauto].
  - intros [H|H]; [injection H as <- <-; eauto|eauto].
  - intros [H|H]; [injection H as <- <-; eauto|]. destruct (IH H) as (x & Hx). eauto.
Qed.

Lemma map_of_nil : map_of [] [].
Proof. split; [constructor|split; intros k v []]. Qed.
Lemma map_of_put ps l k v : map_of ps l -> map_of (ps ++ [(k, v)]) (map_put k v l).
Proof.
  intros (S & H1 & H2). split; [now apply map_put_sorted|]. split.
  - intros k' v' H. apply map_put_in in H; [|now apply sorted_strong].
    destruct H as [[-> E]|[H E]].
    + exists k, ps, []. repeat split; auto.
    + destruct (H1 _ _ H) as (k'' & b & a & -> & E' & F).
      exists k'', b, (a ++ [(k, v)]). split; [now rewrite <- app_assoc|]. split; auto.
      apply Forall_app. split; auto.
  - intros k1 v1 H. apply in_app_iff in H. destruct H as [H|[H|[]]].
    + destruct (H2 _ _ H) as (k' & v' & H3 & H4).
      destruct (map_put_keeps k v l k' v' H3) as (v2 & H5). eauto.
    + injection H as <- <-. destruct (map_put_has k v l) as (k' & H & E). eauto.
Qed.

(** inserting past the end *)
Lemma set_insert_last x l : Forall (fun y => val_cmp x y = Gt) l -> set_insert x l = l ++ [x].
Proof. induction 1 as [|y l H _ IH]; simpl; auto. now rewrite H, IH. Qed.
Lemma map_put_last k v l : Forall (fun p => val_cmp k (fst p) = Gt) l ->
  map_put k v l = l ++ [(k, v)].
Proof. induction 1 as [|[k' v'] l H _ IH]; simpl; auto. simpl in H. now rewrite H, IH. Qed.
