(** * ConvProofs2: from XML to JSON, and back. *)
From Coq Require Import Sorting.Sorted.
From Verif Require Import Base ConvModel ConvSpec ConvProofs1.
Open Scope string_scope.
Open Scope list_scope.

(** ** Induction on XML trees *)
Section Ind.
Variable P : xnode -> Prop.
Hypothesis Helem : forall n k, Forall P k -> P (XE n k).
Hypothesis Htext : forall t, P (XT t).
Hypothesis Hcomm : forall t, P (XC t).
Fixpoint xnode_ind' (x : xnode) : P x :=
  match x with
  | XE n k => Helem n k ((fix go l : Forall P l :=
      match l with [] => Forall_nil _ | x :: r => Forall_cons _ (xnode_ind' x) (go r) end) k)
  | XT t => Htext t
  | XC t => Hcomm t
  end.
End Ind.

(** ** Objects *)
Lemma ascii_lt_trans a b c : Ascii.compare a b = Lt -> Ascii.compare b c = Lt -> Ascii.compare a c = Lt.
Proof. unfold Ascii.compare. rewrite !N.compare_lt_iff. lia. Qed.

Lemma str_lt_trans a : forall b c, String.compare a b = Lt -> String.compare b c = Lt ->
  String.compare a c = Lt.
Proof.
  induction a as [|x a IH]; intros [|y b] [|z c]; cbn; try easy.
  destruct (Ascii.compare x y) eqn:E1; try easy; destruct (Ascii.compare y z) eqn:E2; try easy.
  - apply Ascii.compare_eq_iff in E1, E2. subst. destruct (Ascii.compare z z) eqn:E; try easy.
    + apply IH.
    + exfalso. unfold Ascii.compare in E. rewrite N.compare_refl in E. discriminate.
  - apply Ascii.compare_eq_iff in E1. subst. now rewrite E2.
  - apply Ascii.compare_eq_iff in E2. subst. now rewrite E1.
  - now rewrite (ascii_lt_trans _ _ _ E1 E2).
Qed.

Lemma str_refl a : String.compare a a = Eq.
Proof. induction a; cbn; [reflexivity|]. unfold Ascii.compare. now rewrite N.compare_refl. Qed.


Lemma assign_in k v ms x : In x (assign k v ms) -> x = (k, v) \/ In x ms.
Proof.
  induction ms as [|[k' v'] r IH]; cbn; [intros [H|[]]; auto|].
  destruct (String.compare k k') eqn:E; cbn; intros H.
  - apply String.compare_eq_iff in E. subst. destruct H as [H|H]; auto.
  - destruct H as [H|H]; auto.
  - destruct H as [H|H]; auto. destruct (IH H); auto.
Qed.

Lemma assign_ordered k v ms : ordered ms -> ordered (assign k v ms).
Proof.
  unfold ordered. induction 1 as [|[k' v'] r S IH F]; cbn.
  - constructor; constructor.
  - destruct (String.compare k k') eqn:E.
    + constructor; [exact S|]. exact F.
    + constructor; [constructor; assumption|]. constructor; [exact E|].
      eapply Forall_impl; [|exact F]. intros [k2 v2] L. unfold before in *. cbn in *.
      eapply str_lt_trans; eassumption.
    + constructor; [exact IH|]. apply Forall_forall. intros x X. apply assign_in in X.
      destruct X as [->|X].
      * unfold before. cbn. rewrite String.compare_antisym, E. reflexivity.
      * rewrite Forall_forall in F. exact (F x X).
Qed.

Lemma member_assign k v ms j : member j (assign k v ms) = if String.eqb j k then Some v else member j ms.
Proof.
  induction ms as [|[k' v'] r IH]; cbn; [reflexivity|].
  destruct (String.compare k k') eqn:E; cbn.
  - apply String.compare_eq_iff in E. subst. destruct (String.eqb j k'); reflexivity.
  - reflexivity.
  - rewrite IH. destruct (String.eqb j k') eqn:K; [|reflexivity].
    apply String.eqb_eq in K. subst. destruct (String.eqb k' k) eqn:K; [|reflexivity].
    apply String.eqb_eq in K. subst. rewrite (str_refl k) in E. discriminate.
Qed.

(** ** The loop *)
Definition gives (x : xnode) (v : json) : Prop := xml_value x = Ok v /\ is_arr v = false.

Definition grouped (done : list xnode) (ms : list (string * json)) : Prop :=
  ordered ms /\
  (forall m, Forall2 gives (named m done) (items (member m ms))) /\
  (forall m l, member m ms = Some (JArr l) -> (2 <= length l)%nat).

Lemma insert_grouped done ms n kids v : grouped done ms -> gives (XE n kids) v -> member n ms <> Some JNull ->
  grouped (done ++ [XE n kids]) (insert_or_append n v ms).
Proof.
  intros (S & G & A) V NN.
  assert (E : exists w, insert_or_append n v ms = assign n w ms /\
    items (Some w) = items (member n ms) ++ [v] /\ (forall l, w = JArr l -> (2 <= length l)%nat)).
  { unfold insert_or_append. destruct (member n ms) as [old|] eqn:M.
    - assert (X : is_arr old = false \/ exists l, old = JArr l) by (destruct old; eauto).
      destruct X as [X|[l ->]].
      + exists (JArr [old; v]). split; [destruct old; try reflexivity; [now contradiction NN|discriminate]|].
        split; [destruct old; try reflexivity; discriminate|]. intros l [= <-]. cbn. lia.
      + exists (JArr (l ++ [v])). split; [reflexivity|]. split; [reflexivity|].
        intros l' [= <-]. rewrite app_length. specialize (A n l M). lia.
    - exists v. split; [reflexivity|]. destruct V as [_ V].
      split; [destruct v; try reflexivity; discriminate|]. intros l ->. discriminate. }
  destruct E as (w & -> & W & L). split; [now apply assign_ordered|]. split.
  - intro m. rewrite member_assign. unfold named. rewrite filter_app. cbn [filter has_name].
    destruct (String.eqb m n) eqn:Q.
    + apply String.eqb_eq in Q. subst m. rewrite W. apply Forall2_app; [apply G|]. auto.
    + rewrite app_nil_r. apply G.
  - intros m l. rewrite member_assign. destruct (String.eqb m n); [|apply A].
    intros [= ->]. now apply L.
Qed.

Lemma members_grouped ks : forall done ms, grouped done ms ->
  (forall x, In x (elems ks) -> exists v, gives x v) ->
  (forall m x, In x (named m (done ++ ks)) -> xml_value x = Ok JNull -> named m (done ++ ks) = [x]) ->
  exists ms', xml_members ks ms = Ok ms' /\ grouped (done ++ ks) ms'.
Proof.
  induction ks as [|x r IH]; intros done ms G V U.
  - exists ms. rewrite app_nil_r. auto.
  - assert (RE : done ++ x :: r = (done ++ [x]) ++ r) by now rewrite <- app_assoc.
    rewrite RE in U |- *.
    assert (SK : is_elem x = false -> grouped (done ++ [x]) ms).
    { intro E. destruct G as (S & G & A). split; [exact S|]. split; [|exact A]. intro m.
      unfold named. rewrite filter_app. cbn. destruct x; [discriminate| |]; cbn; rewrite app_nil_r; apply G. }
    destruct x as [n kids|t|t].
    + destruct (V (XE n kids)) as [v W]; [left; reflexivity|]. cbn [xml_members].
      rewrite (proj1 W). apply IH; [|intros x X; apply V; right; exact X|exact U]. apply insert_grouped; auto.
      intro NJ. pose proof (proj1 (proj2 G) n) as Gn. rewrite NJ in Gn. cbn [items] in Gn.
      inversion Gn as [|y ? ? ? [Y _] Gn' EQ]; subst. inversion Gn'; subst.
      assert (IN : In y (named n ((done ++ [XE n kids]) ++ r))).
      { unfold named. rewrite filter_app, filter_app. fold (named n done). rewrite <- EQ. left. reflexivity. }
      specialize (U n y IN Y). unfold named in U. rewrite filter_app, filter_app in U. fold (named n done) in U.
      rewrite <- EQ in U. cbn in U. rewrite String.eqb_refl in U. discriminate.
    + cbn [xml_members]. apply IH; [now apply SK|exact V|exact U].
    + cbn [xml_members]. apply IH; [now apply SK|exact V|exact U].
Qed.

Lemma xml_value_node n kids : elems kids <> [] ->
  xml_value (XE n kids) = match xml_members kids [] with
                          | Ok ms => Ok (JObj ms) | Throw e => Throw e | UB => UB end.
Proof.
  intro H. cbn [xml_value]. destruct (elems kids) as [|e0 el]; [now contradiction H|]. clear H.
  match goal with |- match ?f kids [] with _ => _ end = _ =>
    assert (E : forall ks ms, f ks ms = xml_members ks ms) end.
  { induction ks as [|x r IH]; intro ms; [reflexivity|]. destruct x; cbn [xml_members]; try apply IH.
    change (match xml_value (XE name kids0) with
      | Ok v => (fix loop (ks : list xnode) (ms : list (string * json)) : result (list (string * json)) :=
                   match ks with
                   | [] => Ok ms
                   | k :: r =>
                       match k with
                       | XE n _ => match xml_value k with
                                   | Ok v => loop r (insert_or_append n v ms)
                                   | Throw e => Throw e
                                   | UB => UB
                                   end
                       | _ => loop r ms
                       end
                   end) r (insert_or_append name v ms)
      | Throw e => Throw e
      | UB => UB
      end = match xml_value (XE name kids0) with
      | Ok v => xml_members r (insert_or_append name v ms)
      | Throw e => Throw e
      | UB => UB
      end).
    destruct (xml_value (XE name kids0)); try reflexivity. apply IH. }
  rewrite E. reflexivity.
Qed.

(** ** Reading it back *)
Lemma named_map m k l : named m (map (fun x => XE k (content x)) l) =
  if String.eqb m k then map (fun x => XE k (content x)) l else [].
Proof.
  unfold named. induction l as [|x r IH]; cbn; [now destruct (String.eqb m k)|].
  destruct (String.eqb m k); [f_equal|]; exact IH.
Qed.

Lemma trees_items k v : trees k v = map (fun x => XE k (content x)) (items (Some v)).
Proof. destruct v; reflexivity. Qed.

Lemma named_absent m ms : Forall (fun y => fst y <> m) ms ->
  named m (flat_map (fun y => trees (fst y) (snd y)) ms) = [] /\ member m ms = None.
Proof.
  induction 1 as [|[k v] r N _ [IH1 IH2]]; [auto|]. cbn in N |- *. unfold named. rewrite filter_app.
  fold (named m (trees k v)). rewrite trees_items, named_map.
  assert (E : String.eqb m k = false) by (apply String.eqb_neq; congruence). rewrite E. auto.
Qed.

Lemma named_content m ms : ordered ms ->
  named m (content (JObj ms)) = map (fun x => XE m (content x)) (items (member m ms)).
Proof.
  rewrite content_obj. induction 1 as [|[k v] r S IH F]; [reflexivity|].
  cbn [flat_map fst snd member]. unfold named. rewrite filter_app. fold (named m (trees k v)).
  fold (named m (flat_map (fun y : string * json => trees (fst y) (snd y)) r)).
  rewrite trees_items, named_map. destruct (String.eqb m k) eqn:E.
  - apply String.eqb_eq in E. subst k.
    destruct (named_absent m r) as [-> _]; [|now rewrite app_nil_r].
    eapply Forall_impl; [|exact F]. intros [k2 v2] B. unfold before in B. cbn in *. intros ->.
    rewrite (str_refl m) in B. discriminate.
  - exact IH.
Qed.

Lemma content_elems v : is_obj v = true -> elems (content v) = content v.
Proof.
  destruct v; try discriminate. intros _. rewrite content_obj. unfold elems.
  induction members as [|[k v] r IH]; [reflexivity|]. cbn [flat_map fst snd]. rewrite filter_app. f_equal; [|exact IH].
  rewrite trees_items. generalize (items (Some v)). induction l as [|x l IHl]; [reflexivity|]. cbn. now f_equal.
Qed.

Lemma in_items m ms w : member m ms = Some w -> forall x, In x (items (Some w)) -> In x (items (member m ms)).
Proof. now intros ->. Qed.

Lemma member_in ms : ordered ms -> forall k v, In (k, v) ms -> member k ms = Some v.
Proof.
  induction 1 as [|[k' v'] r S IH F]; intros k v H; [easy|]. cbn. destruct H as [H|H].
  - injection H as -> ->. now rewrite String.eqb_refl.
  - destruct (String.eqb k k') eqn:E; [|now apply IH]. apply String.eqb_eq in E. subst.
    rewrite Forall_forall in F. specialize (F _ H). unfold before in F. cbn in F.
    rewrite (str_refl k') in F. discriminate.
Qed.

Lemma Forall2_in_r {A B} (R : A -> B -> Prop) l l' : Forall2 R l l' ->
  forall y, In y l' -> exists x, In x l /\ R x y.
Proof.
  induction 1; intros y' H1; [easy|]. destruct H1 as [<-|H1]; [exists x; cbn; auto|].
  destruct (IHForall2 _ H1) as (z & Z1 & Z2). exists z. cbn. auto.
Qed.

(** What each well formed element becomes, and what that says. *)
Definition kept (x : xnode) (v : json) : Prop :=
  gives x v /\ clean v /\ (v = JNull -> exists n, x = XE n []) /\ is_obj v = has_elems x /\
  forall n k, x = XE n k -> plain_name n = true /\ same x (XE n (content v)).

Lemma keeps_children kids :
  (forall x, In x (elems kids) -> exists v, kept x v) ->
  (forall m, In (XE m []) kids -> named m kids = [XE m []]) ->
  (forall m x y, In x (named m kids) -> In y (named m kids) -> has_elems x = has_elems y) ->
  exists ms, xml_members kids [] = Ok ms /\ clean (JObj ms) /\ ordered ms /\
    (forall m, Forall2 same (named m kids) (named m (content (JObj ms)))).
Proof.
  intros V E U.
  assert (G0 : grouped [] []).
  { split; [constructor|]. split; [intro; constructor|discriminate]. }
  destruct (members_grouped kids [] [] G0) as (ms & M & S & G & A).
  { intros x X. destruct (V x X) as [v [W _]]. eauto. }
  { cbn [app]. intros m x X J. pose proof X as X0. unfold named in X. apply filter_In in X. destruct X as [X Y].
    assert (XE' : In x (elems kids)) by (apply filter_In; split; [exact X|destruct x; try discriminate; reflexivity]).
    destruct (V x XE') as (v & [W _] & _ & Z & _). rewrite W in J. injection J as ->.
    destruct (Z eq_refl) as [n0 ->]. cbn in Y. apply String.eqb_eq in Y. subst n0. apply E. exact X. }
  cbn [app] in G. exists ms. split; [exact M|].
  assert (K : forall m x v, In x (named m kids) -> gives x v -> kept x v).
  { intros m x v X W. assert (X' : In x (elems kids)).
    { unfold named in X. apply filter_In in X. destruct X as [X Y]. unfold elems. apply filter_In.
      split; [exact X|]. destruct x; try discriminate. reflexivity. }
    destruct (V x X') as [v' W']. destruct W' as [[W1 W2] W3]. destruct W as [W4 W5].
    rewrite W1 in W4. injection W4 as ->. split; [split; assumption|exact W3]. }
  assert (NM : forall m x, In x (named m kids) -> exists k, x = XE m k).
  { intros m x X. unfold named in X. apply filter_In in X. destruct X as [_ X].
    destruct x as [n k0| |]; try discriminate. cbn in X. apply String.eqb_eq in X. subst n. eauto. }
  split; [|split; [exact S|]].
  - apply clean_obj. apply Forall_forall. intros [k v] IN. cbn [fst snd].
    pose proof (member_in _ S _ _ IN) as Mk. specialize (G k). rewrite Mk in G.
    assert (C : forall w, In w (items (Some v)) -> exists x, In x (named k kids) /\ kept x w).
    { intros w Wi. destruct (Forall2_in_r _ _ _ G w Wi) as (x & X1 & X2). exists x. split; [exact X1|].
      exact (K _ _ _ X1 X2). }
    assert (NE : exists w, In w (items (Some v))).
    { assert (D : is_arr v = false \/ exists l, v = JArr l) by (destruct v; eauto). destruct D as [D|[l ->]].
      - exists v. destruct v; try discriminate; left; reflexivity.
      - pose proof (A _ _ Mk) as L. destruct l as [|w l]; [cbn in L; lia|]. exists w. left. reflexivity. }
    split.
    { destruct NE as [w Wi]. destruct (C w Wi) as (x & X1 & _ & _ & _ & _ & X2).
      destruct (NM _ _ X1) as [k0 ->]. apply (X2 _ _ eq_refl). }
    assert (D : is_arr v = false \/ exists l, v = JArr l) by (destruct v; eauto).
    destruct D as [D|[l ->]].
    + destruct (C v) as (x & _ & _ & X & _); [destruct v; try discriminate; left; reflexivity|]. exact X.
    + apply clean_arr. pose proof (A _ _ Mk) as L. split; [intros ->; cbn in L; lia|]. split.
      * apply Forall_forall. intros w Wi. destruct (C w Wi) as (x & X1 & (_ & C2) & C1 & Y & _).
        split; [exact C1|]. split; [exact C2|].
        intros ->. destruct (Y eq_refl) as [n ->].
        unfold named in X1. apply filter_In in X1. destruct X1 as [X1 X3]. cbn in X3.
        apply String.eqb_eq in X3. subst n. rewrite (E _ X1) in G. cbn [items] in G.
        inversion G as [|? ? ? ? _ G']; subst. inversion G'; subst. cbn in L. lia.
      * intros w1 w2 I1 I2. destruct (C w1 I1) as (x1 & X1 & _ & _ & _ & O1 & _).
        destruct (C w2 I2) as (x2 & X2 & _ & _ & _ & O2 & _). rewrite O1, O2. exact (U _ _ _ X1 X2).
  - intro m. rewrite named_content by exact S. specialize (G m).
    assert (K' : forall x v, In x (named m kids) -> gives x v -> same x (XE m (content v))).
    { intros x v X W. destruct (K _ _ _ X W) as (_ & _ & _ & _ & Y).
      destruct (NM _ _ X) as [k0 ->]. apply (Y _ _ eq_refl). }
    revert G K'. generalize (named m kids) (items (member m ms)). clear.
    induction 1; intro K'; [constructor|]. cbn. constructor; [apply K'; cbn; auto|]. apply IHG.
    intros. apply K'; cbn; auto.
Qed.

Lemma has_elems_true n k : elems k <> [] -> has_elems (XE n k) = true.
Proof.
  unfold elems. cbn. induction k as [|x r IH]; cbn; [easy|]. destruct (is_elem x); [reflexivity|exact IH].
Qed.

Theorem tidy_kept x : tidy x -> exists v, kept x v.
Proof.
  induction x using xnode_ind'; intro T; [|inversion T|inversion T].
  inversion T as [n' Pn|n' t Pn Bt Pt|n' k' Pn Ne Ti Em Un]; subst.
  - exists JNull. split; [split; reflexivity|]. split; [exact I|]. split; [eauto|]. split; [reflexivity|].
    intros n' k' [= <- <-]. split; [exact Pn|constructor].
  - exists (JStr t). split; [split; reflexivity|]. split; [exact Pt|]. split; [discriminate|].
    split; [reflexivity|].
    intros n' k' [= <- <-]. split; [exact Pn|]. cbn. unfold text_content. rewrite Bt. constructor.
  - destruct (keeps_children k) as (ms & M & C & _ & S).
    + intros x X. rewrite Forall_forall in H. pose proof X as X'. unfold elems in X'.
      apply filter_In in X'. apply H; [apply X'|]. auto.
    + exact Em.
    + exact Un.
    + exists (JObj ms). split; [|split; [exact C|split; [discriminate|split]]].
      * split; [|reflexivity]. rewrite xml_value_node by assumption. now rewrite M.
      * symmetry. now apply has_elems_true.
      * intros n' k' [= <- <-]. split; [exact Pn|].
        constructor; [assumption|now apply content_elems|exact S].
Qed.

(** The children of the root, by name. *)
Theorem grouped_root root kids : tidy (XE root kids) -> elems kids <> [] ->
  exists ms, xml_to_json root kids = Ok (JObj [(root, JObj ms)]) /\ clean (JObj ms) /\ ordered ms /\
  forall m, Forall2 same (named m kids) (map (fun v => XE m (content v)) (items (member m ms))).
Proof.
  intros T N. inversion T as [n' Pn|n' t Pn Bt Pt|n' k' Pn Ne Ti Em Un]; subst.
  - now contradiction N.
  - now contradiction N.
  - destruct (keeps_children kids) as (ms & M & C & O & S); [|exact Em|exact Un|].
    + intros x X. apply tidy_kept. auto.
    + exists ms. unfold xml_to_json. rewrite M. split; [reflexivity|]. split; [exact C|]. split; [exact O|].
      intro m. rewrite <- named_content by exact O. apply S.
Qed.

(** The round trip, up to lexing. *)
Theorem round_trip root kids : tidy (XE root kids) -> elems kids <> [] ->
  exists ms, xml_to_json root kids = Ok (JObj ms) /\ clean (JObj ms) /\
  exists x, content (JObj ms) = [x] /\ same (XE root kids) x.
Proof.
  intros T N.
  destruct (tidy_kept _ T) as (v & [V _] & C & _ & _ & S). rewrite xml_value_node in V by exact N.
  destruct (S _ _ eq_refl) as [Pn S'].
  unfold xml_to_json. destruct (xml_members kids []) as [ms| |] eqn:M; try discriminate. injection V as <-.
  eexists. split; [reflexivity|]. split.
  - apply clean_obj. constructor; [|constructor]. split; [exact Pn|exact C].
  - exists (XE root (content (JObj ms))). split; [rewrite content_obj; reflexivity|]. exact S'.
Qed.

(** ** Queries *)
Lemma Forall2_flat {A B} (R : A -> A -> Prop) (S : B -> B -> Prop) (f : A -> list B) l l' :
  Forall2 R l l' -> (forall x y, R x y -> Forall2 S (f x) (f y)) -> Forall2 S (flat_map f l) (flat_map f l').
Proof. induction 1; intro H1; cbn; [constructor|]. apply Forall2_app; auto. Qed.

Lemma same_path p : forall x y, same x y -> Forall2 same (at_path p x) (at_path p y).
Proof.
  induction p as [|m p IH]; intros x y H; [cbn; auto|].
  inversion H; subst; cbn [at_path kids_of]; try (cbn; constructor).
  apply (Forall2_flat same); auto.
Qed.

Lemma same_text_of x y : same x y -> text_of x = text_of y.
Proof.
  assert (A : forall n l, elems l <> [] -> text_of (XE n l) = None).
  { intros n [|[n0 k0|t|t] [|x2 r]] N; try reflexivity. now contradiction N. }
  assert (B : forall n l, elems l = l -> text_of (XE n l) = None).
  { intros n [|[n0 k0|t|t] [|x2 r]] N; try reflexivity. discriminate N. }
  inversion 1; subst; try reflexivity. now rewrite A, B.
Qed.

Theorem same_answers x y p : same x y -> map text_of (at_path p x) = map text_of (at_path p y).
Proof.
  intro H. apply (same_path p) in H. revert H. generalize (at_path p x) (at_path p y).
  induction 1; [reflexivity|]. cbn. f_equal; [now apply same_text_of|assumption].
Qed.
