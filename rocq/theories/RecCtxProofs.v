(** * RecCtxProofs *)
From Coq Require Import Sorting.Sorted.
From Verif Require Import Base RecCtxModel RecCtxSpec.
Open Scope string_scope.
Open Scope list_scope.

(** ** Orders *)
Record laws {K} (cmp : K -> K -> comparison) : Prop := {
  law_eq : forall a b, cmp a b = Eq <-> a = b;
  law_trans : forall a b c, cmp a b = Lt -> cmp b c = Lt -> cmp a c = Lt;
  law_flip : forall a b, cmp a b = Gt <-> cmp b a = Lt }.

Lemma str_refl a : String.compare a a = Eq.
Proof. induction a; cbn; [reflexivity|]. unfold Ascii.compare. now rewrite N.compare_refl. Qed.

Lemma str_lt_trans a : forall b c, String.compare a b = Lt -> String.compare b c = Lt ->
  String.compare a c = Lt.
Proof.
  induction a as [|x a IH]; intros [|y b] [|z c]; cbn; try easy.
  destruct (Ascii.compare x y) eqn:E1; try easy; destruct (Ascii.compare y z) eqn:E2; try easy.
  - apply Ascii.compare_eq_iff in E1, E2. subst. destruct (Ascii.compare z z) eqn:E; try easy.
    + apply IH.
    + exfalso. unfold Ascii.compare in E. rewrite N.compare_refl in E. discriminate.
  - apply Ascii.compare_eq_iff in E1. subst. now rewrite E2.
  - apply Ascii.compare_eq_iff in E2. subst. now rewrite E1.
  - enough (Ascii.compare x z = Lt) as -> by reflexivity. unfold Ascii.compare in *. rewrite N.compare_lt_iff in *. lia.
Qed.

Lemma str_laws : laws String.compare.
Proof.
  split.
  - intros a b. split; [apply String.compare_eq_iff|intros ->; apply str_refl].
  - apply str_lt_trans.
  - intros a b. rewrite String.compare_antisym. destruct (String.compare b a); cbn; split; congruence.
Qed.

Lemma z_laws : laws Z.compare.
Proof.
  split.
  - apply Z.compare_eq_iff.
  - intros a b c. rewrite !Z.compare_lt_iff. lia.
  - intros a b. rewrite Z.compare_lt_iff, Z.compare_gt_iff. lia.
Qed.

(** ** Maps and sets *)
Section Maps.
Context {K : Type} (cmp : K -> K -> comparison) (L : laws cmp).

Lemma cmp_refl a : cmp a a = Eq. Proof. now apply (law_eq _ L). Qed.

Definition value (k : K) (m : list (K * string)) : string := match get cmp k m with Some v => v | None => "" end.

Lemma get_put {V} k v (m : list (K * V)) j : get cmp j (put cmp k v m) = match cmp j k with Eq => Some v | _ => get cmp j m end.
Proof.
  induction m as [|[i w] r IH]; cbn; [reflexivity|]. destruct (cmp k i) eqn:E; cbn.
  - apply (law_eq _ L) in E. subst i. destruct (cmp j k); reflexivity.
  - destruct (cmp j k); reflexivity.
  - rewrite IH. destruct (cmp j i) eqn:E1; try reflexivity.
    apply (law_eq _ L) in E1. subst i. destruct (cmp j k) eqn:E2; try reflexivity.
    apply (law_eq _ L) in E2. subst k. rewrite cmp_refl in E. discriminate.
Qed.

Lemma get_del {V} k (m : list (K * V)) j : get cmp j (del cmp k m) = match cmp j k with Eq => None | _ => get cmp j m end.
Proof.
  unfold del. induction m as [|[i w] r IH]; cbn; [destruct (cmp j k); reflexivity|]. destruct (cmp k i) eqn:E; cbn; rewrite IH.
  - apply (law_eq _ L) in E. subst i. destruct (cmp j k); reflexivity.
  - destruct (cmp j i) eqn:E1; try reflexivity. apply (law_eq _ L) in E1. subst i.
    destruct (cmp j k) eqn:E2; try reflexivity. apply (law_eq _ L) in E2. subst. rewrite cmp_refl in E. discriminate.
  - destruct (cmp j i) eqn:E1; try reflexivity. apply (law_eq _ L) in E1. subst i.
    destruct (cmp j k) eqn:E2; try reflexivity. apply (law_eq _ L) in E2. subst. rewrite cmp_refl in E. discriminate.
Qed.

Lemma look_value k m : fst (look cmp k m) = value k m.
Proof. unfold look, value. destruct (get cmp k m); reflexivity. Qed.

Lemma value_look k m j : value j (snd (look cmp k m)) = value j m.
Proof.
  unfold look, value. destruct (get cmp k m) eqn:E; cbn; [reflexivity|]. rewrite get_put.
  destruct (cmp j k) eqn:E1; try reflexivity. apply (law_eq _ L) in E1. subst. now rewrite E.
Qed.

Lemma in_add k s j : In j (add cmp k s) <-> j = k \/ In j s.
Proof.
  induction s as [|i r IH]; cbn; [intuition|]. destruct (cmp k i) eqn:E; cbn.
  - apply (law_eq _ L) in E. subst. intuition.
  - intuition.
  - rewrite IH. intuition.
Qed.

(** *** Order *)
Definition keys_lt (a b : K) : Prop := cmp a b = Lt.
Definition up (l : list K) : Prop := StronglySorted keys_lt l.

Lemma add_up k s : up s -> up (add cmp k s).
Proof.
  unfold up. induction 1 as [|i r S IH F]; cbn; [repeat constructor|]. destruct (cmp k i) eqn:E.
  - constructor; assumption.
  - constructor; [constructor; assumption|]. constructor; [exact E|].
    eapply Forall_impl; [|exact F]. intros a A. eapply (law_trans _ L); eassumption.
  - constructor; [exact IH|]. apply Forall_forall. intros a A. apply in_add in A. destruct A as [->|A].
    + now apply (law_flip _ L).
    + rewrite Forall_forall in F. auto.
Qed.

Lemma put_keys {V} k (v : V) m : map fst (put cmp k v m) = add cmp k (map fst m).
Proof. induction m as [|[i w] r IH]; cbn; [reflexivity|]. destruct (cmp k i); cbn; congruence. Qed.

Lemma put_up {V} k (v : V) m : up (map fst m) -> up (map fst (put cmp k v m)).
Proof. rewrite put_keys. apply add_up. Qed.

Lemma del_up {V} k (m : list (K * V)) : up (map fst m) -> up (map fst (del cmp k m)).
Proof.
  unfold up, del. induction m as [|[i w] r IH]; cbn; intro S; [constructor|].
  inversion S; subst. destruct (cmp k i); cbn; auto; (constructor; [auto|]);
    (apply Forall_forall; intros a A; apply in_map_iff in A; destruct A as (x & <- & A);
     apply filter_In in A; rewrite Forall_forall in H2; apply H2; apply in_map; tauto).
Qed.

Lemma up_app l k : up (l ++ [k]) -> Forall (fun a => keys_lt a k) l.
Proof.
  unfold up. induction l as [|a r IH]; cbn; intro S; [constructor|]. inversion S; subst. constructor; [|auto].
  rewrite Forall_forall in H2. apply H2. apply in_or_app. right. now left.
Qed.

Lemma add_last k l : Forall (fun a => keys_lt a k) l -> add cmp k l = l ++ [k].
Proof.
  induction 1 as [|a r A _ IH]; cbn; [reflexivity|]. apply (law_flip _ L) in A. now rewrite A, IH.
Qed.

Lemma put_last {V} k (v : V) l : Forall (fun a => keys_lt a k) (map fst l) -> put cmp k v l = l ++ [(k, v)].
Proof.
  induction l as [|[i w] r IH]; cbn; intro A; [reflexivity|]. inversion A; subst.
  apply (law_flip _ L) in H1. now rewrite H1, IH.
Qed.

Lemma up_front a b : up (a ++ b) -> up a.
Proof.
  unfold up. induction a; cbn; intro S; [constructor|]. inversion S; subst. constructor; [auto|].
  rewrite Forall_app in H2. tauto.
Qed.

Lemma adds_self l : forall b, up (b ++ l) -> fold_left (fun s k => add cmp k s) l b = b ++ l.
Proof.
  induction l as [|k r IH]; intros b S; cbn; [now rewrite app_nil_r|].
  replace (b ++ k :: r) with ((b ++ [k]) ++ r) in * by now rewrite <- app_assoc.
  rewrite add_last by (apply up_app; eapply up_front; exact S). now apply IH.
Qed.

Lemma puts_self {V} (l : list (K * V)) : forall b, up (map fst (b ++ l)) ->
  fold_left (fun m x => put cmp (fst x) (snd x) m) l b = b ++ l.
Proof.
  induction l as [|[k v] r IH]; intros b S; cbn; [now rewrite app_nil_r|].
  replace (b ++ (k, v) :: r) with ((b ++ [(k, v)]) ++ r) in * by now rewrite <- app_assoc.
  rewrite put_last; [now apply IH|]. apply up_app. rewrite map_app in S. apply up_front in S.
  rewrite map_app in S. exact S.
Qed.
End Maps.

Lemma str_eq_cmp {A} a b (x y : A) : match String.compare a b with Eq => x | _ => y end = if String.eqb a b then x else y.
Proof.
  destruct (String.eqb_spec a b) as [->|N]; [now rewrite str_refl|].
  destruct (String.compare a b) eqn:E; auto. apply String.compare_eq_iff in E. contradiction.
Qed.

Lemma z_eq_cmp {A} a b (x y : A) : match Z.compare a b with Eq => x | _ => y end = if Z.eqb a b then x else y.
Proof. destruct (Z.eqb_spec a b) as [->|N]; [now rewrite Z.compare_refl|]. destruct (Z.compare_spec a b); congruence. Qed.

(** ** Answers *)
Definition s_out s c := value String.compare c (omap s).
Definition s_in s c := value String.compare c (irec s).
Definition s_orec s c := value String.compare c (orec s).
Definition s_com s id := value Z.compare id (rmap s).

Lemma ask_out s c : answer s (AskOutCommod c) = Some (s_out s c).
Proof. unfold answer, step, s_out. rewrite <- look_value. destruct (look _ _ _); reflexivity. Qed.
Lemma ask_in s c : answer s (AskInRecipe c) = Some (s_in s c).
Proof. unfold answer, step, s_in. rewrite <- look_value. destruct (look _ _ _); reflexivity. Qed.
Lemma ask_orec s c : answer s (AskOutRecipe c) = Some (s_orec s c).
Proof. unfold answer, step, s_orec. rewrite <- look_value. destruct (look _ _ _); reflexivity. Qed.
Lemma ask_com s id : answer s (AskCommod id) = Some (s_com s id).
Proof. unfold answer, step, s_com. rewrite <- look_value. destruct (look _ _ _); reflexivity. Qed.

Lemma sput_value k v m j : value String.compare j (sput k v m) = if String.eqb k j then v else value String.compare j m.
Proof.
  unfold value, sput. rewrite (get_put _ str_laws), str_eq_cmp, String.eqb_sym.
  destruct (String.eqb k j); reflexivity.
Qed.
Lemma rput_value k v m j : value Z.compare j (rput k v m) = if Z.eqb k j then v else value Z.compare j m.
Proof.
  unfold value, rput. rewrite (get_put _ z_laws), z_eq_cmp, Z.eqb_sym. destruct (Z.eqb k j); reflexivity.
Qed.
Lemma del_value k m j : value Z.compare j (del Z.compare k m) = if Z.eqb k j then "" else value Z.compare j m.
Proof.
  unfold value. rewrite (get_del _ z_laws), z_eq_cmp, Z.eqb_sym. destruct (Z.eqb k j); reflexivity.
Qed.

Lemma step_out s o c : s_out (fst (step s o)) c = match says_out_commod c o with Some x => x | None => s_out s c end.
Proof.
  destruct o; cbn; try reflexivity; unfold s_out; try (destruct (look _ _ _) eqn:E; cbn; try reflexivity;
    rewrite <- (value_look _ str_laws in_commod (omap s) c), E; reflexivity).
  cbn. rewrite sput_value. destruct (String.eqb in_commod c); reflexivity.
Qed.
Lemma step_in s o c : s_in (fst (step s o)) c = match says_in_recipe c o with Some x => x | None => s_in s c end.
Proof.
  destruct o; cbn; try reflexivity; unfold s_in; try (destruct (look _ _ _) eqn:E; cbn; try reflexivity;
    rewrite <- (value_look _ str_laws in_commod (irec s) c), E; reflexivity);
  cbn; rewrite sput_value; destruct (String.eqb in_commod c); reflexivity.
Qed.
Lemma step_orec s o c : s_orec (fst (step s o)) c = match says_out_recipe c o with Some x => x | None => s_orec s c end.
Proof.
  destruct o; cbn; try reflexivity; unfold s_orec; try (destruct (look _ _ _) eqn:E; cbn; try reflexivity;
    rewrite <- (value_look _ str_laws in_commod (orec s) c), E; reflexivity).
  cbn. rewrite sput_value. destruct (String.eqb in_commod c); reflexivity.
Qed.
Lemma step_com s o id : s_com (fst (step s o)) id = match says_commod id o with Some x => x | None => s_com s id end.
Proof.
  destruct o; cbn; try reflexivity; unfold s_com; try (destruct (look _ _ _) eqn:E; cbn; try reflexivity;
    rewrite <- (value_look _ z_laws id0 (rmap s) id), E; reflexivity);
  cbn; rewrite ?rput_value, ?del_value; destruct (Z.eqb id0 id); reflexivity.
Qed.

Lemma run_said (f : ctx -> string) says :
  (forall s o, f (fst (step s o)) = match says o with Some x => x | None => f s end) -> f empty = "" ->
  forall h, f (run h empty) = last_said says h.
Proof.
  intros S E h. unfold run, last_said. rewrite <- E. generalize empty. induction h as [|o r IH]; intro s; cbn; [reflexivity|].
  now rewrite IH, S.
Qed.

Lemma step_ins s o c : In c (ins (fst (step s o))) <-> In c (ins s) \/ exists ir oc ort, o = AddInCommod c ir oc ort.
Proof.
  destruct o; cbn; try (destruct (look _ _ _)); cbn; try (split; [auto|intros [H|(? & ? & ? & ?)]; [exact H|discriminate]]).
  rewrite (in_add _ str_laws). split.
  - intros [->|H]; eauto 6.
  - intros [H|(? & ? & ? & H)]; [auto|injection H as -> -> -> ->; auto].
Qed.
Lemma step_outs s o c : In c (outs (fst (step s o))) <-> In c (outs s) \/ exists ic ir ort, o = AddInCommod ic ir c ort.
Proof.
  destruct o; cbn; try (destruct (look _ _ _)); cbn; try (split; [auto|intros [H|(? & ? & ? & ?)]; [exact H|discriminate]]).
  rewrite (in_add _ str_laws). split.
  - intros [->|H]; eauto 6.
  - intros [H|(? & ? & ? & H)]; [auto|injection H as -> -> -> ->; auto].
Qed.

Lemma run_ins h : forall s c, In c (ins (run h s)) <-> In c (ins s) \/ added c h.
Proof.
  unfold run, added. induction h as [|o r IH]; intros s c; cbn; [firstorder|]. rewrite IH, step_ins.
  split; [intros [[H|(ir & oc & ort & H)]|(ir & oc & ort & H)]|intros [H|(ir & oc & ort & [H|H])]]; eauto 8.
Qed.
Lemma run_outs h : forall s c, In c (outs (run h s)) <-> In c (outs s) \/ exists ic ir ort, In (AddInCommod ic ir c ort) h.
Proof.
  unfold run. induction h as [|o r IH]; intros s c; cbn; [firstorder|]. rewrite IH, step_outs.
  split; [intros [[H|(ir & oc & ort & H)]|(ir & oc & ort & H)]|intros [H|(ir & oc & ort & [H|H])]]; eauto 8.
Qed.

(** ** Reachable contexts *)
Definition good (s : ctx) : Prop :=
  up String.compare (ins s) /\ up String.compare (outs s) /\ up Z.compare (map fst (rmap s)) /\
  forall c, In c (ins s) -> get String.compare c (irec s) <> None /\ get String.compare c (omap s) <> None /\
                            get String.compare c (orec s) <> None.

Lemma sput_some k v m c : k = c \/ get String.compare c m <> None -> get String.compare c (sput k v m) <> None.
Proof.
  intro H. unfold sput. rewrite (get_put _ str_laws), str_eq_cmp. destruct (String.eqb_spec c k); [discriminate|].
  destruct H; congruence.
Qed.
Lemma look_some k m c : get String.compare c m <> None -> get String.compare c (snd (look String.compare k m)) <> None.
Proof. intro H. unfold look. destruct (get _ k m); [exact H|]. apply sput_some. auto. Qed.

Lemma look_up {K} cmp (L : laws cmp) (k : K) m : up cmp (map fst m) -> up cmp (map fst (snd (look cmp k m))).
Proof. unfold look. destruct (get _ k m); [auto|]. intro. now apply put_up. Qed.

Lemma good_step s o : good s -> good (fst (step s o)).
Proof.
  intros (I & O & R & G).
  destruct o; cbn.
  - repeat split; cbn; try (now apply add_up; [apply str_laws|]); auto;
      (apply (in_add _ str_laws) in H; apply sput_some; destruct H as [->|H]; [auto|right; now apply G]).
  - repeat split; cbn; try now apply G. assumption. assumption. now apply put_up; [apply z_laws|].
  - repeat split; cbn; try now apply G. assumption. assumption. now apply put_up; [apply z_laws|].
  - repeat split; cbn; try now apply G. assumption. assumption. now apply del_up.
  - repeat split; cbn; auto; try now apply G. apply sput_some. right. now apply G.
  - pose proof (look_some in_commod (omap s)) as X. destruct (look _ _ _) as [a m]. cbn in *. repeat split; cbn; auto; try now apply G. apply X. now apply G.
  - pose proof (look_some in_commod (irec s)) as X. destruct (look _ _ _) as [a m]. cbn in *. repeat split; cbn; auto; try now apply G. apply X. now apply G.
  - pose proof (look_some in_commod (orec s)) as X. destruct (look _ _ _) as [a m]. cbn in *. repeat split; cbn; auto; try now apply G. apply X. now apply G.
  - pose proof (look_up _ z_laws id (rmap s) R) as X. destruct (look _ _ _) as [a m]. cbn in *. repeat split; cbn; auto; now apply G.
Qed.

Lemma good_run h : forall s, good s -> good (run h s).
Proof. unfold run. induction h; cbn; intros s G; auto. apply IHh. now apply good_step. Qed.

Lemma good_empty : good empty.
Proof. repeat split; try constructor; contradiction. Qed.

(** ** Save and restore *)
Definition row s c := {| f_in := c; f_inrec := s_in s c; f_out := s_out s c; f_outrec := s_orec s c |}.

Lemma look_there c m : get String.compare c m <> None -> look String.compare c m = (value String.compare c m, m).
Proof. unfold look, value. destruct (get _ c m); [reflexivity|now intros []]. Qed.

Lemma inout_rows_eq cs : forall s, (forall c, In c cs -> get String.compare c (irec s) <> None /\ get String.compare c (omap s) <> None /\
                            get String.compare c (orec s) <> None) -> inout_rows cs s = (s, map (row s) cs).
Proof.
  induction cs as [|c r IH]; intros s G; cbn; [reflexivity|].
  destruct (G c (or_introl eq_refl)) as (A & B & C). rewrite !look_there by assumption.
  replace (with_irec _ _) with s by (destruct s; reflexivity).
  rewrite IH by (intros; apply G; now right). reflexivity.
Qed.

Lemma snapshot_eq s : good s -> snapshot s = (s, (map (row s) (ins s), rmap s)).
Proof. intros (_ & _ & _ & G). unfold snapshot. now rewrite inout_rows_eq. Qed.

Definition as_op (f : fuel) : op := AddInCommod (f_in f) (f_inrec f) (f_out f) (f_outrec f).

Lemma fuels_run rows s : fold_left (fun s f => add_in (f_in f) (f_inrec f) (f_out f) (f_outrec f) s) rows s = run (map as_op rows) s.
Proof. revert s. induction rows; intro s; cbn; auto. Qed.

Lemma run_rows_ins s cs : forall t, ins (run (map as_op (map (row s) cs)) t) = fold_left (fun l k => add String.compare k l) cs (ins t).
Proof. unfold run. induction cs as [|c r IH]; intro t; cbn [map fold_left]; [reflexivity|]. rewrite IH. reflexivity. Qed.

Lemma run_rows_rmap l : forall t, rmap (run (map as_op l) t) = rmap t.
Proof. unfold run. induction l as [|c r IH]; intro t; cbn [map fold_left]; [reflexivity|]. rewrite IH. reflexivity. Qed.

Lemma said_rows (says : op -> option string) (f : string -> string) s c :
  (forall c', says (as_op (row s c')) = if String.eqb c' c then Some (f c') else None) ->
  forall cs acc, fold_left (fun acc o => match says o with Some x => x | None => acc end) (map as_op (map (row s) cs)) acc =
    if existsb (String.eqb c) cs then f c else acc.
Proof.
  intro E. induction cs as [|c' r IH]; intro acc; cbn [map fold_left existsb]; [reflexivity|].
  rewrite IH, E, (String.eqb_sym c c'). destruct (String.eqb_spec c' c) as [->|N]; cbn; destruct (existsb _ r); reflexivity.
Qed.

Lemma existsb_in c cs : existsb (String.eqb c) cs = true <-> In c cs.
Proof.
  rewrite existsb_exists. split; [intros (x & A & B); apply String.eqb_eq in B; now subst|].
  intro H. exists c. now rewrite String.eqb_refl.
Qed.

Lemma fold_rput l m : up Z.compare (map fst l) -> m = [] ->
  fold_left (fun m x => rput (fst x) (snd x) m) l m = l.
Proof. intros U ->. apply (puts_self _ z_laws l []). exact U. Qed.

Definition back (s : ctx) : ctx := with_rmap (rmap s) (run (map as_op (map (row s) (ins s))) empty).

Lemma restore_eq s o1 o2 : good s -> (ins s <> [] \/ o1 = true) ->
  init_from (table o1 (fst (snd (snapshot s)))) (table o2 (snd (snd (snapshot s)))) empty = Ok (back s).
Proof.
  intros G N. rewrite snapshot_eq by exact G. cbn [fst snd]. unfold init_from, back.
  assert (T : table o1 (map (row s) (ins s)) = Some (map (row s) (ins s))).
  { unfold table. destruct (ins s); [|reflexivity]. destruct N as [N| ->]; [now contradiction N|reflexivity]. }
  rewrite T, fuels_run. destruct G as (_ & _ & R & _). unfold table. destruct (rmap s) as [|x r] eqn:E.
  - destruct o2; cbn [fold_left]; rewrite ?run_rows_rmap; [reflexivity|].
    f_equal. generalize (run_rows_rmap (map (row s) (ins s)) empty). generalize (run (map as_op (map (row s) (ins s))) empty).
    intros t H. cbn in H. destruct t; cbn in *. now rewrite H.
  - rewrite run_rows_rmap, fold_rput; [reflexivity|exact R|reflexivity].
Qed.

Lemma back_ins s : good s -> ins (back s) = ins s.
Proof. intros (I & _). unfold back. cbn. rewrite run_rows_ins. apply (adds_self _ str_laws (ins s) []). exact I. Qed.

Lemma back_value (f : ctx -> string -> string) says s c :
  (forall t o, f (fst (step t o)) c = match says c o with Some x => x | None => f t c end) -> f empty c = "" ->
  (forall m t, f (with_rmap m t) c = f t c) ->
  (forall c', says c (as_op (row s c')) = if String.eqb c' c then Some (f s c') else None) ->
  f (back s) c = if existsb (String.eqb c) (ins s) then f s c else "".
Proof.
  intros S E W A. unfold back. rewrite W. rewrite (run_said (fun t => f t c) (says c) S E).
  unfold last_said. now rewrite (said_rows (says c) (f s) s c A).
Qed.

Lemma back_out s c : s_out (back s) c = if existsb (String.eqb c) (ins s) then s_out s c else "".
Proof. apply (back_value s_out says_out_commod); try reflexivity. intros. apply step_out. Qed.
Lemma back_in s c : s_in (back s) c = if existsb (String.eqb c) (ins s) then s_in s c else "".
Proof. apply (back_value s_in says_in_recipe); try reflexivity. intros. apply step_in. Qed.
Lemma back_orec s c : s_orec (back s) c = if existsb (String.eqb c) (ins s) then s_orec s c else "".
Proof. apply (back_value s_orec says_out_recipe); try reflexivity. intros. apply step_orec. Qed.

Lemma back_good s : good s -> good (back s).
Proof.
  intro G. unfold back. pose proof (good_run (map as_op (map (row s) (ins s))) empty good_empty) as (A & B & _ & C).
  split; [exact A|]. split; [exact B|]. split; [apply G|exact C].
Qed.

Lemma back_snapshot s : good s -> snd (snapshot (back s)) = snd (snapshot s).
Proof.
  intro G. rewrite (snapshot_eq s G), (snapshot_eq _ (back_good s G)). cbn [snd]. rewrite back_ins by exact G.
  f_equal. apply map_ext_in. intros c C. apply existsb_in in C. unfold row.
  now rewrite back_out, back_in, back_orec, C.
Qed.

Lemma back_outs s c : In c (outs (back s)) <-> exists ic, In ic (ins s) /\ s_out s ic = c.
Proof.
  unfold back. cbn. rewrite run_outs. cbn. split.
  - intros [[]|(ic & ir & ort & H)]. rewrite map_map in H. apply in_map_iff in H. destruct H as (k & E & H).
    injection E as -> _ E _. eauto.
  - intros (ic & H & <-). right. exists ic, (s_in s ic), (s_orec s ic). rewrite map_map. apply in_map_iff. exists ic. auto.
Qed.

(** ** Equality *)
Lemma pairs_eqb_eq {K} (eqb : K -> K -> bool) : (forall a b, eqb a b = true -> a = b) ->
  forall a b, pairs_eqb eqb a b = true -> a = b.
Proof.
  intros E. induction a as [|[k v] a IH]; intros [|[j w] b]; cbn; try easy.
  intro H. apply andb_prop in H. destruct H as [H1 H2]. apply andb_prop in H1. destruct H1 as [H1 H3].
  apply E in H1. apply String.eqb_eq in H3. apply IH in H2. congruence.
Qed.

Lemma ctx_eqb_maps a b : ctx_eqb a b = true -> omap a = omap b /\ irec a = irec b /\ orec a = orec b /\ rmap a = rmap b.
Proof.
  unfold ctx_eqb. rewrite !andb_true_iff. intros (((((_ & _) & A) & B) & C) & D).
  assert (S : forall a b, String.eqb a b = true -> a = b) by (intros x y; apply String.eqb_eq).
  assert (Z : forall a b, Z.eqb a b = true -> a = b) by (intros x y; apply Z.eqb_eq).
  repeat split; eapply pairs_eqb_eq; eauto.
Qed.

(** ** An example *)
Definition some_calls : list op :=
  [AddInCommod "uox" "fresh_uox" "spent" "spent_uox"; AddInCommod "mox" "fresh_mox" "spent" "spent_mox";
   AddRsrc "uox" 7; AddRsrc "mox" 4; AskCommod 9; UpdateInRec "uox" "low"; AddInCommod "mox" "m1" "spent_m" "m2";
   UpdateRsrc "spent" 7; RemoveRsrc 4].
