(** The flat format. *)
From Coq Require Import String Ascii List ZArith Bool Arith Lia Permutation.
From Verif Require Import Base SpecModel SimModel LoaderModel LoaderSpec LoaderProofs LoaderProofs2 LoaderProofs3 LoaderProofs4.
From Verif Require PpModel.
Import PpModel(xml(..), Name, QPath, find_path).
Import ListNotations.
Local Open Scope string_scope.

(** ** Sorted sets and tables *)
Lemma sset_in x y l : In x (sset_ins y l) <-> x = y \/ In x l.
Proof.
  induction l as [|z l IH]; simpl; [intuition|]. destruct (String.compare y z) eqn:E; simpl.
  - apply String.compare_eq_iff in E. subst. intuition.
  - intuition.
  - rewrite IH. intuition.
Qed.
Lemma names_in {A} (table : list (string * A)) : forall acc x,
  In x (fold_left (fun acc e => sset_ins (fst e) acc) table acc) <-> In x acc \/ In x (map fst table).
Proof. induction table as [|e t IH]; intros acc x; simpl; [intuition|]. rewrite IH, sset_in. intuition. Qed.

Lemma compare_lt_trans : forall a b c, String.compare a b = Lt -> String.compare b c = Lt -> String.compare a c = Lt.
Proof.
  induction a as [|x a IH]; destruct b as [|y b], c as [|z c]; simpl; try discriminate; auto.
  unfold Ascii.compare. destruct (N.compare_spec (N_of_ascii x) (N_of_ascii y)) as [E1|E1|E1]; try discriminate;
  destruct (N.compare_spec (N_of_ascii y) (N_of_ascii z)) as [E2|E2|E2]; try discriminate; intros H1 H2.
  - rewrite E1, E2, N.compare_refl. eauto.
  - rewrite E1. apply N.compare_lt_iff in E2. rewrite E2. reflexivity.
  - rewrite <- E2. apply N.compare_lt_iff in E1. rewrite E1. reflexivity.
  - assert (E : (N_of_ascii x < N_of_ascii z)%N) by (eapply N.lt_trans; eauto). apply N.compare_lt_iff in E. rewrite E. reflexivity.
Qed.
Inductive sorted : list string -> Prop :=
| sorted_nil : sorted []
| sorted_cons x l : Forall (fun y => String.compare x y = Lt) l -> sorted l -> sorted (x :: l).
Lemma sset_sorted y l : sorted l -> sorted (sset_ins y l).
Proof.
  induction 1 as [|x l F S IH]; simpl; [repeat constructor|].
  destruct (String.compare y x) eqn:E.
  - constructor; auto.
  - constructor; [|constructor; auto]. constructor; [exact E|]. eapply Forall_impl; [|exact F].
    intros z Hz. eapply compare_lt_trans; eauto.
  - constructor; [|exact IH]. apply Forall_forall. intros z Hz. apply sset_in in Hz. destruct Hz as [->|Hz].
    + rewrite String.compare_antisym, E. reflexivity.
    + rewrite Forall_forall in F. auto.
Qed.
Lemma sorted_nodup l : sorted l -> NoDup l.
Proof.
  induction 1 as [|x l F S IH]; constructor; auto. intro Hin. rewrite Forall_forall in F. specialize (F _ Hin).
  assert (E := String.compare_antisym x x). rewrite F in E. discriminate.
Qed.
Lemma names_nodup {A} (table : list (string * A)) : forall acc, sorted acc ->
  NoDup (fold_left (fun acc e => sset_ins (fst e) acc) table acc).
Proof. induction table; intros acc H; simpl; [apply sorted_nodup, H|]. apply IHtable, sset_sorted, H. Qed.

Lemma find_last_app {A} n (l1 l2 : list (string * A)) :
  find_last n (l1 ++ l2) = match find_last n l2 with Some r => Some r | None => find_last n l1 end.
Proof.
  induction l1 as [|[k v] l1 IH]; simpl; [destruct (find_last n l2); reflexivity|].
  rewrite IH. destruct (find_last n l2); auto.
Qed.
Lemma find_last_some {A} n (l : list (string * A)) v : find_last n l = Some v ->
  exists l1 l2, l = (l1 ++ (n, v) :: l2)%list /\ ~ In n (map fst l2).
Proof.
  induction l as [|[k u] l IH]; simpl; [discriminate|].
  destruct (find_last n l) as [r|] eqn:E.
  - intro H. injection H as ->. destruct (IH eq_refl) as (l1 & l2 & -> & H). exists ((k, u) :: l1), l2. auto.
  - destruct (String.eqb_spec k n) as [->|]; [|discriminate]. intro H. injection H as ->. exists [], l. split; auto.
    clear IH. intro Hin. induction l as [|[k' u'] l IHl]; simpl in *; [contradiction|].
    destruct (find_last n l) eqn:E'; [discriminate|]. destruct (String.eqb_spec k' n) as [->|]; [discriminate|].
    destruct Hin as [->|Hin]; [congruence|]. apply IHl; auto.
Qed.
Lemma find_last_none {A} n (l : list (string * A)) : find_last n l = None <-> ~ In n (map fst l).
Proof.
  induction l as [|[k u] l IH]; simpl; [intuition|]. destruct (find_last n l) as [r|] eqn:E.
  - split; [discriminate|]. intro H. exfalso. destruct IH as [_ IH]. assert (Some r = None); [|discriminate].
    apply IH. intro; apply H; auto.
  - destruct (String.eqb_spec k n) as [->|N]; split; intro H; try discriminate; auto.
    + exfalso. apply H. auto.
    + intros [->|Hin]; [congruence|]. apply (proj1 IH eq_refl Hin).
Qed.

(** ** The loop that places agents *)
Section Place.
Variable beh : hook -> sim -> prog.
Variable cond : nat -> sim -> bool.
Variable fuel : nat.
Variable table : list (string * (string * string)).

Lemma place_next n pre post b s r s' :
  match post with [] => place beh cond fuel n table [] pre b | _ => place beh cond fuel n table pre post b end s = (Normal r, s') ->
  exists pre' post', Permutation (pre' ++ post') (pre ++ post) /\ place beh cond fuel n table pre' post' b s = (Normal r, s').
Proof.
  destruct post as [|y post]; intro H; eauto. exists [], pre. rewrite app_nil_r. auto.
Qed.

Definition placed_as (seen : list (string * nat)) (n : string) (e : string * option nat) : Prop :=
  exists proto parent, find_last n table = Some (proto, parent) /\ fst e = proto /\
    if String.eqb parent "" then snd e = None else exists p, find_last parent seen = Some p /\ snd e = Some p.
Inductive chain : list (string * nat) -> nat -> list string -> list (string * option nat) -> Prop :=
| chain_nil seen k : chain seen k [] []
| chain_cons seen k n e order pl : placed_as seen n e -> chain (seen ++ [(n, k)]) (S k) order pl ->
    chain seen k (n :: order) (e :: pl).

Lemma place_built : quiet_code beh -> forall n pre post seen s r s',
  place beh cond fuel n table pre post seen s = (Normal r, s') ->
  exists order pl, Permutation order (pre ++ post) /\ chain seen (List.length (c_h (core_of s))) order pl /\
    r = (seen ++ combine order (seq (List.length (c_h (core_of s))) (List.length order)))%list /\
    built pl (core_of s) (core_of s').
Proof.
  intros Q. induction n as [|n IH]; intros pre post seen s r s' H; [discriminate|]. cbn [place] in H.
  destruct post as [|name post].
  { destruct pre; [|discriminate]. nv H. exists [], []. simpl. rewrite app_nil_r. repeat split; constructor. }
  destruct (find_last name table) as [[proto parent]|] eqn:F; [|discriminate].
  assert (Build : forall par, (if String.eqb parent "" then par = None else exists p, find_last parent seen = Some p /\ par = Some p) ->
     (a <- build_agent beh cond fuel proto par ;;
      match post with [] => place beh cond fuel n table [] pre (seen ++ [(name, a)]) | _ => place beh cond fuel n table pre post (seen ++ [(name, a)]) end) s
       = (Normal r, s') ->
     exists order pl, Permutation order (pre ++ name :: post) /\ chain seen (List.length (c_h (core_of s))) order pl /\
       r = (seen ++ combine order (seq (List.length (c_h (core_of s))) (List.length order)))%list /\
       built pl (core_of s) (core_of s')).
  { intros par Hpar H0. nb H0. destruct (build_agent_core _ _ _ _ _ _ _ _ Q E) as [-> S]. clear E.
    apply place_next in H0. destruct H0 as (pre' & post' & Pm & H0).
    destruct (IH _ _ _ _ _ _ H0) as (order & pl & P1 & P2 & P3 & P4).
    assert (L : List.length (c_h (core_of s0)) = Datatypes.S (List.length (c_h (core_of s)))).
    { destruct S as (m & v & pid & _ & _ & _ & ->). simpl. rewrite app_length. simpl. lia. }
    rewrite L in P2, P3.
    exists (name :: order), ((proto, par) :: pl). repeat split.
    - rewrite <- Permutation_middle. constructor. rewrite P1. exact Pm.
    - constructor; [|exact P2]. exists proto, parent. auto.
    - cbn [List.length seq combine]. rewrite P3, <- app_assoc. reflexivity.
    - econstructor; eauto. }
  destruct (String.eqb parent "") eqn:Er.
  - apply (Build None); auto.
  - destruct (find_last parent seen) as [p|] eqn:Fp.
    + apply (Build (Some p)); eauto.
    + apply place_next in H. destruct H as (pre' & post' & Pm & H).
      destruct (IH _ _ _ _ _ _ H) as (order & pl & P1 & P). exists order, pl. split; [|exact P].
      rewrite P1, Pm, <- app_assoc. reflexivity.
Qed.

Lemma chain_nth : forall order seen k pl, chain seen k order pl ->
  List.length pl = List.length order /\
  forall j n, nth_error order j = Some n -> exists e, nth_error pl j = Some e /\
    placed_as (seen ++ combine (firstn j order) (seq k j)) n e.
Proof.
  induction order as [|y order IH]; intros seen k pl C; inversion C as [|? ? ? e ? pl' Hp0 C']; subst.
  - split; [reflexivity|]. intros [|j] n H; discriminate.
  - destruct (IH _ _ _ C') as [L R]. split; [simpl; congruence|]. intros [|j] n Hn; simpl in Hn.
    + injection Hn as <-. exists e. split; [reflexivity|]. simpl. rewrite app_nil_r. exact Hp0.
    + destruct (R _ _ Hn) as (e' & He & Hp). exists e'. split; [exact He|].
      simpl firstn. simpl seq. simpl combine. rewrite <- app_assoc in Hp. exact Hp.
Qed.
End Place.

Lemma find_combine order : forall k j q p, find_last q (combine (firstn j order) (seq k j)) = Some p ->
  exists i, (i < j)%nat /\ nth_error order i = Some q /\ p = (k + i)%nat.
Proof.
  intros k j q p H. apply find_last_some in H. destruct H as (l1 & l2 & E & _).
  assert (Hn : nth_error (combine (firstn j order) (seq k j)) (List.length l1) = Some (q, p)).
  { rewrite E. apply nth_app_last_gen. }
  clear E. revert j k Hn. generalize (List.length l1) as i. clear. induction order as [|y order IH]; intros i j k Hn.
  - rewrite firstn_nil in Hn. destruct i; discriminate.
  - destruct j as [|j]; [destruct i; discriminate|]. simpl in Hn. destruct i as [|i].
    + injection Hn as <- <-. exists 0%nat. repeat split; [lia|rewrite Nat.add_0_r; reflexivity].
    + destruct (IH _ _ _ Hn) as (i' & ? & ? & ->). exists (S i'). repeat split; [lia|assumption|lia].
Qed.

(** ** Reading the agents *)
Definition row_of (m : member) : string * (string * string) := (me_name m, (me_proto m, or_else (me_parent m) "")).
Lemma members_read : forall qes ms s r s', Forall2 says_member qes ms ->
  collect read_agent qes s = (Normal r, s') -> r = map row_of ms /\ s' = s.
Proof.
  induction qes as [|qe qes IH]; intros ms s r s' F H; inversion F as [|? m ? ms' (N & P & Q & _) F']; subst; cbn [collect] in H.
  - nv H. auto.
  - nb H. nb H. nv H. unfold read_agent in E.
    nb E. apply lift_normal in E1. destruct E1 as [E1 ->]. rewrite (get_says _ _ _ N) in E1. nv E1.
    nb E. apply lift_normal in E1. destruct E1 as [E1 ->]. rewrite (get_says _ _ _ P) in E1. nv E1.
    nb E. apply lift_normal in E1. destruct E1 as [E1 ->]. rewrite (opt_says _ _ _ _ Q) in E1. nv E1.
    nv E. destruct (IH _ _ _ _ F' E0) as [-> ->]. auto.
Qed.
Lemma last_row ms n v : find_last n (map row_of ms) = Some v ->
  exists m, last_said ms n m /\ v = (me_proto m, or_else (me_parent m) "").
Proof.
  intro H. apply find_last_some in H. destruct H as (l1 & l2 & E & N).
  revert l1 E. induction ms as [|m ms IH]; intros l1 E; [destruct l1; discriminate|]. destruct l1 as [|y l1]; simpl in E.
  - injection E as E1 E2 E3. exists m. split; [|congruence]. exists [], ms. repeat split; auto.
    rewrite <- E3, map_map in N. exact N.
  - injection E as _ E. destruct (IH _ E) as (m' & (k1 & k2 & -> & Hn & Hl) & Hv). exists m'. split; [|exact Hv].
    exists (m :: k1), k2. auto.
Qed.

Lemma flat_loaded beh cond make read fuel n x f s0 ps placed s :
  quiet_code beh -> (forall c, make (mkSpec "" "" "" "") <> Ok c) ->
  says_flat x f -> fresh s0 ->
  load_flat_file beh cond make read fuel n x s0 = (Normal (ps, placed), s) ->
  let P := List.length (fl_protos f) in
  ps = combine (seq 0 P) (children "prototype" x) /\
  exists order pl, creation_order (fl_members f) P order pl /\
    placed = combine order (seq P (List.length order)) /\
    holds make (fl_archetypes f) (fl_protos f) pl s0 s.
Proof.
  intros Q Nn (Ha & Hf & Hm) Fr H P. unfold load_flat_file in H.
  nb H. apply lift_normal in E. destruct E as [Es ->]. unfold load_flat_agents in H.
  nb H. rewrite over_collect, find1 in E.
  destruct (protos_loaded make read x _ _ Ha Es Nn _ _ _ _ _ Hf E) as (classes & K & -> & Pa).
  nb H. rewrite over_collect, find1 in E0. destruct (members_read _ _ _ _ _ Hm E0) as [-> ->].
  nb H. nv H.
  assert (H0 : List.length (c_h (core_of s0)) = 0%nat) by (simpl; rewrite (proj1 Fr); reflexivity).
  assert (LL : List.length (c_h (core_of s1)) = P).
  { rewrite (padd_length _ _ _ Pa), H0, combine_length, <- (F2_length _ _ _ K). simpl. apply Nat.min_id. }
  split. { change (List.length (map bare (heap (w s0)))) with (List.length (c_h (core_of s0))). rewrite H0. reflexivity. }
  apply place_built in E1; [|exact Q]. destruct E1 as (order & pl & P1 & P2 & -> & P4).
  rewrite LL in P2 |- *. exists order, pl. split; [|split; [reflexivity|eapply assemble; eauto]].
  simpl in P1. split; [|split; [|split]].
  - eapply Permutation_NoDup; [symmetry; exact P1|]. apply names_nodup. constructor.
  - intro nm. split; intro Hin.
    + apply (Permutation_in _ P1) in Hin. apply names_in in Hin. destruct Hin as [[]|Hin]. rewrite map_map in Hin. exact Hin.
    + apply (Permutation_in _ (Permutation_sym P1)). apply names_in. right. rewrite map_map. exact Hin.
  - apply (chain_nth _ _ _ _ _ P2).
  - intros k nm Hk. destruct (proj2 (chain_nth _ _ _ _ _ P2) _ _ Hk) as ([pr par] & He & proto & parent & Hl & Hp & Hpar).
    destruct (last_row _ _ _ Hl) as (m & Ls & Ev). injection Ev as -> ->. simpl in Hp. subst pr. cbn [snd] in Hpar.
    exists m, par. split; [exact Ls|]. split; [exact He|].
    assert (Nm : me_parent m <> Some "").
    { destruct Ls as (l1 & l2 & Em & _). clear - Hm Em. revert Hm. rewrite Em.
      generalize (children "agent" x) as qes. clear. intros qes F. apply Forall2_app_inv_r in F.
      destruct F as (q1 & q2 & _ & F2 & _). inversion F2 as [|? ? ? ? (_ & _ & _ & N)]; subst. exact N. }
    destruct (me_parent m) as [q|]; cbn [or_else] in Hpar; [|exact Hpar].
    destruct (String.eqb_spec q "") as [Eq|Nq]; [congruence|]. destruct Hpar as (p & Hfp & ->).
    destruct (find_combine _ _ _ _ _ Hfp) as (j & ? & ? & ->). eauto.
Qed.
