(** Sorting, IEEE minima and the capacity computed by the solver. *)
From Coq Require Import QArith List Bool Arith ZArith Lia Lqa Permutation Sorted.
From Verif Require Import Base GreedyModel GreedySpec.
Import ListNotations.
Open Scope Q_scope.

(** ** stable_sort *)
Lemma ins_perm {A} lt (x : A) l : Permutation (ins lt x l) (x :: l).
Proof.
  induction l as [|y t IH]; simpl; auto.
  destruct (lt y x); auto.
  rewrite IH. apply perm_swap.
Qed.

Lemma sort_perm {A} lt (l : list A) : Permutation (stable_sort lt l) l.
Proof.
  induction l as [|x t IH]; simpl; auto.
  rewrite ins_perm. auto.
Qed.

Lemma sort_In {A} lt (l : list A) x : In x (stable_sort lt l) <-> In x l.
Proof.
  split; apply Permutation_in; [|symmetry]; apply sort_perm.
Qed.

(** [R a b]: b is not strictly before a. *)
Definition nb {A} (lt : A -> A -> bool) (a b : A) : Prop := lt b a = false.

Record swo {A} (lt : A -> A -> bool) : Prop := mkSwo {
  swo_asym : forall x y, lt x y = true -> lt y x = false;
  swo_ntrans : forall x y z, lt y x = false -> lt z y = false -> lt z x = false }.

Lemma ins_sorted {A} (lt : A -> A -> bool) x l : swo lt ->
  StronglySorted (nb lt) l -> StronglySorted (nb lt) (ins lt x l).
Proof.
  intros [AS NT] H. induction H as [|y t Ht IH Hy]; simpl.
  - repeat constructor.
  - destruct (lt y x) eqn:E.
    + constructor; auto.
      rewrite Forall_forall in *. intros z Hz.
      apply (Permutation_in _ (ins_perm lt x t)) in Hz. destruct Hz as [<-|Hz]; auto.
      unfold nb. auto.
    + constructor; [constructor; auto|].
      constructor; auto.
      rewrite Forall_forall in *. intros z Hz. apply Hy in Hz. unfold nb in *. eauto.
Qed.

Lemma sort_sorted {A} (lt : A -> A -> bool) l : swo lt -> StronglySorted (nb lt) (stable_sort lt l).
Proof.
  intros H. induction l as [|x t IH]; simpl; [constructor|]. apply ins_sorted; auto.
Qed.

Lemma swo_desc {A} (f : A -> Q) : swo (fun l r => Qltb (f r) (f l)).
Proof.
  split; intros x y; [|intros z];
  repeat match goal with |- context [Qltb ?a ?b] => destruct (Qltb_spec a b) end; intros;
  try reflexivity; try discriminate; lra.
Qed.

Lemma req_pref_swo g : swo (req_pref_comp g).
Proof.
  split; unfold req_pref_comp; intros x y; [|intros z];
  set (px := pref_of _ x); set (py := pref_of _ y); try set (pz := pref_of _ z);
  set (ux := n_agent (node_at g (a_u x))); set (uy := n_agent (node_at g (a_u y)));
  set (vx := n_agent (node_at g (a_v x))); set (vy := n_agent (node_at g (a_v y)));
  try set (uz := n_agent (node_at g (a_u z))); try set (vz := n_agent (node_at g (a_v z)));
  clearbody px py ux uy vx vy; try clearbody pz uz vz;
  repeat (match goal with |- context [Qeqb ?a ?b] => destruct (Qeqb_spec a b) end); cbn [negb];
  repeat (match goal with |- context [Qltb ?a ?b] => destruct (Qltb_spec a b) end);
  try (intros; discriminate); try lra; intros;
  repeat match goal with
  | H : _ = true |- _ => apply orb_true_iff in H
  | H : _ || _ = false |- _ => apply orb_false_iff in H; destruct H
  end;
  try (apply orb_false_iff; split);
  repeat match goal with
  | H : context [Z.ltb ?a ?b] |- _ => destruct (Z.ltb_spec a b)
  | |- context [Z.ltb ?a ?b] => destruct (Z.ltb_spec a b)
  | H : context [Z.eqb ?a ?b] |- _ => destruct (Z.eqb_spec a b)
  | |- context [Z.eqb ?a ?b] => destruct (Z.eqb_spec a b)
  end; cbn in *; try discriminate; try reflexivity; try lia; try lra;
  repeat match goal with H : _ \/ _ |- _ => destruct H end; try discriminate; try lia; try lra.
Qed.

Lemma avg_pref_swo g : swo (avg_pref_comp g).
Proof.
  split; unfold avg_pref_comp; intros x y; [|intros z];
  set (px := avg_pref (node_at g x)); set (py := avg_pref (node_at g y));
  try set (pz := avg_pref (node_at g z));
  set (ux := n_agent (node_at g x)); set (uy := n_agent (node_at g y));
  try set (uz := n_agent (node_at g z));
  clearbody px py ux uy; try clearbody pz uz;
  repeat (match goal with |- context [Qeqb ?a ?b] => destruct (Qeqb_spec a b) end); cbn [negb];
  repeat (match goal with |- context [Qltb ?a ?b] => destruct (Qltb_spec a b) end);
  try (intros; discriminate); try lra; intros;
  repeat match goal with
  | H : context [Z.ltb ?a ?b] |- _ => destruct (Z.ltb_spec a b)
  | |- context [Z.ltb ?a ?b] => destruct (Z.ltb_spec a b)
  end; cbn in *; try discriminate; try reflexivity; try lia; try lra.
Qed.

(** ** Numbers *)
Definition okn (x : num) : Prop := match x with Fin _ | PInf => True | _ => False end.
Definition nle (q : Q) (x : num) : Prop :=
  match x with Fin y => q <= y | PInf => True | _ => False end.

Lemma nmin_ok a b : okn a -> okn b -> okn (nmin a b).
Proof. unfold nmin. destruct (nlt b a); auto. Qed.

Lemma nlt_true a b q : okn a -> okn b -> nlt a b = true -> nle q a -> nle q b.
Proof.
  destruct a, b; simpl; try tauto; try discriminate. intros _ _.
  destruct (Qltb_spec q0 q1); [intros; lra|discriminate].
Qed.
Lemma nlt_false a b q : okn a -> okn b -> nlt a b = false -> nle q b -> nle q a.
Proof.
  destruct a, b; simpl; try tauto; try discriminate. intros _ _.
  destruct (Qltb_spec q0 q1); [discriminate|intros; lra].
Qed.

Lemma nmin_le a b q : okn a -> okn b -> (nle q (nmin a b) <-> nle q a /\ nle q b).
Proof.
  intros Ha Hb. unfold nmin. destruct (nlt b a) eqn:E; split; try tauto.
  - intros H; split; auto. eapply nlt_true; [exact Hb|exact Ha|eauto|eauto].
  - intros H; split; auto. eapply nlt_false; [exact Hb|exact Ha|eauto|eauto].
Qed.

Lemma min_elt_ok l : forall x, okn x -> Forall okn l -> okn (min_elt x l).
Proof.
  unfold min_elt. induction l as [|y t IH]; simpl; auto.
  intros x Hx H. inversion H; subst. destruct (nlt y x); auto.
Qed.
Lemma max_elt_ok l : forall x, okn x -> Forall okn l -> okn (max_elt x l).
Proof.
  unfold max_elt. induction l as [|y t IH]; simpl; auto.
  intros x Hx H. inversion H; subst. destruct (nlt x y); auto.
Qed.

Lemma min_elt_le q l : forall x, okn x -> Forall okn l ->
  (nle q (min_elt x l) <-> Forall (nle q) (x :: l)).
Proof.
  induction l as [|y t IH]; intros x Hx H.
  - unfold min_elt; simpl. split; [repeat constructor; auto|]. inversion 1; auto.
  - inversion H; subst. change (min_elt x (y :: t)) with (min_elt (nmin x y) t).
    rewrite IH; auto using nmin_ok. split; intros F.
    + inversion F; subst. apply nmin_le in H4; auto. destruct H4. auto.
    + inversion F; subst. inversion H5; subst. constructor; auto. apply nmin_le; auto.
Qed.

Lemma max_elt_le q l : forall x, okn x -> Forall okn l ->
  (nle q (max_elt x l) <-> Exists (nle q) (x :: l)).
Proof.
  induction l as [|y t IH]; intros x Hx H.
  - unfold max_elt; simpl. split; [constructor; auto|].
    intros E. apply Exists_cons in E as [E|E]; auto. inversion E.
  - inversion H; subst.
    change (max_elt x (y :: t)) with (max_elt (if nlt x y then y else x) t).
    rewrite IH; auto; [|destruct (nlt x y); auto].
    rewrite !Exists_cons.
    destruct (nlt x y) eqn:E; split; intros F; try tauto.
    + destruct F as [F|F]; try tauto. left.
      eapply nlt_true; [exact Hx|exact H2|eauto|eauto].
    + destruct F as [F|[F|F]]; try tauto. left.
      eapply nlt_false; [exact Hx|exact H2|eauto|eauto].
Qed.

(** ** The quotients *)
Lemma div_le x u q : 0 < u -> (q <= x / u <-> q * u <= x).
Proof.
  intros U. split; intros H.
  - apply (Qmult_le_r _ _ u) in H; auto. rewrite Qmult_comm in H at 1.
    assert (x / u * u == x) by (field; lra). rewrite H0 in H. lra.
  - apply (Qmult_le_r _ _ u); auto.
    assert (x / u * u == x) by (field; lra). rewrite H0. auto.
Qed.

Lemma ndiv_pos x u : 0 < u -> ndiv x u = Fin (x / u).
Proof. intros H. unfold ndiv. destruct (Qeqb_spec u 0); auto. lra. Qed.

Lemma quots_spec gc : forall uc, length uc = length gc -> Forall (fun x => 0 < x) uc ->
  exists r, quots gc uc = Some r /\ Forall okn r /\ length r = length uc /\
    forall i x c, nth_error r i = Some x -> nth_error gc i = Some c ->
      forall q, nle q x <-> within (q * nth i uc 0) c.
Proof.
  induction gc as [|c gc IH]; intros [|u uc] L P; try discriminate.
  - exists []. simpl. repeat split; auto; destruct i; discriminate.
  - inversion P; subst. destruct (IH uc) as [r [E [F [Lr S]]]]; auto.
    exists ((match c with None => PInf | Some x => ndiv x u end) :: r). cbn [quots].
    rewrite E. split; auto. split; [|split].
    + constructor; auto. destruct c; [rewrite ndiv_pos; auto|]; simpl; auto.
    + simpl; auto.
    + intros [|i] x d Hx Hd q; simpl in *.
      * injection Hx as <-. injection Hd as <-. destruct c; simpl; [|tauto].
        rewrite ndiv_pos; auto. simpl. apply div_le; auto.
      * eapply S; eauto.
Qed.

(** Capacity of a node: [q] is within it iff it fits in the node and in all (one)
    of the remaining group capacities. *)
Lemma node_cap_spec g st i a minc G :
  n_group (node_at g i) = Some G ->
  length (ucaps_of (node_at g i) a) = length (s_caps st G) ->
  Forall (fun x => 0 < x) (ucaps_of (node_at g i) a) ->
  exists c, node_cap g st i a minc = Ok c /\ okn c /\
    forall q, nle q c <->
      s_nq st i + q <= n_qty (node_at g i) /\
      (if minc then
         forall k x, nth_error (s_caps st G) k = Some x ->
           within (q * nth k (ucaps_of (node_at g i) a) 0) x
       else s_caps st G <> [] ->
         exists k x, nth_error (s_caps st G) k = Some x /\
           within (q * nth k (ucaps_of (node_at g i) a) 0) x).
Proof.
  intros HG L P. unfold node_cap. rewrite HG.
  destruct (ucaps_of (node_at g i) a) as [|u0 ut] eqn:EU.
  - exists (Fin (n_qty (node_at g i) - s_nq st i)). split; auto. split; [exact I|].
    assert (EC : s_caps st G = []) by (destruct (s_caps st G); auto; discriminate).
    intros q. simpl. rewrite EC. split.
    + intros H. split; [lra|]. destruct minc; [intros [|k] x Hk; discriminate|congruence].
    + intros [H _]. lra.
  - rewrite <- EU in *. destruct (quots_spec (s_caps st G) (ucaps_of (node_at g i) a)) as
      [r [E [F [Lr S]]]]; auto.
    rewrite E. destruct r as [|x l]; [rewrite EU in Lr; discriminate|].
    inversion F; subst.
    assert (OK : okn (if minc then min_elt x l else max_elt x l))
      by (destruct minc; [apply min_elt_ok|apply max_elt_ok]; auto).
    eexists. split; [reflexivity|]. split; [apply nmin_ok; simpl; auto|].
    intros q. rewrite nmin_le; simpl; auto.
    assert (EQ : nle q (if minc then min_elt x l else max_elt x l) <->
      (if minc then forall k y, nth_error (s_caps st G) k = Some y ->
           within (q * nth k (ucaps_of (node_at g i) a) 0) y
       else s_caps st G <> [] -> exists k y, nth_error (s_caps st G) k = Some y /\
           within (q * nth k (ucaps_of (node_at g i) a) 0) y)).
    { destruct minc.
      - rewrite min_elt_le; auto. rewrite Forall_forall. split; intros HH.
        + intros k y Hk.
          assert (exists z, nth_error (x :: l) k = Some z) as [z Hz].
          { destruct (nth_error (x :: l) k) eqn:EE; eauto.
            apply nth_error_None in EE. apply nth_error_lt in Hk. lia. }
          apply (S k z y Hz Hk). apply HH. eapply nth_error_In; eauto.
        + intros z Hz. apply In_nth_error in Hz as [k Hk].
          assert (exists y, nth_error (s_caps st G) k = Some y) as [y Hy].
          { destruct (nth_error (s_caps st G) k) eqn:EE; eauto.
            apply nth_error_None in EE. apply nth_error_lt in Hk. lia. }
          apply (S k z y Hk Hy). eauto.
      - rewrite max_elt_le; auto. rewrite Exists_exists. split; intros HH.
        + intros _. destruct HH as [z [Hz Hq]]. apply In_nth_error in Hz as [k Hk].
          assert (exists y, nth_error (s_caps st G) k = Some y) as [y Hy].
          { destruct (nth_error (s_caps st G) k) eqn:EE; eauto.
            apply nth_error_None in EE. apply nth_error_lt in Hk. lia. }
          exists k, y. split; auto. apply (S k z y Hk Hy). auto.
        + destruct HH as [k [y [Hk Hq]]].
          { intros EC. rewrite EC in L. rewrite EU in L. discriminate. }
          assert (exists z, nth_error (x :: l) k = Some z) as [z Hz].
          { destruct (nth_error (x :: l) k) eqn:EE; eauto.
            apply nth_error_None in EE. apply nth_error_lt in Hk. lia. }
          exists z. split; [eapply nth_error_In; eauto|]. apply (S k z y Hz Hk). auto. }
    rewrite EQ. split; intros [X Y]; (split; [|assumption]) || (split; assumption) || idtac.
    all: try lra. all: split; auto; lra.
Qed.

Lemma take_caps_spec q gc : forall uc, length uc = length gc ->
  exists r, take_caps q gc uc = Some r /\ length r = length gc /\
    forall i c, nth_error gc i = Some c ->
      nth_error r i = Some (match c with None => None | Some x => Some (x - q * nth i uc 0) end).
Proof.
  induction gc as [|c gc IH]; intros [|u uc] L; try discriminate.
  - exists []. repeat split; auto. intros [|i]; discriminate.
  - destruct (IH uc) as [r [E [Lr S]]]; auto. cbn [take_caps]. rewrite E.
    eexists; split; [reflexivity|]. split; [simpl; auto|].
    intros [|i] d Hd; simpl in *; [injection Hd as <-; auto|auto].
Qed.
