(** * Base: shared vocabulary of the models.

    Nothing in this file models a particular cyclus function; it fixes how C++ values and effects
    are represented (see DESIGN.md, "Conventions"). *)
From Coq Require Export String.
From Coq Require Export List ZArith QArith Qminmax Qround Lia Lqa Bool Permutation Qabs.
Export ListNotations.
Open Scope list_scope.

(** ** Exceptions (src/error.h 12-72: Error and its subclasses) *)
Inductive err :=
| ValueError | KeyError | CastError | StateError | IOError | ValidationError | PlainError.

(** Result of a call: normal return, a thrown exception, or undefined behaviour of the C++ code. *)
Inductive result (A : Type) :=
| Ok (a : A)
| Throw (e : err)
| UB.
Arguments Ok {A} _.
Arguments Throw {A} _.
Arguments UB {A}.

Definition is_ok {A} (r : result A) : Prop := match r with Ok _ => True | _ => False end.

(** ** Rational arithmetic standing for [double] *)
Definition Qltb (a b : Q) : bool := negb (Qle_bool b a).
Definition Qleb (a b : Q) : bool := Qle_bool a b.
Definition Qeqb (a b : Q) : bool := Qeq_bool a b.

Lemma Qleb_spec a b : reflect (a <= b)%Q (Qleb a b).
Proof.
  unfold Qleb. destruct (Qle_bool a b) eqn:E; constructor.
  - now apply Qle_bool_iff.
  - intro H. apply Qle_bool_iff in H. congruence.
Qed.

Lemma Qltb_spec a b : reflect (a < b)%Q (Qltb a b).
Proof.
  unfold Qltb. destruct (Qle_bool b a) eqn:E; constructor.
  - apply Qle_bool_iff in E. apply Qle_not_lt. exact E.
  - apply Qnot_le_lt. intro H. apply Qle_bool_iff in H. congruence.
Qed.

Lemma Qeqb_spec a b : reflect (a == b)%Q (Qeqb a b).
Proof.
  unfold Qeqb. destruct (Qeq_bool a b) eqn:E; constructor.
  - now apply Qeq_bool_iff.
  - intro H. apply Qeq_bool_iff in H. congruence.
Qed.

(** std::min / std::max on doubles: [std::min(a,b)] is [b < a ? b : a], [std::max(a,b)] is
    [a < b ? b : a]. *)
Definition qmin (a b : Q) : Q := if Qltb b a then b else a.
Definition qmax (a b : Q) : Q := if Qltb a b then b else a.

(** Case analysis on one boolean comparison, leaving the corresponding (in)equality. *)
Ltac qcase :=
  match goal with
  | |- context [Qleb ?a ?b] => destruct (Qleb_spec a b)
  | |- context [Qltb ?a ?b] => destruct (Qltb_spec a b)
  | |- context [Qeqb ?a ?b] => destruct (Qeqb_spec a b)
  end.
Ltac qcase_in H :=
  match type of H with
  | context [Qleb ?a ?b] => destruct (Qleb_spec a b)
  | context [Qltb ?a ?b] => destruct (Qltb_spec a b)
  | context [Qeqb ?a ?b] => destruct (Qeqb_spec a b)
  end.

Lemma qmin_l a b : (qmin a b <= a)%Q.
Proof. unfold qmin. qcase; lra. Qed.
Lemma qmin_r a b : (qmin a b <= b)%Q.
Proof. unfold qmin. qcase; lra. Qed.
Lemma qmin_glb a b c : (c <= a -> c <= b -> c <= qmin a b)%Q.
Proof. unfold qmin. qcase; lra. Qed.
Lemma qmax_l a b : (a <= qmax a b)%Q.
Proof. unfold qmax. qcase; lra. Qed.
Lemma qmax_r a b : (b <= qmax a b)%Q.
Proof. unfold qmax. qcase; lra. Qed.
Lemma qmax_lub a b c : (a <= c -> b <= c -> qmax a b <= c)%Q.
Proof. unfold qmax. qcase; lra. Qed.
Lemma qmin_cases a b : qmin a b = a \/ qmin a b = b.
Proof. unfold qmin. destruct (Qltb b a); auto. Qed.
Lemma qmax_cases a b : qmax a b = a \/ qmax a b = b.
Proof. unfold qmax. destruct (Qltb a b); auto. Qed.

(** Sum of a list of rationals: the mathematical sum, used in statements. *)
Fixpoint qsum (l : list Q) : Q :=
  match l with
  | [] => 0
  | x :: t => x + qsum t
  end.

Lemma qsum_app l1 l2 : (qsum (l1 ++ l2) == qsum l1 + qsum l2)%Q.
Proof. induction l1; simpl; lra. Qed.

Lemma qsum_perm l1 l2 : Permutation l1 l2 -> (qsum l1 == qsum l2)%Q.
Proof. induction 1; simpl; lra. Qed.

Lemma qsum_nonneg l : Forall (fun x => 0 <= x)%Q l -> (0 <= qsum l)%Q.
Proof. induction 1; simpl; lra. Qed.

Lemma qsum_le l1 l2 : Forall2 Qle l1 l2 -> (qsum l1 <= qsum l2)%Q.
Proof. induction 1; simpl; lra. Qed.

Lemma qsum_eq l1 l2 : Forall2 Qeq l1 l2 -> (qsum l1 == qsum l2)%Q.
Proof. induction 1; simpl; lra. Qed.

Lemma qsum_map_ext {A} (f g : A -> Q) l :
  (forall x, In x l -> f x == g x)%Q -> (qsum (map f l) == qsum (map g l))%Q.
Proof.
  induction l as [|a l IH]; simpl; intros H; [lra|].
  rewrite IH; [|intros; apply H; auto]. rewrite (H a); auto. lra.
Qed.

Lemma qsum_map_plus {A} (f g : A -> Q) l :
  (qsum (map (fun x => f x + g x) l) == qsum (map f l) + qsum (map g l))%Q.
Proof. induction l; simpl; lra. Qed.

Lemma qsum_map_scale {A} (c : Q) (f : A -> Q) l :
  (qsum (map (fun x => c * f x) l) == c * qsum (map f l))%Q.
Proof. induction l as [|a l IH]; simpl; [lra|]. rewrite IH. lra. Qed.

Lemma qsum_repeat x n : (qsum (repeat x n) == inject_Z (Z.of_nat n) * x)%Q.
Proof.
  induction n as [|n IH].
  - cbn [repeat qsum]. change (inject_Z (Z.of_nat 0)) with 0. ring.
  - cbn [repeat qsum]. rewrite IH, Nat2Z.inj_succ, <- Z.add_1_l, inject_Z_plus. ring.
Qed.

(** ** Heaps: objects are addressed by their index in a list; allocation appends. *)
Fixpoint upd {A} (l : list A) (i : nat) (x : A) : list A :=
  match l, i with
  | [], _ => []
  | _ :: t, O => x :: t
  | h :: t, S j => h :: upd t j x
  end.

Lemma upd_length {A} (l : list A) i x : length (upd l i x) = length l.
Proof. revert i; induction l; destruct i; simpl; auto. Qed.

Lemma nth_upd_same {A} (l : list A) i x :
  (i < length l)%nat -> nth_error (upd l i x) i = Some x.
Proof. revert i; induction l; destruct i; simpl; intros; try lia; auto. apply IHl; lia. Qed.

Lemma nth_upd_other {A} (l : list A) i j x :
  i <> j -> nth_error (upd l i x) j = nth_error l j.
Proof. revert i j; induction l; destruct i, j; simpl; intros; auto; congruence. Qed.

Lemma nth_error_lt {A} (l : list A) i x : nth_error l i = Some x -> (i < length l)%nat.
Proof. intros H. apply nth_error_Some. congruence. Qed.

Lemma nth_app_old {A} (l : list A) x i y :
  nth_error l i = Some y -> nth_error (l ++ [x]) i = Some y.
Proof. intros H. rewrite nth_error_app1; auto. eapply nth_error_lt; eauto. Qed.

Lemma nth_app_new {A} (l : list A) x : nth_error (l ++ [x]) (length l) = Some x.
Proof. rewrite nth_error_app2, Nat.sub_diag; auto. Qed.

Lemma qsum_upd {A} (f : A -> Q) l i x y :
  nth_error l i = Some y ->
  (qsum (map f (upd l i x)) == qsum (map f l) - f y + f x)%Q.
Proof.
  revert i; induction l as [|a l IH]; destruct i; simpl; intros H; try discriminate.
  - injection H as ->. lra.
  - rewrite (IH _ H). lra.
Qed.

Lemma map_upd {A B} (f : A -> B) l i x : map f (upd l i x) = upd (map f l) i (f x).
Proof. revert i; induction l; destruct i; simpl; f_equal; auto. Qed.

Lemma upd_same {A} (l : list A) i x : nth_error l i = Some x -> upd l i x = l.
Proof. revert i; induction l; destruct i; simpl; intros H; try discriminate; f_equal; auto.
  injection H; auto. Qed.

(** ** Finite maps keyed by [Z] in ascending key order (std::map<int, V>). *)
Definition zmap (V : Type) := list (Z * V).

Fixpoint zfind {V} (k : Z) (m : zmap V) : option V :=
  match m with
  | [] => None
  | (k', v) :: t => if Z.eqb k k' then Some v else zfind k t
  end.

Fixpoint zset {V} (k : Z) (v : V) (m : zmap V) : zmap V :=
  match m with
  | [] => [(k, v)]
  | (k', v') :: t =>
      if Z.ltb k k' then (k, v) :: m
      else if Z.eqb k k' then (k, v) :: t
      else (k', v') :: zset k v t
  end.

Definition zerase {V} (k : Z) (m : zmap V) : zmap V :=
  filter (fun p => negb (Z.eqb (fst p) k)) m.

Definition zkeys {V} (m : zmap V) : list Z := map fst m.

(** Strictly ascending keys: the representation invariant of std::map. *)
Fixpoint zsorted {V} (m : zmap V) : Prop :=
  match m with
  | [] => True
  | (k, _) :: t => Forall (fun p => (k < fst p)%Z) t /\ zsorted t
  end.

Lemma zfind_zset_same {V} k (v : V) m : zfind k (zset k v m) = Some v.
Proof.
  induction m as [|[k' v'] t IH]; simpl.
  - now rewrite Z.eqb_refl.
  - destruct (Z.ltb_spec k k'); simpl.
    + now rewrite Z.eqb_refl.
    + destruct (Z.eqb_spec k k'); simpl.
      * now rewrite Z.eqb_refl.
      * destruct (Z.eqb_spec k k'); congruence.
Qed.

Lemma zfind_zset_other {V} k k' (v : V) m : k <> k' -> zfind k' (zset k v m) = zfind k' m.
Proof.
  intros N. induction m as [|[k0 v0] t IH]; simpl.
  - destruct (Z.eqb_spec k' k); congruence.
  - destruct (Z.ltb_spec k k0); simpl.
    + destruct (Z.eqb_spec k' k); congruence.
    + destruct (Z.eqb_spec k k0); simpl.
      * subst. destruct (Z.eqb_spec k' k0); congruence.
      * rewrite IH. reflexivity.
Qed.

Lemma zset_Forall {V} (P : Z -> Prop) k (v : V) m :
  P k -> Forall (fun p => P (fst p)) m -> Forall (fun p => P (fst p)) (zset k v m).
Proof.
  intros Hk H. induction H as [|[k0 v0] t H0 Ht IH]; simpl.
  - constructor; auto.
  - destruct (Z.ltb k k0); [|destruct (Z.eqb k k0)]; repeat constructor; auto.
Qed.

Lemma zset_sorted {V} k (v : V) m : zsorted m -> zsorted (zset k v m).
Proof.
  induction m as [|[k0 v0] t IH]; simpl.
  - intros _. split; constructor.
  - intros [H1 H2]. destruct (Z.ltb_spec k k0).
    + simpl. split; [|split; auto]. constructor; simpl; auto.
      eapply Forall_impl; [|exact H1]. simpl; intros; lia.
    + destruct (Z.eqb_spec k k0); simpl.
      * subst. split; auto.
      * split; [|auto]. apply (zset_Forall (fun z => (k0 < z)%Z)); auto. lia.
Qed.

Lemma zfind_None {V} k (m : zmap V) : zfind k m = None <-> ~ In k (zkeys m).
Proof.
  induction m as [|[k0 v0] t IH]; simpl; [tauto|].
  destruct (Z.eqb_spec k k0).
  - subst. split; [discriminate|]. intros H; exfalso; auto.
  - rewrite IH. split; intros H; [|intro; apply H; auto]. intros [E|E]; [congruence|auto].
Qed.

Lemma zfind_In {V} k (v : V) m : zfind k m = Some v -> In (k, v) m.
Proof.
  induction m as [|[k0 v0] t IH]; simpl; [discriminate|].
  destruct (Z.eqb_spec k k0); intros H.
  - left. congruence.
  - right; auto.
Qed.

Lemma zsorted_In_find {V} k (v : V) m : zsorted m -> In (k, v) m -> zfind k m = Some v.
Proof.
  induction m as [|[k0 v0] t IH]; simpl; [tauto|].
  intros [H1 H2] [E|E].
  - injection E as -> ->. now rewrite Z.eqb_refl.
  - destruct (Z.eqb_spec k k0).
    + subst. rewrite Forall_forall in H1. apply H1 in E. simpl in E. lia.
    + auto.
Qed.

Lemma zfind_zerase_same {V} k (m : zmap V) : zfind k (zerase k m) = None.
Proof.
  unfold zerase. induction m as [|[k0 v0] t IH]; simpl; auto.
  destruct (Z.eqb_spec k0 k); simpl; auto.
  destruct (Z.eqb_spec k k0); simpl; auto. congruence.
Qed.

Lemma zfind_zerase_other {V} k k' (m : zmap V) : k <> k' -> zfind k' (zerase k m) = zfind k' m.
Proof.
  intros N. unfold zerase. induction m as [|[k0 v0] t IH]; simpl; auto.
  destruct (Z.eqb_spec k0 k); simpl.
  - rewrite IH. destruct (Z.eqb_spec k' k0); auto. congruence.
  - rewrite IH. auto.
Qed.

Lemma zerase_sorted {V} k (m : zmap V) : zsorted m -> zsorted (zerase k m).
Proof.
  unfold zerase. induction m as [|[k0 v0] t IH]; simpl; auto.
  intros [H1 H2]. destruct (negb (Z.eqb k0 k)); simpl; auto.
  split; auto. rewrite Forall_forall in *. intros x Hx. apply filter_In in Hx. apply H1. tauto.
Qed.

Lemma zsorted_NoDup {V} (m : zmap V) : zsorted m -> NoDup (zkeys m).
Proof.
  induction m as [|[k0 v0] t IH]; simpl; [constructor|].
  intros [H1 H2]. constructor; auto. rewrite Forall_forall in H1.
  intros Hin. apply in_map_iff in Hin as [[k v] [E Hin]]. simpl in E. subst.
  apply H1 in Hin. simpl in Hin. lia.
Qed.
