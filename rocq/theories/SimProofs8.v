(** Counters, prototypes, lifetimes. *)
From Coq Require Import String List ZArith Bool Arith Lia.
From Verif Require Import Base SimModel SimSpec SimProofs1 SimProofs2 SimProofs3 SimProofs4 SimProofs5 SimProofs6 SimProofs7.
Import ListNotations.
Local Open Scope Z_scope.

(** ** Counters *)
Definition kept (s s' : sim) : Prop := (length (heap (w s)) <= length (heap (w s')))%nat /\
  forall a x, nth_error (heap (w s)) a = Some x -> exists y, nth_error (heap (w s')) a = Some y /\ same_rest x y.
Definition inr (s : sim) (l : list nat) : Prop := Forall (fun a => (a < length (heap (w s)))%nat) l.
Definition net (P cnt : nat -> bool) (l : history) : Z :=
  Z.of_nat (length (filter (fun a => cnt a && P a) (entered l))) - Z.of_nat (length (filter P (exits l))).
Record count_ok (s : sim) : Prop := {
  c_in : inr s (entered (log s));
  c_out : inr s (exits (log s));
  c_proto : forall n, nproto (w s) n = net (proto_is s n) (counted s) (log s);
  c_spec : forall n, nspec (w s) n = net (spec_is s n) (counted s) (log s) }.

Lemma kept_refl s : kept s s.
Proof. split; [lia|]. intros a x H. exists x. split; [exact H|]. unfold same_rest; tauto. Qed.
Lemma kept_heap s s' : heap (w s') = heap (w s) -> kept s s'.
Proof. intros E. unfold kept. rewrite E. split; [lia|]. intros a x H. exists x. split; [exact H|]. unfold same_rest; tauto. Qed.
Lemma kept_map s s' f : (forall b y, same_rest y (f b y)) -> length (heap (w s')) = length (heap (w s)) ->
  (forall b, nth_error (heap (w s')) b = option_map (f b) (nth_error (heap (w s)) b)) -> kept s s'.
Proof.
  intros Hf L F. split; [lia|]. intros a x H. exists (f a x). rewrite F, H. split; [reflexivity|apply Hf].
Qed.
Lemma kept_read s s' a : kept s s' -> (a < length (heap (w s)))%nat ->
  (forall n, proto_is s' n a = proto_is s n a) /\ (forall n, spec_is s' n a = spec_is s n a) /\ counted s' a = counted s a.
Proof.
  intros [_ K] L. destruct (nth_error (heap (w s)) a) as [x|] eqn:E; [|apply nth_error_None in E; lia].
  destruct (K _ _ E) as (y & Hy & S1 & S2 & S3 & S4 & S5). unfold proto_is, spec_is, counted, kind_of. rewrite E, Hy. simpl. rewrite S2, S4, S5. auto.
Qed.
Lemma filter_inr s l (P P' : nat -> bool) : inr s l -> (forall a, (a < length (heap (w s)))%nat -> P' a = P a) -> filter P' l = filter P l.
Proof.
  intros F H. induction F as [|a l Ha F IH]; simpl; [reflexivity|]. now rewrite (H a Ha), IH.
Qed.
Lemma inr_le s s' l : kept s s' -> inr s l -> inr s' l.
Proof. intros [L _] F. eapply Forall_impl; [|exact F]. simpl. intros; lia. Qed.
Definition counter (s s' : sim) : Prop := count_ok s -> count_ok s'.
Lemma count_step s s' en ex : kept s s' ->
  entered (log s') = entered (log s) ++ en -> exits (log s') = exits (log s) ++ ex -> inr s' en -> inr s' ex ->
  (forall n, nproto (w s') n = nproto (w s) n + Z.of_nat (length (filter (fun a => counted s' a && proto_is s' n a) en)) - Z.of_nat (length (filter (proto_is s' n) ex))) ->
  (forall n, nspec (w s') n = nspec (w s) n + Z.of_nat (length (filter (fun a => counted s' a && spec_is s' n a) en)) - Z.of_nat (length (filter (spec_is s' n) ex))) ->
  counter s s'.
Proof.
  intros K E1 E2 R1 R2 H1 H2 [A B C D].
  assert (X := kept_read s s').
  constructor.
  - rewrite E1. apply Forall_app. split; [eapply inr_le; eauto|exact R1].
  - rewrite E2. apply Forall_app. split; [eapply inr_le; eauto|exact R2].
  - intros n. rewrite H1, C. unfold net. rewrite E1, E2, !filter_app, !app_length.
    rewrite (filter_inr s (entered (log s)) (fun a => counted s a && proto_is s n a) (fun a => counted s' a && proto_is s' n a)); [|exact A|].
    + rewrite (filter_inr s (exits (log s)) (proto_is s n) (proto_is s' n)); [lia|exact B|]. intros a La. now apply X.
    + intros a La. destruct (X a K La) as (Y1 & Y2 & Y3). now rewrite Y1, Y3.
  - intros n. rewrite H2, D. unfold net. rewrite E1, E2, !filter_app, !app_length.
    rewrite (filter_inr s (entered (log s)) (fun a => counted s a && spec_is s n a) (fun a => counted s' a && spec_is s' n a)); [|exact A|].
    + rewrite (filter_inr s (exits (log s)) (spec_is s n) (spec_is s' n)); [lia|exact B|]. intros a La. now apply X.
    + intros a La. destruct (X a K La) as (Y1 & Y2 & Y3). now rewrite Y2, Y3.
Qed.
Lemma count_quiet s s' : kept s s' -> entered (log s') = entered (log s) -> exits (log s') = exits (log s) ->
  nproto (w s') = nproto (w s) -> nspec (w s') = nspec (w s) -> counter s s'.
Proof.
  intros K E1 E2 E3 E4. apply (count_step s s' [] []); rewrite ?app_nil_r; auto; try constructor; intros n; rewrite ?E3, ?E4; simpl; lia.
Qed.
Lemma count_refl s : counter s s. Proof. unfold counter; auto. Qed.
Lemma count_trans a b c : counter a b -> counter b c -> counter a c. Proof. unfold counter; auto. Qed.
Lemma count_emit e s : plain e = true -> counter s (emit e s).
Proof.
  intros P. apply count_quiet; [now apply kept_heap| | |reflexivity|reflexivity].
    + simpl. now rewrite entered_app, plain_entered, app_nil_r.
    + simpl. now rewrite exits_app, plain_exits, app_nil_r.
Qed.
Lemma count_new k sh pr sp l : keeps counter (construct k sh pr sp l).
Proof.
  intros s o s' [= <- <-] _. apply count_quiet; auto.
    + split; simpl; [rewrite app_length; lia|]. intros a x H. exists x. split; [|unfold same_rest; tauto].
      rewrite nth_error_app1; [exact H|]. apply nth_error_Some. congruence.
    + simpl. rewrite entered_app. simpl. now rewrite app_nil_r.
    + simpl. rewrite exits_app. simpl. now rewrite app_nil_r.
Qed.
Lemma count_del a : keeps counter (del_agent a).
Proof.
  intros s o s' H N. apply del_normal in H; [|exact N].
    destruct H as [_ [[_ ->]|(Ia & x & L & E1 & E2 & E3 & E4 & E5 & E6 & E7 & E8 & F)]]; [unfold counter; auto|].
    apply count_quiet; auto.
    + eapply kept_map; [|exact E4|exact F]. intros; apply destroyed_rest.
    + rewrite E1, entered_app. simpl. now rewrite app_nil_r.
    + rewrite E1, exits_app. simpl. now rewrite app_nil_r.
Qed.
Lemma count_coarse : coarse counter.
Proof.
  constructor.
  - intros e s P. apply count_quiet; [now apply kept_heap| | |reflexivity|reflexivity].
    + simpl. now rewrite entered_app, plain_entered, app_nil_r.
    + simpl. now rewrite exits_app, plain_exits, app_nil_r.
  - intros f s. apply count_quiet; auto. now apply kept_heap.
  - intros f s o s' [= <- <-] _. apply count_quiet; auto. now apply kept_heap.
  - intros. apply count_new.
  - intros s a x n G. apply get_nth in G. destruct G as [G _].
    assert (L : (a < length (heap (w s)))%nat) by (apply nth_error_Some; congruence).
    apply count_quiet; auto. split; [simpl; rewrite upd_length; lia|].
    intros b y Hy. rewrite set_agent_nth by exact L. destruct (Nat.eqb_spec b a) as [->|Nb].
    + eexists. split; [reflexivity|]. assert (y = x) by congruence. subst. unfold same_rest; simpl; tauto.
    + exists y. split; [exact Hy|]. unfold same_rest; tauto.
  - apply create_from_del; auto using count_new, count_del, count_refl, count_emit; apply count_trans.
  - intros a s o s' H N. apply base_normal in H; [|exact N].
    destruct H as (_ & x & L & T & Ln & _ & _ & Np & Ns & C).
    assert (K : kept s s').
    { destruct C as [(Ni & El & Eh & _)|(Ia & E1 & E3 & F)]; [now apply kept_heap|].
      eapply kept_map; [|exact Ln|exact F]. intros; apply destroyed_rest. }
    assert (La : (a < length (heap (w s)))%nat) by (destruct L as [L _]; apply nth_error_Some; congruence).
    destruct (kept_read _ _ _ K La) as (Y1 & Y2 & Y3). destruct L as [L1 L2].
    apply (count_step s s' [] [a]); auto.
    + rewrite app_nil_r. destruct C as [(Ni & El & Eh & _)|(Ia & E1 & E3 & F)]; [rewrite El|rewrite E1]; rewrite entered_app; simpl; now rewrite app_nil_r.
    + destruct C as [(Ni & El & Eh & _)|(Ia & E1 & E3 & F)]; [rewrite El|rewrite E1]; now rewrite exits_app.
    + constructor.
    + constructor; [rewrite Ln; exact La|constructor].
    + intros n. rewrite Np. cbn [filter]. rewrite Y1. unfold proto_is. rewrite L1. destruct (String.eqb n (a_proto x)); simpl; lia.
    + intros n. rewrite Ns. cbn [filter]. rewrite Y2. unfold spec_is. rewrite L1. destruct (String.eqb n (a_spec x)); simpl; lia.
  - intros a p s o s' H N. apply front_normal in H; [|exact N].
    destruct H as [(-> & _ & ->)|(_ & Nq & x & pid & L & Lq & El & E2 & Ln & E4 & E5 & Np & Ns & F)].
    + apply count_quiet; [now apply kept_heap| | |reflexivity|reflexivity]; simpl; [rewrite entered_app|rewrite exits_app]; simpl; rewrite ?Nat.eqb_refl, app_nil_r; reflexivity.
    + assert (K : kept s s') by (eapply kept_map; [|exact Ln|exact F]; intros; apply joined_rest).
      assert (La : (a < length (heap (w s)))%nat) by (destruct L as [L _]; apply nth_error_Some; congruence).
      destruct (kept_read _ _ _ K La) as (Y1 & Y2 & Y3). destruct L as [L1 L2].
      assert (Ck : counted s a = match a_kind x with KFac | KOther => true | _ => false end).
      { unfold counted, kind_of. rewrite L1. reflexivity. }
      apply (count_step s s' [a] []); auto.
      * rewrite El. change ((tm (ti s), EBuild a p) :: ?m) with ([(tm (ti s), EBuild a p)] ++ m).
        rewrite !entered_app. destruct p as [q|]; simpl.
        -- destruct (Nat.eqb_spec q a); [congruence|]. destruct (a_kind x); reflexivity.
        -- destruct (a_kind x); reflexivity.
      * rewrite El, exits_app. destruct (a_kind x); reflexivity.
      * constructor; [rewrite Ln; exact La|constructor].
      * constructor.
      * intros n. rewrite Np. cbn [filter]. rewrite Y1, Y3, Ck. unfold proto_is. rewrite L1.
        destruct (a_kind x), (String.eqb n (a_proto x)); simpl; lia.
      * intros n. rewrite Ns. cbn [filter]. rewrite Y2, Y3, Ck. unfold spec_is. rewrite L1.
        destruct (a_kind x), (String.eqb n (a_spec x)); simpl; lia.
  - intros n a ov s o s' H N. unfold add_prototype, bind at 1, gets in H. destruct (_ && _); [injection H as <- <-; unfold counter; auto|].
    apply deref_inv in H; [|exact N]. destruct H as (x & G & H). injection H as <- <-.
    apply count_quiet; [now apply kept_heap| | |reflexivity|reflexivity]; simpl; [rewrite entered_app|rewrite exits_app]; simpl; now rewrite app_nil_r.
Qed.
Lemma run_count beh cond fuel setup t0 d o s' : simulate beh cond fuel setup t0 d = (o, s') -> o <> Undef -> count_ok s'.
Proof.
  intros H N. refine (coarse_simulate counter _ _ count_coarse _ _ _ _ _ _ _ _ H N _); unfold counter; auto.
  constructor; try constructor; reflexivity.
Qed.
(** When leaving agents had entered, the net count is the number present. *)
Lemma net_present (P cnt : nat -> bool) l : NoDup (entered l) -> NoDup (exits l) ->
  (forall a, In a (exits l) -> In a (entered l) /\ cnt a = true) ->
  net P cnt l = Z.of_nat (length (filter (fun a => cnt a && P a && negb (existsb (Nat.eqb a) (exits l))) (entered l))).
Proof.
  unfold net. generalize (entered l) (exits l). clear l. intros en ex De Dx H.
  assert (E : length (filter P ex) = length (filter (fun a => cnt a && P a && existsb (Nat.eqb a) ex) en)).
  { apply Nat.le_antisymm; apply NoDup_incl_length; auto using NoDup_filter.
    - intros a Ha. apply filter_In in Ha. destruct Ha as [Ia Pa]. destruct (H _ Ia) as [Ie Ca]. apply filter_In. split; [exact Ie|].
      rewrite Ca, Pa. simpl. now apply existsb_nat.
    - intros a Ha. apply filter_In in Ha. destruct Ha as [Ia Ca]. apply andb_prop in Ca. destruct Ca as [Ca Xa]. apply andb_prop in Ca.
      apply filter_In. split; [now apply existsb_nat|tauto]. }
  rewrite E. clear. 
  assert (X : forall (en : list nat), length (filter (fun a => cnt a && P a) en) =
     (length (filter (fun a => cnt a && P a && existsb (Nat.eqb a) ex) en) + length (filter (fun a => cnt a && P a && negb (existsb (Nat.eqb a) ex)) en))%nat).
  { induction en0 as [|a en0 IH]; simpl; [reflexivity|]. destruct (cnt a && P a); simpl; [|exact IH].
    destruct (existsb (Nat.eqb a) ex); simpl; rewrite IH; lia. }
  rewrite X. lia.
Qed.

(** ** Prototypes *)
Lemma proto_snoc n l x : proto_of n (l ++ [x]) = match snd x with EProto m a => if String.eqb n m then Some a else proto_of n l | _ => proto_of n l end.
Proof. unfold proto_of. rewrite fold_left_app. reflexivity. Qed.
Definition proto_ok (s : sim) : Prop := forall n, sfind n (protos (w s)) = proto_of n (log s).
Definition protor (s s' : sim) : Prop := proto_ok s -> proto_ok s'.
Definition no_proto (l : history) : Prop := Forall (fun x => match snd x with EProto _ _ => False | _ => True end) l.
Lemma proto_app n l m : no_proto m -> proto_of n (l ++ m) = proto_of n l.
Proof.
  induction m as [|x m IH] using rev_ind; intros F; [now rewrite app_nil_r|]. apply Forall_app in F. destruct F as [F1 F2].
  rewrite app_assoc, proto_snoc, (IH F1). inversion F2 as [|? ? X _]; subst. destruct (snd x); auto. contradiction.
Qed.
Lemma proto_same s s' m : protos (w s') = protos (w s) -> log s' = log s ++ m -> no_proto m -> protor s s'.
Proof. intros E L F P n. rewrite E, L, proto_app; auto. Qed.
Lemma proto_refl s : protor s s. Proof. unfold protor; auto. Qed.
Lemma proto_trans a b c : protor a b -> protor b c -> protor a c. Proof. unfold protor; auto. Qed.
Lemma proto_emit e s : plain e = true -> protor s (emit e s).
Proof.
  intros P. eapply proto_same; [reflexivity|reflexivity|]. constructor; [|constructor]. destruct e; try exact I. discriminate P.
Qed.
Lemma proto_new k sh pr sp l : keeps protor (construct k sh pr sp l).
Proof.
  intros s o s' [= <- <-] _. eapply proto_same; [reflexivity|reflexivity|]. constructor; [exact I|constructor].
Qed.
Lemma proto_del a : keeps protor (del_agent a).
Proof.
  intros s o s' H N. apply del_normal in H; [|exact N].
    destruct H as [_ [[_ ->]|(Ia & x & L & E1 & E2 & E3 & E4 & E5 & E6 & E7 & E8 & F)]]; [unfold protor; auto|].
    eapply proto_same; [exact E6|exact E1|]. constructor; [exact I|constructor].
Qed.
Lemma proto_coarse : coarse protor.
Proof.
  constructor.
  - intros e s P. eapply proto_same; [reflexivity|reflexivity|]. constructor; [|constructor]. destruct e; try exact I. discriminate P.
  - intros f s. apply (proto_same _ _ []); [reflexivity|simpl; now rewrite app_nil_r|constructor].
  - intros f s o s' [= <- <-] _. apply (proto_same _ _ []); [reflexivity|simpl; now rewrite app_nil_r|constructor].
  - intros. apply proto_new.
  - intros s a x n G. apply (proto_same _ _ []); [reflexivity|simpl; now rewrite app_nil_r|constructor].
  - apply create_from_del; auto using proto_new, proto_del, proto_refl, proto_emit; apply proto_trans.
  - intros a s o s' H N. apply base_normal in H; [|exact N].
    destruct H as (_ & x & L & T & Ln & _ & Ep & Np & Ns & [(Ni & El & Eh & _)|(Ia & E1 & E3 & F)]).
    + eapply proto_same; [exact Ep|exact El|]. constructor; [exact I|constructor].
    + eapply proto_same; [exact Ep|exact E1|]. constructor; [exact I|constructor; [exact I|constructor]].
  - intros a p s o s' H N. apply front_normal in H; [|exact N].
    destruct H as [(-> & _ & ->)|(_ & Nq & x & pid & L & Lq & El & E2 & Ln & E4 & E5 & Np & Ns & F)].
    + eapply proto_same; [reflexivity|reflexivity|]. constructor; [exact I|constructor].
    + eapply proto_same; [exact E5|exact El|]. constructor; [exact I|]. destruct (a_kind x); repeat constructor.
  - intros n a ov s o s' H N. unfold add_prototype, bind at 1, gets in H. destruct (_ && _); [injection H as <- <-; unfold protor; auto|].
    apply deref_inv in H; [|exact N]. destruct H as (x & G & H). injection H as <- <-.
    intros P m. simpl. rewrite proto_snoc. simpl. destruct (String.eqb m n); [reflexivity|apply P].
Qed.
Lemma run_proto beh cond fuel setup t0 d o s' : simulate beh cond fuel setup t0 d = (o, s') -> o <> Undef -> proto_ok s'.
Proof.
  intros H N. refine (coarse_simulate protor _ _ proto_coarse _ _ _ _ _ _ _ _ H N _); unfold protor; auto.
  intros n. reflexivity.
Qed.
