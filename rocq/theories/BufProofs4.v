(** * Buffers: Squash, pushing, Pop(q), and buffer calls as resource histories. *)
From Verif Require Import Base CompModel CompSpec CompProofs PackageModel
  ResourceModel ResourceSpec ResourceProofs1 ResourceProofs2 ResourceProofs3 ResourceProofs4 ResourceProofs5 ResourceProofs6
  BufModel BufSpec BufProofs1 BufProofs2 BufProofs3.
Open Scope Q_scope.

(** ** Moves: resource histories that bring nothing in and copy nothing. *)
Definition moves (E : env) (w w' : world) : Prop :=
  exists ops, Forall op_wf ops /\ Forall plain_op ops /\ Forall (fun o => op_supply o = 0) ops /\ run E ops w = Some w'.
Lemma run_app E a b w w' : run E a w = Some w' -> run E (a ++ b) w = run E b w'.
Proof.
  revert w. induction a as [|o a IH]; simpl; intros w H; [now inversion H|].
  destruct (step E o w) as [[u|e|] w1]; auto. discriminate.
Qed.
Lemma moves_refl E w : moves E w w.
Proof. exists []. repeat split; constructor. Qed.
Lemma moves_trans E a b c : moves E a b -> moves E b c -> moves E a c.
Proof.
  intros [o1 [A1 [A2 [A3 A4]]]] [o2 [B1 [B2 [B3 B4]]]]. exists (o1 ++ o2).
  split; [|split; [|split]]; try (apply Forall_app; auto). rewrite (run_app _ _ _ _ _ A4). auto.
Qed.
Lemma moves_step E o w r w' : op_wf o -> plain_op o -> op_supply o = 0 -> step E o w = (r, w') -> r <> UB -> moves E w w'.
Proof.
  intros A B C H N. exists [o]. split; [|split; [|split]]; try (constructor; auto). simpl. rewrite H. destruct r; congruence.
Qed.
Lemma moves_reach E w w' : moves E w w' -> reachable E w -> reachable E w'.
Proof.
  intros [ops [A [_ [_ R]]]] [o0 [A0 R0]]. exists (o0 ++ ops). split; [apply Forall_app; auto|].
  rewrite (run_app _ _ _ _ _ R0). auto.
Qed.
Lemma moves_total E w w' : moves E w w' -> total_qty w' == total_qty w.
Proof.
  intros [ops [_ [P [S R]]]]. rewrite (run_total _ _ _ _ P R).
  assert (X : qsum (map op_supply ops) == 0).
  { clear -S. induction S as [|o l Ho S IH]; simpl; [lra|]. rewrite Ho, IH. lra. }
  lra.
Qed.
Lemma moves_extract E i q w r w' : extract_res E i q w = (r, w') -> r <> UB -> moves E w w'.
Proof.
  intros H N. apply (moves_step E (OExtract i q) w (match r with Ok _ => Ok tt | Throw e => Throw e | UB => UB end)); simpl; auto.
  - unfold drop, bind. rewrite H. destruct r; auto.
  - destruct r; congruence.
Qed.
Lemma moves_absorb E i j w r w' : i <> j -> absorb E i j w = (r, w') -> r <> UB -> moves E w w'.
Proof. intros Hij H N. apply (moves_step E (OAbsorb i j) w r); simpl; auto. Qed.
Lemma moves_decay E i t w r w' : res_decay E i t w = (r, w') -> r <> UB -> moves E w w'.
Proof. intros H N. apply (moves_step E (ODecay i t) w r); simpl; auto. Qed.
Lemma moves_package E i p w r w' : change_package E i p w = (r, w') -> r <> UB -> moves E w w'.
Proof. intros H N. apply (moves_step E (OChangePackage i p) w r); simpl; auto. Qed.

(** Unpackaging never throws. *)
Lemma unpackage_ok E i w r w' : change_package E i unpackaged_name w = (r, w') -> r <> UB -> r = Ok tt.
Proof.
  intros H N. unfold change_package in H. mrget H.
  assert (K : forall w1 u w2, bind (rmod i (with_pkg unpackaged_name)) (fun _ => tr_package E i None) w1 = (u, w2) -> u <> UB -> u = Ok tt).
  { intros w1 u w2 G Nu. apply bind_inv in G as [[a [w3 [H1 G]]]|[[e [H1 G]]|[H1 G]]]; [| |congruence].
    - destruct (keeps_tr_package _ _ _ _ _ _ G Nu) as [[[] ->] _]. reflexivity.
    - apply rmod_inv in H1 as [? [_ [? _]]]; discriminate. }
  destruct (r_qual x) eqn:Eq.
  - unfold mat_change_package in H. mrget H. destruct (negb _); [inversion H; auto|].
    rewrite String.eqb_refl in H. apply rmod_inv in H as [y [_ [? _]]]; auto.
  - unfold prod_change_package in H. mrget H. destruct (_ || _); [inversion H; auto|].
    rewrite String.eqb_refl in H. eapply K; eauto.
Qed.

(** ** Mixing *)
Definition mixv (v : list (option string * Q)) (is : list nat) : Prop :=
  (forall i, In i is -> exists q, nth_error v i = Some (None, q) /\ 0 <= q) \/
  (exists s, forall i, In i is -> exists q, nth_error v i = Some (Some s, q)).
Lemma mixable_mixv w is : mixable w is -> mixv (vw w) is.
Proof.
  intros [H|[s H]]; [left|right; exists s]; intros i Hi.
  - destruct (H i Hi) as [r [c [A [B C]]]]. exists (r_qty r). rewrite (vw_nth _ _ _ A), B. auto.
  - destruct (H i Hi) as [r [A B]]. exists (r_qty r). rewrite (vw_nth _ _ _ A), B. auto.
Qed.
Lemma mixv_sub v is js : (forall i, In i js -> In i is) -> mixv v is -> mixv v js.
Proof. intros S [H|[s H]]; [left|right; exists s]; auto. Qed.

Lemma absorb_mix_ok E i j w r w' : env_ok E -> reachable E w -> i <> j -> mixv (vw w) [i; j] ->
  absorb E i j w = (r, w') -> r <> UB -> r = Ok tt.
Proof.
  intros HE HR Hij Hm H N. destruct r as [[]|e|]; auto; [|congruence]. exfalso.
  destruct (C02_absorb_lemma _ _ _ _ _ _ Hij H N) as [a [b [Ha [Hb [[? _]|[_ D]]]]]]; [discriminate|].
  apply vw_nth in Ha as Va. apply vw_nth in Hb as Vb.
  destruct Hm as [Hm|[s Hm]].
  - destruct (Hm i ltac:(simpl; auto)) as [qa [Na Pa]]. destruct (Hm j ltac:(simpl; auto)) as [qb [Nb Pb]].
    rewrite Va in Na. rewrite Vb in Nb. inversion Na; subst qa. inversion Nb; subst qb.
    destruct (r_qual a) as [ca|] eqn:Ea; [|discriminate]. destruct (r_qual b) as [cb|] eqn:Eb; [|discriminate].
    exact (C02_mix_never_throws_lemma _ _ _ _ _ _ _ _ _ _ HE HR Ha Hb Ea Eb Pa Pb H).
  - destruct (Hm i ltac:(simpl; auto)) as [qa Na]. destruct (Hm j ltac:(simpl; auto)) as [qb Nb].
    rewrite Va in Na. rewrite Vb in Nb. inversion Na as [[Ka _]]. inversion Nb as [[Kb _]].
    destruct D as [[sa [sb [Ea [Eb [Hne _]]]]]|[ca [cb [Ea _]]]].
    + rewrite Ea in Ka. rewrite Eb in Kb. simpl in *. congruence.
    + rewrite Ea in Ka. discriminate.
Qed.

(** After absorbing, what is left is still mixable. *)
Lemma absorb_mix_keep v v' i j k a b is : i <> j -> nth_error v i = Some (k, a) -> nth_error v j = Some (k, b) ->
  v' = upd (upd v i (k, a + b)) j (k, 0) -> In i is -> In j is -> mixv v is -> mixv v' is.
Proof.
  intros Hij Hi Hj -> Ii Ij Hm.
  assert (Li := nth_error_lt _ _ _ Hi). assert (Lj := nth_error_lt _ _ _ Hj).
  assert (X : forall n, nth_error (upd (upd v i (k, a + b)) j (k, 0)) n =
     if Nat.eqb n j then Some (k, 0) else if Nat.eqb n i then Some (k, a + b) else nth_error v n).
  { intros n. destruct (Nat.eqb_spec n j) as [->|Nj]; [apply nth_upd_same; rewrite upd_length; auto|].
    rewrite nth_upd_other by auto. destruct (Nat.eqb_spec n i) as [->|Ni]; [apply nth_upd_same; auto|].
    apply nth_upd_other; auto. }
  destruct Hm as [Hm|[s Hm]]; [left|right; exists s].
  - destruct (Hm i Ii) as [qa [Na Pa]]. destruct (Hm j Ij) as [qb [Nb Pb]]. rewrite Hi in Na. rewrite Hj in Nb.
    inversion Na; subst. inversion Nb; subst. intros n Hn. rewrite X.
    destruct (Nat.eqb n j); [exists 0; split; auto; lra|]. destruct (Nat.eqb n i); [eexists; split; eauto; lra|auto].
  - destruct (Hm i Ii) as [qa Na]. rewrite Hi in Na. inversion Na; subst. intros n Hn. rewrite X.
    destruct (Nat.eqb n j); [eauto|]. destruct (Nat.eqb n i); eauto.
Qed.

Lemma absorb_all_spec E i js : forall w r w', NoDup (i :: js) -> absorb_all E i js w = (r, w') -> r <> UB ->
  moves E w w' /\ length (vw w') = length (vw w) /\ (forall k, ~ In k (i :: js) -> nth_error (vw w') k = nth_error (vw w) k) /\
  (r = Ok tt -> qv (vw w') i == sumv (vw w) (i :: js)) /\
  (env_ok E -> reachable E w -> mixv (vw w) (i :: js) -> r = Ok tt).
Proof.
  induction js as [|j js IH]; intros w r w' Nd H N.
  - inversion H; subst. split; [apply moves_refl|]. split; auto. split; auto. split; auto. intros _.
    rewrite sumv_cons, sumv_nil. lra.
  - simpl in H. assert (Hij : i <> j) by (inversion Nd; subst; intros ->; simpl in *; tauto).
    apply bind_inv in H as [[u [w1 [H1 H]]]|[[e [H1 H]]|[H1 H]]]; [| |congruence].
    + assert (Nd' : NoDup (i :: js)).
      { inversion Nd as [|? ? A B]; subst. inversion B; subst. constructor; auto. simpl in A. tauto. }
      destruct (IH _ _ _ Nd' H N) as [Mv [Lv [Ov [Sv Okv]]]].
      destruct (vw_absorb _ _ _ _ _ _ Hij H1 ltac:(discriminate)) as [k [a [b [Ni [[e [? _]]|[_ [Nj V]]]]]]]; [discriminate|].
      assert (Li := nth_error_lt _ _ _ Ni). assert (Lj := nth_error_lt _ _ _ Nj).
      split; [eapply moves_trans; [eapply moves_absorb; eauto; discriminate|exact Mv]|].
      split; [rewrite Lv, V, !upd_length; auto|]. split; [|split].
      * intros n Hn. rewrite Ov by (simpl in *; tauto). rewrite V, !nth_upd_other by (simpl in Hn; intros ->; tauto). auto.
      * intros ->. rewrite Sv by auto. rewrite !sumv_cons, V, qv_upd_other, qv_upd by auto.
        assert (Hj : ~ In j js) by (inversion Nd as [|? ? A B]; inversion B; auto).
        assert (Hi : ~ In i js) by (inversion Nd'; auto).
        rewrite !sumv_notin by auto. simpl. unfold qv. rewrite Ni, Nj. simpl. lra.
      * intros HE HR Hm. apply Okv; auto.
        -- eapply moves_reach; [eapply moves_absorb; eauto; discriminate|auto].
        -- eapply mixv_sub; [|eapply (absorb_mix_keep (vw w) _ i j k a b (i :: j :: js)); eauto; simpl; auto].
           simpl. tauto.
    + subst r. destruct (vw_absorb _ _ _ _ _ _ Hij H1 ltac:(discriminate)) as [k [a [b [Ni [[e' [_ [V _]]]|[? _]]]]]]; [|discriminate].
      split; [eapply moves_absorb; eauto|]. rewrite V. split; auto. split; auto. split; [discriminate|].
      intros HE HR Hm. apply (absorb_mix_ok _ _ _ _ _ _ HE HR Hij) in H1; auto.
      eapply mixv_sub; [|exact Hm]. simpl. tauto.
Qed.

Lemma squash_spec E is w r w' : NoDup is -> squash E is w = (r, w') -> r <> UB ->
  match is with
  | [] => r = Throw PlainError /\ w' = w
  | i :: _ => moves E w w' /\ length (vw w') = length (vw w) /\ (forall k, ~ In k is -> nth_error (vw w') k = nth_error (vw w) k) /\
      (forall x, r = Ok x -> x = i /\ qv (vw w') i == sumv (vw w) is) /\
      (env_ok E -> reachable E w -> mixv (vw w) is -> r = Ok i)
  end.
Proof.
  intros Nd H N. destruct is as [|i js]; [inversion H; auto|]. simpl in H.
  apply bind_inv in H as [[[] [w1 [H1 H]]]|[[e [H1 H]]|[H1 H]]]; [| |congruence].
  - destruct (absorb_all_spec _ _ _ _ _ _ Nd H1 ltac:(discriminate)) as [Mv [Lv [Ov [Sv Okv]]]].
    apply bind_inv in H as [[u [w2 [H2 H]]]|[[e [H2 H]]|[H2 H]]]; [| |congruence].
    + assert (V := vw_change_package _ _ _ _ _ _ H2 ltac:(discriminate)). inversion H; subst r w2; clear H.
      rewrite V. split; [eapply moves_trans; [exact Mv|eapply moves_package; eauto; discriminate]|].
      split; auto. split; auto. split; auto. intros x Hx. inversion Hx; subst. auto.
    + apply unpackage_ok in H2; [discriminate|discriminate].
  - subst r. destruct (absorb_all_spec _ _ _ _ _ _ Nd H1 ltac:(discriminate)) as [Mv [Lv [Ov [Sv Okv]]]].
    split; auto. split; auto. split; auto. split; [discriminate|]. intros A B C. specialize (Okv A B C). discriminate.
Qed.
