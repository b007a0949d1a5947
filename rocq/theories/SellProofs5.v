(** * SellProofs5: a sell policy that packages ships no more packages than its transport unit takes. *)
From Coq Require Import String.
From Verif Require Import Base CompModel CompSpec PackageModel PackageProofs PackageProofs2 ResourceModel ResourceSpec
  ResourceProofs1 ResourceProofs2 BufModel BufSpec BufProofs1 BufProofs2 BufProofs6 GreedyModel ExchangeModel
  SellModel SellSpec SellProofs1 SellProofs2 SellProofs3.
Local Open Scope Q_scope.

(** ** Computations that keep a field of every resource *)
Section Keep.
Variable P : Type.
Variable proj : resource -> P.
Definition kept (w w' : world) : Prop :=
  forall i r, nth_error (w_res w) i = Some r -> exists r', nth_error (w_res w') i = Some r' /\ proj r' = proj r.
Definition K {A} (m : M A) : Prop := forall w a w', m w = (Ok a, w') -> kept w w'.
Definition fine (f : resource -> resource) : Prop := forall r, proj (f r) = proj r.

Lemma kept_refl w : kept w w.
Proof. intros i r H. eauto. Qed.
Lemma kept_trans a b c : kept a b -> kept b c -> kept a c.
Proof. intros A B i r H. destruct (A i r H) as [r1 [H1 E1]]. destruct (B i r1 H1) as [r2 [H2 E2]]. exists r2. split; congruence. Qed.
Lemma kept_same w w' : w_res w' = w_res w -> kept w w'.
Proof. intros E i r H. exists r. rewrite E. auto. Qed.
Lemma K_ret A (a : A) : K (ret a). Proof. intros w x w' H. injection H as <- <-. apply kept_refl. Qed.
Lemma K_throw A e : K (@throw A e). Proof. intros w x w' H. discriminate. Qed.
Lemma K_ub A : K (@ub A). Proof. intros w x w' H. discriminate. Qed.
Lemma K_bind A B (m : M A) (f : A -> M B) : K m -> (forall a, K (f a)) -> K (bind m f).
Proof.
  intros H1 H2 w x w' H. apply bind_ok in H as [a [w1 [A1 A2]]].
  eapply kept_trans; [eapply H1; eauto|eapply H2; eauto].
Qed.
Lemma K_get : K get. Proof. intros w x w' H. injection H as <- <-. apply kept_refl. Qed.
Lemma K_lift A (r : result A) : K (lift r). Proof. intros w x w' H. injection H as _ <-. apply kept_refl. Qed.
Lemma K_deref A (o : option A) : K (deref o). Proof. destruct o; [apply K_ret|apply K_ub]. Qed.
Lemma K_rget i : K (rget i).
Proof. intros w x w' H. apply rget_some in H as [_ ->]. apply kept_refl. Qed.
Lemma K_cref i : K (cref i).
Proof. intros w x w' H. apply cref_some in H as [_ ->]. apply kept_refl. Qed.
Lemma K_modify f : (forall w, w_res (f w) = w_res w) -> K (modify f).
Proof. intros E w x w' H. injection H as _ <-. apply kept_same. auto. Qed.
Lemma K_rmod i f : fine f -> K (rmod i f).
Proof.
  intros F w x w' H. unfold rmod in H. apply bind_ok in H as [r [w1 [H1 H2]]]. apply rget_some in H1 as [H1 ->].
  injection H2 as _ <-. intros k s Hk. cbn. destruct (Nat.eq_dec i k) as [->|N].
  - exists (f r). rewrite nth_upd_same by (apply (nth_error_lt _ _ _ H1)). split; auto. rewrite F. congruence.
  - exists s. rewrite nth_upd_other by auto. auto.
Qed.
Lemma K_new q c x p : K (new_resource q c x p).
Proof.
  intros w a w' H. unfold new_resource in H. injection H as _ <-. intros i r Hr. exists r. split; auto.
  cbn. rewrite nth_error_app1; auto. apply (nth_error_lt _ _ _ Hr).
Qed.
Lemma K_cmod c f : K (cmod c f).
Proof. apply K_bind; [apply K_cref|]. intros x. apply K_modify. reflexivity. Qed.
Lemma K_emit d : K (emit d). Proof. apply K_modify. reflexivity. Qed.
Hypothesis F_qty : forall q, fine (with_qty q).
Hypothesis F_qual : forall q, fine (with_qual q).
Hypothesis F_state : forall q, fine (with_state q).
Hypothesis F_tracked : forall q, fine (with_tracked q).
Hypothesis F_parents : forall a b, fine (with_parents a b).
Hypothesis F_prev : forall q, fine (with_prev q).
Lemma K_bump i : K (bump_state i).
Proof.
  intros w a w' H. unfold bump_state in H. apply bind_ok in H as [x [w1 [H1 H2]]].
  eapply kept_trans; [eapply K_rmod; [|exact H1]; auto|]. injection H2 as _ <-. now apply kept_same.
Qed.
Lemma K_comp_new a m : K (comp_new a m).
Proof. intros w x w' H. injection H as _ <-. now apply kept_same. Qed.
Lemma K_comp_line a p l : K (comp_new_in_line a p l).
Proof. intros w x w' H. injection H as _ <-. now apply kept_same. Qed.

Ltac kx := fail.
Ltac kk := repeat first
  [ kx | apply K_ret | apply K_throw | apply K_ub | apply K_get | apply K_lift | apply K_deref | apply K_rget | apply K_cref
  | apply K_new | apply K_cmod | apply K_emit | apply K_bump | apply K_comp_new | apply K_comp_line
  | (apply K_rmod; solve [auto | intros ?; auto])
  | (apply K_modify; reflexivity)
  | (simple apply K_bind; [|intros ?])
  | match goal with
    | |- K (if ?b then _ else _) => destruct b
    | |- K (match ?o with _ => _ end) => destruct o
    | |- K (let _ := _ in _) => cbv zeta
    end ].
Variable E : env.
Lemma K_qual_id q : K (qual_id q). Proof. unfold qual_id. kk. Qed.
Lemma K_comp_record c : K (comp_record E c). Proof. unfold comp_record. kk. Qed.
Lemma K_cfm v : K (create_from_mass E v). Proof. unfold create_from_mass. kk. Qed.
Lemma K_ptr r : K (mat_comp_ptr r). Proof. unfold mat_comp_ptr. kk. Qed.
Lemma K_quality r : K (prod_quality r). Proof. unfold prod_quality. kk. Qed.
Lemma K_comp_decay c d t : K (comp_decay E c d t). Proof. unfold comp_decay, new_decay. kk. Qed.
Ltac kx ::= first [simple apply K_comp_record | simple apply K_qual_id | simple apply K_cfm | simple apply K_ptr | simple apply K_quality | simple apply K_comp_decay].
Lemma K_res_record c : K (res_record E c). Proof. unfold res_record. kk. Qed.
Ltac kx ::= first [simple apply K_res_record | simple apply K_qual_id | simple apply K_cfm | simple apply K_ptr | simple apply K_quality | simple apply K_comp_decay].
Lemma K_tr_record b i : K (tr_record E b i). Proof. unfold tr_record. kk. Qed.
Lemma F_tp t a : fine (fun r => with_tracked t (with_parents a 0 r)).
Proof. intros r. rewrite F_tracked. apply F_parents. Qed.
Lemma F_qtyf (f : resource -> Q) : fine (fun r => with_qty (f r) r).
Proof. intros r. apply F_qty. Qed.
Ltac kx ::= first [simple apply K_tr_record | (apply K_rmod; apply F_tp) | (apply K_rmod; apply F_qtyf)].
Lemma K_tr_modify i : K (tr_modify E i). Proof. unfold tr_modify. kk. Qed.
Lemma K_tr_extract i j : K (tr_extract E i j). Proof. unfold tr_extract. kk. Qed.
Lemma K_tr_absorb i j : K (tr_absorb E i j). Proof. unfold tr_absorb. kk. Qed.
Lemma K_tr_package i p : K (tr_package E i p). Proof. unfold tr_package. kk. Qed.
Ltac kx ::= first [simple apply K_tr_modify | simple apply K_tr_extract | simple apply K_tr_absorb | simple apply K_tr_package | simple apply K_cfm | simple apply K_ptr | simple apply K_quality | simple apply K_comp_decay | (apply K_rmod; apply F_qtyf)].
Lemma K_extract_comp i q c t : K (mat_extract_comp E i q c t). Proof. unfold mat_extract_comp. kk. Qed.
Lemma K_prod_extract i q : K (prod_extract E i q). Proof. unfold prod_extract. kk. Qed.
Lemma K_transmute i c : K (mat_transmute E i c). Proof. unfold mat_transmute. kk. Qed.
Lemma K_extract_res i q : K (extract_res E i q).
Proof. unfold extract_res, mat_extract_qty. kk; first [apply K_extract_comp|apply K_prod_extract]. Qed.
Lemma K_decay i t : K (mat_decay E i t). Proof. unfold mat_decay. kk; apply K_transmute. Qed.
Lemma K_comp i : K (mat_comp E i). Proof. unfold mat_comp. kk; apply K_decay. Qed.
Lemma K_absorb i j : K (absorb E i j).
Proof. unfold absorb, mat_absorb, prod_absorb. kk; apply K_comp. Qed.
Lemma K_absorb_all i js : K (absorb_all E i js).
Proof. induction js; cbn [absorb_all]; kk; first [apply K_absorb|apply IHjs]. Qed.
Lemma K_package_extract i q p : K (package_extract E i q p).
Proof. unfold package_extract, mat_package_extract, prod_package_extract. kk. Qed.
Lemma K_package_loop i n l : K (package_loop E i n l).
Proof. induction l; cbn [package_loop]; kk; first [apply K_package_extract|apply IHl]. Qed.
Lemma K_package i p l : K (res_package E i p l).
Proof. unfold res_package. kk; apply K_package_loop. Qed.
Lemma K_adjust v j t : K (v_adjust E v j t).
Proof. unfold v_adjust. kk; first [apply K_comp|apply K_transmute]. Qed.
Hypothesis F_pkg : forall p, fine (with_pkg p).
Lemma K_change i p : K (change_package E i p).
Proof. unfold change_package, mat_change_package, prod_change_package, get_package. kk. Qed.
Lemma K_squash l : K (squash E l).
Proof. unfold squash. kk; first [apply K_absorb_all|apply K_change]. Qed.
End Keep.

Notation ckept := (kept bool r_ctx).
Lemma ck_squash E l w x w' : squash E l w = (Ok x, w') -> ckept w w'.
Proof. apply K_squash; intros; intros ?; reflexivity. Qed.
Lemma ck_package E i p l w x w' : res_package E i p l w = (Ok x, w') -> ckept w w'.
Proof. apply K_package; intros; intros ?; reflexivity. Qed.
Lemma ck_extract E i q w x w' : extract_res E i q w = (Ok x, w') -> ckept w w'.
Proof. apply K_extract_res; intros; intros ?; reflexivity. Qed.
Lemma ck_change E i q w x w' : change_package E i q w = (Ok x, w') -> ckept w w'.
Proof. apply K_change; intros; intros ?; reflexivity. Qed.
Lemma ck_absorb E i q w x w' : absorb E i q w = (Ok x, w') -> ckept w w'.
Proof. apply K_absorb; intros; intros ?; reflexivity. Qed.
Lemma ck_comp E i w x w' : mat_comp E i w = (Ok x, w') -> ckept w w'.
Proof. apply K_comp; intros; intros ?; reflexivity. Qed.
Lemma ck_adjust E v i t w x w' : v_adjust E v i t w = (Ok x, w') -> ckept w w'.
Proof. apply K_adjust; intros; intros ?; reflexivity. Qed.

Lemma in_ctx_kept w w' i : ckept w w' -> in_ctx w i -> in_ctx w' i.
Proof. intros K [r [H C]]. destruct (K i r H) as [r' [H' E']]. exists r'. split; congruence. Qed.

(** What is extracted has the context of what it is taken from. *)
Lemma new_ctx q c x p w i w' : new_resource q c x p w = (Ok i, w') -> c = true -> in_ctx w' i.
Proof.
  unfold new_resource. intros H C. injection H as <- <-. eexists. cbn. rewrite nth_error_app2, Nat.sub_diag by lia.
  cbn. split; eauto.
Qed.
Ltac fin_ctx := match goal with |- fine _ _ _ => intros ?; reflexivity | _ => intros; intros ?; reflexivity end.
Lemma extract_ctx E i q w j w' : extract_res E i q w = (Ok j, w') -> in_ctx w i -> in_ctx w' j.
Proof.
  intros H C. unfold extract_res in H. apply bind_ok in H as [r [w1 [H1 H]]]. apply rget_some in H1 as [H1 ->].
  destruct (r_qual r).
  - unfold mat_extract_qty in H. apply bind_ok in H as [r1 [w1 [H2 H]]]. apply rget_some in H2 as [_ ->].
    apply bind_ok in H as [cp [w1 [H2 H]]]. assert (C1 := in_ctx_kept _ _ _ (K_ptr _ _ _ _ _ _ H2) C). clear H2.
    unfold mat_extract_comp in H. apply bind_ok in H as [r2 [w2 [H2 H]]]. apply rget_some in H2 as [_ ->].
    apply bind_ok in H as [c2 [w2 [H2 H]]]. assert (C2 := in_ctx_kept _ _ _ (K_ptr _ _ _ _ _ _ H2) C1). clear H2.
    destruct (Qltb (r_qty r2) q); [discriminate|].
    apply bind_ok in H as [u [w3 [H3 H]]].
    assert (C3 : in_ctx w3 i).
    { revert H3. destruct (Nat.eqb c2 cp).
      - intros H3. injection H3 as _ <-. exact C2.
      - intros H3. apply bind_ok in H3 as [x1 [v1 [A1 H3]]]. apply cref_some in A1 as [_ ->].
        apply bind_ok in H3 as [x2 [v2 [A1 H3]]]. apply cref_some in A1 as [_ ->].
        apply bind_ok in H3 as [x3 [v3 [A1 H3]]]. injection A1 as _ <-.
        apply bind_ok in H3 as [x4 [v4 [A1 H3]]].
        apply (in_ctx_kept v4); [eapply (K_rmod bool r_ctx); [|exact H3]; fin_ctx|].
        apply (in_ctx_kept w2); [eapply (K_cfm bool r_ctx); exact A1|exact C2]. }
    apply bind_ok in H as [u4 [w4 [H4 H]]].
    assert (C4 : in_ctx w4 i) by (apply (in_ctx_kept w3); [eapply (K_rmod bool r_ctx); [|exact H4]; fin_ctx|exact C3]).
    apply bind_ok in H as [r5 [w5 [H5 H]]]. apply rget_some in H5 as [H5 ->].
    assert (R5 : r_ctx r5 = true) by (destruct C4 as [x [X Y]]; congruence).
    apply bind_ok in H as [k [w6 [H6 H]]]. assert (C6 := new_ctx _ _ _ _ _ _ _ H6 R5).
    apply bind_ok in H as [u7 [w7 [H7 H]]].
    assert (C7 : in_ctx w7 k) by (apply (in_ctx_kept w6); [eapply (K_rmod bool r_ctx); [|exact H7]; fin_ctx|exact C6]).
    apply bind_ok in H as [u8 [w8 [H8 H]]]. injection H as <- <-.
    apply (in_ctx_kept w7); [eapply (K_tr_extract bool r_ctx); [..|exact H8]; fin_ctx|exact C7].
  - unfold prod_extract in H. apply bind_ok in H as [r1 [w1 [H2 H]]]. apply rget_some in H2 as [H2 ->].
    assert (R1 : r_ctx r1 = true) by (destruct C as [x [X Y]]; congruence).
    apply bind_ok in H as [cp [w1 [H3 H]]].
    destruct (Qltb (r_qty r1) q); [discriminate|].
    apply bind_ok in H as [u [w3 [H4 H]]].
    apply bind_ok in H as [k [w6 [H6 H]]]. assert (C6 := new_ctx _ _ _ _ _ _ _ H6 R1).
    apply bind_ok in H as [u8 [w8 [H8 H]]]. injection H as <- <-.
    apply (in_ctx_kept w6); [eapply (K_tr_extract bool r_ctx); [..|exact H8]; fin_ctx|exact C6].
Qed.

(** After ChangePackage to "unpackaged" a resource with a context has that package. *)
Lemma change_unpkg E i w w' : change_package E i unpackaged_name w = (Ok tt, w') -> in_ctx w i ->
  exists r, nth_error (w_res w') i = Some r /\ r_pkg r = unpackaged_name.
Proof.
  intros H [r0 [N0 C0]]. unfold change_package in H. apply bind_ok in H as [r [w1 [H1 H]]]. apply rget_some in H1 as [H1 ->].
  assert (Rm : forall w1 u, rmod i (with_pkg unpackaged_name) w = (Ok u, w1) -> exists r, nth_error (w_res w1) i = Some r /\ r_pkg r = unpackaged_name).
  { intros w1 u X. unfold rmod in X. apply bind_ok in X as [x [w2 [X1 X]]]. apply rget_some in X1 as [X1 ->].
    injection X as _ <-. eexists. cbn. rewrite nth_upd_same by (apply (nth_error_lt _ _ _ X1)). split; reflexivity. }
  destruct (r_qual r).
  - unfold mat_change_package in H. apply bind_ok in H as [r1 [w1 [H2 H]]]. apply rget_some in H2 as [H2 ->].
    assert (R1 : r_ctx r1 = true) by congruence. rewrite R1 in H. cbn in H. eapply Rm; exact H.
  - unfold prod_change_package in H. apply bind_ok in H as [r1 [w1 [H2 H]]]. apply rget_some in H2 as [H2 ->].
    assert (R1 : r_ctx r1 = true) by congruence. rewrite R1 in H. cbn [negb] in H. rewrite orb_false_r in H.
    destruct (String.eqb_spec unpackaged_name (r_pkg r1)) as [E1|N1].
    + injection H as <-. exists r1. auto.
    + rewrite String.eqb_refl in H. apply bind_ok in H as [u [w2 [H3 H]]]. destruct (Rm _ _ H3) as [r2 [N2 P2]].
      assert (Kp : kept string r_pkg w2 w') by (eapply (K_tr_package string r_pkg); [..|exact H]; fin_ctx).
      destruct (Kp i r2 N2) as [r3 [N3 P3]]. exists r3. split; auto. congruence.
Qed.
Lemma squash_unpkg E l w x w' : squash E l w = (Ok x, w') -> Forall (in_ctx w) l ->
  In x l /\ in_ctx w' x /\ exists r, nth_error (w_res w') x = Some r /\ r_pkg r = unpackaged_name.
Proof.
  intros H F. assert (Kw := ck_squash _ _ _ _ _ H). destruct l as [|i l]; [discriminate|].
  cbn [squash] in H. apply bind_ok in H as [u [w1 [H1 H]]]. apply bind_ok in H as [u2 [w2 [H2 H]]]. injection H as <- <-.
  assert (C1 : in_ctx w1 i).
  { apply (in_ctx_kept w); [eapply (K_absorb_all bool r_ctx); [..|exact H1]; fin_ctx|apply (Forall_inv F)]. }
  split; [now left|]. split; [apply (in_ctx_kept w); [exact Kw|apply (Forall_inv F)]|].
  destruct u2. eapply change_unpkg; eauto.
Qed.

(** ** The buffer *)
Lemma update_keeps w b a w' b' : update_qty (w, b) = (Ok a, (w', b')) -> w' = w /\ b_rs b' = b_rs b.
Proof.
  unfold update_qty. intros H. apply bbind_inv in H as [b1 [s1 [H1 H]]]. inversion H1; subst b1 s1; clear H1.
  cbn [snd] in H. destruct (b_rs b) as [|i [|k l]] eqn:Eb.
  - inversion H; subst. cbn. auto.
  - apply bbind_inv in H as [r [[w1 b1] [H1 H]]]. apply call_inv in H1 as [w2 [H1 X]]. inversion X; subst w2 b1; clear X.
    apply rget_some in H1 as [_ ->]. inversion H; subst. cbn. auto.
  - inversion H; subst. auto.
Qed.
Lemma popvec_ctx E fuel : forall left w b outs w' b', popvec_loop E fuel left (w, b) = (Ok outs, (w', b')) ->
  Forall (in_ctx w) (b_rs b) ->
  ckept w w' /\ Forall (in_ctx w') outs /\ (forall i, In i (b_rs b') -> In i (b_rs b)).
Proof.
  induction fuel as [|fuel IH]; intros left w b outs w' b' H F; [discriminate|].
  cbn [popvec_loop] in H. apply bbind_inv in H as [b1 [s1 [H1 H]]]. inversion H1; subst b1 s1; clear H1. cbn [snd] in H.
  destruct (Qltb 0 left).
  2:{ inversion H; subst. split; [apply kept_refl|]. split; [constructor|auto]. }
  destruct (b_rs b) as [|i rest] eqn:Eb.
  { inversion H; subst. split; [apply kept_refl|]. split; [constructor|]. rewrite Eb. auto. }
  apply bbind_inv in H as [r [[w1 b1] [H1 H]]]. apply call_inv in H1 as [w2 [H1 X]]. inversion X; subst w2 b1; clear X.
  apply rget_some in H1 as [_ ->].
  apply bbind_inv in H as [out [[w2 b2] [H2 H]]].
  assert (S : ckept w w2 /\ in_ctx w2 out /\ (forall k, In k (b_rs b2) -> In k (i :: rest))).
  { destruct (Qltb left (r_qty r)).
    - apply call_inv in H2 as [w3 [H2 X]]. inversion X; subst w3 b2; clear X.
      split; [apply (ck_extract _ _ _ _ _ _ H2)|]. split; [apply (extract_ctx _ _ _ _ _ _ H2 (Forall_inv F))|]. rewrite Eb. auto.
    - inversion H2; subst. split; [apply kept_refl|]. split; [apply (Forall_inv F)|]. cbn. auto. }
  destruct S as [K2 [C2 S2]].
  apply bbind_inv in H as [o [[w3 b3] [H3 H]]]. apply call_inv in H3 as [w4 [H3 X]]. inversion X; subst w4 b3; clear X.
  apply rget_some in H3 as [_ ->].
  apply bbind_inv in H as [u [[w4 b4] [H4 H]]]. inversion H4; subst w4 b4; clear H4.
  apply bbind_inv in H as [outs' [[w5 b5] [H5 H]]]. inversion H; subst outs w5 b5; clear H.
  cbn [fst snd] in H5.
  destruct (IH _ _ _ _ _ _ H5) as [K5 [C5 S5]].
  { cbn. apply Forall_forall. intros k Hk. apply (in_ctx_kept w); [exact K2|]. rewrite Forall_forall in F. apply F. auto. }
  split; [eapply kept_trans; eauto|]. split.
  - constructor; [apply (in_ctx_kept w2); auto|exact C5].
  - intros k Hk. apply S2. apply (S5 k Hk).
Qed.
Lemma popn_ctx n : forall w b outs w' b', popn_loop n (w, b) = (Ok outs, (w', b')) ->
  w' = w /\ b_rs b = outs ++ b_rs b'.
Proof.
  induction n as [|n IH]; intros w b outs w' b' H; cbn [popn_loop] in H.
  - inversion H; subst. auto.
  - apply bbind_inv in H as [b1 [s1 [H1 H]]]. inversion H1; subst b1 s1; clear H1. cbn [snd] in H.
    destruct (b_rs b) as [|i rest] eqn:Eb; [discriminate|].
    apply bbind_inv in H as [r [[w1 b1] [H1 H]]]. apply call_inv in H1 as [w2 [H1 X]]. inversion X; subst w2 b1; clear X.
    apply rget_some in H1 as [_ ->].
    apply bbind_inv in H as [u [[w3 b3] [H3 H]]]. inversion H3; subst w3 b3; clear H3.
    apply bbind_inv in H as [u2 [[w4 b4] [H4 H]]]. inversion H4; subst w4 b4; clear H4.
    apply bbind_inv in H as [u3 [[w5 b5] [H5 H]]]. inversion H5; subst w5 b5; clear H5.
    apply bbind_inv in H as [outs' [[w6 b6] [H6 H]]]. inversion H; subst outs w6 b6; clear H.
    cbn [fst snd] in H6. apply IH in H6 as [-> Er]. cbn in Er. subst rest. auto.
Qed.
Lemma pop_ctx E q e w b x w' b' : buf_pop_qty_eps E q e (w, b) = (Ok x, (w', b')) -> Forall (in_ctx w) (b_rs b) ->
  ckept w w' /\ in_ctx w' x /\ (exists r, nth_error (w_res w') x = Some r /\ r_pkg r = unpackaged_name) /\
  (forall i, In i (b_rs b') -> In i (b_rs b)).
Proof.
  intros H F. unfold buf_pop_qty_eps in H. apply bbind_inv in H as [b1 [s1 [H1 H]]]. inversion H1; subst b1 s1; clear H1.
  cbn [snd] in H. destruct (Qltb (b_qty b + e) q); [discriminate|].
  assert (X : exists outs w1 b1, ckept w w1 /\ Forall (in_ctx w1) outs /\ (forall i, In i (b_rs b1) -> In i (b_rs b)) /\
     squash E outs w1 = (Ok x, w') /\ b' = b1).
  { destruct (Qleb (b_qty b) q).
    - apply bbind_inv in H as [outs [[w1 b1] [H1 H]]]. unfold buf_pop_n in H1.
      apply bbind_inv in H1 as [b2 [s2 [H2 H1]]]. inversion H2; subst b2 s2; clear H2. cbn [snd] in H1.
      destruct ((count b <? count b)%Z || (count b <? 0)%Z); [discriminate|].
      apply bbind_inv in H1 as [outs' [[w2 b2] [H2 H1]]].
      apply bbind_inv in H1 as [u [[w3 b3] [H3 H1]]]. inversion H1; subst outs' w3 b3; clear H1.
      apply popn_ctx in H2 as [-> Er]. apply update_keeps in H3 as [-> Eu].
      apply call_inv in H as [w4 [H Y]]. inversion Y; subst w4 b'; clear Y.
      exists outs, w, b1. split; [apply kept_refl|]. rewrite Er in F. apply Forall_app in F. split; [apply F|].
      split; [|auto]. intros i Hi. rewrite Er. apply in_or_app. right. congruence.
    - unfold buf_pop_qty in H. apply bbind_inv in H as [outs [[w1 b1] [H1 H]]]. unfold buf_pop_vector in H1.
      apply bbind_inv in H1 as [b2 [s2 [H2 H1]]]. inversion H2; subst b2 s2; clear H2. cbn [snd] in H1.
      destruct (Qltb (b_qty b) q); [discriminate|].
      apply bbind_inv in H1 as [outs' [[w2 b2] [H2 H1]]].
      apply bbind_inv in H1 as [u [[w3 b3] [H3 H1]]]. inversion H1; subst outs' w3 b3; clear H1.
      destruct (popvec_ctx _ _ _ _ _ _ _ _ H2 F) as [K2 [C2 S2]]. apply update_keeps in H3 as [-> Eu].
      apply call_inv in H as [w4 [H Y]]. inversion Y; subst w4 b'; clear Y.
      exists outs, w2, b1. split; [exact K2|]. split; [exact C2|]. split; [|auto]. intros i Hi. apply S2. congruence. }
  destruct X as [outs [w1 [b1 [K1 [C1 [S1 [Sq ->]]]]]]].
  destruct (squash_unpkg _ _ _ _ _ Sq C1) as [_ [Cx Px]].
  split; [eapply kept_trans; [exact K1|eapply ck_squash; exact Sq]|]. split; [exact Cx|]. split; [exact Px|exact S1].
Qed.
Lemma push_ctx E x w b u w' b' : buf_push E EMaterial x (w, b) = (Ok u, (w', b')) ->
  ckept w w' /\ (forall i, In i (b_rs b') -> In i (b_rs b) \/ i = x).
Proof.
  intros H. unfold buf_push in H.
  apply bbind_inv in H as [r [[w1 b1] [H1 H]]]. apply call_inv in H1 as [w2 [H1 X]]. inversion X; subst w2 b1; clear X.
  apply rget_some in H1 as [_ ->].
  apply bbind_inv in H as [b1 [s1 [H1 H]]]. inversion H1; subst b1 s1; clear H1. cbn [snd] in H.
  destruct (negb (casts EMaterial r)); [discriminate|]. destruct (too_big _ _ _); [discriminate|]. destruct (present x b); [discriminate|].
  apply bbind_inv in H as [u1 [[w3 b3] [H3 H]]].
  apply bbind_inv in H as [r4 [[w4 b4] [H4 H]]]. apply call_inv in H4 as [w5 [H4 X]]. inversion X; subst w5 b4; clear X.
  apply rget_some in H4 as [_ ->].
  apply bbind_inv in H as [u5 [[w5 b5] [H5 H]]]. inversion H5; subst w5 b5; clear H5.
  apply update_keeps in H as [-> Eu]. rewrite Eu. cbn.
  assert (Sp : forall w b u w1 b1, (if b_keep b then bret tt else call (change_package E x unpackaged_name)) (w, b) = (Ok u, (w1, b1)) ->
     ckept w w1 /\ b1 = b).
  { intros y c u0 y1 c1 X. destruct (b_keep c).
    - inversion X; subst. split; [apply kept_refl|auto].
    - apply call_inv in X as [y2 [X Y]]. inversion Y; subst. split; [apply (ck_change _ _ _ _ _ _ X)|auto]. }
  assert (Ap : forall u, (
     (if b_keep b then bret tt else call (change_package E x unpackaged_name)) ~;
        bmod (fun b => set_b_rs (b_rs b ++ [x]) b) ~;
        bmod (fun b => set_b_present (insert x (b_present b)) b)) (w, b) = (Ok u, (w3, b3)) ->
     ckept w w3 /\ (forall i, In i (b_rs b3) -> In i (b_rs b) \/ i = x)).
  { intros u0 X. apply bbind_inv in X as [a1 [[y1 c1] [X1 X]]]. apply Sp in X1 as [K1 ->].
    inversion X; subst. split; [exact K1|]. cbn. intros i Hi. apply in_app_iff in Hi as [Hi|[Hi|[]]]; auto. }
  unfold put in H3. apply bbind_inv in H3 as [b1 [s1 [G1 H3]]]. inversion G1; subst b1 s1; clear G1. cbn [snd] in H3.
  destruct (b_rs b) as [|front l] eqn:Eb; [apply (Ap _ H3)|].
  destruct (b_bulk b); [|apply (Ap _ H3)].
  apply call_inv in H3 as [w5 [H3 X]]. inversion X; subst w5 b3; clear X. split; [apply (ck_absorb _ _ _ _ _ _ H3)|].
  rewrite Eb. auto.
Qed.

Lemma take_ctx E v n t w b j n' w' b' : p_name (v_pkg v) <> unpackaged_name ->
  v_take E v n t (w, b) = (Ok (j, n'), (w', b')) -> Forall (in_ctx w) (b_rs b) ->
  Forall (in_ctx w') (b_rs b') /\ ((n' = n - 1)%Z \/ n' = n /\ qv (vw w') j = 0).
Proof.
  intros Np H F. unfold v_take in H. apply bbind_inv in H as [x [[w1 b1] [H1 H]]].
  destruct (pop_ctx _ _ _ _ _ _ _ _ H1 F) as [K1 [C1 [[r1 [N1 P1]] S1]]].
  assert (F1 : Forall (in_ctx w1) (x :: b_rs b1)).
  { constructor; auto. apply Forall_forall. intros i Hi. apply (in_ctx_kept w); auto. rewrite Forall_forall in F. auto. }
  apply bbind_inv in H as [m [[w2 b2] [H2 H]]]. apply call_inv in H2 as [w3 [H2 X]]. inversion X; subst w3 b2; clear X.
  apply rget_some in H2 as [H2 ->]. assert (Em : r_pkg m = unpackaged_name) by congruence.
  destruct (String.eqb_spec (p_name (v_pkg v)) (r_pkg m)) as [Y|_]; [congruence|]. cbn [negb] in H.
  apply bbind_inv in H as [pk [[w3 b3] [H3 H]]]. apply call_inv in H3 as [w4 [H3 X]]. inversion X; subst w4 b3; clear X.
  assert (K3 := ck_package _ _ _ _ _ _ _ H3).
  apply bbind_inv in H as [m4 [[w4 b4] [H4 H]]]. apply call_inv in H4 as [w5 [H4 X]]. inversion X; subst w5 b4; clear X.
  apply rget_some in H4 as [_ ->].
  apply bbind_inv in H as [u [[w5 b5] [H5 H]]].
  assert (S5 : ckept w3 w5 /\ (forall i, In i (b_rs b5) -> In i (b_rs b1) \/ i = x)).
  { destruct (Qltb (e_eps E) (r_qty m4)); [apply (push_ctx _ _ _ _ _ _ _ H5)|].
    inversion H5; subst. split; [apply kept_refl|auto]. }
  destruct S5 as [K5 S5].
  assert (F5 : Forall (in_ctx w5) (b_rs b5)).
  { apply Forall_forall. intros i Hi. apply (in_ctx_kept w1); [eapply kept_trans; eauto|]. rewrite Forall_forall in F1.
    apply F1. destruct (S5 i Hi) as [?| ->]; [now right|now left]. }
  destruct pk as [|k ks].
  - apply bbind_inv in H as [c [[w6 b6] [H6 H]]]. apply call_inv in H6 as [w7 [H6 X]]. inversion X; subst w7 b6; clear X.
    apply bbind_inv in H as [z [[w7 b7] [H7 H]]]. apply call_inv in H7 as [w8 [H7 X]]. inversion X; subst w8 b7; clear X.
    inversion H; subst; clear H.
    assert (K6 := ck_comp _ _ _ _ _ H6).
    assert (K7 : ckept w6 w') by (eapply (K_new bool r_ctx); exact H7).
    split.
    + eapply Forall_impl; [|exact F5]. intros i Ci. apply (in_ctx_kept w6); auto. apply (in_ctx_kept w5); auto.
    + right. split; auto. unfold mat_create_untracked, new_resource in H7. injection H7 as <- <-.
      rewrite qv_vw. cbn. rewrite nth_error_app2, Nat.sub_diag by lia. reflexivity.
  - inversion H; subst; clear H. auto.
Qed.

Lemma positive_qv w p : positive_in w p = true -> 0 < qv (vw w) (snd p).
Proof.
  unfold positive_in. rewrite qty_of_vw. unfold qv. destruct (nth_error (vw w) (snd p)) as [[k q]|]; [|discriminate].
  cbn. destruct (Qltb_spec 0 q); [auto|discriminate].
Qed.
Lemma positive_same w w' p : nth_error (vw w') (snd p) = nth_error (vw w) (snd p) -> positive_in w' p = positive_in w p.
Proof. unfold positive_in. rewrite !qty_of_vw. now intros ->. Qed.

Lemma loop_ctx E v trades : 0 < e_eps E -> a_package (v_pkg v) -> Forall (trade_ok (e_eps E) (v_pkg v)) trades ->
  p_name (v_pkg v) <> unpackaged_name ->
  forall n w b resp w' b', in_use E EMaterial w b -> Forall (in_ctx w) (b_rs b) ->
  v_loop E v n trades (w, b) = (Ok resp, (w', b')) ->
  (Z.of_nat (length (filter (positive_in w') resp)) <= Z.max 0 n)%Z.
Proof.
  intros He Pk Okt Np. induction trades as [|t trades IH]; intros n w b resp w' b' U F H.
  - inversion H; subst. cbn. lia.
  - cbn [v_loop] in H. destruct (Z.ltb_spec 0 n) as [Hn|Hn].
    2:{ apply (IH (Forall_inv_tail Okt) n w b resp w' b' U F H). }
    apply bbind_inv in H as [[j n1] [[w1 b1] [H1 H]]].
    destruct (take_spec _ _ _ _ _ _ _ _ _ _ U He Pk (Forall_inv Okt) H1) as [U1 [_ [_ [Lj [Nj _]]]]].
    destruct (take_ctx _ _ _ _ _ _ _ _ _ _ Np H1 F) as [F1 Cn].
    apply bbind_inv in H as [u [[w2 b2] [H2 H]]]. apply call_inv in H2 as [w3 [H2 X]]. inversion X; subst w3 b2; clear X.
    cbn [fst] in H2. destruct u. destruct (adjust_spec _ _ _ _ _ _ _ U1 H2) as [U2 V2].
    assert (F2 : Forall (in_ctx w2) (b_rs b1)).
    { eapply Forall_impl; [|exact F1]. intros i Ci. apply (in_ctx_kept w1); auto. apply (ck_adjust _ _ _ _ _ _ _ H2). }
    apply bbind_inv in H as [resp' [[w3 b3] [H3 H]]]. inversion H; subst resp w3 b3; clear H.
    cbn [snd] in H3.
    assert (I := IH (Forall_inv_tail Okt) _ _ _ _ _ _ U2 F2 H3).
    destruct (loop_spec E v trades He Pk (Forall_inv_tail Okt) _ _ _ _ _ _ U2 H3) as [_ [[Lu Un] _]].
    cbn [fst filter]. destruct (positive_in w' (t, j)) eqn:Ep.
    + destruct Cn as [->|[_ Qz]].
      * cbn [length]. lia.
      * exfalso. apply positive_qv in Ep. cbn [snd] in Ep.
        assert (Q2 : qv (vw w') j = qv (vw w1) j).
        { unfold qv. rewrite (Un j); [now rewrite V2| |exact Nj]. rewrite V2. exact Lj. }
        rewrite Q2, Qz in Ep. lra.
    + destruct Cn as [->|[-> _]]; lia.
Qed.

Lemma C40_transport_lemma E v trades w b resp w' b' : 0 < e_eps E -> a_package (v_pkg v) ->
  p_name (v_pkg v) <> unpackaged_name -> Forall (trade_ok (e_eps E) (v_pkg v)) trades ->
  in_use E EMaterial w b -> Forall (in_ctx w) (b_rs b) ->
  v_trades E v trades (w, b) = (Ok resp, (w', b')) ->
  exists n, shippable (v_tu v) (Z.of_nat (length trades)) = Some n /\
    (Z.of_nat (length (filter (positive_in w') resp)) <= Z.max 0 n)%Z.
Proof.
  intros He Pk Np Okt U F H. unfold v_trades in H. destruct (shippable (v_tu v) (Z.of_nat (length trades))) as [n|]; [|discriminate].
  exists n. split; auto. eapply loop_ctx; eauto.
Qed.

Lemma C40_set_transport_lemma E units name samples v v' : 0 < e_eps E -> a_package (v_pkg v) ->
  Forall (fun s => p_fill_min (v_pkg v) <= s <= p_fill_max (v_pkg v)) samples ->
  v_mgr v = true -> v_set_transport_unit E units name samples v = Ok v' ->
  exists t, (name = unrestricted_name /\ t = tu_unrestricted \/
             name <> unrestricted_name /\ exists n, String.eqb name n = true /\ In (n, t) units) /\
    v' = v_set_tu t v /\
    (0 < v_quant v -> tu_name t <> unrestricted_name -> exists fills,
       Forall (fun f => p_fill_min (v_pkg v) - e_eps E <= f <= p_fill_max (v_pkg v)) fills /\
       qsum fills <= v_quant v /\ v_quant v - qsum fills < qmax (e_eps E) (p_fill_min (v_pkg v)) /\
       shippable t (Z.of_nat (length fills)) = Some (Z.of_nat (length fills))).
Proof.
  intros He Pk Sm Hm H. unfold v_set_transport_unit in H. rewrite Hm in H. cbn [negb] in H.
  destruct (get_transport_unit units name) as [t| |] eqn:Gt; try discriminate.
  exists t. split.
  { unfold get_transport_unit in Gt. destruct (String.eqb_spec name unrestricted_name) as [E1|N1]; [left; inversion Gt; auto|].
    right. split; auto. destruct (find (fun p0 => String.eqb name (fst p0)) units) as [[n p']|] eqn:F; [|discriminate]. inversion Gt; subst p'.
    exists n. apply find_some in F as [F1 F2]. auto. }
  destruct (Qltb_spec 0 (v_quant v)) as [Hq|Hq]; cbn [andb] in H; [|inversion H; split; auto; intros; now elim Hq].
  destruct (String.eqb_spec (tu_name t) unrestricted_name) as [E1|N1]; cbn [negb] in H; [inversion H; split; auto; intros; now elim H1|].
  destruct (get_fill_mass (e_eps E) (v_pkg v) samples (v_quant v)) as [[[fill|e|] rest]|] eqn:Gf; try discriminate.
  destruct (shippable t (Z.of_nat (length fill))) as [n|] eqn:Sh; [|discriminate].
  destruct (Z.eqb_spec n (Z.of_nat (length fill))) as [->|]; [|discriminate]. inversion H; subst v'; clear H. split; auto.
  intros _ _. exists fill.
  destruct Pk as [e [nm [f1 [f2 [st Pc]]]]].
  destruct (pkg_create_legal _ _ _ _ _ _ Pc) as [_ [_ [X1 [X2 _]]]]. rewrite X1, X2 in *.
  destruct (C13_fills_lemma _ _ _ _ _ _ _ _ _ _ _ Pc He Hq Sm Gf) as [A1 [_ [A2 A3]]]. auto.
Qed.
