(** Reloading resources. *)
From Verif Require Import Base CompModel CompSpec CompProofs PackageModel ResourceModel ResourceSpec.
From Verif Require Import ResourceProofs1 ResourceProofs2 ResourceProofs4 ResourceProofs5 ResourceProofs6 ResourceProofs8 ResourceProofs9 ResourceProofs10 ResourceProofs11 ResourceProofs12.
From Verif Require Import ReloadModel ReloadSpec.
Open Scope Q_scope.

(** ** Every material row has its MaterialInfo *)
Definition Iinfo (w : world) : Prop := forall r, In r (res_rows (w_db w)) -> row_type r = "Material"%string ->
  exists p, In (DMatInfo (row_id r) p) (w_db w).
Lemma info_frame w w' : w_db w' = w_db w -> Iinfo w -> Iinfo w'.
Proof. unfold Iinfo. intros ->. auto. Qed.
Lemma info_rmod i f : pinv Iinfo (rmod i f).
Proof. unfold rmod. apply pinv_bind; [apply pinv_rget|]. intros r. apply pinv_modify. intros w. now apply info_frame. Qed.
Lemma info_modify f : (forall w, w_db (f w) = w_db w) -> pinv Iinfo (modify f).
Proof. intros H. apply pinv_modify. intros w. apply info_frame. apply H. Qed.
Lemma info_emit d : (forall r, d <> DRes r) -> pinv Iinfo (emit d).
Proof.
  intros H. apply pinv_modify. intros w I r. simpl. rewrite res_rows_app. rewrite in_app_iff. intros [J|J] T.
  - destruct (I r J T) as (p & K). exists p. apply in_or_app. now left.
  - exfalso. destruct d; simpl in J; try contradiction. destruct (H r0). reflexivity.
Qed.
Lemma info_new q c y p : pinv Iinfo (new_resource q c y p).
Proof. intros w r w' I H _. unfold new_resource in H. injection H as <- <-. now apply (info_frame w). Qed.
Lemma info_comp_new a m : pinv Iinfo (comp_new a m).
Proof. intros w r w' I H _. unfold comp_new in H. injection H as <- <-. now apply (info_frame w). Qed.
Lemma info_comp_new_in_line a p l : pinv Iinfo (comp_new_in_line a p l).
Proof. intros w r w' I H _. unfold comp_new_in_line in H. injection H as <- <-. now apply (info_frame w). Qed.
Lemma info_tr_record E b i : pinv Iinfo (tr_record E b i).
Proof.
  intros w r w' I H N. apply tr_record_inv in H as (t & x & Ht & Hx & Hc & Hq & _ & ->); auto.
  intros r0. simpl. rewrite res_rows_app, in_app_iff, rec_data_rows. intros [J|[<-|[]]] T.
  - destruct (I r0 J T) as (p & K). exists p. apply in_or_app. now left.
  - unfold rec_row in T. simpl in T. destruct (r_qual x) as [c|s] eqn:Eq; [|discriminate]. exists (r_prev x). apply in_or_app. right.
    unfold rec_data. rewrite Eq. right. now left.
Qed.
#[local] Hint Resolve info_rmod info_new info_comp_new info_comp_new_in_line info_tr_record : pinv.
#[local] Hint Extern 1 (pinv Iinfo (modify _)) => (apply info_modify; reflexivity) : pinv.
#[local] Hint Extern 1 (pinv Iinfo (emit _)) => (apply info_emit; discriminate) : pinv.
Lemma info_comp_decay E c d s : pinv Iinfo (comp_decay E c d s).
Proof. unfold comp_decay, new_decay. cbv zeta. pinv_tac. Qed.
#[local] Hint Resolve info_comp_decay : pinv.
Lemma info_tr_modify E i : pinv Iinfo (tr_modify E i). Proof. unfold tr_modify. pinv_tac. Qed.
Lemma info_tr_extract E i j : pinv Iinfo (tr_extract E i j). Proof. unfold tr_extract. pinv_tac. Qed.
Lemma info_tr_absorb E i j : pinv Iinfo (tr_absorb E i j). Proof. unfold tr_absorb. pinv_tac. Qed.
Lemma info_tr_package E i j : pinv Iinfo (tr_package E i j). Proof. unfold tr_package. pinv_tac. Qed.
Lemma info_tr_create E i j : pinv Iinfo (tr_create E i j). Proof. unfold tr_create. pinv_tac. Qed.
#[local] Hint Resolve info_tr_modify info_tr_extract info_tr_absorb info_tr_package info_tr_create : pinv.
Lemma info_transmute E i c : pinv Iinfo (mat_transmute E i c). Proof. unfold mat_transmute. pinv_tac. Qed.
#[local] Hint Resolve info_transmute : pinv.
Lemma info_decay E i t : pinv Iinfo (mat_decay E i t). Proof. unfold mat_decay. cbv zeta. pinv_tac. Qed.
#[local] Hint Resolve info_decay : pinv.
Lemma info_mat_comp E i : pinv Iinfo (mat_comp E i). Proof. unfold mat_comp. pinv_tac. Qed.
#[local] Hint Resolve info_mat_comp : pinv.
Lemma info_extract_comp E i q c t : pinv Iinfo (mat_extract_comp E i q c t).
Proof. unfold mat_extract_comp. cbv zeta. unfold create_from_mass. pinv_tac. Qed.
#[local] Hint Resolve info_extract_comp : pinv.
Lemma info_package_extract E i q p : pinv Iinfo (package_extract E i q p).
Proof. unfold package_extract, mat_package_extract, prod_package_extract. pinv_tac. Qed.
#[local] Hint Resolve info_package_extract : pinv.
Lemma info_package_loop E i n fills : pinv Iinfo (package_loop E i n fills). Proof. induction fills; simpl; pinv_tac. Qed.
#[local] Hint Resolve info_package_loop : pinv.
Lemma info_step E o : pinv Iinfo (step E o).
Proof.
  destruct o; simpl; unfold drop, valid_comp, mat_only, res_clone, mat_create, mat_create_untracked, prod_create,
    prod_create_untracked, extract_res, mat_extract_qty, prod_extract, absorb, mat_absorb, prod_absorb, res_decay,
    res_package, change_package, mat_change_package, prod_change_package, create_from_mass, create_from_atom; cbv zeta; pinv_tac.
Qed.
Lemma run_info E ops w : run E ops world0 = Some w -> Iinfo w.
Proof. intros H. eapply run_pinv; [exact (info_step E)| |exact H]. intros r []. Qed.

(** ** Qualities of products *)
Record Kq (s0 : string) (b0 : bool) (w : world) : Prop := mkKq {
  kq_in : forall s z, In (s, z) (w_quals w) -> (0 < z < w_next_qual w)%Z /\ In (DProd z s) (w_db w);
  kq_db : forall z s, In (DProd z s) (w_db w) -> (0 < z < w_next_qual w)%Z /\ assoc s (w_quals w) = Some z;
  kq_uniq : forall z s s', In (DProd z s) (w_db w) -> In (DProd z s') (w_db w) -> s = s';
  kq_ctx : forall k r s, nth_error (w_res w) k = Some r -> r_ctx r = true -> r_qual r = QProd s -> exists z, assoc s (w_quals w) = Some z;
  kq_tres : forall k r, nth_error (w_res w) k = Some r -> r_ctx r = true ->
    exists x, nth_error (w_res w) (r_tres r) = Some x /\ r_ctx x = true;
  kq_now : b0 = true -> exists z, assoc s0 (w_quals w) = Some z;
  kq_pos : (0 < w_next_qual w)%Z }.

Lemma assoc_In s z l : assoc s l = Some z -> In (s, z) l.
Proof. induction l as [|[k v] l IH]; simpl; [discriminate|]. destruct (String.eqb_spec s k); intros H; [injection H as ->; subst; now left|right; auto]. Qed.
Lemma assoc_app_some s z l l' : assoc s l = Some z -> assoc s (l ++ l') = Some z.
Proof. induction l as [|[k v] l IH]; simpl; [discriminate|]. destruct (String.eqb s k); auto. Qed.
Lemma assoc_app_new s z l : assoc s l = None -> assoc s (l ++ [(s, z)]) = Some z.
Proof. induction l as [|[k v] l IH]; simpl; [now rewrite String.eqb_refl|]. destruct (String.eqb s k); [discriminate|auto]. Qed.

Section KqPrims.
Context (s0 : string) (b0 : bool).
Notation KK := (Kq s0 b0).

Lemma kq_frame w w' : w_res w' = w_res w -> w_quals w' = w_quals w -> w_next_qual w' = w_next_qual w ->
  (forall z s, In (DProd z s) (w_db w') <-> In (DProd z s) (w_db w)) -> KK w -> KK w'.
Proof.
  intros A B C F [K1 K2 K3 K4 K5 K6 K7]. constructor; rewrite ?A, ?B, ?C; auto.
  - intros s z I. rewrite F. auto.
  - intros z s I. rewrite F in I. auto.
  - intros z s s' I I'. rewrite F in I, I'. eauto.
Qed.
Lemma kq_rmod i f : (forall r, r_ctx (f r) = r_ctx r) -> (forall r, r_tres (f r) = r_tres r) ->
  (forall r s, r_qual (f r) = QProd s -> r_qual r = QProd s) -> pinv KK (rmod i f).
Proof.
  intros F1 F2 F3 w r w' K H N. unfold rmod in H. mrget H. unfold modify in H. injection H as <- <-.
  destruct K as [K1 K2 K3 K4 K5 K6 K7].
  assert (U : forall k y, nth_error (upd (w_res w) i (f x)) k = Some y ->
     exists y0, nth_error (w_res w) k = Some y0 /\ r_ctx y = r_ctx y0 /\ r_tres y = r_tres y0 /\ (forall s, r_qual y = QProd s -> r_qual y0 = QProd s)).
  { intros k y Hy. destruct (Nat.eq_dec k i) as [->|Ne].
    - rewrite nth_upd_same in Hy by (eapply nth_error_lt; eauto). injection Hy as <-. exists x. auto.
    - rewrite nth_upd_other in Hy by auto. exists y. auto. }
  constructor; simpl; auto.
  - intros k y s Hy Hc Hq. destruct (U _ _ Hy) as (y0 & Hy0 & C & _ & Q). eapply K4; eauto; congruence.
  - intros k y Hy Hc. destruct (U _ _ Hy) as (y0 & Hy0 & C & T & _). rewrite T.
    destruct (K5 k y0 Hy0 ltac:(congruence)) as (x1 & Hx1 & C1).
    destruct (Nat.eq_dec (r_tres y0) i) as [Ei|Ne].
    + rewrite Ei in *. exists (f x). split; [apply nth_upd_same; eapply nth_error_lt; eauto|]. rewrite F1. congruence.
    + exists x1. split; auto. rewrite nth_upd_other; auto.
Qed.
Lemma kq_modify f : (forall w, w_res (f w) = w_res w) -> (forall w, w_quals (f w) = w_quals w) ->
  (forall w, w_next_qual (f w) = w_next_qual w) -> (forall w, w_db (f w) = w_db w) -> pinv KK (modify f).
Proof. intros A B C D. apply pinv_modify. intros w. apply kq_frame; auto. intros. rewrite D. tauto. Qed.
Lemma kq_emit d : (forall z s, d <> DProd z s) -> pinv KK (emit d).
Proof.
  intros Hd. apply pinv_modify. intros w. apply kq_frame; auto. intros z s. simpl. rewrite in_app_iff. simpl.
  split; [intros [H|[H|[]]]; auto; destruct (Hd z s); auto|tauto].
Qed.
Lemma kq_new q c y p : (forall s, q = QProd s -> c = true -> s = s0 /\ b0 = true) -> pinv KK (new_resource q c y p).
Proof.
  intros Hq w r w' K H _. unfold new_resource in H. injection H as <- <-. destruct K as [K1 K2 K3 K4 K5 K6 K7].
  set (n := mkRes q y _ _ c _ _ _ _ _ _).
  assert (U : forall k x, nth_error (w_res w ++ [n]) k = Some x -> nth_error (w_res w) k = Some x \/ k = length (w_res w) /\ x = n).
  { intros k x Hx. destruct (Nat.lt_ge_cases k (length (w_res w))) as [L|L].
    - rewrite nth_error_app1 in Hx by auto. auto.
    - rewrite nth_error_app2 in Hx by auto. destruct (k - length (w_res w))%nat eqn:Ed; simpl in Hx.
      + injection Hx as <-. right. split; auto. lia.
      + destruct n0; discriminate. }
  constructor; simpl; auto.
  - intros k x s Hx Hc Es. destruct (U _ _ Hx) as [Hx'|[_ ->]]; eauto. simpl in *. destruct (Hq s Es Hc) as [-> Hb]. auto.
  - intros k x Hx Hc. destruct (U _ _ Hx) as [Hx'|[-> ->]].
    + destruct (K5 _ _ Hx' Hc) as (x1 & Hx1 & C1). exists x1. split; auto. rewrite nth_error_app1; auto. eapply nth_error_lt; eauto.
    + exists n. simpl. split; auto.
Qed.
Lemma kq_clone i : pinv KK (res_clone i).
Proof.
  intros w r w' K H N. unfold res_clone in H. mrget H. mget H. unfold bind, modify, ret in H. injection H as <- <-.
  destruct K as [K1 K2 K3 K4 K5 K6 K7].
  assert (U : forall k y, nth_error (w_res w ++ [with_tracked false x]) k = Some y ->
     exists k0 y0, nth_error (w_res w) k0 = Some y0 /\ r_ctx y = r_ctx y0 /\ r_qual y = r_qual y0 /\ r_tres y = r_tres y0).
  { intros k y Hy. destruct (Nat.lt_ge_cases k (length (w_res w))) as [L|L].
    - rewrite nth_error_app1 in Hy by auto. exists k, y. auto.
    - rewrite nth_error_app2 in Hy by auto. destruct (k - length (w_res w))%nat as [|n0]; simpl in Hy; [|destruct n0; discriminate].
      injection Hy as <-. exists i, x. auto. }
  constructor; simpl; auto.
  - intros k y s Hy Hc Hq. destruct (U _ _ Hy) as (k0 & y0 & H0 & C & Q & _). eapply K4; eauto; congruence.
  - intros k y Hy Hc. destruct (U _ _ Hy) as (k0 & y0 & H0 & C & _ & T). rewrite T.
    destruct (K5 _ _ H0 ltac:(congruence)) as (x1 & Hx1 & C1). exists x1. split; auto.
    rewrite nth_error_app1; auto. eapply nth_error_lt; eauto.
Qed.
Lemma kq_comp_new a m : pinv KK (comp_new a m).
Proof. intros w r w' K H _. unfold comp_new in H. injection H as <- <-. revert K. apply kq_frame; simpl; tauto. Qed.
Lemma kq_comp_new_in_line a p l : pinv KK (comp_new_in_line a p l).
Proof. intros w r w' K H _. unfold comp_new_in_line in H. injection H as <- <-. revert K. apply kq_frame; simpl; tauto. Qed.
Lemma rec_data_noprod E b t x w z s : ~ In (DProd z s) (rec_data E b t x w).
Proof.
  unfold rec_data. intros [H|H]; [discriminate|]. destruct (r_qual x); [|destruct H]. destruct H as [H|H]; [discriminate|].
  destruct (nth_error _ _); [|destruct H]. destruct (c_recorded _); [destruct H|]. unfold comp_rows in H.
  apply in_map_iff in H as (p & Hp & _). discriminate.
Qed.
Lemma kq_tr_record E b i : pinv KK (tr_record E b i).
Proof.
  intros w r w' K H N. apply tr_record_inv in H as (t & x & Ht & Hx & Hc & Hq & _ & ->); auto.
  destruct (kq_tres _ _ _ K _ _ Ht Hc) as (x1 & Hx1 & Hc1). rewrite Hx in Hx1. injection Hx1 as <-.
  assert (Q : rec_quals x w = w_quals w).
  { unfold rec_quals. destruct (r_qual x) as [c|s] eqn:Eq; auto. destruct (kq_ctx _ _ _ K _ _ _ Hx Hc1 Eq) as (z & ->). reflexivity. }
  assert (R : KK (set_res (upd (w_res w) (r_tres t) (with_state (rec_state b w x) x)) w)).
  { refine (kq_rmod (r_tres t) (with_state (rec_state b w x)) _ _ _ w (Ok tt) _ K _ _); auto; [|discriminate].
    unfold rmod. rewrite (bind_ok _ _ _ _ _ (rget_ok _ _ _ Hx)). reflexivity. }
  revert R. apply kq_frame; simpl; auto. intros z s. rewrite in_app_iff. split; [intros [H|H]; auto; now apply rec_data_noprod in H|auto].
Qed.
End KqPrims.
#[local] Hint Resolve kq_comp_new kq_comp_new_in_line kq_tr_record kq_clone : pinv.
#[local] Hint Extern 1 (pinv (Kq _ _) (rmod _ _)) => (apply kq_rmod; [reflexivity|reflexivity|simpl; try discriminate; auto]) : pinv.
#[local] Hint Extern 1 (pinv (Kq _ _) (new_resource (QMat _) _ _ _)) => (apply kq_new; discriminate) : pinv.
#[local] Hint Extern 1 (pinv (Kq _ _) (new_resource _ false _ _)) => (apply kq_new; discriminate) : pinv.
#[local] Hint Extern 1 (pinv (Kq _ _) (modify _)) => (apply kq_modify; reflexivity) : pinv.
#[local] Hint Extern 1 (pinv (Kq _ _) (emit _)) => (apply kq_emit; discriminate) : pinv.
Lemma kq_comp_decay s b E c d n : pinv (Kq s b) (comp_decay E c d n).
Proof. unfold comp_decay, new_decay. cbv zeta. pinv_tac. Qed.
#[local] Hint Resolve kq_comp_decay : pinv.
Lemma kq_tr_modify s b E i : pinv (Kq s b) (tr_modify E i). Proof. unfold tr_modify. pinv_tac. Qed.
Lemma kq_tr_extract s b E i j : pinv (Kq s b) (tr_extract E i j). Proof. unfold tr_extract. pinv_tac. Qed.
Lemma kq_tr_absorb s b E i j : pinv (Kq s b) (tr_absorb E i j). Proof. unfold tr_absorb. pinv_tac. Qed.
Lemma kq_tr_package s b E i j : pinv (Kq s b) (tr_package E i j). Proof. unfold tr_package. pinv_tac. Qed.
Lemma kq_tr_create s b E i j : pinv (Kq s b) (tr_create E i j). Proof. unfold tr_create. pinv_tac. Qed.
#[local] Hint Resolve kq_tr_modify kq_tr_extract kq_tr_absorb kq_tr_package kq_tr_create : pinv.
Lemma kq_transmute s b E i c : pinv (Kq s b) (mat_transmute E i c). Proof. unfold mat_transmute. pinv_tac. Qed.
#[local] Hint Resolve kq_transmute : pinv.
Lemma kq_decay s b E i t : pinv (Kq s b) (mat_decay E i t). Proof. unfold mat_decay. cbv zeta. pinv_tac. Qed.
#[local] Hint Resolve kq_decay : pinv.
Lemma kq_mat_comp s b E i : pinv (Kq s b) (mat_comp E i). Proof. unfold mat_comp. pinv_tac. Qed.
#[local] Hint Resolve kq_mat_comp : pinv.
Lemma kq_extract_comp s b E i q c t : pinv (Kq s b) (mat_extract_comp E i q c t).
Proof. unfold mat_extract_comp. cbv zeta. unfold create_from_mass. pinv_tac. Qed.
#[local] Hint Resolve kq_extract_comp : pinv.

Lemma kq_forget s b w : Kq s b w -> Kq "" false w.
Proof. intros []; constructor; auto. discriminate. Qed.
Lemma kq_learn s b w : Kq "" false w -> (b = true -> exists z, assoc s (w_quals w) = Some z) -> Kq s b w.
Proof. intros [] H; constructor; auto. Qed.
(** A product made from product [i]: its quality is known whenever [i] has a context. *)
Lemma kq_from {A} i (f : resource -> string -> M A) :
  (forall r s, pinv (Kq s (r_ctx r)) (f r s)) -> pinv (Kq "" false) (r <- rget i; s <- prod_quality r; f r s).
Proof.
  intros F w r w' K H N. mrget H. unfold prod_quality in H. destruct (r_qual x) as [c|s] eqn:Eq.
  - unfold bind, ub in H. congruence.
  - unfold bind at 1, ret in H. apply (kq_forget s (r_ctx x)). eapply F; [|exact H|auto]. apply kq_learn; auto.
    intros Hc. eapply kq_ctx; eauto.
Qed.
Lemma kq_prod_extract E i q : pinv (Kq "" false) (prod_extract E i q).
Proof.
  unfold prod_extract. apply kq_from. intros r s.
  repeat first [solve [apply kq_new; intros s' [= <-] H; auto] | progress pinv_tac].
Qed.
Lemma kq_prod_package_extract E i q p : pinv (Kq "" false) (prod_package_extract E i q p).
Proof.
  unfold prod_package_extract. apply kq_from. intros r s.
  repeat first [solve [apply kq_new; intros s' [= <-] H; auto] | progress pinv_tac].
Qed.
Lemma kq_prod_create E a q s p : pinv (Kq "" false) (prod_create E a q s p).
Proof.
  intros w r w' K H N. unfold prod_create in H. mget H.
  apply (kq_forget s true).
  assert (T : pinv (Kq s true) (i <- new_resource (QProd s) true q p; tr_create E a i;; ret i)).
  { repeat first [solve [apply kq_new; intros s' [= <-] H'; auto] | progress pinv_tac]. }
  destruct (assoc s (w_quals w)) as [z|] eqn:Ea.
  - unfold bind at 1, ret at 1 in H. eapply T; [|exact H|auto]. apply kq_learn; eauto.
  - unfold bind at 1 2, emit, modify in H. eapply T; [|exact H|auto]. destruct K as [K1 K2 K3 K4 K5 K6 K7].
    constructor; simpl.
    + intros s' z I. rewrite in_app_iff in *. destruct I as [I|[[= <- <-]|[]]].
      * destruct (K1 _ _ I). split; [lia|auto].
      * split; [lia|]. right. now left.
    + intros z s' I. apply in_app_or in I as [I|[[= <- <-]|[]]].
      * destruct (K2 _ _ I). split; [lia|]. now apply assoc_app_some.
      * split; [lia|]. now apply assoc_app_new.
    + intros z s1 s2 I1 I2. apply in_app_or in I1 as [I1|[I1|[]]]; apply in_app_or in I2 as [I2|[I2|[]]]; eauto.
      * injection I2 as E2 _. destruct (K2 _ _ I1). lia.
      * injection I1 as E1 _. destruct (K2 _ _ I2). lia.
      * congruence.
    + intros k r0 s' Hr Hc Hq. destruct (K4 _ _ _ Hr Hc Hq) as (z & Hz). exists z. now apply assoc_app_some.
    + auto.
    + intros _. exists (w_next_qual w). now apply assoc_app_new.
    + lia.
Qed.
#[local] Hint Resolve kq_prod_extract kq_prod_package_extract kq_prod_create : pinv.
Lemma kq_package_extract E i q p : pinv (Kq "" false) (package_extract E i q p).
Proof. unfold package_extract, mat_package_extract. pinv_tac. Qed.
#[local] Hint Resolve kq_package_extract : pinv.
Lemma kq_package_loop E i n fills : pinv (Kq "" false) (package_loop E i n fills). Proof. induction fills; simpl; pinv_tac. Qed.
#[local] Hint Resolve kq_package_loop : pinv.
Lemma kq_step E o : pinv (Kq "" false) (step E o).
Proof.
  destruct o; simpl; unfold drop, valid_comp, mat_only, mat_create, mat_create_untracked,
    prod_create_untracked, extract_res, mat_extract_qty, absorb, mat_absorb, prod_absorb, res_decay,
    res_package, change_package, mat_change_package, prod_change_package, create_from_mass, create_from_atom; cbv zeta; pinv_tac.
Qed.
Lemma run_kq E ops w : run E ops world0 = Some w -> Kq "" false w.
Proof.
  intros H. eapply run_pinv; [exact (kq_step E)| |exact H]. constructor; simpl; try discriminate; try contradiction; try lia.
  - intros k r s Hk. destruct k; discriminate.
  - intros k r Hk. destruct k; discriminate.
Qed.
