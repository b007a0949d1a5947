(** * No resource operation crashes on valid arguments: proofs (C51). *)
From Coq Require Import String List.
From Verif Require Import Base CompModel CompSpec CompProofs PackageModel ResourceModel ResourceSpec
  ResourceProofs1 ResourceProofs8 CrashSpec.
Import ListNotations.
Open Scope Q_scope.
Open Scope m_scope.

(** ** The invariant *)
Record res_safe (w : world) (k : nat) (r : resource) : Prop := mkRS {
  rs_tracked : r_tracked r = true -> r_ctx r = true /\ r_tres r = k;
  rs_tres : (r_tres r < length (w_res w))%nat;
  rs_mat : forall c, r_qual r = QMat c -> (c < length (w_comps w))%nat;
  rs_prod : forall s, r_qual r = QProd s -> r_ctx r = true
}.
Record SW (w : world) : Prop := mkS {
  s_res : forall k r, nth_error (w_res w) k = Some r -> res_safe w k r;
  s_cmp : forall c x, nth_error (w_comps w) c = Some x -> (c_line x < length (w_lines w))%nat;
  s_lin : Forall (Forall (fun p => (snd p < length (w_comps w))%nat)) (w_lines w)
}.
Definition kind (r : resource) : bool := match r_qual r with QMat _ => true | QProd _ => false end.
Record ext (w w' : world) : Prop := mkExt {
  x_res : forall k r, nth_error (w_res w) k = Some r ->
     exists r', nth_error (w_res w') k = Some r' /\ r_ctx r' = r_ctx r /\ r_tres r' = r_tres r /\ kind r' = kind r;
  x_len : (length (w_res w) <= length (w_res w'))%nat;
  x_cmp : (length (w_comps w) <= length (w_comps w'))%nat;
  x_lin : (length (w_lines w) <= length (w_lines w'))%nat
}.
Lemma ext_refl w : ext w w.
Proof. split; auto. intros k r H. exists r. auto. Qed.
Lemma ext_trans a b c : ext a b -> ext b c -> ext a c.
Proof.
  intros H K. split.
  - intros k r Hr. destruct (x_res _ _ H k r Hr) as (r1 & A & B & C & D).
    destruct (x_res _ _ K k r1 A) as (r2 & A' & B' & C' & D'). exists r2. repeat split; congruence.
  - pose proof (x_len _ _ H); pose proof (x_len _ _ K); lia.
  - pose proof (x_cmp _ _ H); pose proof (x_cmp _ _ K); lia.
  - pose proof (x_lin _ _ H); pose proof (x_lin _ _ K); lia.
Qed.

(** ** Triples *)
Definition safe {A} (P : world -> Prop) (m : M A) (Q : A -> world -> Prop) : Prop :=
  forall w, SW w -> P w ->
  match m w with
  | (Ok a, w') => SW w' /\ ext w w' /\ Q a w'
  | (Throw _, w') => SW w' /\ ext w w'
  | (UB, _) => False
  end.
Definition mono (P : world -> Prop) : Prop := forall w w', ext w w' -> P w -> P w'.

Lemma safe_bind {A B} P (m : M A) Q (f : A -> M B) R : mono P -> safe P m Q ->
  (forall a, safe (fun w => P w /\ Q a w) (f a) R) -> safe P (bind m f) R.
Proof.
  intros HP Hm Hf w HS Hw. specialize (Hm w HS Hw). unfold bind. destruct (m w) as [[a|e|] w1]; try exact Hm.
  destruct Hm as (S1 & X1 & Q1). specialize (Hf a w1 S1 (conj (HP _ _ X1 Hw) Q1)).
  destruct (f a w1) as [[b|e|] w2]; [| |exact Hf].
  - destruct Hf as (S2 & X2 & Q2). split; [auto|]. split; [eapply ext_trans; eauto|auto].
  - destruct Hf as (S2 & X2). split; [auto|]. eapply ext_trans; eauto.
Qed.
Lemma safe_pre {A} (P P' : world -> Prop) (m : M A) Q : (forall w, SW w -> P w -> P' w) -> safe P' m Q -> safe P m Q.
Proof. intros H K w HS Hw. apply K; auto. Qed.
Lemma safe_post {A} P (m : M A) (Q Q' : A -> world -> Prop) : (forall a w, SW w -> Q a w -> Q' a w) -> safe P m Q -> safe P m Q'.
Proof.
  intros H K w HS Hw. specialize (K w HS Hw). destruct (m w) as [[a|e|] w1]; auto.
  destruct K as (A1 & A2 & A3). auto.
Qed.
Lemma safe_ret {A} (P : world -> Prop) (a : A) (Q : A -> world -> Prop) : (forall w, SW w -> P w -> Q a w) -> safe P (ret a) Q.
Proof. intros H w HS Hw. cbn. split; [auto|]. split; [apply ext_refl|auto]. Qed.
Lemma safe_throw {A} P e (Q : A -> world -> Prop) : safe P (throw e) Q.
Proof. intros w HS Hw. cbn. split; [auto|apply ext_refl]. Qed.

(** ** Monotone facts *)
Definition Hd (i : nat) (w : world) := (i < length (w_res w))%nat.
Definition Hc (c : nat) (w : world) := (c < length (w_comps w))%nat.
Definition Hl (l : nat) (w : world) := (l < length (w_lines w))%nat.
(** resource [i] has these never-changing attributes. *)
Definition At (i : nat) (ctx : bool) (t : nat) (k : bool) (w : world) :=
  exists r, nth_error (w_res w) i = Some r /\ r_ctx r = ctx /\ r_tres r = t /\ kind r = k.
Lemma mono_Hd i : mono (Hd i).
Proof. intros w w' X H. unfold Hd in *. pose proof (x_len _ _ X). lia. Qed.
Lemma mono_Hc i : mono (Hc i).
Proof. intros w w' X H. unfold Hc in *. pose proof (x_cmp _ _ X). lia. Qed.
Lemma mono_Hl i : mono (Hl i).
Proof. intros w w' X H. unfold Hl in *. pose proof (x_lin _ _ X). lia. Qed.
Lemma mono_At i a b c : mono (At i a b c).
Proof.
  intros w w' X (r & A & B & C & D). destruct (x_res _ _ X _ _ A) as (r' & A' & B' & C' & D').
  exists r'. repeat split; congruence.
Qed.
Lemma mono_and P Q : mono P -> mono Q -> mono (fun w => P w /\ Q w).
Proof. intros A B w w' X (H & K). split; eauto. Qed.
Lemma mono_pure (P : Prop) : mono (fun _ => P).
Proof. intros w w' X H. exact H. Qed.
Lemma mono_all {A} (P : A -> world -> Prop) : (forall a, mono (P a)) -> mono (fun w => forall a, P a w).
Proof. intros H w w' X K a. eapply H; eauto. Qed.
Lemma mono_imp (X : Prop) P : mono P -> mono (fun w => X -> P w).
Proof. intros H w w' E K x. eapply H; eauto. Qed.

Definition Facts (i : nat) (r : resource) (w : world) : Prop :=
  At i (r_ctx r) (r_tres r) (kind r) w /\ Hd (r_tres r) w /\
  (r_tracked r = true -> r_ctx r = true /\ r_tres r = i) /\
  (forall c, r_qual r = QMat c -> Hc c w) /\ (forall s, r_qual r = QProd s -> r_ctx r = true).
Lemma mono_Facts i r : mono (Facts i r).
Proof.
  unfold Facts. apply mono_and; [apply mono_At|]. apply mono_and; [apply mono_Hd|]. apply mono_and; [apply mono_pure|].
  apply mono_and; [|apply mono_pure]. apply mono_all. intros c. apply mono_imp, mono_Hc.
Qed.
#[export] Hint Resolve mono_Hd mono_Hc mono_Hl mono_At mono_and mono_pure mono_Facts : mono.
Ltac mono_tac := repeat first [solve [auto with mono nocore] | apply mono_and | apply mono_all; intro | apply mono_imp].

(** ** Primitives *)
Lemma At_Hd i a b c w : At i a b c w -> Hd i w.
Proof. intros (r & H & _). unfold Hd. apply nth_error_Some. congruence. Qed.

Lemma safe_rget i : safe (Hd i) (rget i) (fun r w => Facts i r w).
Proof.
  intros w HS Hi. unfold rget, deref, ret. unfold Hd in Hi.
  destruct (nth_error (w_res w) i) as [r|] eqn:Hr; [|apply nth_error_None in Hr; lia].
  split; [auto|]. split; [apply ext_refl|]. destruct (s_res _ HS _ _ Hr) as [A B C D].
  split; [exists r; auto|]. split; [exact B|]. split; [exact A|]. split; [exact C|exact D].
Qed.
Lemma safe_cref c : safe (Hc c) (cref c) (fun x w => Hl (c_line x) w).
Proof.
  intros w HS Hi. unfold cref, deref, ret. unfold Hc in Hi.
  destruct (nth_error (w_comps w) c) as [r|] eqn:Hr; [|apply nth_error_None in Hr; lia].
  split; [auto|]. split; [apply ext_refl|]. exact (s_cmp _ HS _ _ Hr).
Qed.

(** A change of a resource that keeps its unchanging attributes. *)
Definition mild (f : resource -> resource) : Prop :=
  forall r, r_ctx (f r) = r_ctx r /\ r_tres (f r) = r_tres r /\ r_qual (f r) = r_qual r /\ r_tracked (f r) = r_tracked r.
Lemma S_upd w i r r' : SW w -> nth_error (w_res w) i = Some r -> r_ctx r' = r_ctx r -> r_tres r' = r_tres r ->
  kind r' = kind r -> (forall c, r_qual r' = QMat c -> (c < length (w_comps w))%nat) ->
  (r_tracked r' = true -> r_ctx r = true /\ r_tres r = i) ->
  SW (set_res (upd (w_res w) i r') w) /\ ext w (set_res (upd (w_res w) i r') w).
Proof.
  intros HS Hr A B C D F. assert (Li : (i < length (w_res w))%nat) by (apply nth_error_Some; congruence).
  split.
  - split; cbn; [|exact (s_cmp _ HS)|exact (s_lin _ HS)].
    intros k x Hx. destruct (Nat.eq_dec i k) as [<-|Hne].
    + rewrite nth_upd_same in Hx by auto. injection Hx as <-. destruct (s_res _ HS _ _ Hr) as [P1 P2 P3 P4].
      split; cbn; rewrite ?upd_length; auto.
      * intros T. rewrite A, B. auto.
      * rewrite B. exact P2.
      * intros s Hs. rewrite A. unfold kind in C. rewrite Hs in C. destruct (r_qual r) eqn:Q; [discriminate|]. eauto.
    + rewrite nth_upd_other in Hx by auto. destruct (s_res _ HS _ _ Hx) as [P1 P2 P3 P4].
      split; cbn; rewrite ?upd_length; auto.
  - split; cbn; rewrite ?upd_length; auto. intros k x Hx. destruct (Nat.eq_dec i k) as [<-|Hne].
    + rewrite nth_upd_same by auto. exists r'. rewrite Hr in Hx. injection Hx as <-. auto.
    + rewrite nth_upd_other by auto. exists x. auto.
Qed.
Lemma safe_rmod i f : mild f -> safe (Hd i) (rmod i f) (fun _ _ => True).
Proof.
  intros Hf w HS Hi. unfold Hd in Hi. destruct (nth_error (w_res w) i) as [r|] eqn:Hr; [|apply nth_error_None in Hr; lia].
  rewrite (rmod_ok _ _ _ _ Hr). destruct (Hf r) as (A & B & C & D). destruct (s_res _ HS _ _ Hr) as [P1 P2 P3 P4].
  assert (K : SW (set_res (upd (w_res w) i (f r)) w) /\ ext w (set_res (upd (w_res w) i (f r)) w)).
  { apply S_upd with r; auto; [unfold kind; now rewrite C|rewrite C; exact P3|rewrite D; exact P1]. }
  tauto.
Qed.
Lemma safe_set_qual i c : safe (fun w => Hc c w /\ exists a b, At i a b true w) (rmod i (with_qual (QMat c))) (fun _ _ => True).
Proof.
  intros w HS (Hc' & a & b & r & Hr & A & B & C). rewrite (rmod_ok _ _ _ _ Hr). destruct (s_res _ HS _ _ Hr) as [P1 P2 P3 P4].
  assert (K : SW (set_res (upd (w_res w) i (with_qual (QMat c) r)) w) /\ ext w (set_res (upd (w_res w) i (with_qual (QMat c) r)) w)).
  { apply S_upd with r; auto. cbn. intros c' K. injection K as <-. exact Hc'. }
  tauto.
Qed.
(** Changing parents and tracking status (ResTracker::Extract). *)
Lemma safe_set_tracked i b a1 a2 k : safe (fun w => At i true i k w)
  (rmod i (fun r => with_tracked b (with_parents a1 a2 r))) (fun _ _ => True).
Proof.
  intros w HS (r & Hr & A & B & C). rewrite (rmod_ok _ _ _ _ Hr). destruct (s_res _ HS _ _ Hr) as [P1 P2 P3 P4].
  assert (K : SW (set_res (upd (w_res w) i (with_tracked b (with_parents a1 a2 r))) w) /\
              ext w (set_res (upd (w_res w) i (with_tracked b (with_parents a1 a2 r))) w)).
  { apply S_upd with r; auto. }
  tauto.
Qed.
Lemma safe_modify f : (forall w, w_res (f w) = w_res w) -> (forall w, w_comps (f w) = w_comps w) -> (forall w, w_lines (f w) = w_lines w) ->
  safe (fun _ => True) (modify f) (fun _ _ => True).
Proof.
  intros A B C w HS _. cbn. assert (X : ext w (f w)) by (split; rewrite ?A, ?B, ?C; auto; intros k r Hr; exists r; auto).
  split; [|auto]. split; rewrite ?A, ?B, ?C; [|exact (s_cmp _ HS)|exact (s_lin _ HS)].
  intros k r Hr. destruct (s_res _ HS _ _ Hr) as [P1 P2 P3 P4]. split; rewrite ?A, ?B; auto.
Qed.
Lemma safe_get : safe (fun _ => True) get (fun _ _ => True).
Proof. intros w HS _. cbn. split; [auto|]. split; [apply ext_refl|auto]. Qed.

Lemma safe_new_mat c ctx qty pkg : safe (Hc c) (new_resource (QMat c) ctx qty pkg) (fun j w => At j ctx j true w).
Proof.
  intros w HS Hcc. unfold Hc in Hcc. cbn.
  assert (X : forall k r, nth_error (w_res w) k = Some r -> forall l, nth_error (w_res w ++ l) k = Some r).
  { intros k r Hr l. rewrite nth_error_app1; [auto|]. apply nth_error_Some. congruence. }
  split; [|split].
  - split; cbn; [|exact (s_cmp _ HS)|exact (s_lin _ HS)].
    intros k r Hr. destruct (Nat.lt_ge_cases k (length (w_res w))) as [L|L].
    + rewrite nth_error_app1 in Hr by auto. destruct (s_res _ HS _ _ Hr) as [P1 P2 P3 P4].
      split; cbn; rewrite ?app_length; auto; cbn; lia.
    + rewrite nth_error_app2 in Hr by auto. destruct (k - length (w_res w))%nat as [|n] eqn:Ek; [|destruct n; discriminate].
      injection Hr as <-. split; cbn; rewrite ?app_length; cbn; try lia; [intros ->; split; [auto|lia] | | ]; intros c' K; congruence.
  - split; cbn; auto; [|rewrite app_length; lia]. intros k r Hr. exists r. auto.
  - unfold At. cbn. rewrite nth_error_app2, Nat.sub_diag by lia. eexists. split; [reflexivity|]. auto.
Qed.
Lemma safe_new_prod s qty pkg : safe (fun _ => True) (new_resource (QProd s) true qty pkg) (fun j w => At j true j false w).
Proof.
  intros w HS _. cbn.
  split; [|split].
  - split; cbn; [|exact (s_cmp _ HS)|exact (s_lin _ HS)].
    intros k r Hr. destruct (Nat.lt_ge_cases k (length (w_res w))) as [L|L].
    + rewrite nth_error_app1 in Hr by auto. destruct (s_res _ HS _ _ Hr) as [P1 P2 P3 P4].
      split; cbn; rewrite ?app_length; auto; cbn; lia.
    + rewrite nth_error_app2 in Hr by auto. destruct (k - length (w_res w))%nat as [|n] eqn:Ek; [|destruct n; discriminate].
      injection Hr as <-. split; cbn; rewrite ?app_length; cbn; try lia;
        intros; first [discriminate | split; [auto|lia] | auto].
  - split; cbn; auto; [|rewrite app_length; lia]. intros k r Hr. exists r. split; [|auto].
    rewrite nth_error_app1; [auto|]. apply nth_error_Some. congruence.
  - unfold At. cbn. rewrite nth_error_app2, Nat.sub_diag by lia. eexists. split; [reflexivity|]. auto.
Qed.

(** ** Recording *)
Lemma S_same_lens w w' : SW w -> (forall k r', nth_error (w_res w') k = Some r' -> exists r, nth_error (w_res w) k = Some r /\
     r_ctx r' = r_ctx r /\ r_tres r' = r_tres r /\ r_qual r' = r_qual r /\ r_tracked r' = r_tracked r) ->
  length (w_res w') = length (w_res w) -> length (w_comps w') = length (w_comps w) -> w_lines w' = w_lines w ->
  (forall c x', nth_error (w_comps w') c = Some x' -> exists x, nth_error (w_comps w) c = Some x /\ c_line x' = c_line x) ->
  SW w' /\ ext w w'.
Proof.
  intros HS HR L1 L2 L3 HC. split.
  - split.
    + intros k r' Hr'. destruct (HR k r' Hr') as (r & Hr & A & B & C & D). destruct (s_res _ HS _ _ Hr) as [P1 P2 P3 P4].
      split; rewrite ?L1, ?L2, ?A, ?B, ?C, ?D; auto.
    + intros c x' Hx'. destruct (HC c x' Hx') as (x & Hx & A). rewrite L3, A. exact (s_cmp _ HS _ _ Hx).
    + rewrite L2, L3. exact (s_lin _ HS).
  - split; try lia; [|rewrite L3; lia]. intros k r Hr. assert (Lk : (k < length (w_res w'))%nat).
    { rewrite L1. apply nth_error_Some. congruence. }
    destruct (nth_error (w_res w') k) as [r'|] eqn:Hr'; [|apply nth_error_None in Hr'; lia].
    destruct (HR k r' Hr') as (r0 & Hr0 & A & B & C & D). rewrite Hr in Hr0. injection Hr0 as <-.
    exists r'. unfold kind. rewrite C. auto.
Qed.
Lemma safe_tr_record E b i k : safe (At i true i k) (tr_record E b i) (fun _ _ => True).
Proof.
  intros w HS (t & Ht & A & B & C).
  destruct (s_res _ HS _ _ Ht) as [P1 P2 P3 P4].
  assert (Hx : nth_error (w_res w) (r_tres t) = Some t) by (rewrite B; exact Ht).
  assert (HM : forall c, r_qual t = QMat c -> r_ctx t = true /\ exists cx, nth_error (w_comps w) c = Some cx).
  { intros c Hq. split; [exact A|]. specialize (P3 c Hq). destruct (nth_error (w_comps w) c) as [x|] eqn:Hcx; [eauto|apply nth_error_None in Hcx; lia]. }
  rewrite (tr_record_run E b i w t t Ht Hx A HM).
  assert (K : SW (rec_world E b t t w) /\ ext w (rec_world E b t t w)).
  { apply S_same_lens; auto.
    - intros j r' Hr'. unfold rec_world in Hr'. cbn in Hr'. destruct (Nat.eq_dec (r_tres t) j) as [<-|Hne].
      + rewrite nth_upd_same in Hr' by (apply nth_error_Some; congruence). injection Hr' as <-. exists t. cbn. auto.
      + rewrite nth_upd_other in Hr' by auto. exists r'. auto.
    - cbn. now rewrite upd_length.
    - cbn. unfold rec_comps. destruct (r_qual t); [|reflexivity]. destruct (nth_error (w_comps w) c); [|reflexivity]. now rewrite upd_length.
    - cbn. unfold rec_comps. destruct (r_qual t) as [c|]; [|intros c' x' Hx'; exists x'; auto].
      destruct (nth_error (w_comps w) c) as [x|] eqn:Hcx; [|intros c' x' Hx'; exists x'; auto].
      intros c' x' Hx'. destruct (Nat.eq_dec c c') as [<-|Hne].
      + rewrite nth_upd_same in Hx' by (apply nth_error_Some; congruence). injection Hx' as <-. exists x. auto.
      + rewrite nth_upd_other in Hx' by auto. exists x'. auto. }
  tauto.
Qed.

(** ** Tactics: walk through a function *)
Ltac pre := eapply safe_pre; [intros ? ? ?; cbv beta in *|].
Ltac sb := eapply safe_bind; [mono_tac| |intros].

Lemma safe_weak {A} (P P' : world -> Prop) (m : M A) (Q Q' : A -> world -> Prop) :
  (forall w, SW w -> P w -> P' w) -> safe P' m Q -> (forall a w, SW w -> Q a w -> Q' a w) -> safe P m Q'.
Proof. intros. eapply safe_post; [eassumption|]. eapply safe_pre; eassumption. Qed.
Lemma safe_true {A} P (m : M A) Q : safe P m Q -> safe P m (fun _ _ => True).
Proof. intros. eapply safe_post; [|eassumption]. auto. Qed.
Lemma Facts_At i r w : Facts i r w -> At i (r_ctx r) (r_tres r) (kind r) w.
Proof. now intros (H & _). Qed.
Lemma Facts_Hd i r w : Facts i r w -> Hd i w.
Proof. intros (H & _). eapply At_Hd; eauto. Qed.
Lemma Facts_tres i r w : Facts i r w -> Hd (r_tres r) w.
Proof. now intros (_ & H & _). Qed.
Lemma Facts_rec i r w : Facts i r w -> r_tracked r = true -> At i true i (kind r) w.
Proof. intros (H & _ & T & _) K. destruct (T K) as (A & B). now rewrite A, B in H. Qed.

Lemma mild_parents a b : mild (with_parents a b).
Proof. intros r. repeat split. Qed.
Lemma mild_qty q : mild (with_qty q).
Proof. intros r. repeat split. Qed.
Lemma mild_qty_f f : mild (fun r => with_qty (f r) r).
Proof. intros r. repeat split. Qed.
Lemma mild_prev q : mild (with_prev q).
Proof. intros r. repeat split. Qed.
Lemma mild_pkg q : mild (with_pkg q).
Proof. intros r. repeat split. Qed.
Lemma safe_rmod' (P : world -> Prop) i f : mild f -> (forall w, P w -> Hd i w) -> safe P (rmod i f) (fun _ _ => True).
Proof. intros M H. eapply safe_pre; [|apply safe_rmod; exact M]. auto. Qed.
Lemma safe_rget' (P : world -> Prop) i : (forall w, P w -> Hd i w) -> safe P (rget i) (fun r w => Facts i r w).
Proof. intros H. eapply safe_pre; [|apply safe_rget]. auto. Qed.
Lemma safe_cref' (P : world -> Prop) i : (forall w, P w -> Hc i w) -> safe P (cref i) (fun x w => Hl (c_line x) w).
Proof. intros H. eapply safe_pre; [|apply safe_cref]. auto. Qed.
Lemma safe_modify' (P : world -> Prop) f : (forall w, w_res (f w) = w_res w) -> (forall w, w_comps (f w) = w_comps w) -> (forall w, w_lines (f w) = w_lines w) ->
  safe P (modify f) (fun _ _ => True).
Proof. intros A B C. eapply safe_pre; [|exact (safe_modify f A B C)]. intros; exact I. Qed.
Lemma safe_emit (P : world -> Prop) d : safe P (emit d) (fun _ _ => True).
Proof. apply safe_modify'; reflexivity. Qed.
Lemma safe_get' (P : world -> Prop) : safe P get (fun _ _ => True).
Proof. eapply safe_pre; [|exact safe_get]. intros; exact I. Qed.
Lemma safe_rec' (P : world -> Prop) E b i : (forall w, P w -> exists k, At i true i k w) -> safe P (tr_record E b i) (fun _ _ => True).
Proof. intros H w HS Hw. destruct (H w Hw) as (k & K). exact (safe_tr_record E b i k w HS K). Qed.
Lemma safe_ret' {A} (P : world -> Prop) (a : A) : safe P (ret a) (fun _ _ => True).
Proof. now apply safe_ret. Qed.

(** Facts about handles in a precondition. *)
Ltac facts := intros; cbv beta in *;
  repeat match goal with H : _ /\ _ |- _ => destruct H end;
  eauto using Facts_Hd, Facts_tres, Facts_At, Facts_rec, At_Hd.
Ltac step1 :=
  first
  [ apply safe_ret'
  | apply safe_throw
  | apply safe_emit
  | apply safe_get'
  | apply safe_rget'; solve [facts]
  | apply safe_cref'; solve [facts]
  | apply safe_rmod'; [first [apply mild_parents|apply mild_qty|apply mild_prev|apply mild_pkg|apply mild_qty_f]|solve [facts]]
  | apply safe_rec'; solve [facts]
  | apply safe_modify'; reflexivity ].

Lemma safe_tr_modify E i : safe (Hd i) (tr_modify E i) (fun _ _ => True).
Proof.
  unfold tr_modify. sb; [step1|]. destruct (r_tracked a) eqn:T; cbn [negb]; [|step1].
  sb; [step1|]. sb; [step1|]. step1.
Qed.
Lemma safe_tr_create E a i : safe (Hd i) (tr_create E a i) (fun _ _ => True).
Proof.
  unfold tr_create. sb; [step1|]. destruct (r_tracked a0) eqn:T; cbn [negb]; [|step1].
  sb; [step1|]. sb; [step1|]. sb; [step1|]. step1.
Qed.
Lemma safe_tr_absorb E i j : safe (fun w => Hd i w /\ Hd j w) (tr_absorb E i j) (fun _ _ => True).
Proof.
  unfold tr_absorb. sb; [step1|]. destruct (r_tracked a) eqn:T; cbn [negb]; [|step1].
  sb; [step1|]. sb; [step1|]. sb; [step1|]. sb; [step1|]. step1.
Qed.
Lemma safe_tr_package E i p : safe (fun w => Hd i w /\ match p with Some q => Hd q w | None => True end) (tr_package E i p) (fun _ _ => True).
Proof.
  unfold tr_package. destruct p as [q|].
  - sb; [step1|]. destruct (r_tracked a) eqn:T; cbn [negb]; [|step1]. sb; [step1|]. sb; [step1|]. sb; [step1|]. step1.
  - sb; [step1|]. destruct (r_tracked a) eqn:T; cbn [negb]; [|step1]. sb; [step1|]. sb; [step1|]. step1.
Qed.
(** The extracted resource [j] has the context of [i] and its own tracker. *)
Lemma safe_tr_extract E i j : safe (fun w => exists a t k, At i a t k w /\ At j a j k w) (tr_extract E i j) (fun _ _ => True).
Proof.
  intros w HS (a & t & k & Hi & Hj). revert w HS Hi Hj.
  assert (K : safe (fun w => At i a t k w /\ At j a j k w) (tr_extract E i j) (fun _ _ => True)).
  { unfold tr_extract. sb; [step1|]. destruct (r_tracked a0) eqn:T; cbn [negb]; [|step1].
    assert (P : forall w, (At i a t k w /\ At j a j k w) /\ Facts i a0 w -> At j true j k w).
    { intros w ((A & B) & F). pose proof (Facts_rec _ _ _ F T) as C. destruct A as (r & A1 & A2 & _). destruct C as (r2 & C1 & C2 & _).
      rewrite A1 in C1. injection C1 as <-. rewrite <- A2, C2 in B. exact B. }
    sb; [step1|]. sb.
    { destruct (Qltb (e_eps E) (r_qty a1)); [step1|apply safe_ret']. }
    sb.
    { eapply safe_pre; [|apply (safe_set_tracked j _ _ _ k)]. facts. }
    sb.
    { apply safe_rec'. facts. }
    sb; [step1|].
    destruct (Qltb (e_eps E) (r_qty a5)); [apply safe_rec'|apply safe_ret']. facts. }
  intros w HS Hi Hj. exact (K w HS (conj Hi Hj)).
Qed.

(** ** Compositions *)
Lemma SW_grow w x l ls : SW w -> (length (w_lines w) <= length ls)%nat -> c_line x = l -> (l < length ls)%nat ->
  Forall (Forall (fun p => (snd p < S (length (w_comps w)))%nat)) ls ->
  forall n, let w' := set_next_comp n (set_lines ls (set_comps (w_comps w ++ [x]) w)) in SW w' /\ ext w w'.
Proof.
  intros HS L1 L2 L3 L4 n w'. split.
  - split; subst w'; cbn.
    + intros k r Hr. destruct (s_res _ HS _ _ Hr) as [P1 P2 P3 P4]. split; cbn; rewrite ?app_length; auto.
      intros c K. specialize (P3 c K). cbn. lia.
    + intros c y Hy. destruct (Nat.lt_ge_cases c (length (w_comps w))) as [L|L].
      * rewrite nth_error_app1 in Hy by auto. pose proof (s_cmp _ HS _ _ Hy). eapply Nat.lt_le_trans; [eassumption|exact L1].
      * rewrite nth_error_app2 in Hy by auto. destruct (c - length (w_comps w))%nat as [|m]; [|destruct m; discriminate].
        injection Hy as <-. rewrite L2. exact L3.
    + rewrite app_length. cbn. rewrite Nat.add_1_r. exact L4.
  - split; subst w'; cbn; rewrite ?app_length; auto; [|cbn; lia]. intros k r Hr. exists r. auto.
Qed.
Lemma lines_weaken n m (ls : list (zmap nat)) : (n <= m)%nat -> Forall (Forall (fun p => (snd p < n)%nat)) ls ->
  Forall (Forall (fun p => (snd p < m)%nat)) ls.
Proof. intros H. apply Forall_impl. intros a. apply Forall_impl. intros p. lia. Qed.

Lemma safe_comp_new (P : world -> Prop) a m : safe P (comp_new a m) (fun c w => Hc c w).
Proof.
  intros w HS _. unfold comp_new.
  destruct (SW_grow w (mkComp (w_next_comp w) a m false 0 (length (w_lines w))) (length (w_lines w)) (w_lines w ++ [[]]) HS) with (n := (w_next_comp w + 1)%Z)
    as (A & B); [rewrite app_length; lia|reflexivity|rewrite app_length; cbn; lia| |].
  - apply Forall_app. split; [eapply lines_weaken; [|exact (s_lin _ HS)]; lia|]. constructor; constructor.
  - split; [exact A|]. split; [exact B|]. unfold Hc. cbn. rewrite app_length. cbn. lia.
Qed.
Lemma safe_create_from_mass E (P : world -> Prop) v : safe P (create_from_mass E v) (fun c w => Hc c w).
Proof.
  unfold create_from_mass. destruct (negb (valid_nucs _ _)); [apply safe_throw|].
  destruct (negb (all_positive v)); [apply safe_throw|]. apply safe_comp_new.
Qed.
Lemma safe_create_from_atom E (P : world -> Prop) v : safe P (create_from_atom E v) (fun c w => Hc c w).
Proof.
  unfold create_from_atom. destruct (negb (valid_nucs _ _)); [apply safe_throw|].
  destruct (negb (all_positive v)); [apply safe_throw|]. apply safe_comp_new.
Qed.

Lemma zset_Forall {V} (Q : Z * V -> Prop) k v (m : zmap V) : Forall Q m -> Q (k, v) -> Forall Q (zset k v m).
Proof.
  intros H K. induction m as [|[k' v'] t IH]; cbn; [constructor; auto|].
  inversion H; subst. destruct (Z.ltb k k'); [constructor; auto|]. destruct (Z.eqb k k'); constructor; auto.
Qed.
Lemma safe_comp_decay E ci d s : safe (Hc ci) (comp_decay E ci d s) (fun c w => Hc c w).
Proof.
  intros w HS Hci. unfold comp_decay, bind, cref, deref. unfold Hc in Hci.
  destruct (nth_error (w_comps w) ci) as [x|] eqn:Hx; [|apply nth_error_None in Hx; lia].
  unfold ret, get. pose proof (s_cmp _ HS _ _ Hx) as Lx.
  destruct (nth_error (w_lines w) (c_line x)) as [line|] eqn:Hl'; [|apply nth_error_None in Hl'; lia].
  assert (HL : Forall (fun p => (snd p < length (w_comps w))%nat) line).
  { pose proof (s_lin _ HS) as K. rewrite Forall_forall in K. exact (K line (nth_error_In _ _ Hl')). }
  destruct (zfind (c_prev x + d) line) as [c|] eqn:F.
  - split; [exact HS|]. split; [apply ext_refl|]. unfold Hc. apply zfind_In in F. rewrite Forall_forall in HL. exact (HL _ F).
  - assert (N : exists a, new_decay E x d s w = comp_new_in_line a (c_prev x + d) (c_line x) w).
    { unfold new_decay. destruct (comp_atom E x); eauto. }
    destruct N as (a & ->). unfold comp_new_in_line, modify. cbn [fst snd].
    pose proof (SW_grow w (mkComp (w_next_comp w) a [] false (c_prev x + d) (c_line x)) (c_line x)
      (upd (w_lines w) (c_line x) (zset (c_prev x + d) (length (w_comps w)) line)) HS) as G.
    rewrite upd_length in G. specialize (G (Nat.le_refl _) eq_refl Lx).
    assert (G' : Forall (Forall (fun p : Z * nat => (snd p < S (length (w_comps w)))%nat))
      (upd (w_lines w) (c_line x) (zset (c_prev x + d) (length (w_comps w)) line))).
    { assert (W : Forall (Forall (fun p : Z * nat => (snd p < S (length (w_comps w)))%nat)) (w_lines w)) by (eapply lines_weaken; [|exact (s_lin _ HS)]; lia).
      assert (W2 : Forall (fun p : Z * nat => (snd p < S (length (w_comps w)))%nat) (zset (c_prev x + d) (length (w_comps w)) line)).
      { apply zset_Forall; [|cbn; lia]. eapply Forall_impl; [|exact HL]. intros p Hp. cbv beta in Hp. lia. }
      clear - W W2. revert W. generalize (w_lines w) (c_line x). induction l as [|y t IH]; intros i W; [destruct i; constructor|].
      inversion W; subst. destruct i; cbn; constructor; auto. }
    specialize (G G' (w_next_comp w + 1)%Z). cbn in G. destruct G as (G1 & G2).
    split; [exact G1|]. split; [exact G2|]. unfold Hc. cbn. rewrite app_length. cbn. lia.
Qed.

(** ** Material *)
Lemma safe_mat_ptr (P : world -> Prop) i r : (forall w, P w -> Facts i r w) -> kind r = true ->
  safe P (mat_comp_ptr r) (fun c w => Hc c w /\ r_qual r = QMat c).
Proof.
  intros H K. unfold mat_comp_ptr, kind in *. destruct (r_qual r) as [c|] eqn:Q; [|discriminate].
  apply safe_ret. intros w HS Hw. split; [|reflexivity]. destruct (H w Hw) as (_ & _ & _ & M & _). auto.
Qed.
(** [i] is a material handle. *)
Definition Hm (i : nat) (w : world) := exists a b, At i a b true w.
Definition Hp (i : nat) (w : world) := exists a b, At i a b false w.
Lemma mono_Hm i : mono (Hm i).
Proof. intros w w' X (a & b & H). exists a, b. eapply mono_At; eauto. Qed.
Lemma mono_Hp i : mono (Hp i).
Proof. intros w w' X (a & b & H). exists a, b. eapply mono_At; eauto. Qed.
#[export] Hint Resolve mono_Hm mono_Hp : mono.
Lemma Hm_Hd i w : Hm i w -> Hd i w.
Proof. intros (a & b & H). eapply At_Hd; eauto. Qed.
Lemma Hp_Hd i w : Hp i w -> Hd i w.
Proof. intros (a & b & H). eapply At_Hd; eauto. Qed.
(** Reading a material gives its composition pointer. *)
Lemma At_kind i a b k r w : At i a b k w -> Facts i r w -> k = kind r /\ a = r_ctx r /\ b = r_tres r.
Proof.
  intros (x & A & B & C & D) ((y & A' & B' & C' & D') & _). rewrite A in A'. injection A' as <-.
  repeat split; congruence.
Qed.
(** rget followed by a continuation, knowing the kind. *)
Lemma safe_get_mat {A} (P : world -> Prop) i (f : resource -> M A) R : mono P -> (forall w, P w -> Hm i w) ->
  (forall r, kind r = true -> safe (fun w => P w /\ Facts i r w) (f r) R) -> safe P (bind (rget i) f) R.
Proof.
  intros HP HM Hf w HS Hw. pose proof (HM w Hw) as (a & b & HA).
  pose proof (safe_rget i w HS (At_Hd _ _ _ _ _ HA)) as K. unfold bind. unfold rget, deref, ret in *.
  destruct (nth_error (w_res w) i) as [r|]; [|contradiction]. destruct K as (K1 & K2 & K3).
  apply (Hf r); auto. symmetry. now destruct (At_kind _ _ _ _ _ _ HA K3).
Qed.
Lemma safe_get_prod {A} (P : world -> Prop) i (f : resource -> M A) R : mono P -> (forall w, P w -> Hp i w) ->
  (forall r, kind r = false -> safe (fun w => P w /\ Facts i r w) (f r) R) -> safe P (bind (rget i) f) R.
Proof.
  intros HP HM Hf w HS Hw. pose proof (HM w Hw) as (a & b & HA).
  pose proof (safe_rget i w HS (At_Hd _ _ _ _ _ HA)) as K. unfold bind. unfold rget, deref, ret in *.
  destruct (nth_error (w_res w) i) as [r|]; [|contradiction]. destruct K as (K1 & K2 & K3).
  apply (Hf r); auto. symmetry. now destruct (At_kind _ _ _ _ _ _ HA K3).
Qed.
Ltac facts ::= intros; cbv beta in *;
  repeat match goal with H : _ /\ _ |- _ => destruct H end;
  eauto using Facts_Hd, Facts_tres, Facts_At, Facts_rec, At_Hd, Hm_Hd, Hp_Hd.

Lemma safe_transmute E i c : safe (fun w => Hm i w /\ Hc c w) (mat_transmute E i c) (fun _ _ => True).
Proof.
  unfold mat_transmute. sb.
  { eapply safe_pre; [|apply safe_set_qual]. intros w _ (A & B). auto. }
  sb. { eapply safe_pre; [|apply safe_tr_modify]. facts. }
  sb; [step1|]. sb; [step1|]. destruct (_ && _); step1.
Qed.
Lemma safe_mat_decay E i t : safe (Hm i) (mat_decay E i t) (fun _ _ => True).
Proof.
  unfold mat_decay. apply safe_get_mat; [mono_tac|auto|]. intros r Kr.
  sb; [apply (safe_mat_ptr _ i); [facts|exact Kr]|].
  destruct (_ && _); [step1|]. destruct (_ && _); [step1|]. sb; [step1|]. cbv zeta.
  destruct (Z.eqb _ 0); [step1|]. sb; [step1|]. destruct (_ || _); [|step1].
  sb; [step1|]. sb.
  { eapply safe_pre; [|apply safe_comp_decay]. facts. }
  eapply safe_pre; [|apply safe_transmute]. facts.
Qed.
Lemma safe_mat_comp E i : safe (Hm i) (mat_comp E i) (fun c w => Hc c w).
Proof.
  unfold mat_comp. apply safe_get_mat; [mono_tac|auto|]. intros r Kr. sb.
  { destruct (_ && _); [eapply safe_pre; [|apply safe_mat_decay]; facts|step1]. }
  apply safe_get_mat; [mono_tac|facts|]. intros r' Kr'.
  eapply safe_post; [|apply (safe_mat_ptr _ i); [facts|exact Kr']]. cbv beta. tauto.
Qed.
Lemma safe_mat_absorb E i j : safe (fun w => Hm i w /\ Hm j w) (mat_absorb E i j) (fun _ _ => True).
Proof.
  unfold mat_absorb. sb. { eapply safe_pre; [|apply safe_mat_comp]. facts. }
  sb. { eapply safe_pre; [|apply safe_mat_comp]. facts. }
  sb.
  { destruct (Nat.eqb a a0); [step1|]. sb; [step1|]. sb; [step1|]. sb; [step1|]. sb; [step1|]. cbv zeta.
    sb; [apply safe_create_from_mass|]. eapply safe_pre; [|apply safe_set_qual]. facts. }
  sb; [step1|]. sb; [step1|]. sb. { destruct (Qltb _ _); step1. }
  sb; [step1|]. sb; [step1|]. eapply safe_pre; [|apply safe_tr_absorb]. facts.
Qed.
Lemma lift_safe {A} (P : world -> Prop) (r : result A) : r <> UB -> safe P (lift r) (fun _ _ => True).
Proof. intros H w HS _. unfold lift. destruct r; [| |congruence]; split; auto using ext_refl. Qed.
Lemma At_same i a b k r w : At i a b k w -> Facts i r w -> At i (r_ctx r) (r_tres r) (kind r) w.
Proof. intros _ H. now apply Facts_At. Qed.
Lemma safe_extract_comp E i q c t : safe (fun w => Hm i w /\ Hc c w) (mat_extract_comp E i q c t) (fun _ _ => True).
Proof.
  unfold mat_extract_comp. apply safe_get_mat; [mono_tac|facts|]. intros r Kr.
  sb; [apply (safe_mat_ptr _ i); [facts|exact Kr]|]. destruct (Qltb _ _); [step1|].
  sb.
  { destruct (Nat.eqb a c); [step1|]. sb; [step1|]. sb; [step1|]. cbv zeta. 
    sb. { apply lift_safe. unfold apply_threshold. destruct (Qltb t 0); discriminate. }
    sb; [apply safe_create_from_mass|]. eapply safe_pre; [|apply safe_set_qual]. facts. }
  sb; [step1|].
  apply safe_get_mat; [mono_tac|facts|]. intros r2 Kr2.
  sb. { eapply safe_pre; [|apply safe_new_mat]. facts. }
  sb; [step1|].
  sb.
  { eapply safe_pre; [|apply safe_tr_extract]. intros w _ H. cbv beta in H.
    repeat match goal with H : _ /\ _ |- _ => destruct H end.
    match goal with F : Facts i r2 w |- _ => pose proof (Facts_At _ _ _ F) as FA end. rewrite Kr2 in FA. eauto. }
  step1.
Qed.
Lemma safe_mat_extract_qty E i q : safe (Hm i) (mat_extract_qty E i q) (fun _ _ => True).
Proof.
  unfold mat_extract_qty. apply safe_get_mat; [mono_tac|auto|]. intros r Kr.
  sb; [apply (safe_mat_ptr _ i); [facts|exact Kr]|]. eapply safe_pre; [|apply safe_extract_comp]. facts.
Qed.
Lemma safe_tr_package' (P : world -> Prop) E i p : (forall w, P w -> Hd i w) -> (forall w q, P w -> p = Some q -> Hd q w) ->
  safe P (tr_package E i p) (fun _ _ => True).
Proof.
  intros A B. eapply safe_pre; [|apply safe_tr_package]. intros w _ Hw. split; [auto|]. destruct p as [q|]; [|auto].
  now apply (B w q).
Qed.
Lemma safe_mat_package_extract E i q p : safe (Hm i) (mat_package_extract E i q p) (fun _ _ => True).
Proof.
  unfold mat_package_extract. apply safe_get_mat; [mono_tac|auto|]. intros r Kr.
  sb; [apply (safe_mat_ptr _ i); [facts|exact Kr]|]. destruct (Qltb _ _); [step1|].
  sb; [step1|]. sb. { eapply safe_pre; [|apply safe_new_mat]. facts. }
  sb; [step1|]. sb. { apply safe_tr_package'; [facts|]. intros w q' H [= <-]. facts. }
  sb; [step1|]. sb; [|step1]. destruct (Qltb _ _); [|step1]. eapply safe_pre; [|apply safe_tr_modify]. facts.
Qed.
Lemma safe_get_package E (P : world -> Prop) n : safe P (get_package E n) (fun _ _ => True).
Proof.
  unfold get_package. destruct (String.eqb _ _); [step1|]. destruct (find _ _) as [[? ?]|]; [apply safe_ret'|apply safe_throw].
Qed.
Lemma safe_mat_change_package E i n : safe (Hd i) (mat_change_package E i n) (fun _ _ => True).
Proof.
  unfold mat_change_package. sb; [step1|]. destruct (negb _); [step1|]. destruct (String.eqb _ _); [step1|].
  sb; [apply safe_get_package|]. destruct (_ && _); [|step1]. sb; [step1|]. apply safe_tr_package'; [facts|discriminate].
Qed.

(** ** Product *)
Lemma safe_prod_quality (P : world -> Prop) r : kind r = false -> safe P (prod_quality r) (fun s _ => r_qual r = QProd s).
Proof. unfold prod_quality, kind. destruct (r_qual r); [discriminate|]. intros _. now apply safe_ret. Qed.
Lemma safe_new_prod' (P : world -> Prop) ctx s qty pkg : ctx = true ->
  safe P (new_resource (QProd s) ctx qty pkg) (fun j w => At j ctx j false w).
Proof. intros ->. eapply safe_pre; [|apply safe_new_prod]. intros; exact I. Qed.
Lemma safe_pure {A} (X : Prop) (P : world -> Prop) (m : M A) R : (X -> safe P m R) -> safe (fun w => P w /\ X) m R.
Proof. intros H w HS (A1 & A2). exact (H A2 w HS A1). Qed.
Lemma safe_prod_create E a q s p : safe (fun _ => True) (prod_create E a q s p) (fun _ _ => True).
Proof.
  unfold prod_create. sb; [step1|]. sb.
  { destruct (assoc _ _); [step1|]. sb; [step1|]. step1. }
  sb; [now apply safe_new_prod'|]. sb; [|step1]. eapply safe_pre; [|apply safe_tr_create]. facts.
Qed.
Lemma safe_prod_absorb E i j : safe (fun w => Hp i w /\ Hp j w) (prod_absorb E i j) (fun _ _ => True).
Proof.
  unfold prod_absorb. apply safe_get_prod; [mono_tac|facts|]. intros a Ka. apply safe_get_prod; [mono_tac|facts|]. intros b Kb.
  sb; [now apply safe_prod_quality|]. sb; [now apply safe_prod_quality|]. destruct (negb _); [step1|].
  sb; [step1|]. sb; [step1|]. eapply safe_pre; [|apply safe_tr_absorb]. facts.
Qed.
Lemma Facts_ctx i r s w : Facts i r w -> r_qual r = QProd s -> r_ctx r = true.
Proof. intros (_ & _ & _ & _ & H) Q. exact (H s Q). Qed.
(** reading a product gives the context too *)
Lemma safe_know {A} (X : Prop) (P : world -> Prop) (m : M A) R : (forall w, SW w -> P w -> X) -> (X -> safe P m R) -> safe P m R.
Proof. intros H K w HS Hw. exact (K (H w HS Hw) w HS Hw). Qed.
Lemma safe_prod_extract E i q : safe (Hp i) (prod_extract E i q) (fun _ _ => True).
Proof.
  unfold prod_extract. apply safe_get_prod; [mono_tac|auto|]. intros r Kr.
  sb; [now apply safe_prod_quality|]. destruct (Qltb _ _); [step1|].
  apply (safe_know (r_ctx r = true)).
  { intros w _ ((_ & F) & Q). eapply Facts_ctx; eauto. }
  intros C. sb; [step1|]. sb; [now apply safe_new_prod'|]. sb; [|step1].
  eapply safe_pre; [|apply safe_tr_extract]. intros w _ H. cbv beta in H.
  repeat match goal with H : _ /\ _ |- _ => destruct H end.
  match goal with F : Facts i r w |- _ => pose proof (Facts_At _ _ _ F) as FA end. rewrite Kr in FA. eauto.
Qed.
Lemma safe_prod_package_extract E i q p : safe (Hp i) (prod_package_extract E i q p) (fun _ _ => True).
Proof.
  unfold prod_package_extract. apply safe_get_prod; [mono_tac|auto|]. intros r Kr.
  sb; [now apply safe_prod_quality|]. destruct (Qltb _ _); [step1|].
  apply (safe_know (r_ctx r = true)).
  { intros w _ ((_ & F) & Q). eapply Facts_ctx; eauto. }
  intros C. sb; [step1|]. sb; [now apply safe_new_prod'|].
  sb. { apply safe_tr_package'; [facts|]. intros w q' H [= <-]. facts. }
  sb; [step1|]. sb; [|step1]. destruct (Qltb _ _); [|step1]. eapply safe_pre; [|apply safe_tr_modify]. facts.
Qed.
Lemma safe_prod_change_package E i n : safe (Hd i) (prod_change_package E i n) (fun _ _ => True).
Proof.
  unfold prod_change_package. sb; [step1|]. destruct (_ || _); [step1|].
  destruct (String.eqb _ _). { sb; [step1|]. apply safe_tr_package'; [facts|discriminate]. }
  sb; [apply safe_get_package|]. destruct (_ && _); [|step1]. sb; [step1|]. apply safe_tr_package'; [facts|discriminate].
Qed.

(** ** Dispatch *)
Lemma Facts_Hm i r c w : Facts i r w -> r_qual r = QMat c -> Hm i w.
Proof. intros (H & _) Q. exists (r_ctx r), (r_tres r). unfold kind in H. now rewrite Q in H. Qed.
Lemma Facts_Hp i r c w : Facts i r w -> r_qual r = QProd c -> Hp i w.
Proof. intros (H & _) Q. exists (r_ctx r), (r_tres r). unfold kind in H. now rewrite Q in H. Qed.
Ltac facts ::= intros; cbv beta in *;
  repeat match goal with H : _ /\ _ |- _ => destruct H end;
  eauto using Facts_Hd, Facts_tres, Facts_At, Facts_rec, At_Hd, Hm_Hd, Hp_Hd, Facts_Hm, Facts_Hp.
Lemma safe_extract_res E i q : safe (Hd i) (extract_res E i q) (fun _ _ => True).
Proof.
  unfold extract_res. sb; [step1|]. destruct (r_qual a) eqn:Q.
  - eapply safe_pre; [|apply safe_mat_extract_qty]. facts.
  - eapply safe_pre; [|apply safe_prod_extract]. facts.
Qed.
Lemma safe_package_extract E i q p : safe (Hd i) (package_extract E i q p) (fun _ _ => True).
Proof.
  unfold package_extract. sb; [step1|]. destruct (r_qual a) eqn:Q.
  - eapply safe_pre; [|apply safe_mat_package_extract]. facts.
  - eapply safe_pre; [|apply safe_prod_package_extract]. facts.
Qed.
Lemma safe_change_package E i p : safe (Hd i) (change_package E i p) (fun _ _ => True).
Proof.
  unfold change_package. sb; [step1|]. destruct (r_qual a) eqn:Q.
  - eapply safe_pre; [|apply safe_mat_change_package]. facts.
  - eapply safe_pre; [|apply safe_prod_change_package]. facts.
Qed.
Lemma safe_res_decay E i t : safe (Hd i) (res_decay E i t) (fun _ _ => True).
Proof.
  unfold res_decay. sb; [step1|]. destruct (r_qual a) eqn:Q; [|step1].
  eapply safe_pre; [|apply safe_mat_decay]. facts.
Qed.
Lemma safe_package_loop E i n fs : safe (Hd i) (package_loop E i n fs) (fun _ _ => True).
Proof.
  induction fs as [|f t IH]; cbn; [step1|]. sb; [apply safe_package_extract|]. sb; [|step1].
  eapply safe_pre; [|exact IH]. facts.
Qed.
Lemma safe_absorb_m E i j : safe (fun w => Hm i w /\ Hm j w) (absorb E i j) (fun _ _ => True).
Proof.
  unfold absorb. apply safe_get_mat; [mono_tac|facts|]. intros a Ka. apply safe_get_mat; [mono_tac|facts|]. intros b Kb.
  unfold kind in *. destruct (r_qual a); [|discriminate]. destruct (r_qual b); [|discriminate].
  eapply safe_pre; [|apply safe_mat_absorb]. facts.
Qed.
Lemma safe_absorb_p E i j : safe (fun w => Hp i w /\ Hp j w) (absorb E i j) (fun _ _ => True).
Proof.
  unfold absorb. apply safe_get_prod; [mono_tac|facts|]. intros a Ka. apply safe_get_prod; [mono_tac|facts|]. intros b Kb.
  unfold kind in *. destruct (r_qual a); [discriminate|]. destruct (r_qual b); [discriminate|].
  eapply safe_pre; [|apply safe_prod_absorb]. facts.
Qed.
Lemma safe_clone i : safe (Hd i) (res_clone i) (fun _ _ => True).
Proof.
  intros w HS Hi. unfold Hd in Hi. unfold res_clone, bind, rget, deref, ret, get, modify.
  destruct (nth_error (w_res w) i) as [r|] eqn:Hr; [|apply nth_error_None in Hr; lia].
  destruct (s_res _ HS _ _ Hr) as [A B C D]. split; [|split].
  - split; cbn.
    + intros k x Hx. destruct (Nat.lt_ge_cases k (length (w_res w))) as [L|L].
      * rewrite nth_error_app1 in Hx by auto. destruct (s_res _ HS _ _ Hx) as [A1 B1 C1 D1]. split; cbn; auto.
        rewrite app_length. lia.
      * rewrite nth_error_app2 in Hx by auto. destruct (k - length (w_res w))%nat as [|m]; [|destruct m; discriminate].
        injection Hx as <-. split; cbn; auto; [discriminate|]. rewrite app_length. lia.
    + exact (s_cmp _ HS).
    + exact (s_lin _ HS).
  - split; cbn; rewrite ?app_length; auto; [|cbn; lia]. intros k x Hx. exists x. split; [|auto].
    rewrite nth_error_app1; [exact Hx|]. apply nth_error_Some. congruence.
  - exact I.
Qed.
Lemma safe_drop {A} (P : world -> Prop) (m : M A) Q : mono P -> safe P m Q -> safe P (drop m) (fun _ _ => True).
Proof. intros HP H. unfold drop. eapply safe_bind; [exact HP|exact H|]. intros a. apply safe_ret'. Qed.
Lemma safe_mat_only (P : world -> Prop) i m : mono P -> (forall w, P w -> Hm i w) -> safe P m (fun _ _ => True) ->
  safe P (mat_only i m) (fun _ _ => True).
Proof.
  intros HP H K. unfold mat_only. apply safe_get_mat; auto. intros r Kr.
  eapply safe_bind; [apply mono_and; [exact HP|apply mono_Facts]|apply (safe_mat_ptr _ i); [facts|exact Kr]|]. intros c.
  eapply safe_pre; [|exact K]. facts.
Qed.
Lemma safe_valid_comp (P : world -> Prop) c m : mono P -> (forall w, P w -> Hc c w) -> safe P m (fun _ _ => True) ->
  safe P (valid_comp c m) (fun _ _ => True).
Proof.
  intros HP H K. unfold valid_comp. eapply safe_bind; [exact HP|apply safe_cref'; exact H|]. intros c0.
  eapply safe_pre; [|exact K]. facts.
Qed.

(** ** The step *)
Lemma handle_Hd w i : handle w i -> Hd i w.
Proof. intros (r & H). unfold Hd. apply nth_error_Some. congruence. Qed.
Lemma comp_Hc w i : comp_handle w i -> Hc i w.
Proof. intros (r & H). unfold Hc. apply nth_error_Some. congruence. Qed.
Lemma mat_Hm w i : mat_handle w i -> Hm i w.
Proof. intros (r & H & c & Q). exists (r_ctx r), (r_tres r), r. unfold kind. rewrite Q. auto. Qed.
Lemma prod_Hp w i : prod_handle w i -> Hp i w.
Proof.
  intros (r & H & K). exists (r_ctx r), (r_tres r), r. unfold kind. destruct (r_qual r) eqn:Q; [|auto].
  exfalso. apply K. now exists c.
Qed.
Definition fine {A} (m : M A) (w : world) : Prop :=
  match m w with (UB, _) => False | (_, w') => SW w' end.
Lemma safe_fine {A} P (m : M A) Q w : safe P m Q -> SW w -> P w -> fine m w.
Proof. intros H HS Hw. specialize (H w HS Hw). unfold fine. destruct (m w) as [[?|?|] ?]; tauto. Qed.

Lemma step_fine E w o : SW w -> valid_op E w o -> no_untracked_product o -> fine (step E o) w.
Proof.
  intros HS V N. destruct o; cbn [step valid_op no_untracked_product] in *; try contradiction.
  - destruct by_mass; eapply safe_fine; [|exact HS|exact I| |exact HS|exact I];
      eapply safe_drop; try apply mono_pure; [apply safe_create_from_mass|apply safe_create_from_atom].
  - eapply safe_fine; [eapply safe_drop; [apply mono_Hc|apply safe_comp_decay]|exact HS|now apply comp_Hc].
  - eapply (safe_fine (Hc c)); [|exact HS|now apply comp_Hc]. apply safe_valid_comp; [mono_tac|auto|].
    eapply safe_drop; [mono_tac|]. unfold mat_create. sb; [apply safe_new_mat|]. sb; [|step1].
    eapply safe_pre; [|apply safe_tr_create]. facts.
  - eapply (safe_fine (Hc c)); [|exact HS|now apply comp_Hc]. apply safe_valid_comp; [mono_tac|auto|].
    eapply safe_drop; [mono_tac|]. unfold mat_create_untracked. apply safe_new_mat.
  - eapply safe_fine; [eapply safe_drop; [apply mono_pure|apply safe_prod_create]|exact HS|exact I].
  - eapply safe_fine; [eapply safe_drop; [apply mono_Hd|apply safe_clone]|exact HS|now apply handle_Hd].
  - eapply safe_fine; [eapply safe_drop; [apply mono_Hd|apply safe_extract_res]|exact HS|now apply handle_Hd].
  - destruct V as (V1 & V2). eapply (safe_fine (fun w => Hm i w /\ Hc c w)); [|exact HS|split; [now apply mat_Hm|now apply comp_Hc]].
    apply safe_mat_only; [mono_tac|tauto|]. apply safe_valid_comp; [mono_tac|tauto|].
    eapply safe_drop; [mono_tac|]. apply safe_extract_comp.
  - destruct V as [(V1 & V2)|(V1 & V2)].
    + eapply safe_fine; [apply safe_absorb_m|exact HS|split; now apply mat_Hm].
    + eapply safe_fine; [apply safe_absorb_p|exact HS|split; now apply prod_Hp].
  - destruct V as (V1 & V2). eapply (safe_fine (fun w => Hm i w /\ Hc c w)); [|exact HS|split; [now apply mat_Hm|now apply comp_Hc]].
    apply safe_mat_only; [mono_tac|tauto|]. apply safe_valid_comp; [mono_tac|tauto|]. apply safe_transmute.
  - eapply safe_fine; [apply safe_res_decay|exact HS|now apply handle_Hd].
  - eapply (safe_fine (Hm i)); [|exact HS|now apply mat_Hm].
    apply safe_mat_only; [mono_tac|tauto|]. eapply safe_drop; [mono_tac|]. apply safe_mat_comp.
  - eapply safe_fine; [eapply safe_drop; [apply mono_Hd|apply safe_package_extract]|exact HS|now apply handle_Hd].
  - destruct V as (r & Hr & a & rest & HG & Ha).
    eapply (safe_fine (fun x => x = w /\ Hd i x) _ (fun _ _ => True)); [|exact HS|split; [reflexivity|apply handle_Hd; now exists r]].
    intros w' HS' (-> & Hi). unfold drop, res_package, bind at 1 2, rget, deref, ret. rewrite Hr. rewrite HG.
    destruct a as [fills|e|]; [| |congruence].
    + pose proof (safe_package_loop E i (p_name p) fills w HS Hi) as K.
      destruct (package_loop E i (p_name p) fills w) as [[?|?|] ?]; cbn; tauto.
    + cbn. split; [exact HS|apply ext_refl].
  - eapply safe_fine; [apply safe_change_package|exact HS|now apply handle_Hd].
  - eapply (safe_fine (fun _ => True)); [apply safe_modify'; reflexivity|exact HS|exact I].
Qed.

(** A call that is not valid is undefined behaviour. *)
Ltac inv_bind H := unfold bind at 1 in H.
Lemma rget_ok {A} i (f : resource -> M A) w : fst (bind (rget i) f w) <> UB -> exists r, nth_error (w_res w) i = Some r /\ fst (f r w) <> UB.
Proof.
  unfold bind, rget, deref, ret. destruct (nth_error (w_res w) i) as [r|] eqn:Hr.
  - intros H. exists r. auto.
  - cbn. congruence.
Qed.
Lemma cref_ok {A} i (f : comp -> M A) w : fst (bind (cref i) f w) <> UB -> exists r, nth_error (w_comps w) i = Some r /\ fst (f r w) <> UB.
Proof.
  unfold bind, cref, deref, ret. destruct (nth_error (w_comps w) i) as [r|] eqn:Hr.
  - intros H. exists r. auto.
  - cbn. congruence.
Qed.
Lemma drop_ok {A} (m : M A) w : fst (drop m w) <> UB -> fst (m w) <> UB.
Proof. unfold drop, bind, ret. destruct (m w) as [[?|?|] ?]; cbn; congruence. Qed.
Lemma mat_only_ok i m w : fst (mat_only i m w) <> UB -> mat_handle w i /\ fst (m w) <> UB.
Proof.
  unfold mat_only. intros H. apply rget_ok in H. destruct H as (r & Hr & H). unfold mat_comp_ptr, bind, ret in H.
  destruct (r_qual r) as [c|s] eqn:Q.
  - split; [exists r; split; [auto|now exists c]|exact H].
  - cbn in H. congruence.
Qed.
Lemma step_valid E w o : fst (step E o w) <> UB -> valid_op E w o.
Proof.
  destruct o; cbn [step valid_op]; intros H; auto.
  - apply drop_ok, cref_ok in H. destruct H as (x & H & _). now exists x.
  - apply cref_ok in H. destruct H as (x & H & _). now exists x.
  - apply cref_ok in H. destruct H as (x & H & _). now exists x.
  - apply drop_ok, rget_ok in H. destruct H as (x & H & _). now exists x.
  - apply drop_ok, rget_ok in H. destruct H as (x & H & _). now exists x.
  - apply mat_only_ok in H. destruct H as (A & H). split; [exact A|]. apply cref_ok in H. destruct H as (x & H & _). now exists x.
  - apply rget_ok in H. destruct H as (a & Ha & H). apply rget_ok in H. destruct H as (b & Hb & H).
    destruct (r_qual a) as [ca|sa] eqn:Qa; destruct (r_qual b) as [cb|sb0] eqn:Qb; try (cbn in H; congruence).
    + left. split; [exists a|exists b]; (split; [auto|]); [now exists ca|now exists cb].
    + right. split; [exists a|exists b]; (split; [auto|]); intros (c & K); congruence.
  - apply mat_only_ok in H. destruct H as (A & H). split; [exact A|]. apply cref_ok in H. destruct H as (x & H & _). now exists x.
  - apply rget_ok in H. destruct H as (x & H & _). now exists x.
  - apply mat_only_ok in H. tauto.
  - apply drop_ok, rget_ok in H. destruct H as (x & H & _). now exists x.
  - apply drop_ok, rget_ok in H. destruct H as (x & Hx & H). exists x. split; [auto|].
    destruct (get_fill_mass _ _ _ _) as [[a rest]|]; [|cbn in H; congruence].
    exists a, rest. split; [auto|]. intros ->. cbn in H. congruence.
  - apply rget_ok in H. destruct H as (x & H & _). now exists x.
Qed.

Lemma SW_world0 : SW world0.
Proof.
  split; cbn.
  - intros k r H. destruct k; discriminate.
  - intros k r H. destruct k; discriminate.
  - constructor.
Qed.
Lemma run_SW E ops : Forall no_untracked_product ops -> forall w w', SW w -> run E ops w = Some w' -> SW w'.
Proof.
  induction 1 as [|o t No _ IH]; intros w w' HS R; cbn in R; [now injection R as <-|].
  destruct (step E o w) as [res w1] eqn:St.
  assert (NU : res <> UB) by (intros ->; discriminate).
  assert (V : valid_op E w o) by (apply step_valid; now rewrite St).
  pose proof (step_fine E w o HS V No) as F. unfold fine in F. rewrite St in F.
  destruct res; [| |congruence]; eapply IH; eauto.
Qed.
Lemma step_ub_iff E ops w o : Forall no_untracked_product ops -> run E ops world0 = Some w -> no_untracked_product o ->
  fst (step E o w) = UB <-> ~ valid_op E w o.
Proof.
  intros F R N. pose proof (run_SW E ops F _ _ SW_world0 R) as HS. split.
  - intros U V. pose proof (step_fine E w o HS V N) as K. unfold fine in K. destruct (step E o w) as [[?|?|] ?]; auto; discriminate.
  - intros NV. destruct (fst (step E o w)) eqn:U; [| |reflexivity]; exfalso; apply NV, step_valid; rewrite U; discriminate.
Qed.
Lemma history_iff E ops : Forall no_untracked_product ops -> forall w, SW w -> (exists w', run E ops w = Some w') <-> valid_history E ops w.
Proof.
  induction 1 as [|o t No _ IH]; intros w HS; cbn [run valid_history]; [split; eauto|]. unfold after.
  destruct (step E o w) as [res w1] eqn:St. cbn [snd]. split.
  - intros (w' & R). assert (NU : res <> UB) by (intros ->; discriminate).
    assert (V : valid_op E w o) by (apply step_valid; now rewrite St).
    pose proof (step_fine E w o HS V No) as F. unfold fine in F. rewrite St in F. split; [exact V|].
    apply IH; destruct res; try congruence; eauto.
  - intros (V & R). pose proof (step_fine E w o HS V No) as F. unfold fine in F. rewrite St in F.
    destruct res; [| |contradiction]; apply IH; auto.
Qed.
Lemma history_iff0 E ops : Forall no_untracked_product ops -> run E ops world0 <> None <-> valid_history E ops world0.
Proof.
  intros F. rewrite <- (history_iff E ops F world0 SW_world0). destruct (run E ops world0) as [w|].
  - split; [intros _; now exists w|congruence].
  - split; [congruence|]. intros (w & K). discriminate.
Qed.
