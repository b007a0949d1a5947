(** Proofs for C47. *)
From Verif Require Import Base PiecewiseModel PiecewiseSpec.
From Coq Require Import Reals Lra List String.
Import ListNotations.
Local Open Scope R_scope.

(** ** One piece more *)
Lemma last_snoc l p : last_piece (l ++ [p]) = Some p.
Proof. unfold last_piece. rewrite rev_app_distr. reflexivity. Qed.
Lemma seek_snoc x p : forall l q, seek x q (l ++ [p]) =
  if Rlt_dec x (p_xoffset p) then seek x q l
  else if forallb (fun f => if Rge_dec x (p_xoffset f) then true else false) l then p else seek x q l.
Proof.
  induction l as [|f l IH]; intros q; cbn.
  - destruct (Rge_dec x (p_xoffset p)), (Rlt_dec x (p_xoffset p)); try lra; reflexivity.
  - destruct (Rge_dec x (p_xoffset f)); cbn; [apply IH|]. now destruct (Rlt_dec x (p_xoffset p)).
Qed.
Lemma all_before x p l : Forall (fun f => p_xoffset f < p_xoffset p) l -> p_xoffset p <= x ->
  forallb (fun f => if Rge_dec x (p_xoffset f) then true else false) l = true.
Proof.
  intros H L. apply forallb_forall. intros f F. rewrite Forall_forall in H. specialize (H f F). cbn in H. destruct (Rge_dec x (p_xoffset f)); [reflexivity|lra].
Qed.
Lemma value_snoc l p x : Forall (fun f => p_xoffset f < p_xoffset p) l ->
  pw_value (l ++ [p]) x = if Rlt_dec x (p_xoffset p) then pw_value l x else p_fun p (x - p_xoffset p) + p_yoffset p.
Proof.
  intros H. destruct l as [|f l]; cbn.
  - now destruct (Rlt_dec x (p_xoffset p)).
  - rewrite seek_snoc. inversion H as [|? ? H1 H2]; subst. destruct (Rlt_dec x (p_xoffset p)) as [L|L]; [reflexivity|].
    rewrite (all_before x p l H2) by lra. destruct (Rlt_dec x (p_xoffset f)); [lra|reflexivity].
Qed.

(** ** The factory follows the history *)
Definition offsets (kept : list call) (fs : list piece) : Prop :=
  map p_xoffset fs = rev (map c_start kept) /\ (forall x, pw_value fs x = curve kept x).
Inductive decreasing : list call -> Prop :=
| dc_nil : decreasing []
| dc_cons : forall c l, Forall (fun k => c_start k < c_start c) l -> decreasing l -> decreasing (c :: l).

Lemma kept_decreasing calls kept : in_order calls kept -> decreasing kept.
Proof. induction 1; [constructor|now constructor|assumption]. Qed.
Lemma add_refused fs c : forall kept, map p_xoffset fs = rev (map c_start kept) -> decreasing kept ->
  ~ Forall (fun k => c_start k < c_start c) kept ->
  add_function fs (c_fun c) (c_start c) (c_continuous c) = (Throw PlainError, fs).
Proof.
  intros kept M D H. destruct kept as [|k kept]; [exfalso; apply H; constructor|].
  assert (fs <> []) as NE by (intros ->; cbn in M; now apply app_cons_not_nil in M).
  destruct (exists_last NE) as [fs' [p ->]]. rewrite map_app in M. cbn in M. apply app_inj_tail in M as [_ M].
  unfold add_function. rewrite last_snoc. destruct (Rle_dec (c_start c) (p_xoffset p)) as [L|L]; [reflexivity|]. exfalso. apply H.
  inversion D as [|? ? D1 D2]; subst. constructor; [lra|]. rewrite Forall_forall in *. intros j J. specialize (D1 j J). cbn in *. lra.
Qed.
Lemma add_accepted fs c : forall kept, offsets kept fs -> decreasing kept ->
  Forall (fun k => c_start k < c_start c) kept ->
  exists fs', add_function fs (c_fun c) (c_start c) (c_continuous c) = (Ok tt, fs') /\ offsets (c :: kept) fs'.
Proof.
  intros kept [M E] D H.
  assert (Forall (fun f => p_xoffset f < c_start c) fs) as B.
  { rewrite Forall_forall in *. intros f F. apply (in_map p_xoffset) in F. rewrite M, <- in_rev, in_map_iff in F. destruct F as [k [<- K]]. now apply H. }
  exists (fs ++ [mkPiece (c_fun c) (c_start c) (if c_continuous c then pw_value fs (c_start c) - c_fun c 0 else 0)]). split.
  - unfold add_function. destruct fs as [|p0 fs0] eqn:EF; [reflexivity|]. rewrite <- EF in *.
    assert (fs <> []) as NE by (rewrite EF; discriminate). destruct (exists_last NE) as [fs' [p X]]. rewrite X in *. rewrite last_snoc.
    apply Forall_app in B as [_ B]. inversion B; subst. destruct (Rle_dec (c_start c) (p_xoffset p)); [lra|reflexivity].
  - split; [rewrite map_app, M; reflexivity|]. intros x. rewrite value_snoc by assumption. cbn [p_fun p_xoffset p_yoffset curve].
    destruct (Rlt_dec x (c_start c)); [apply E|]. destruct (c_continuous c); [rewrite E; ring|ring].
Qed.
Lemma history : forall calls, exists kept, in_order calls kept /\ offsets kept (add_calls calls).
Proof.
  intros calls. induction calls as [|c calls [kept [I O]]] using rev_ind.
  - exists []. split; [constructor|]. split; reflexivity.
  - unfold add_calls. rewrite fold_left_app. cbn. fold (add_calls calls). pose proof (kept_decreasing _ _ I) as D.
    assert ({Forall (fun k => c_start k < c_start c) kept} + {~ Forall (fun k => c_start k < c_start c) kept}) as [F|F]
      by (apply Forall_dec; intros k; apply Rlt_dec).
    + destruct (add_accepted _ c kept O D F) as [fs' [-> O']]. exists (c :: kept). split; [now constructor|exact O'].
    + rewrite (add_refused _ c kept (proj1 O) D F). exists kept. split; [now constructor|exact O].
Qed.
Lemma snoc_inj {A} (a b : list A) x y : a ++ [x] = b ++ [y] -> a = b /\ x = y.
Proof. apply app_inj_tail. Qed.
Lemma in_order_fun : forall calls k1, in_order calls k1 -> forall k2, in_order calls k2 -> k1 = k2.
Proof.
  induction 1 as [|past kept c I IH F|past kept c I IH F]; intros k2 J.
  - inversion J as [|? ? ? ? ? E|? ? ? ? ? E]; subst; [reflexivity| |]; destruct past; discriminate.
  - inversion J as [E|? ? ? J1 F' E|? ? ? J1 F' E]; subst; [destruct past; discriminate| |];
      apply snoc_inj in E as [-> ->]; pose proof (IH _ J1) as <-; [reflexivity|contradiction].
  - inversion J as [E|? ? ? J1 F' E|? ? ? J1 F' E]; subst; [destruct past; discriminate| |];
      apply snoc_inj in E as [-> ->]; pose proof (IH _ J1) as <-; [contradiction|reflexivity].
Qed.

Lemma p_curve : forall calls kept, in_order calls kept -> forall x, pw_value (add_calls calls) x = curve kept x.
Proof. intros calls kept I. destruct (history calls) as [k [I' [_ E]]]. now rewrite (in_order_fun _ _ I _ I'). Qed.
Lemma p_refusal : forall calls kept, in_order calls kept -> forall f s b,
  (Forall (fun k => c_start k < s) kept ->
     exists fs', add_function (add_calls calls) f s b = (Ok tt, fs') /\ fs' = add_calls (calls ++ [mkCall f s b])) /\
  (~ Forall (fun k => c_start k < s) kept -> add_function (add_calls calls) f s b = (Throw PlainError, add_calls calls)).
Proof.
  intros calls kept I f s b. destruct (history calls) as [k [I' O]]. rewrite <- (in_order_fun _ _ I _ I') in O. pose proof (kept_decreasing _ _ I) as D. split; intros F.
  - destruct (add_accepted _ (mkCall f s b) kept O D F) as [fs' [E _]]. cbn in E. exists fs'. split; [exact E|].
    unfold add_calls. rewrite fold_left_app. cbn. fold (add_calls calls). now rewrite E.
  - exact (add_refused _ (mkCall f s b) kept (proj1 O) D F).
Qed.

(** ** Reading the curve *)
Lemma curve_before kept x : Forall (fun k => x < c_start k) kept -> curve kept x = 0.
Proof. induction 1 as [|k l H F IH]; cbn; [reflexivity|]. destruct (Rlt_dec x (c_start k)); [assumption|lra]. Qed.
Lemma curve_shape : forall kept c x y, decreasing kept -> in_force kept c x -> in_force kept c y ->
  curve kept x - curve kept y = c_fun c (x - c_start c) - c_fun c (y - c_start c).
Proof.
  intros kept c x y D. induction D as [|k l B D IH]; intros [I [L M]] [_ [L' M']]; [destruct I|]. cbn.
  destruct (Rlt_dec x (c_start k)) as [X|X].
  - assert (In c l) as C by (destruct I as [->|I]; [lra|assumption]).
    assert (c_start c < c_start k) as CK by (rewrite Forall_forall in B; now apply (B c)).
    destruct (Rlt_dec y (c_start k)) as [Y|Y].
    + apply IH; (split; [assumption|split; [assumption|]]); intros c' C'; [apply M|apply M']; now right.
    + pose proof (M' k (or_introl eq_refl) ltac:(lra)). lra.
  - assert (c = k) as ->.
    { destruct I as [->|I]; [reflexivity|]. rewrite Forall_forall in B. pose proof (B c I) as Z. cbn in Z. pose proof (M k (or_introl eq_refl) ltac:(lra)). lra. }
    destruct (Rlt_dec y (c_start k)); [lra|]. destruct (c_continuous k); ring.
Qed.
Lemma curve_at_start : forall kept c, decreasing kept -> In c kept -> c_continuous c = false -> curve kept (c_start c) = c_fun c 0.
Proof.
  intros kept c D. induction D as [|k l B D IH]; [intros []|]. intros [->|I] F; cbn.
  - destruct (Rlt_dec (c_start c) (c_start c)); [lra|]. rewrite F. now rewrite Rminus_diag_eq.
  - rewrite Forall_forall in B. pose proof (B c I) as Z. cbn in Z. destruct (Rlt_dec (c_start c) (c_start k)); [now apply IH|lra].
Qed.

(** ** Continuity *)
Lemma cont_local (f g : R -> R) x d : 0 < d -> (forall y, Rabs (y - x) < d -> f y = g y) -> continuity_pt g x -> continuity_pt f x.
Proof.
  intros D E C. unfold continuity_pt, continue_in, limit1_in, limit_in in *. intros eps EP. destruct (C eps EP) as [a [A H]].
  exists (Rmin a d). split; [apply Rmin_pos; assumption|]. intros y [Dy Ly]. cbn in *. unfold R_dist in *.
  rewrite (E y), (E x); [|rewrite Rminus_diag_eq, Rabs_R0 by reflexivity; assumption|eapply Rlt_le_trans; [exact Ly|apply Rmin_r]].
  apply H. split; [assumption|]. eapply Rlt_le_trans; [exact Ly|apply Rmin_l].
Qed.
Lemma cont_shift f s k : continuity f -> continuity (fun x => k + (f (x - s) - f 0)).
Proof.
  intros C. apply continuity_plus; [apply continuity_const; intros ? ?; reflexivity|].
  apply continuity_minus; [|apply continuity_const; intros ? ?; reflexivity].
  apply (continuity_comp (fun x => x - s) f); [|exact C]. apply continuity_minus; [apply derivable_continuous, derivable_id|apply continuity_const; intros ? ?; reflexivity].
Qed.
Lemma cont_shift0 f s : continuity f -> continuity (fun x => f (x - s)).
Proof.
  intros C. apply (continuity_comp (fun x => x - s) f); [|exact C]. apply continuity_minus; [apply derivable_continuous, derivable_id|apply continuity_const; intros ? ?; reflexivity].
Qed.
(** Two curves that meet. *)
Lemma cont_glue (f g : R -> R) s : continuity_pt f s -> continuity_pt g s -> f s = g s ->
  continuity_pt (fun x => if Rlt_dec x s then f x else g x) s.
Proof.
  intros F G E. unfold continuity_pt, continue_in, limit1_in, limit_in in *. intros eps EP.
  destruct (F eps EP) as [a [A HA]]. destruct (G eps EP) as [b [B HB]]. exists (Rmin a b). split; [apply Rmin_pos; assumption|].
  intros y [Dy Ly]. cbn in *. destruct (Rlt_dec s s); [lra|]. destruct (Rlt_dec y s).
  - rewrite <- E. apply HA. split; [assumption|]. eapply Rlt_le_trans; [exact Ly|apply Rmin_l].
  - apply HB. split; [assumption|]. eapply Rlt_le_trans; [exact Ly|apply Rmin_r].
Qed.
Definition branch (c : call) (older : list call) : R -> R := fun x =>
  if c_continuous c then curve older (c_start c) + (c_fun c (x - c_start c) - c_fun c 0) else c_fun c (x - c_start c).
Lemma branch_cont c older : continuity (c_fun c) -> continuity (branch c older).
Proof. intros C. unfold branch. destruct (c_continuous c); [now apply cont_shift|now apply cont_shift0]. Qed.
Lemma curve_cont : forall kept x, decreasing kept -> Forall (fun c => continuity (c_fun c)) kept ->
  (forall c, In c kept -> c_start c = x -> c_continuous c = true) -> continuity_pt (curve kept) x.
Proof.
  intros kept x D. induction D as [|k l B D IH]; intros F H.
  - apply continuity_const. intros ? ?. reflexivity.
  - inversion F as [|? ? F1 F2]; subst. assert (continuity_pt (curve l) x) as CL by (apply IH; [assumption|]; intros c C; apply H; now right).
    pose proof (branch_cont k l F1 x) as CB.
    destruct (Rtotal_order x (c_start k)) as [L|[E|G]].
    + apply (cont_local _ (curve l) x (c_start k - x)); [lra| |assumption]. intros y Y. apply Rabs_def2 in Y. cbn. destruct (Rlt_dec y (c_start k)); [reflexivity|lra].
    + subst x. apply (cont_glue (curve l) (branch k l) (c_start k) CL CB). unfold branch. rewrite (H k (or_introl eq_refl) eq_refl), (Rminus_diag_eq (c_start k) (c_start k) eq_refl). ring.
    + apply (cont_local _ (branch k l) x (x - c_start k)); [lra| |assumption]. intros y Y. apply Rabs_def2 in Y. cbn. destruct (Rlt_dec y (c_start k)); [lra|reflexivity].
Qed.
Lemma cont_ext f g x : (forall y, f y = g y) -> continuity_pt g x -> continuity_pt f x.
Proof. intros E. apply (cont_local f g x 1); [lra|auto]. Qed.

Lemma p_continuous : forall calls kept x, in_order calls kept -> Forall (fun c => continuity (c_fun c)) kept ->
  (forall c, In c kept -> c_start c = x -> c_continuous c = true) -> continuity_pt (pw_value (add_calls calls)) x.
Proof.
  intros calls kept x I F H. apply (cont_ext _ (curve kept)); [now apply p_curve|]. apply curve_cont; [now apply kept_decreasing in I|assumption|assumption].
Qed.
Lemma p_everywhere : forall calls kept, in_order calls kept -> Forall (fun c => continuity (c_fun c) /\ c_continuous c = true) kept ->
  continuity (pw_value (add_calls calls)).
Proof.
  intros calls kept I F x. apply (p_continuous calls kept x I).
  - eapply Forall_impl; [|exact F]. now intros ? [? ?].
  - intros c C _. rewrite Forall_forall in F. now apply F.
Qed.
Lemma p_before : forall calls kept x, in_order calls kept -> Forall (fun k => x < c_start k) kept -> pw_value (add_calls calls) x = 0.
Proof. intros calls kept x I F. rewrite (p_curve _ _ I). now apply curve_before. Qed.
Lemma p_shape : forall calls kept c x y, in_order calls kept -> in_force kept c x -> in_force kept c y ->
  pw_value (add_calls calls) x - pw_value (add_calls calls) y = c_fun c (x - c_start c) - c_fun c (y - c_start c).
Proof. intros calls kept c x y I X Y. rewrite !(p_curve _ _ I). apply curve_shape; [now apply kept_decreasing in I|assumption|assumption]. Qed.
Lemma p_start : forall calls kept c, in_order calls kept -> In c kept -> c_continuous c = false ->
  pw_value (add_calls calls) (c_start c) = c_fun c 0.
Proof. intros calls kept c I C F. rewrite (p_curve _ _ I). apply curve_at_start; [now apply kept_decreasing in I|assumption|assumption]. Qed.
Lemma p_past : forall calls f s b x, x < s -> pw_value (snd (add_function (add_calls calls) f s b)) x = pw_value (add_calls calls) x.
Proof.
  intros calls f s b x L. destruct (history calls) as [kept [I O]]. pose proof (kept_decreasing _ _ I) as D.
  assert ({Forall (fun k => c_start k < s) kept} + {~ Forall (fun k => c_start k < s) kept}) as [F|F] by (apply Forall_dec; intros k; apply Rlt_dec).
  - destruct (add_accepted _ (mkCall f s b) kept O D F) as [fs' [E [_ V]]]. cbn in E. rewrite E. cbn [snd]. rewrite V. cbn. destruct (Rlt_dec x s); [|lra]. symmetry. now apply O.
  - pose proof (add_refused _ (mkCall f s b) kept (proj1 O) D F) as E. cbn in E. now rewrite E.
Qed.
Lemma p_basic : forall a b c, continuity (linear_fn a b) /\ continuity (exponential_fn a b c).
Proof.
  intros a b c. split.
  - apply continuity_plus; [|apply continuity_const; intros ? ?; reflexivity]. apply continuity_mult; [apply continuity_const; intros ? ?; reflexivity|apply derivable_continuous, derivable_id].
  - apply continuity_plus; [|apply continuity_const; intros ? ?; reflexivity]. apply continuity_mult; [apply continuity_const; intros ? ?; reflexivity|].
    apply (continuity_comp (fun x => b * x) exp); [|apply derivable_continuous, derivable_exp].
    apply continuity_mult; [apply continuity_const; intros ? ?; reflexivity|apply derivable_continuous, derivable_id].
Qed.
Lemma p_total : forall calls, exists kept, in_order calls kept.
Proof. intros calls. destruct (history calls) as [k [I _]]. now exists k. Qed.
Lemma p_is_curve : forall calls, exists kept, in_order calls kept /\ forall x, pw_value (add_calls calls) x = curve kept x.
Proof. intros calls. destruct (p_total calls) as [k I]. exists k. split; [exact I|now apply p_curve]. Qed.
