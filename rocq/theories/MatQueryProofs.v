(** * Proofs about MatQuery. *)
From Coq Require Import String List Permutation.
From Verif Require Import Base CompModel CompSpec CompProofs GreedyModel PackageModel ResourceModel ResourceSpec
  ResourceProofs1 ResourceProofs2 ResourceProofs3 ResourceProofs4 ResourceProofs5 ResourceProofs6 ResourceProofs8 ResourceProofs9 MatQueryModel.
Import ListNotations.
Open Scope Q_scope.
Open Scope m_scope.
Local Opaque LARGE_DOUBLE.

(** ** comp() is idempotent at a given time *)
Lemma mat_decay_again E i w w1 : mat_decay E i (-1) w = (Ok tt, w1) -> mat_decay E i (-1) w1 = (Ok tt, w1).
Proof.
  intros H. generalize H. unfold mat_decay at 1. unfold bind at 1.
  unfold rget at 1, deref. destruct (nth_error (w_res w) i) as [r|] eqn:Hr; [|discriminate].
  unfold ret at 1. unfold bind at 1. unfold mat_comp_ptr at 1.
  destruct (r_qual r) as [cp|] eqn:Hq; [|discriminate]. unfold ret at 1.
  destruct (r_ctx r && String.eqb (e_decay E) "never") eqn:Hn; [intros K; unfold ret in K; injection K as <-; exact H|].
  cbn [Z.ltb Z.compare].
  destruct (r_ctx r) eqn:Hc; [|discriminate]. cbn [negb andb].
  unfold bind at 1, get at 1.
  destruct ((w_time w - r_prev r =? 0)%Z); [intros K; unfold ret in K; injection K as <-; exact H|].
  unfold bind at 1. unfold cref at 1, deref. destruct (nth_error (w_comps w) cp) as [x|] eqn:Hx; [|discriminate].
  unfold ret at 1.
  match goal with |- (if ?b then _ else _) w = _ -> _ => destruct b end;
    [|intros K; unfold ret in K; injection K as <-; exact H].
  (* decayed: the time of last decay is now *)
  unfold bind at 1. destruct (rmod i (with_prev (w_time w)) w) as [o w2] eqn:E2.
  assert (H2 : o = Ok tt /\ nth_error (w_res w2) i = Some (with_prev (w_time w) r) /\ w_time w2 = w_time w).
  { revert E2. unfold rmod, bind, rget, deref, modify, ret. rewrite Hr. cbn. intros K. injection K as <- <-. cbn.
    split; [reflexivity|]. split; [|reflexivity]. apply nth_upd_same. apply nth_error_Some. congruence. }
  destruct H2 as (-> & Hr2 & Ht2).
  unfold bind at 1. destruct (comp_decay E cp (w_time w - r_prev r) (e_dt E) w2) as [o3 w3] eqn:E3.
  destruct o3 as [d| |]; try discriminate.
  destruct (comp_decay_phys _ _ _ _ _ _ _ E3) as (_ & Hres & _ & Hce & _); [discriminate|].
  intros K. destruct (transmute_phys _ _ _ _ _ _ K) as (r3 & Hr3 & _ & Hp & Hrest & _); [discriminate|].
  rewrite Hres, Hr2 in Hr3. injection Hr3 as <-.
  assert (Ht3 : w_time w3 = w_time w) by (rewrite (ce_time _ _ Hce); exact Ht2).
  assert (Ht1 : w_time w1 = w_time w) by (rewrite (rs_time _ _ Hrest); exact Ht3).
  assert (G : exists r1 c1, nth_error (w_res w1) i = Some r1 /\ r_prev r1 = w_time w1 /\ r_qual r1 = QMat c1).
  { assert (Hl : (i < length (pres w3))%nat).
    { rewrite pres_len, Hres. apply nth_error_Some. rewrite Hr2. discriminate. }
    assert (G : nth_error (pres w1) i = Some (ph_with_prev (if r_ctx (with_prev (w_time w) r) && (r_prev (with_prev (w_time w) r) <? w_time w3)%Z then w_time w3 else r_prev (with_prev (w_time w) r))
                                 (ph_with_qual (QMat d) (phys_of (with_prev (w_time w) r))))).
    { rewrite Hp. now apply nth_upd_same. }
    apply pres_nth_inv in G. destruct G as (r1 & G1 & G2). exists r1, d. split; [exact G1|].
    assert (P : ph_prev (phys_of r1) = w_time w1 /\ ph_qual (phys_of r1) = QMat d).
    { rewrite G2. cbn. rewrite Ht3, Ht1. split; [|reflexivity].
      match goal with |- (if ?b then _ else _) = _ => destruct b; reflexivity end. }
    exact P. }
  destruct G as (r1 & c1 & G1 & G2 & G3).
  unfold mat_decay, bind, rget, deref. rewrite G1. unfold ret, mat_comp_ptr. rewrite G3. unfold ret.
  destruct (r_ctx r1 && String.eqb (e_decay E) "never"); [reflexivity|].
  assert (Hc1 : r_ctx r1 = true).
  { apply (pres_nth w1 i r1) in G1. rewrite Hp in G1. rewrite nth_upd_same in G1.
    - apply (f_equal (option_map ph_ctx)) in G1. cbn in G1. congruence.
    - rewrite pres_len, Hres. apply nth_error_Some. rewrite Hr2. discriminate. }
  rewrite Hc1. cbn. unfold get, ret. rewrite G2, Z.sub_diag. reflexivity.
Qed.

Lemma mat_comp_again E i w c w1 : mat_comp E i w = (Ok c, w1) -> mat_comp E i w1 = (Ok c, w1).
Proof.
  intros H. generalize H. unfold mat_comp at 1. unfold bind at 1, rget at 1, deref.
  destruct (nth_error (w_res w) i) as [r|] eqn:Hr; [|discriminate]. unfold ret at 1.
  destruct (r_ctx r && String.eqb (e_decay E) "lazy") eqn:Hl.
  - unfold bind at 1. destruct (mat_decay E i (-1) w) as [o w2] eqn:E2. destruct o as [[]| |]; try discriminate.
    intros K. assert (w2 = w1).
    { revert K. unfold bind, rget, deref. destruct (nth_error (w_res w2) i); [|discriminate]. unfold ret, mat_comp_ptr.
      destruct (r_qual r0); [|discriminate]. unfold ret. congruence. }
    subst w2. pose proof (mat_decay_again _ _ _ _ E2) as A.
    revert K. unfold mat_comp, bind, rget, deref.
    destruct (nth_error (w_res w1) i) as [r1|] eqn:Hr1; [|discriminate]. unfold ret. intros K.
    destruct (r_ctx r1 && String.eqb (e_decay E) "lazy"); [rewrite A|]; rewrite Hr1; exact K.
  - unfold bind at 1, ret at 1. intros K. assert (w = w1).
    { revert K. unfold bind, rget, deref. rewrite Hr. unfold ret, mat_comp_ptr.
      destruct (r_qual r); [|discriminate]. unfold ret. congruence. }
    subst w1. exact H.
Qed.

(** ** What the single queries return *)
Section One.
Context (E : env) (HE : env_ok E) (i : nat) (w : world) (HR : reachable E w).
Context (c : nat) (w1 : world) (HC : mat_comp E i w = (Ok c, w1)).

Lemma mq_WF1 : WF E w1.
Proof. apply (mat_comp_WF E i w (Ok c) w1); auto; [now apply reachable_WF|discriminate]. Qed.

Lemma mq_ptr : exists r x, nth_error (w_res w1) i = Some r /\ r_qual r = QMat c /\ nth_error (w_comps w1) c = Some x.
Proof.
  destruct (mat_comp_same _ _ _ _ _ HC) as (_ & _ & _ & r & Hr & Hq).
  destruct (WF_ptr_nth _ _ _ _ mq_WF1 Hr) as (_ & K). specialize (K _ Hq). rewrite pcomps_len in K.
  destruct (nth_error (w_comps w1) c) as [x|] eqn:Hx; [|apply nth_error_None in Hx; lia]. eauto.
Qed.

Context (r : resource) (x : comp) (Hr : nth_error (w_res w1) i = Some r) (Hx : nth_error (w_comps w1) c = Some x).

Lemma mq_good : good_vec E (comp_mass E x).
Proof. exact (proj1 (wf_cmp_nth _ _ _ _ mq_WF1 Hx)). Qed.

Lemma mq_mass_vec_run w0 : w0 = w \/ w0 = w1 -> mq_mass_vec E i w0 = (Ok (normalize (comp_mass E x) 1), w1).
Proof.
  intros H. unfold mq_mass_vec, bind. assert (K : mat_comp E i w0 = (Ok c, w1)).
  { destruct H as [-> | ->]; [exact HC | exact (mat_comp_again _ _ _ _ _ HC)]. }
  rewrite K. unfold cref, deref. rewrite Hx. reflexivity.
Qed.
Lemma mq_atom_vec_run w0 : w0 = w \/ w0 = w1 -> mq_atom_vec E i w0 = (Ok (normalize (comp_atom E x) 1), w1).
Proof.
  intros H. unfold mq_atom_vec, bind. assert (K : mat_comp E i w0 = (Ok c, w1)).
  { destruct H as [-> | ->]; [exact HC | exact (mat_comp_again _ _ _ _ _ HC)]. }
  rewrite K. unfold cref, deref. rewrite Hx. reflexivity.
Qed.

Lemma frac_one v n : Forall (fun p : Z * Q => 0 <= snd p) v -> cget n (normalize v 1) == frac n v.
Proof. intros H. rewrite cget_amount, normalize_frac by auto. ring. Qed.

Lemma mq_mass_frac_run w0 n : w0 = w \/ w0 = w1 ->
  exists f, mq_mass_frac E i n w0 = (Ok f, w1) /\ f == frac n (comp_mass E x).
Proof.
  intros H. unfold mq_mass_frac, bind. rewrite (mq_mass_vec_run w0 H). eexists. split; [reflexivity|].
  apply frac_one. apply good_nonneg with E. apply mq_good.
Qed.
Lemma mq_mass_run w0 n : w0 = w \/ w0 = w1 ->
  exists m, mq_mass E i n w0 = (Ok m, w1) /\ m == r_qty r * frac n (comp_mass E x).
Proof.
  intros H. unfold mq_mass, bind. destruct (mq_mass_frac_run w0 n H) as (f & K & Hf). rewrite K.
  unfold mq_qty, bind, rget, deref. rewrite Hr. eexists. split; [reflexivity|]. rewrite Hf. ring.
Qed.
End One.

(** ** Fractions *)
Lemma frac_nonneg n v : Forall (fun p : Z * Q => 0 <= snd p) v -> 0 <= frac n v.
Proof.
  intros H. unfold frac. pose proof (total_nonneg _ H). pose proof (amount_nonneg _ n H).
  destruct (Qeq_dec (total v) 0) as [Z|Z].
  - rewrite Z. unfold Qdiv. setoid_replace (/ 0) with 0 by reflexivity. lra.
  - apply Qle_shift_div_l; lra.
Qed.

Lemma amounts_le_total v : Forall (fun p : Z * Q => 0 <= snd p) v -> wf_comp v -> forall l, NoDup l ->
  qsum (map (fun n => amount n v) l) <= total v.
Proof.
  induction v as [|[k y] t IH]; intros H W l N.
  - rewrite total_nil. induction l as [|a l IHl]; [simpl; lra|]. inversion N; subst. simpl.
    change (amount a []) with 0. specialize (IHl H3). lra.
  - inversion H; subst. simpl in H2. rewrite total_cons.
    assert (W' : wf_comp t) by (exact (proj2 W)).
    assert (A : forall l, NoDup l -> qsum (map (fun n => amount n ((k, y) :: t)) l)
       == (if in_dec Z.eq_dec k l then y else 0) + qsum (map (fun n => amount n t) l)).
    { clear l N. induction l as [|a l IHl]; intros N; [simpl; lra|]. inversion N; subst.
      cbn [map qsum fold_right]. change (fold_right Qplus 0 ?z) with (qsum z). rewrite (amount_cons a k y t W).
      specialize (IHl H5). rewrite IHl. destruct (Z.eqb_spec a k) as [->|Hne].
      - destruct (in_dec Z.eq_dec k l) as [K|_]; [tauto|]. destruct (in_dec Z.eq_dec k (k :: l)) as [_|K]; [lra|]. simpl in K; tauto.
      - destruct (in_dec Z.eq_dec k l) as [K|K]; destruct (in_dec Z.eq_dec k (a :: l)) as [K'|K']; simpl in K'; try tauto; try lra. }
    rewrite (A l N). specialize (IH H3 W' l N). destruct (in_dec Z.eq_dec k l); lra.
Qed.

Lemma fracs_le_one v l : Forall (fun p : Z * Q => 0 <= snd p) v -> wf_comp v -> NoDup l ->
  qsum (map (fun n => frac n v) l) <= 1.
Proof.
  intros H W N. pose proof (total_nonneg _ H) as T.
  assert (A : forall l, qsum (map (fun n => frac n v) l) == qsum (map (fun n => amount n v) l) / total v).
  { clear. induction l as [|a l IH]; [simpl; unfold Qdiv; ring|]. simpl. rewrite IH. unfold frac, Qdiv. ring. }
  rewrite A. destruct (Qeq_dec (total v) 0) as [Z|Z].
  - rewrite Z. unfold Qdiv. setoid_replace (/ 0) with 0 by reflexivity. lra.
  - apply Qle_shift_div_r; [lra|]. pose proof (amounts_le_total v H W l N). lra.
Qed.

Lemma frac_le_one n v : Forall (fun p : Z * Q => 0 <= snd p) v -> wf_comp v -> frac n v <= 1.
Proof.
  intros H W. pose proof (fracs_le_one v [n] H W) as K. simpl in K. assert (N : NoDup [n]) by (constructor; [simpl; tauto|constructor]).
  specialize (K N). lra.
Qed.

Lemma amounts_keys v : wf_comp v -> qsum (map (fun n => amount n v) (zkeys v)) == total v.
Proof.
  induction v as [|[k y] t IH]; intros W; [reflexivity|].
  assert (W' : wf_comp t) by (exact (proj2 W)).
  rewrite total_cons. cbn [zkeys map fst]. change (map fst t) with (zkeys t).
  cbn [qsum fold_right]. change (fold_right Qplus 0 ?z) with (qsum z).
  rewrite (amount_cons k k y t W), Z.eqb_refl.
  assert (Hk : ~ In k (zkeys t)).
  { pose proof (zsorted_NoDup _ W) as N. inversion N; subst; auto. }
  assert (amount k t = 0).
  { unfold amount. destruct (zfind k t) eqn:F; [|reflexivity]. exfalso. apply Hk.
    apply zfind_In in F. change k with (fst (k, q)). now apply in_map. }
  rewrite H. rewrite <- (IH W').
  assert (A : forall l, ~ In k l -> qsum (map (fun n => amount n ((k, y) :: t)) l) == qsum (map (fun n => amount n t) l)).
  { induction l as [|a l IHl]; intros Hn; [reflexivity|]. simpl in Hn. cbn [map qsum fold_right]. change (fold_right Qplus 0 ?z) with (qsum z).
    rewrite (amount_cons a k y t W), IHl by tauto. destruct (Z.eqb_spec a k); [subst; tauto|lra]. }
  rewrite (A _ Hk). lra.
Qed.

Lemma fracs_keys v : wf_comp v -> ~ total v == 0 -> qsum (map (fun n => frac n v) (zkeys v)) == 1.
Proof.
  intros W Z.
  assert (A : forall l, qsum (map (fun n => frac n v) l) == qsum (map (fun n => amount n v) l) / total v).
  { clear. induction l as [|a l IH]; [simpl; unfold Qdiv; ring|]. simpl. rewrite IH. unfold frac, Qdiv. ring. }
  rewrite A, amounts_keys by auto. field. exact Z.
Qed.

(** ** The loop of Amount *)
Lemma min_ratio_spec other : forall m r0,
  (forall n, 0 <= amount n m) -> Forall (fun p : Z * Q => 0 <= snd p) other ->
  match mq_min_ratio m other (Fin r0) with
  | None => exists n q, In (n, q) other /\ 0 < q /\ amount n m == 0
  | Some (Fin r) => r <= r0 /\ (forall n q, In (n, q) other -> r * q <= amount n m) /\
      (r = r0 \/ exists n q, In (n, q) other /\ 0 < q /\ r * q == amount n m)
  | Some _ => False
  end \/ r0 < 0.
Proof.
  induction other as [|[n q] t IH]; intros m r0 Hm Ho.
  - left. simpl. split; [lra|]. split; [intros ? ? []|now left].
  - inversion Ho; subst. simpl in H1.
    destruct (Qlt_le_dec r0 0) as [|Hr0]; [now right|]. left.
    set (m' := match zfind n m with None => zset n 0 m | Some _ => m end).
    assert (Am : forall k, amount k m' == amount k m).
    { intros k. unfold m'. destruct (zfind n m) eqn:F; [reflexivity|]. destruct (Z.eq_dec n k) as [->|Hne].
      - rewrite amount_zset_same. unfold amount. rewrite F. reflexivity.
      - rewrite amount_zset_other by auto. reflexivity. }
    assert (Hm' : forall k, 0 <= amount k m') by (intros k; rewrite Am; apply Hm).
    assert (Hn : 0 <= amount n m) by apply Hm.
    assert (Step : forall r1, 0 <= r1 -> r1 <= r0 -> r1 * q <= amount n m ->
       (r1 = r0 \/ 0 < q /\ r1 * q == amount n m) ->
       match mq_min_ratio m' t (Fin r1) with
        | None => exists n' q', In (n', q') ((n, q) :: t) /\ 0 < q' /\ amount n' m == 0
        | Some (Fin r) => r <= r0 /\ (forall n' q', In (n', q') ((n, q) :: t) -> r * q' <= amount n' m) /\
            (r = r0 \/ exists n' q', In (n', q') ((n, q) :: t) /\ 0 < q' /\ r * q' == amount n' m)
        | Some _ => False
        end).
    { intros r1 P1 P2 P3 P4. destruct (IH m' r1 Hm' H2) as [K|K]; [|lra].
      destruct (mq_min_ratio m' t (Fin r1)) as [[r| | |]|]; try exact K.
      - destruct K as (K1 & K2 & K3). split; [lra|]. split.
        + intros n' q' [I|I]; [injection I as <- <-; nra|]. rewrite <- Am. now apply K2.
        + destruct K3 as [->|(n' & q' & I & Q1 & Q2)].
          * destruct P4 as [->|[P4 P5]]; [now left|]. right. exists n, q. split; [now left|]. split; auto.
          * right. exists n', q'. split; [now right|]. split; [auto|]. now rewrite <- Am.
      - destruct K as (n' & q' & I & Q1 & Q2). exists n', q'. split; [now right|]. split; [auto|]. now rewrite <- Am. }
    assert (Eq : mq_min_ratio m ((n, q) :: t) (Fin r0) =
      match zfind n m, Qltb 0 q with
      | None, true => None
      | _, _ => mq_min_ratio m' t (if nlt (ndiv (amount n m) q) (Fin r0) then ndiv (amount n m) q else Fin r0)
      end) by reflexivity.
    rewrite Eq. clear Eq. clearbody m'.
    assert (Fz : zfind n m = None -> amount n m = 0) by (unfold amount; now intros ->).
    destruct (zfind n m) as [y|] eqn:F; destruct (Qltb_spec 0 q) as [Q|Q].
    + unfold ndiv. destruct (Qeqb_spec q 0) as [Z|Z]; [lra|]. cbn [nlt].
      assert (D : amount n m / q * q == amount n m) by (field; exact Z).
      destruct (Qltb_spec (amount n m / q) r0) as [L|L].
      * apply Step; [apply Qle_shift_div_l; lra|lra|rewrite D; lra|right; split; auto].
      * apply Step; [auto|lra|nra|now left].
    + assert (Z : q == 0) by lra. unfold ndiv. destruct (Qeqb_spec q 0); [|tauto].
      assert (B : r0 * q <= amount n m) by (rewrite Z; lra).
      destruct (Qeqb_spec (amount n m) 0); [cbn [nlt]; apply Step; auto; lra|].
      destruct (Qltb_spec 0 (amount n m)); [cbn [nlt]; apply Step; auto; lra|lra].
    + exists n, q. split; [now left|]. split; [auto|]. now rewrite Fz.
    + assert (Z : q == 0) by lra. unfold ndiv. destruct (Qeqb_spec q 0); [|tauto].
      assert (B : r0 * q <= amount n m) by (rewrite Z; lra).
      destruct (Qeqb_spec (amount n m) 0); [cbn [nlt]; apply Step; auto; lra|].
      destruct (Qltb_spec 0 (amount n m)); [cbn [nlt]; apply Step; auto; lra|lra].
Qed.

Lemma fold_total (v : compmap) : fold_left (fun acc p => acc + snd p) v 0 == total v.
Proof.
  assert (H : forall a, fold_left (fun acc (p : Z * Q) => acc + snd p) v a == a + total v).
  { induction v as [|[k y] t IH]; intros a; [simpl; rewrite total_nil; lra|]. simpl. rewrite IH, total_cons. lra. }
  rewrite H. lra.
Qed.

Lemma LARGE_gt_one : 1 < LARGE_DOUBLE.
Proof. Local Transparent LARGE_DOUBLE. unfold LARGE_DOUBLE. change 1 with (inject_Z 1). rewrite <- Zlt_Qlt. reflexivity. Qed.
Local Opaque LARGE_DOUBLE.

Lemma frac_normalize n v y : wf_comp v -> ~ total v == 0 -> amount n (normalize v y) == y * frac n v.
Proof. intros W T. rewrite normalize_amount by auto. unfold frac, Qdiv. ring. Qed.

(** The amount: the largest quantity whose every nuclide the material holds. *)
Lemma mq_amount_run E i w c w1 r x d y : env_ok E -> reachable E w -> mat_comp E i w = (Ok c, w1) ->
  nth_error (w_res w1) i = Some r -> nth_error (w_comps w1) c = Some x -> nth_error (w_comps w1) d = Some y ->
  0 <= r_qty r ->
  exists a, mq_amount E i d w = (Ok a, w1) /\ 0 <= a <= r_qty r /\
    (forall n, a * frac n (comp_mass E y) <= r_qty r * frac n (comp_mass E x)) /\
    (0 < total (comp_mass E y) ->
       forall b, (forall n, b * frac n (comp_mass E y) <= r_qty r * frac n (comp_mass E x)) -> b <= a).
Proof.
  intros HE HR HC Hr Hx Hy Hq.
  pose proof (mq_WF1 E HE i w HR c w1 HC) as W1.
  destruct (wf_cmp_nth _ _ _ _ W1 Hx) as (Gx & _). destruct (wf_cmp_nth _ _ _ _ W1 Hy) as (Gy & _).
  pose proof (good_nonneg _ _ Gx) as Nx. pose proof (good_nonneg _ _ Gy) as Ny.
  pose proof (proj1 Gx) as Wx. pose proof (proj1 Gy) as Wy.
  set (vx := comp_mass E x) in *. set (vy := comp_mass E y) in *.
  unfold mq_amount, bind. rewrite HC. unfold cref, deref. rewrite Hx. unfold ret. rewrite Hy.
  fold vx vy.
  pose proof (normalize_nonneg vy 1 Ny ltac:(lra)) as Ny1.
  assert (Am : forall n, amount n (normalize vx 1) == frac n vx) by (intros n; rewrite normalize_frac by auto; ring).
  assert (Ao : forall n, amount n (normalize vy 1) == frac n vy) by (intros n; rewrite normalize_frac by auto; ring).
  pose proof (total_nonneg _ Ny) as Ty.
  assert (Fx : forall n, 0 <= frac n vx) by (intros; now apply frac_nonneg).
  assert (Fy : forall n, 0 <= frac n vy) by (intros; now apply frac_nonneg).
  assert (In_frac : forall n q, In (n, q) (normalize vy 1) -> q == frac n vy).
  { intros n q I. rewrite <- Ao. apply (amount_In n q) in I; [|now apply normalize_wf]. rewrite I. reflexivity. }
  pose proof LARGE_gt_one as L1.
  destruct (min_ratio_spec (normalize vy 1) (normalize vx 1) LARGE_DOUBLE) as [K|K]; [|auto| |lra].
  { intros n. rewrite Am. auto. }
  destruct (mq_min_ratio (normalize vx 1) (normalize vy 1) (Fin LARGE_DOUBLE)) as [[r0| | |]|]; try contradiction.
  - destruct K as (K1 & K2 & K3). unfold mq_qty, bind, rget, deref. rewrite Hr. unfold ret.
    eexists. split; [reflexivity|].
    match goal with |- context [fold_left ?f ?l 0] => pose proof (fold_total l) as Ha; set (a := fold_left f l 0) in * end.
    clearbody a.
    destruct (Qeq_dec (total vy) 0) as [Z|Z].
    + assert (Z2 : total (normalize (normalize vy 1) (r0 * r_qty r)) == 0).
      { rewrite (normalize_zero vy) by auto. rewrite normalize_zero; auto. }
      rewrite Z2 in Ha. split; [lra|]. split; [|lra]. intros n. specialize (Fx n). rewrite Ha. nra.
    + assert (T1 : total (normalize vy 1) == 1) by (now apply normalize_total).
      assert (T2 : total (normalize (normalize vy 1) (r0 * r_qty r)) == r0 * r_qty r).
      { apply normalize_total. rewrite T1. lra. }
      rewrite T2 in Ha.
      assert (B : forall n, r0 * frac n vy <= frac n vx).
      { intros n. destruct (zfind n (normalize vy 1)) as [q|] eqn:F.
        - pose proof (zfind_In _ _ _ F) as I. rewrite <- (In_frac _ _ I), <- Am. now apply K2.
        - assert (F0 : frac n vy == 0) by (rewrite <- Ao; unfold amount; rewrite F; reflexivity).
          rewrite F0. specialize (Fx n). lra. }
      assert (S : forall l, r0 * qsum (map (fun n => frac n vy) l) <= qsum (map (fun n => frac n vx) l)).
      { induction l as [|k l IHl]; [simpl; lra|]. simpl. specialize (B k). lra. }
      assert (R1 : r0 <= 1).
      { specialize (S (zkeys vy)). rewrite fracs_keys in S by auto.
        pose proof (fracs_le_one vx (zkeys vy) Nx Wx (zsorted_NoDup _ Wy)). lra. }
      destruct K3 as [K3|(n & q & I & Q1 & Q2)]; [exfalso; rewrite K3 in R1; lra|].
      pose proof (In_frac _ _ I) as Iq. rewrite Am in Q2.
      assert (R0 : 0 <= r0).
      { specialize (Fx n). destruct (Qlt_le_dec r0 0); [|auto]. nra. }
      split; [rewrite Ha; split; nra|]. split.
      * intros k. specialize (B k). rewrite Ha. nra.
      * intros _ b Hb. specialize (Hb n). rewrite <- Iq, <- Q2 in Hb. rewrite Ha.
        destruct (Qlt_le_dec (r0 * r_qty r) b) as [L|]; [|auto]. nra.
  - exists 0. split; [reflexivity|]. split; [lra|]. split.
    + intros n. specialize (Fx n). nra.
    + intros _ b Hb. destruct K as (n & q & I & Q1 & Q2). rewrite Am in Q2.
      specialize (Hb n). rewrite Q2 in Hb. rewrite <- (In_frac _ _ I) in Hb. nra.
Qed.

(** Taking that amount out right away is never refused. *)
Lemma amount_extract_lemma0 E i w c w1 r d y a t res w2 : env_ok E -> reachable E w -> reachable E w1 ->
  mat_comp E i w = (Ok c, w1) -> nth_error (w_res w1) i = Some r -> nth_error (w_comps w1) d = Some y ->
  0 <= r_qty r -> 0 <= t -> mq_amount E i d w = (Ok a, w1) ->
  mat_extract_comp E i a d t w1 = (res, w2) -> res <> UB -> exists k, res = Ok k.
Proof.
  intros HE HR HR1 HC Hr Hy Hq Ht HA HX HU.
  destruct (mq_ptr E HE i w HR c w1 HC) as (r' & x & Hr' & Hqual & Hx). rewrite Hr in Hr'. injection Hr' as <-.
  destruct (mq_amount_run E i w c w1 r x d y HE HR HC Hr Hx Hy Hq) as (a' & HA' & Ha & Hb & _).
  rewrite HA in HA'. injection HA' as <-.
  destruct (C01_extract_comp_lemma E i a d t w1 res w2 HE HR1 HX HU) as (r2 & cp & Hr2 & Hq2 & K).
  rewrite Hr in Hr2. injection Hr2 as <-. rewrite Hqual in Hq2. injection Hq2 as <-.
  destruct K as [(_ & _ & [K|(x0 & x1 & _ & K0 & K1 & [K|(n & K)])])|(_ & K & _)].
  - lra.
  - lra.
  - rewrite Hx in K0. injection K0 as <-. rewrite Hy in K1. injection K1 as <-. specialize (Hb n). lra.
  - destruct K as (K & _). eauto.
Qed.

Lemma mq_sum_mass_run E i w c w1 r x : env_ok E -> reachable E w -> mat_comp E i w = (Ok c, w1) ->
  nth_error (w_res w1) i = Some r -> nth_error (w_comps w1) c = Some x ->
  forall nucs w0 s, w0 = w1 \/ (w0 = w /\ nucs <> []) ->
  exists t, mq_sum_mass E i nucs s w0 = (Ok t, w1) /\
    t == s + r_qty r * qsum (map (fun n => frac n (comp_mass E x)) nucs).
Proof.
  intros HE HR HC Hr Hx. induction nucs as [|n l IH]; intros w0 s H0.
  - destruct H0 as [->|[_ H0]]; [|congruence]. exists s. split; [reflexivity|]. simpl. ring.
  - destruct (mq_mass_run E HE i w HR c w1 HC r x Hr Hx w0 n) as (m & Hm & Em); [tauto|].
    cbn [mq_sum_mass]. unfold bind. rewrite Hm.
    destruct (IH w1 (s + m)) as (t & Ht & Et); [now left|]. exists t. split; [exact Ht|].
    rewrite Et, Em. cbn [map qsum fold_right]. change (fold_right Qplus 0 ?z) with (qsum z). ring.
Qed.

Lemma mq_atom_set_run E i w c w1 x : env_ok E -> reachable E w -> mat_comp E i w = (Ok c, w1) ->
  nth_error (w_comps w1) c = Some x -> Forall (fun p : Z * Q => 0 <= snd p) (comp_atom E x) ->
  forall nucs, exists t, mq_atom_frac_set E i nucs w = (Ok t, w1) /\
    t == qsum (map (fun n => frac n (comp_atom E x)) nucs).
Proof.
  intros HE HR HC Hx Na nucs. unfold mq_atom_frac_set, bind.
  rewrite (mq_atom_vec_run E i w c w1 HC x Hx w) by now left.
  eexists. split; [reflexivity|].
  assert (K : forall s, fold_left (fun total n => total + cget n (normalize (comp_atom E x) 1)) nucs s
     == s + qsum (map (fun n => frac n (comp_atom E x)) nucs)).
  { induction nucs as [|n l IH]; intros s; [simpl; ring|]. simpl. rewrite IH, frac_one by auto. ring. }
  rewrite K. ring.
Qed.

(** A composition object is created from atoms or from masses, never from both. *)
Definition OneView (w : world) : Prop := Forall (fun x => c_atom x = [] \/ c_mass x = []) (w_comps w).
Lemma ov_modify f : (forall w, w_comps (f w) = w_comps w) -> pinv OneView (modify f).
Proof. intros A. apply pinv_modify. intros w H. unfold OneView. rewrite A. exact H. Qed.
Lemma ov_rmod i f : pinv OneView (rmod i f).
Proof. intros w r w' Hw H N. apply rmod_inv in H as [y [Hy [_ ->]]]; auto. Qed.
Lemma ov_emit d : pinv OneView (emit d).
Proof. apply ov_modify. reflexivity. Qed.
Lemma ov_new q c y p : pinv OneView (new_resource q c y p).
Proof. intros w r w' Hw H N. inversion H; subst. exact Hw. Qed.
Lemma ov_comp_new_a a : pinv OneView (comp_new a []).
Proof. intros w r w' Hw H N. inversion H; subst. apply Forall_app. split; [exact Hw|]. constructor; [now right|constructor]. Qed.
Lemma ov_comp_new_m m : pinv OneView (comp_new [] m).
Proof. intros w r w' Hw H N. inversion H; subst. apply Forall_app. split; [exact Hw|]. constructor; [now left|constructor]. Qed.
Lemma ov_comp_new_in_line a p l : pinv OneView (comp_new_in_line a p l).
Proof. intros w r w' Hw H N. inversion H; subst. apply Forall_app. split; [exact Hw|]. constructor; [now right|constructor]. Qed.
Lemma ov_bump i : pinv OneView (bump_state i).
Proof.
  intros w r w' Hw H N. unfold bump_state in H.
  assert (P : pinv OneView (rmod i (with_state (w_next_state w));; modify (fun w => set_next_state (w_next_state w + 1)%Z w))).
  { apply pinv_bind; [now apply ov_rmod|intros; now apply ov_modify]. }
  eapply P; eauto.
Qed.
Lemma ov_comp_record E c : pinv OneView (comp_record E c).
Proof.
  unfold comp_record. intros w r w' Hw H N. unfold bind at 1, cref at 1, deref in H.
  destruct (nth_error (w_comps w) c) as [x|] eqn:Hx; [|unfold ub in H; congruence]. unfold ret at 1 in H.
  destruct (c_recorded x); [unfold ret in H; injection H as <- <-; exact Hw|].
  unfold cmod, bind, cref, deref, modify, ret in H. rewrite Hx in H. cbn in H. injection H as <- <-.
  unfold OneView. cbn. apply Forall_upd; [exact Hw|]. unfold OneView in Hw. rewrite Forall_forall in Hw.
  exact (Hw x (nth_error_In _ _ Hx)).
Qed.
#[local] Hint Resolve ov_emit ov_new ov_comp_new_a ov_comp_new_m ov_comp_new_in_line ov_bump ov_comp_record ov_rmod : pinv.
#[local] Hint Extern 1 (pinv OneView (modify _)) => (apply ov_modify; reflexivity) : pinv.
Lemma ov_qual_id q : pinv OneView (qual_id q).
Proof. unfold qual_id. pinv_tac. Qed.
#[local] Hint Resolve ov_qual_id : pinv.
Lemma ov_tr_record E b i : pinv OneView (tr_record E b i).
Proof. unfold tr_record, res_record. pinv_tac. Qed.
#[local] Hint Resolve ov_tr_record : pinv.
Lemma ov_mat_decay E i t : pinv OneView (mat_decay E i t).
Proof. unfold mat_decay, mat_transmute, tr_modify, comp_decay, new_decay. cbv zeta. pinv_tac. Qed.
#[local] Hint Resolve ov_mat_decay : pinv.
Lemma ov_mat_comp E i : pinv OneView (mat_comp E i).
Proof. unfold mat_comp. pinv_tac. Qed.
#[local] Hint Resolve ov_mat_comp : pinv.
Lemma ov_package_extract E i q p : pinv OneView (package_extract E i q p).
Proof. unfold package_extract, mat_package_extract, prod_package_extract, tr_package, tr_modify. pinv_tac. Qed.
#[local] Hint Resolve ov_package_extract : pinv.
Lemma ov_package_loop E i n fills : pinv OneView (package_loop E i n fills).
Proof. induction fills; simpl; pinv_tac. Qed.
#[local] Hint Resolve ov_package_loop : pinv.
Lemma ov_step E o : pinv OneView (step E o).
Proof.
  destruct o; simpl; unfold drop, valid_comp, mat_only, mat_create, prod_create, mat_create_untracked, mat_transmute, res_clone,
    prod_create_untracked, extract_res, mat_extract_qty, mat_extract_comp, prod_extract, absorb, mat_absorb, prod_absorb, res_decay,
    res_package, change_package, mat_change_package, prod_change_package, create_from_mass, create_from_atom, comp_decay, new_decay,
    tr_create, tr_modify, tr_extract, tr_absorb, tr_package; cbv zeta; pinv_tac.
Qed.
Lemma reachable_OneView E w : reachable E w -> OneView w.
Proof. intros (ops & _ & H). eapply (run_pinv OneView E); [apply ov_step| |exact H]. constructor. Qed.

Lemma reachable_comp E i w c w1 : reachable E w -> mat_comp E i w = (Ok c, w1) -> reachable E w1.
Proof.
  intros (ops & Hf & H) HC. exists (ops ++ [OComp i]). split.
  - apply Forall_app. split; [exact Hf|]. constructor; [exact I|constructor].
  - assert (K : forall l w0, run E l w0 = Some w -> run E (l ++ [OComp i]) w0 = Some w1).
    { induction l as [|o l IH]; intros w0 Hl.
      - simpl in Hl. injection Hl as ->. cbn [run List.app step]. unfold mat_only, drop, bind, rget, deref.
        assert (HC' := HC). unfold mat_comp at 1 in HC'. unfold bind at 1, rget at 1, deref in HC'.
        destruct (nth_error (w_res w) i) as [r|] eqn:Hr; [|unfold ub in HC'; congruence]. unfold ret.
        destruct (mat_comp_phys _ _ _ _ _ HC) as (r' & cp & Hr' & Hq & _); [discriminate|]. rewrite Hr in Hr'. injection Hr' as <-.
        unfold mat_comp_ptr at 1. rewrite Hq. unfold ret. rewrite HC. reflexivity.
      - cbn [run List.app] in *. destruct (step E o w0) as [[u|e|] w2]; auto; discriminate. }
    now apply K.
Qed.

Lemma comp_atom_good E x : env_ok E -> good_vec E (comp_mass E x) -> c_atom x = [] \/ c_mass x = [] ->
  wf_comp (comp_atom E x) /\ Forall (fun p : Z * Q => 0 <= snd p) (comp_atom E x).
Proof.
  intros (Ha & _) (W & G) V. unfold comp_atom, comp_mass in *.
  assert (D : forall v, wf_comp v -> Forall (fun p => e_isnuc E (fst p) = true /\ 0 <= snd p) v ->
    wf_comp (map (fun p => (fst p, snd p / e_amass E (fst p))) v) /\
    Forall (fun p : Z * Q => 0 <= snd p) (map (fun p => (fst p, snd p / e_amass E (fst p))) v)).
  { induction v as [|[k z] t IH]; intros W' G'; [split; [exact I|constructor]|].
    inversion G'; subst. destruct W' as (W1 & W2). destruct (IH W2 H2) as (I1 & I2). split.
    - split; [|exact I1]. rewrite Forall_forall in *. intros p Hp. apply in_map_iff in Hp. destruct Hp as (q & <- & Hq). exact (W1 q Hq).
    - constructor; [|exact I2]. cbn in *. apply Qle_shift_div_l; [apply Ha|]. lra. }
  assert (D' : forall v, wf_comp (map (fun p => (fst p, snd p * e_amass E (fst p))) v) ->
    Forall (fun p => e_isnuc E (fst p) = true /\ 0 <= snd p) (map (fun p => (fst p, snd p * e_amass E (fst p))) v) ->
    wf_comp v /\ Forall (fun p : Z * Q => 0 <= snd p) v).
  { induction v as [|[k z] t IH]; intros W' G'; [split; [exact I|constructor]|].
    inversion G'; subst. destruct W' as (W1 & W2). destruct (IH W2 H2) as (I1 & I2). split.
    - split; [|exact I1]. rewrite Forall_forall in *. intros p Hp. apply (W1 (fst p, snd p * e_amass E (fst p))). now apply in_map_iff; exists p.
    - constructor; [|exact I2]. cbn in *. specialize (Ha k). destruct H1 as (_ & H1).
      destruct (Qlt_le_dec z 0); [|auto]. nra. }
  destruct (c_atom x) as [|p l] eqn:Ea; destruct (c_mass x) as [|p' l'] eqn:Em.
  - split; [exact I|constructor].
  - apply D; auto.
  - apply D'; auto.
  - destruct V; discriminate.
Qed.

Lemma amount_extract_lemma E i w c w1 r d y a t res w2 : env_ok E -> reachable E w ->
  mat_comp E i w = (Ok c, w1) -> nth_error (w_res w1) i = Some r -> nth_error (w_comps w1) d = Some y ->
  0 <= r_qty r -> 0 <= t -> mq_amount E i d w = (Ok a, w1) ->
  mat_extract_comp E i a d t w1 = (res, w2) -> res <> UB -> exists k, res = Ok k.
Proof.
  intros HE HR HC. exact (amount_extract_lemma0 E i w c w1 r d y a t res w2 HE HR (reachable_comp _ _ _ _ _ HR HC) HC).
Qed.

Lemma view_at E w1 c x : reachable E w1 -> nth_error (w_comps w1) c = Some x -> c_atom x = [] \/ c_mass x = [].
Proof.
  intros H Hx. pose proof (reachable_OneView _ _ H) as K. unfold OneView in K. rewrite Forall_forall in K.
  exact (K x (nth_error_In _ _ Hx)).
Qed.

(** ** The lemmas behind the theorems *)
Lemma C50_single_lemma E i n w c w1 r x : env_ok E -> reachable E w -> mat_comp E i w = (Ok c, w1) ->
  nth_error (w_res w1) i = Some r -> nth_error (w_comps w1) c = Some x ->
  (exists f, mq_mass_frac E i n w = (Ok f, w1) /\ f == frac n (comp_mass E x) /\ 0 <= f <= 1) /\
  (exists f, mq_atom_frac E i n w = (Ok f, w1) /\ f == frac n (comp_atom E x) /\ 0 <= f <= 1) /\
  (exists m, mq_mass E i n w = (Ok m, w1) /\ m == r_qty r * frac n (comp_mass E x)) /\
  (exists m, mq_moles E i n w = (Ok m, w1) /\ m * e_amass E n == 1000 * (r_qty r * frac n (comp_mass E x))).
Proof.
  intros HE HR HC Hr Hx. pose proof (mq_good E HE i w HR c w1 HC x Hx) as G.
  pose proof (good_nonneg _ _ G) as N. pose proof (proj1 G) as W.
  destruct (comp_atom_good E x HE G (view_at _ _ _ _ (reachable_comp _ _ _ _ _ HR HC) Hx)) as (Wa & Na).
  split; [|split; [|split]].
  - destruct (mq_mass_frac_run E HE i w HR c w1 HC x Hx w n) as (f & K & Hf); [now left|].
    exists f. split; [exact K|]. split; [exact Hf|]. rewrite Hf. split; [now apply frac_nonneg|now apply frac_le_one].
  - unfold mq_atom_frac, bind. rewrite (mq_atom_vec_run E i w c w1 HC x Hx w) by now left.
    eexists. split; [reflexivity|]. rewrite (frac_one _ n Na). split; [reflexivity|].
    split; [now apply frac_nonneg|now apply frac_le_one].
  - exact (mq_mass_run E HE i w HR c w1 HC r x Hr Hx w n (or_introl eq_refl)).
  - destruct (mq_mass_run E HE i w HR c w1 HC r x Hr Hx w n (or_introl eq_refl)) as (m & K & Hm).
    unfold mq_moles, bind. rewrite K. eexists. split; [reflexivity|]. rewrite <- Hm.
    destruct HE as (Ha & _). specialize (Ha n). field. lra.
Qed.

Lemma C50_sum_lemma E i w c w1 r x : env_ok E -> reachable E w -> mat_comp E i w = (Ok c, w1) ->
  nth_error (w_res w1) i = Some r -> nth_error (w_comps w1) c = Some x ->
  (forall nucs, NoDup nucs -> qsum (map (fun n => frac n (comp_mass E x)) nucs) <= 1) /\
  (0 < total (comp_mass E x) -> qsum (map (fun n => frac n (comp_mass E x)) (zkeys (comp_mass E x))) == 1) /\
  (forall nucs, nucs <> [] ->
     (~ r_qty r == 0 -> exists f, mq_mass_frac_set E i nucs w = (Ok (Fin f), w1) /\
        f == qsum (map (fun n => frac n (comp_mass E x)) nucs)) /\
     (r_qty r == 0 -> mq_mass_frac_set E i nucs w = (Ok NaN, w1))) /\
  (forall nucs, exists f, mq_atom_frac_set E i nucs w = (Ok f, w1) /\
     f == qsum (map (fun n => frac n (comp_atom E x)) nucs)).
Proof.
  intros HE HR HC Hr Hx. pose proof (mq_good E HE i w HR c w1 HC x Hx) as G.
  pose proof (good_nonneg _ _ G) as N. pose proof (proj1 G) as W.
  destruct (comp_atom_good E x HE G (view_at _ _ _ _ (reachable_comp _ _ _ _ _ HR HC) Hx)) as (Wa & Na).
  split; [intros; now apply fracs_le_one|]. split; [intros; apply fracs_keys; [auto|lra]|]. split.
  - intros nucs Hn. destruct (mq_sum_mass_run E i w c w1 r x HE HR HC Hr Hx nucs w 0) as (t & Ht & Et); [now right|].
    unfold mq_mass_frac_set, bind. rewrite Ht. unfold mq_qty, bind, rget, deref. rewrite Hr. unfold ret, ndiv.
    split; intros Hq.
    + destruct (Qeqb_spec (r_qty r) 0); [tauto|]. eexists. split; [reflexivity|]. rewrite Et. field. auto.
    + destruct (Qeqb_spec (r_qty r) 0); [|tauto].
      assert (Z : t == 0) by (rewrite Et, Hq; ring). destruct (Qeqb_spec t 0); [reflexivity|tauto].
  - intros nucs. now apply (mq_atom_set_run E i w c w1 x).
Qed.

Lemma mq_almost_eq_lemma E i j t w ci cj w1 w2 x y : env_ok E -> reachable E w ->
  mat_comp E i w = (Ok ci, w1) -> mat_comp E j w1 = (Ok cj, w2) ->
  nth_error (w_comps w1) ci = Some x -> nth_error (w_comps w2) cj = Some y ->
  (t < 0 -> mq_almost_eq E i j t w = (Throw ValueError, w2)) /\
  (0 <= t -> exists b, mq_almost_eq E i j t w = (Ok b, w2) /\
     (b = true <->
       (forall n, In n (zkeys (comp_mass E x)) <-> In n (zkeys (comp_mass E y))) /\
       (forall n, close t (frac n (comp_mass E x)) (frac n (comp_mass E y))))).
Proof.
  intros HE HR HC HD Hx Hy. pose proof (reachable_comp _ _ _ _ _ HR HC) as HR1.
  pose proof (mq_good E HE i w HR ci w1 HC x Hx) as Gx. pose proof (mq_good E HE j w1 HR1 cj w2 HD y Hy) as Gy.
  pose proof (good_nonneg _ _ Gx) as Nx. pose proof (good_nonneg _ _ Gy) as Ny.
  unfold mq_almost_eq, bind. rewrite (mq_mass_vec_run E i w ci w1 HC x Hx w) by now left.
  rewrite (mq_mass_vec_run E j w1 cj w2 HD y Hy w1) by now left. unfold lift. split.
  - intros Ht. unfold almost_eq. destruct (Qltb_spec t 0); [reflexivity|lra].
  - intros Ht. destruct (almost_eq_ok (normalize (comp_mass E x) 1) (normalize (comp_mass E y) 1) t Ht) as (b & Hb).
    exists b. split; [now rewrite Hb|].
    pose proof (almost_eq_spec _ _ t (normalize_wf _ 1 (proj1 Gx)) (normalize_wf _ 1 (proj1 Gy)) Ht) as S.
    rewrite Hb, !normalize_keys in S.
    assert (F : forall v n, Forall (fun p : Z * Q => 0 <= snd p) v ->
      amount n (normalize v 1) == frac n v) by (intros v n Hv; rewrite normalize_frac by auto; ring).
    assert (B : b = true <-> Ok b = Ok true) by (split; congruence). rewrite B, S. clear B S.
    split; intros (K1 & K2); (split; [exact K1|]).
    + intros n. destruct (zfind n (normalize (comp_mass E x) 1)) as [a|] eqn:Ea.
      * assert (I : In n (zkeys (comp_mass E y))).
        { apply K1. rewrite <- (normalize_keys _ 1). apply zfind_In in Ea. change n with (fst (n, a)). now apply in_map. }
        destruct (zfind n (normalize (comp_mass E y) 1)) as [a'|] eqn:Ea'.
        -- specialize (K2 n a a' Ea Ea'). eapply close_eq.
           ++ rewrite <- (F _ n Nx). unfold amount. rewrite Ea. reflexivity.
           ++ apply close_sym. eapply close_eq; [|apply close_sym; exact K2].
              rewrite <- (F _ n Ny). unfold amount. rewrite Ea'. reflexivity.
        -- apply zfind_None in Ea'. rewrite normalize_keys in Ea'. contradiction.
      * destruct (zfind n (normalize (comp_mass E y) 1)) as [a'|] eqn:Ea'.
        -- apply zfind_None in Ea. exfalso. apply Ea. rewrite normalize_keys. apply K1.
           rewrite <- (normalize_keys _ 1). apply zfind_In in Ea'. change n with (fst (n, a')). now apply in_map.
        -- assert (Z1 : frac n (comp_mass E x) == 0) by (rewrite <- (F _ n Nx); unfold amount; rewrite Ea; reflexivity).
           assert (Z2 : frac n (comp_mass E y) == 0) by (rewrite <- (F _ n Ny); unfold amount; rewrite Ea'; reflexivity).
           eapply close_eq; [symmetry; exact Z1|]. apply close_sym. eapply close_eq; [symmetry; exact Z2|]. now apply close_refl.
    + intros n a a' Ea Ea'. specialize (K2 n). eapply close_eq; [|apply close_sym; eapply close_eq; [|apply close_sym; exact K2]].
      * rewrite <- (F _ n Nx). unfold amount. rewrite Ea. reflexivity.
      * rewrite <- (F _ n Ny). unfold amount. rewrite Ea'. reflexivity.
Qed.

Lemma C50_uranium_lemma E i w c w1 r x : env_ok E -> reachable E w -> mat_comp E i w = (Ok c, w1) ->
  nth_error (w_res w1) i = Some r -> nth_error (w_comps w1) c = Some x -> 0 <= r_qty r ->
  exists u a b m235 m238,
    uranium_qty E i w = (Ok u, w1) /\ uranium_assay_mass E i w = (Ok a, w1) /\ uranium_assay_atom E i w = (Ok b, w1) /\
    mq_mass E i U235 w = (Ok m235, w1) /\ mq_mass E i U238 w = (Ok m238, w1) /\
    u == m235 + m238 /\ 0 <= u <= r_qty r /\ 0 <= a <= 1 /\ 0 <= b <= 1 /\ a * u == m235.
Proof.
  intros HE HR HC Hr Hx Hq. pose proof (mq_good E HE i w HR c w1 HC x Hx) as G.
  pose proof (good_nonneg _ _ G) as N. pose proof (proj1 G) as W.
  destruct (comp_atom_good E x HE G (view_at _ _ _ _ (reachable_comp _ _ _ _ _ HR HC) Hx)) as (Wa & Na).
  destruct (mq_mass_run E HE i w HR c w1 HC r x Hr Hx w U235 (or_introl eq_refl)) as (m5 & K5 & H5).
  destruct (mq_mass_run E HE i w HR c w1 HC r x Hr Hx w U238 (or_introl eq_refl)) as (m8 & K8 & H8).
  destruct (mq_mass_run E HE i w HR c w1 HC r x Hr Hx w1 U238 (or_intror eq_refl)) as (m8' & K8' & H8').
  destruct (mq_mass_frac_run E HE i w HR c w1 HC x Hx w U235 (or_introl eq_refl)) as (f5 & L5 & F5).
  destruct (mq_mass_frac_run E HE i w HR c w1 HC x Hx w1 U238 (or_intror eq_refl)) as (f8 & L8 & F8).
  unfold uranium_qty, uranium_assay_mass, uranium_assay_atom, mq_atom_frac, bind, ret.
  rewrite K5, K8', L5, L8, (mq_atom_vec_run E i w c w1 HC x Hx w (or_introl eq_refl)).
  rewrite (mq_atom_vec_run E i w c w1 HC x Hx w1 (or_intror eq_refl)).
  eexists _, _, _, m5, m8. split; [reflexivity|]. split; [reflexivity|]. split; [reflexivity|].
  split; [reflexivity|]. split; [exact K8|].
  pose proof (fracs_le_one (comp_mass E x) [U235; U238] N W) as S. simpl in S.
  assert (ND : NoDup [U235; U238]).
  { constructor; [intros [K|[]]; discriminate K|]. constructor; [intros []|constructor]. }
  specialize (S ND).
  pose proof (frac_nonneg U235 _ N) as P5. pose proof (frac_nonneg U238 _ N) as P8.
  set (g5 := frac U235 (comp_mass E x)) in *. set (g8 := frac U238 (comp_mass E x)) in *.
  assert (Ratio : forall p q, 0 <= p -> 0 <= q -> 0 <= (if Qltb 0 (p + q) then p / (p + q) else 0) <= 1).
  { intros p q Hp Hq'. destruct (Qltb_spec 0 (p + q)); [|lra]. split; [apply Qle_shift_div_l; lra|apply Qle_shift_div_r; lra]. }
  split; [rewrite H8, H8'; reflexivity|]. split; [rewrite H5, H8'; split; nra|]. split; [apply Ratio; lra|]. split.
  - apply Ratio; rewrite frac_one by auto; now apply frac_nonneg.
  - rewrite H5, H8'. clearbody g5 g8. destruct (Qltb_spec 0 (f5 + f8)) as [L|L].
    + rewrite F5, F8 in *. field. lra.
    + assert (Z5 : g5 == 0) by lra. rewrite Z5. ring.
Qed.
