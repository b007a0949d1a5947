(** * Resources: pointers are valid and compositions good in every reachable world. *)
From Verif Require Import Base CompModel CompSpec CompProofs PackageModel ResourceModel ResourceSpec
  ResourceProofs1 ResourceProofs2 ResourceProofs3.
Open Scope Q_scope.
Open Scope m_scope.

Definition cp_mass (E : env) (t : Z * compmap * compmap * Z * nat) : compmap :=
  let '(_, a, m, _, _) := t in
  match m with [] => map (fun p => (fst p, snd p * e_amass E (fst p))) a | v => v end.
Definition cp_line (t : Z * compmap * compmap * Z * nat) : nat := let '(_, _, _, _, l) := t in l.

Lemma cp_mass_of E x : cp_mass E (cphys_of x) = comp_mass E x.
Proof. destruct x as [i a m r p l]; destruct m; reflexivity. Qed.

Record WF (E : env) (w : world) : Prop := mkWF {
  wf_ptr : forall k p, nth_error (pres w) k = Some p ->
     (ph_tres p < length (pres w))%nat /\ forall c, ph_qual p = QMat c -> (c < length (pcomps w))%nat;
  wf_cmp : Forall (fun t => good_vec E (cp_mass E t) /\ (cp_line t < length (w_lines w))%nat) (pcomps w);
  wf_lin : Forall (Forall (fun p => (snd p < length (pcomps w))%nat)) (w_lines w)
}.

Lemma WF_sp E w w' : sp w w' -> WF E w -> WF E w'.
Proof.
  intros [S_res S_comps S_lines S_obj S_comp S_time S_state] [A B C]. unfold pres, pcomps in *.
  constructor; unfold pres, pcomps; rewrite ?S_res, ?S_comps, ?S_lines; auto.
Qed.

Lemma pcomps_len w : length (pcomps w) = length (w_comps w).
Proof. apply map_length. Qed.

Lemma good_atom_mass E v : env_ok E -> good_vec E v -> good_vec E (map (fun p => (fst p, snd p * e_amass E (fst p))) v).
Proof.
  intros [Ha _] [Hw Hf]. split.
  - clear Hf. unfold wf_comp in *. induction v as [|[k x] t IH]; simpl in *; auto. destruct Hw as [H1 H2]. split; auto.
    rewrite Forall_map. simpl. exact H1.
  - rewrite Forall_map. eapply Forall_impl; [|exact Hf]. simpl. intros [k x] [V P]. simpl in *. split; auto.
    specialize (Ha k). nra.
Qed.

Lemma acceptable_good E v : wf_comp v -> acceptable E v -> good_vec E v.
Proof.
  intros Hw [A B]. split; auto. unfold valid_nucs, all_positive in *. rewrite forallb_forall in A, B.
  apply Forall_forall. intros x Hx. split; auto. specialize (B x Hx).
  destruct (Qltb_spec (snd x) 0); [discriminate|lra].
Qed.
Lemma good_acceptable E v : good_vec E v -> acceptable E v.
Proof.
  intros [_ Hf]. rewrite Forall_forall in Hf. split; apply forallb_forall; intros x Hx; apply Hf in Hx as [A B]; auto.
  destruct (Qltb_spec (snd x) 0); auto. lra.
Qed.

Lemma decayed_good E a s : env_ok E -> good_vec E (decayed_atoms E a s).
Proof.
  intros [_ Hc]. unfold decayed_atoms.
  specialize (Hc (filter (fun p => e_known E (fst p)) a) s).
  set (l := e_cram E _ s) in *. clearbody l.
  assert (G : forall m, good_vec E m -> good_vec E (fold_left (fun m p => if Qltb 0 (snd p) then zset (fst p) (snd p) m else m) l m)).
  { induction Hc as [|p l Hp Hl IH]; simpl; intros m Hm; auto. apply IH. destruct (Qltb_spec 0 (snd p)); auto.
    destruct Hm as [Hw Hf]. split; [now apply zset_sorted|].
    clear - Hf Hp q. induction Hf as [|[k0 x0] t H0 Ht IH]; simpl.
    - repeat constructor; simpl; auto; lra.
    - destruct (fst p <? k0)%Z; [|destruct (fst p =? k0)%Z]; repeat constructor; simpl in *; try tauto; auto; lra. }
  apply G. split; [exact I|constructor].
Qed.

Lemma wf_cmp_nth E w c x : WF E w -> nth_error (w_comps w) c = Some x ->
  good_vec E (comp_mass E x) /\ (c_line x < length (w_lines w))%nat.
Proof.
  intros [_ B _] H. rewrite Forall_forall in B.
  assert (In (cphys_of x) (pcomps w)) by (unfold pcomps; apply in_map; eapply nth_error_In; eauto).
  apply B in H0. rewrite cp_mass_of in H0. exact H0.
Qed.

Lemma Forall_upd {A} (P : A -> Prop) l i x : Forall P l -> P x -> Forall P (upd l i x).
Proof. intros H Hx. revert i. induction H; destruct i; simpl; constructor; auto. Qed.

Lemma comp_decay_WF E ci d s w di w' : env_ok E -> WF E w ->
  comp_decay E ci d s w = (Ok di, w') -> WF E w' /\ (di < length (pcomps w'))%nat /\ pres w' = pres w /\
  (length (pcomps w) <= length (pcomps w'))%nat.
Proof.
  intros HE HW H. assert (N : @Ok nat di <> UB) by discriminate. unfold comp_decay in H. mcref H. mget H.
  destruct (wf_cmp_nth _ _ _ _ HW Hc) as [Hgood Hline].
  apply bind_inv in H as [[line [wl [H1 H]]]|[[e [H1 H]]|[H1 H]]]; [| discriminate|congruence].
  unfold deref in H1. destruct (nth_error (w_lines w) (c_line x)) eqn:El; inversion H1; subst; clear H1.
  assert (Hl : Forall (fun p => (snd p < length (pcomps wl))%nat) line).
  { pose proof (wf_lin _ _ HW) as C. rewrite Forall_forall in C. apply C. eapply nth_error_In; eauto. }
  destruct (zfind _ line) eqn:Ez.
  - inversion H; subst. split; [auto|]. split; [|auto]. apply zfind_In in Ez. rewrite Forall_forall in Hl.
    apply Hl in Ez. exact Ez.
  - assert (K : exists at', good_vec E (map (fun p => (fst p, snd p * e_amass E (fst p))) at') /\
      new_decay E x d s wl = (Ok (length (w_comps wl)),
        set_next_comp (w_next_comp wl + 1)%Z (set_comps (w_comps wl ++ [mkComp (w_next_comp wl) at' [] false (c_prev x + d) (c_line x)]) wl))).
    { unfold new_decay. destruct (comp_atom E x).
      - exists []. split; [split; [exact I|constructor]|reflexivity].
      - eexists. split; [apply good_atom_mass; auto; apply decayed_good; auto|reflexivity]. }
    destruct K as [at' [Kg K]].
    apply bind_inv in H as [[dj [w2 [H1 H]]]|[[e [H1 H]]|[H1 H]]]; [| discriminate|congruence]; rewrite K in H1; inversion H1; subst; clear H1.
    inversion H; subst; clear H.
    destruct HW as [A B C]. unfold pres, pcomps in *. simpl. rewrite map_app1, app_length, map_length. simpl.
    split; [|split; [rewrite Nat.add_comm; simpl; lia|split; [reflexivity|lia]]].
    constructor; unfold pres, pcomps; simpl; rewrite ?map_app1, ?app_length, ?upd_length; simpl.
    + intros k p Hk. destruct (A k p Hk) as [A1 A2]. split; auto. intros c Hcc. apply A2 in Hcc. lia.
    + apply Forall_app. split; [exact B|]. repeat constructor; simpl; try apply Kg; auto.
    + apply Forall_upd.
      * eapply Forall_impl; [|exact C]. intros m Hm. eapply Forall_impl; [|exact Hm]. simpl. intros; lia.
      * assert (Z : forall k v m, Forall (fun p : Z * nat => (snd p < length (map cphys_of (w_comps wl)) + 1)%nat) m ->
           (v < length (map cphys_of (w_comps wl)) + 1)%nat ->
           Forall (fun p : Z * nat => (snd p < length (map cphys_of (w_comps wl)) + 1)%nat) (zset k v m)).
        { intros k v m Hm Hv. induction Hm as [|[k0 v0] t H0 Ht IH]; simpl; [repeat constructor; auto|].
          destruct (k <? k0)%Z; [|destruct (k =? k0)%Z]; repeat constructor; auto. }
        apply Z; [|rewrite map_length; lia]. eapply Forall_impl; [|exact Hl]. simpl. intros; lia.
Qed.

(** Growth by one composition with an empty line, and by updates/append of resources. *)
Lemma WF_grow E w w' cs :
  WF E w ->
  pcomps w' = pcomps w ++ cs -> w_lines w' = w_lines w ++ map (fun _ => []) cs ->
  Forall (fun t => good_vec E (cp_mass E t) /\ (cp_line t < length (w_lines w'))%nat) cs ->
  (forall k p, nth_error (pres w') k = Some p ->
     (ph_tres p < length (pres w'))%nat /\ forall c, ph_qual p = QMat c -> (c < length (pcomps w'))%nat) ->
  WF E w'.
Proof.
  intros [A B C] Hc Hl Hcs Hp. constructor; auto.
  - rewrite Hc. apply Forall_app. split; [|auto]. eapply Forall_impl; [|exact B]. intros t [H1 H2]. split; auto.
    rewrite Hl, app_length. lia.
  - rewrite Hl, Hc, app_length. apply Forall_app. split.
    + eapply Forall_impl; [|exact C]. intros m Hm. eapply Forall_impl; [|exact Hm]. simpl. intros; lia.
    + apply Forall_map. apply Forall_forall. intros; constructor.
Qed.

Lemma ptr_upd E w w' i p : WF E w -> pres w' = upd (pres w) i p -> (length (pcomps w) <= length (pcomps w'))%nat ->
  (ph_tres p < length (pres w))%nat -> (forall c, ph_qual p = QMat c -> (c < length (pcomps w'))%nat) ->
  forall k q, nth_error (pres w') k = Some q ->
     (ph_tres q < length (pres w'))%nat /\ forall c, ph_qual q = QMat c -> (c < length (pcomps w'))%nat.
Proof.
  intros [A _ _] Hp Hl H1 H2 k q Hk. rewrite Hp in *. rewrite upd_length.
  destruct (Nat.eq_dec i k) as [->|Hne].
  - destruct (Nat.lt_ge_cases k (length (pres w))) as [L|L].
    + rewrite nth_upd_same in Hk by auto. inversion Hk; subst. auto.
    + apply nth_error_None in L. assert (L2 : nth_error (upd (pres w) k p) k = None).
      { apply nth_error_None. rewrite upd_length. now apply nth_error_None. } congruence.
  - rewrite nth_upd_other in Hk by auto. destruct (A _ _ Hk) as [A1 A2]. split; auto. intros c Hc. apply A2 in Hc. lia.
Qed.
Lemma ptr_app E w w' l i p : WF E w -> pres w' = l ++ [p] -> (l = pres w \/ exists p0, l = upd (pres w) i p0 /\ (ph_tres p0 < length (pres w))%nat /\ (forall c, ph_qual p0 = QMat c -> (c < length (pcomps w'))%nat)) ->
  (length (pcomps w) <= length (pcomps w'))%nat ->
  (ph_tres p <= length (pres w))%nat -> (forall c, ph_qual p = QMat c -> (c < length (pcomps w'))%nat) ->
  forall k q, nth_error (pres w') k = Some q ->
     (ph_tres q < length (pres w'))%nat /\ forall c, ph_qual q = QMat c -> (c < length (pcomps w'))%nat.
Proof.
  intros [A _ _] Hp Hl Hc H1 H2 k q Hk. rewrite Hp in *. rewrite app_length. simpl.
  assert (Ll : length l = length (pres w)) by (destruct Hl as [->|[p0 [-> _]]]; rewrite ?upd_length; auto).
  destruct (Nat.lt_ge_cases k (length l)) as [L|L].
  - rewrite nth_error_app1 in Hk by auto. destruct Hl as [->|[p0 [-> [G1 G2]]]].
    + destruct (A _ _ Hk) as [A1 A2]. split; [lia|]. intros c Hcc. apply A2 in Hcc. lia.
    + destruct (Nat.eq_dec i k) as [->|Hne].
      * rewrite nth_upd_same in Hk by (rewrite upd_length in L; auto). inversion Hk; subst. split; auto. lia.
      * rewrite nth_upd_other in Hk by auto. destruct (A _ _ Hk) as [A1 A2]. split; [lia|]. intros c Hcc. apply A2 in Hcc. lia.
  - rewrite nth_error_app2 in Hk by auto. destruct (k - length l)%nat as [|m] eqn:Em; simpl in Hk.
    + inversion Hk; subst. split; [lia|auto].
    + destruct m; discriminate.
Qed.

Lemma WF_rest E w w' : WF E w -> rest_same_w w w' ->
  (forall k p, nth_error (pres w') k = Some p ->
     (ph_tres p < length (pres w'))%nat /\ forall c, ph_qual p = QMat c -> (c < length (pcomps w'))%nat) -> WF E w'.
Proof.
  intros HW [R1 R2 R3 R4] Hp. apply (WF_grow E w w' []); auto; simpl; rewrite app_nil_r; auto.
Qed.

Lemma WF_ptr_nth E w i r : WF E w -> nth_error (w_res w) i = Some r ->
  (r_tres r < length (pres w))%nat /\ forall c, r_qual r = QMat c -> (c < length (pcomps w))%nat.
Proof. intros HW H. apply pres_nth in H. apply (wf_ptr _ _ HW) in H. exact H. Qed.

Lemma WF_upd E w w' i r p : WF E w -> nth_error (w_res w) i = Some r -> rest_same_w w w' -> pres w' = upd (pres w) i p ->
  ph_tres p = r_tres r -> (forall c, ph_qual p = QMat c -> (c < length (pcomps w))%nat) -> WF E w'.
Proof.
  intros HW Hr R Hp Ht Hq. destruct (WF_ptr_nth _ _ _ _ HW Hr) as [A _].
  eapply WF_rest; eauto. destruct R as [R1 R2 R3 R4]. eapply ptr_upd; eauto; rewrite ?R1; auto. rewrite Ht. auto.
Qed.

Lemma transmute_WF E i c w res w' : WF E w -> (c < length (pcomps w))%nat ->
  mat_transmute E i c w = (res, w') -> res <> UB -> WF E w'.
Proof.
  intros HW Hc H N. apply transmute_phys in H as [r [Hr [-> [Hp [R _]]]]]; auto.
  eapply WF_upd; eauto. simpl. intros c0 E0; inversion E0; subst; auto.
Qed.

Lemma mat_decay_WF E i t w res w' : env_ok E -> WF E w -> mat_decay E i t w = (res, w') -> res <> UB ->
  WF E w' /\ (length (pcomps w) <= length (pcomps w'))%nat.
Proof.
  intros HE HW H N.
  assert (L : (length (pcomps w) <= length (pcomps w'))%nat).
  { destruct (mat_decay_phys _ _ _ _ _ _ H N) as [r [cp [_ [_ [_ [_ Hce]]]]]]. destruct Hce as [[cs [-> _]] _ _ _].
    rewrite app_length. lia. }
  split; [|exact L]. clear L.
  unfold mat_decay in H. mrget H. rename x into r.
  unfold mat_comp_ptr in H. destruct (r_qual r) as [cp|] eqn:Eq.
  2:{ apply bind_inv in H as [[a [w1 [H1 H]]]|[[e [H1 H]]|[H1 H]]]; [discriminate|discriminate|congruence]. }
  apply bind_inv in H as [[a [w1 [H1 H]]]|[[e [H1 H]]|[H1 H]]]; [|discriminate|congruence].
  inversion H1; subst; clear H1.
  destruct (r_ctx r && String.eqb (e_decay E) "never"); [inversion H; subst; auto|].
  destruct ((t <? 0)%Z && negb (r_ctx r)); [inversion H; subst; auto|].
  mget H.
  destruct (_ =? 0)%Z; [inversion H; subst; auto|].
  mcref H. destruct (_ || _); [|inversion H; subst; auto].
  mrmod H. rewrite Hn in Hn0. inversion Hn0; subst x0; clear Hn0.
  apply bind_inv in H as [[d [w2 [H1 H]]]|[[e [H1 H]]|[H1 H]]]; [| |congruence].
  2:{ apply comp_decay_phys in H1 as [[di Hd] _]; [discriminate|discriminate]. }
  match type of H1 with comp_decay _ _ _ _ ?ww = _ => assert (W1 : WF E ww) end.
  { eapply (WF_upd E w1 _ i r (phys_of (with_prev (if (t <? 0)%Z then w_time w1 else t) r))); [exact HW|exact Hn|constructor; reflexivity| |reflexivity|].
    - unfold pres. simpl. rewrite map_upd. reflexivity.
    - simpl. intros c Hcc. eapply WF_ptr_nth; eauto. }
  apply comp_decay_WF in H1 as [W2 [Hd _]]; auto.
  exact (transmute_WF _ _ _ _ _ _ W2 Hd H N).
Qed.

Lemma mat_comp_WF E i w res w' : env_ok E -> WF E w -> mat_comp E i w = (res, w') -> res <> UB ->
  WF E w' /\ (length (pcomps w) <= length (pcomps w'))%nat.
Proof.
  intros HE HW H N. unfold mat_comp in H. mrget H. rename x into r.
  apply bind_inv in H as [[u [w1 [H1 H]]]|[[e [H1 H]]|[H1 H]]]; [| |congruence].
  - assert (X : WF E w1 /\ (length (pcomps w) <= length (pcomps w1))%nat).
    { destruct (r_ctx r && _); [eapply mat_decay_WF; eauto; discriminate|inversion H1; subst; auto]. }
    mrget H. unfold mat_comp_ptr in H. destruct (r_qual x); inversion H; subst; auto; congruence.
  - destruct (r_ctx r && _); [eapply mat_decay_WF; eauto; discriminate|inversion H1].
Qed.

Lemma apply_threshold_wf v t r : wf_comp v -> apply_threshold v t = Ok r -> wf_comp r.
Proof. intros W H. eapply apply_threshold_ok in H; eauto. tauto. Qed.

Lemma extract_rest_wf E c0 c1 Q0 q t v : wf_comp (comp_mass E c0) -> extract_rest E c0 c1 Q0 q t = Ok v -> wf_comp v.
Proof.
  intros H H1. unfold extract_rest in H1. eapply apply_threshold_wf; [|exact H1].
  apply comp_sub_wf. now apply normalize_wf.
Qed.

Lemma package_loop_WF E i name fills : forall w r w', WF E w -> package_loop E i name fills w = (r, w') -> r <> UB -> WF E w'.
Proof.
  induction fills as [|f rest IH]; simpl; intros w r w' HW H N.
  - inversion H; subst. auto.
  - assert (P : forall a w1, package_extract E i f name w = (a, w1) -> a <> UB -> WF E w1).
    { intros a w1 H1 N1. apply package_extract_phys in H1 as [x [Hx [[_ [_ ->]]|[_ [_ [Hp [R _]]]]]]]; auto.
      destruct (WF_ptr_nth _ _ _ _ HW Hx) as [A B]. pose proof R as [R1 R2 R3 R4].
      eapply WF_rest; eauto. eapply ptr_app; eauto; rewrite ?R1; auto.
      - right. eexists. split; [reflexivity|]. simpl. auto.
      - simpl. rewrite pres_len. auto. }
    apply bind_inv in H as [[j [w1 [H1 H]]]|[[e [H1 H]]|[H1 H]]]; [| |congruence].
    + assert (W1 : WF E w1) by (eapply P; eauto; discriminate).
      apply bind_inv in H as [[js [w2 [H2 H]]]|[[e [H2 H]]|[H2 H]]]; [| |congruence].
      * inversion H; subst. eapply IH; eauto. discriminate.
      * subst. eapply IH; eauto.
    + eapply P; eauto. discriminate.
Qed.

Lemma step_WF E o w r w' : env_ok E -> op_wf o -> WF E w -> step E o w = (r, w') -> r <> UB -> WF E w'.
Proof.
  intros HE HO HW H N. destruct o; simpl in H, HO.
  - assert (G : good_vec E (if by_mass then v else map (fun p => (fst p, snd p * e_amass E (fst p))) v) \/ w' = w).
    { destruct by_mass; apply drop_inv in H as [r0 [H [N0 _]]]; auto.
      - apply create_from_mass_inv in H as [[_ [_ ->]]|[A _]]; auto. left. now apply acceptable_good.
      - unfold create_from_atom in H.
        destruct (valid_nucs (e_isnuc E) v) eqn:V1, (all_positive v) eqn:V2; simpl in H; inversion H; subst; auto.
        left. apply good_atom_mass; auto. apply acceptable_good; auto. split; auto. }
    destruct G as [G| ->]; auto.
    assert (X : exists a m, pcomps w' = pcomps w ++ [(w_next_comp w, a, m, 0%Z, length (w_lines w))] /\ w_lines w' = w_lines w ++ [[]] /\
       w_res w' = w_res w /\ good_vec E (cp_mass E (w_next_comp w, a, m, 0%Z, length (w_lines w))) \/ w' = w).
    { destruct by_mass; apply drop_inv in H as [r0 [H [N0 _]]]; auto.
      - apply create_from_mass_inv in H as [[_ [_ ->]]|[A [_ ->]]]; [exists [], []; auto|].
        exists [], v. left. unfold pcomps. simpl. rewrite map_app1. repeat (split; [reflexivity|]). destruct v; auto.
      - unfold create_from_atom in H.
        destruct (valid_nucs (e_isnuc E) v) eqn:V1, (all_positive v) eqn:V2; simpl in H; inversion H; subst; try (exists [], []; auto; fail).
        exists v, []. left. unfold pcomps. simpl. rewrite map_app1. repeat (split; [reflexivity|]). auto. }
    destruct X as [a [m [[X1 [X2 [X3 X4]]]| ->]]]; auto.
    eapply WF_grow; [exact HW|exact X1|exact X2| |].
    + constructor; [split; [exact X4|simpl; rewrite X2, app_length; simpl; lia]|constructor].
    + intros k p Hk. unfold pres in *. rewrite X3 in *. destruct (wf_ptr _ _ HW k p Hk) as [A B]. split; auto.
      intros c Hc. rewrite X1, app_length. apply B in Hc. lia.
  - apply drop_inv in H as [r0 [H [N0 [K1 K2]]]]; auto.
    destruct (comp_decay_phys _ _ _ _ _ _ _ H N0) as [[di ->] _]. eapply comp_decay_WF in H as [H _]; eauto.
  - apply valid_comp_inv in H as [x [Hx H]]; auto. apply drop_inv in H as [r0 [H [N0 _]]]; auto.
    apply mat_create_phys in H as [_ [Hp [R _]]]; auto. pose proof R as [R1 R2 R3 R4].
    eapply WF_rest; eauto. apply nth_error_lt in Hx. eapply (ptr_app E w w' _ 0%nat); eauto; rewrite ?R1; auto.
    + simpl. rewrite pres_len. auto.
    + simpl. intros c0 Hc; inversion Hc; subst. now rewrite pcomps_len.
  - apply valid_comp_inv in H as [x [Hx H]]; auto. inversion H; subst.
    apply nth_error_lt in Hx. eapply WF_rest; [exact HW|constructor; reflexivity|].
    eapply (ptr_app E w _ _ 0%nat); [exact HW|unfold pres; simpl; rewrite map_app1; reflexivity|left; reflexivity|auto| |].
    + simpl. rewrite pres_len. auto.
    + simpl. intros c0 Hc; inversion Hc; subst. unfold pcomps. simpl. now rewrite map_length.
  - apply drop_inv in H as [r0 [H [N0 _]]]; auto.
    apply prod_create_phys in H as [_ [Hp [R _]]]; auto. pose proof R as [R1 R2 R3 R4].
    eapply WF_rest; eauto. eapply (ptr_app E w w' _ 0%nat); eauto; rewrite ?R1; auto.
    + simpl. rewrite pres_len. auto.
    + simpl. discriminate.
  - apply drop_inv in H as [r0 [H [N0 _]]]; auto. unfold prod_create_untracked in H. mnew H. mrmod H. inversion H; subst.
    simpl in Hn. rewrite nth_app_new in Hn. inversion Hn; subst x; clear Hn.
    eapply WF_rest; [exact HW|constructor; reflexivity|].
    eapply (ptr_app E w _ _ 0%nat); [exact HW|unfold pres; simpl; rewrite upd_app_new, map_app1; reflexivity|left; reflexivity|auto| |].
    + simpl. rewrite pres_len. auto.
    + simpl. discriminate.
  - (* clone *)
    apply drop_inv in H as [r0 [H [N0 _]]]; auto. unfold res_clone in H. mrget H. mget H. inversion H; subst.
    destruct (WF_ptr_nth _ _ _ _ HW Hn) as [A B].
    eapply WF_rest; [exact HW|constructor; reflexivity|].
    eapply (ptr_app E w _ _ 0%nat); [exact HW|unfold pres; simpl; rewrite map_app1; reflexivity|left; reflexivity|auto| |].
    + simpl. lia.
    + simpl. auto.
  - (* extract *)
    apply drop_inv in H as [r0 [H [N0 _]]]; auto. unfold extract_res in H. mrget H. rename x into r1.
    destruct (r_qual r1) eqn:Eq.
    + apply extract_qty_phys in H as [r2 [cp [Hr [Eq' [[_ [_ ->]]|[_ [_ [Hp [R _]]]]]]]]]; auto.
      destruct (WF_ptr_nth _ _ _ _ HW Hr) as [A B]. pose proof R as [R1 R2 R3 R4].
      eapply WF_rest; eauto. eapply ptr_app; eauto; rewrite ?R1; auto.
      * right. eexists. split; [reflexivity|]. simpl. auto.
      * simpl. rewrite pres_len. auto.
    + apply prod_extract_phys in H as [r2 [cp [Hr [Eq' [[_ [_ ->]]|[_ [_ [Hp [R _]]]]]]]]]; auto.
      destruct (WF_ptr_nth _ _ _ _ HW Hr) as [A B]. pose proof R as [R1 R2 R3 R4].
      eapply WF_rest; eauto. eapply ptr_app; eauto; rewrite ?R1; auto.
      * right. eexists. split; [reflexivity|]. simpl. auto.
      * simpl. rewrite pres_len. auto.
  - (* extract comp *)
    apply mat_only_inv in H as [x [cx [Hx [Ex H]]]]; auto. apply valid_comp_inv in H as [y [Hy H]]; auto.
    apply drop_inv in H as [r0 [H [N0 _]]]; auto.
    apply extract_comp_phys in H as [r2 [cp [Hr [Eq' [[_ [_ ->]]|[[_ [_ [_ ->]]]|[_ [_ [q' [cs [Hrest [Hp [Hc [Ho [Ht [Hnc Hl]]]]]]]]]]]]]]]]; auto.
    destruct (WF_ptr_nth _ _ _ _ HW Hr) as [A B]. apply nth_error_lt in Hy as Hy'.
    assert (Hq : forall c0, q' = QMat c0 -> (c0 < length (pcomps w'))%nat).
    { rewrite Hc, app_length, pcomps_len. inversion Hrest; subst; intros c00 Hc0; inversion Hc0; subst; simpl; [|lia].
      apply nth_error_lt in Hy. lia. }
    eapply WF_grow; eauto.
    + inversion Hrest; subst; constructor; [|constructor]. simpl. split; [|rewrite Hl, app_length; simpl; lia].
      assert (good_vec E v).
      { apply acceptable_good; auto. eapply extract_rest_wf; [|eassumption].
        match goal with K : nth_error (w_comps w) cp = Some ?z |- _ => apply (wf_cmp_nth _ _ _ _ HW) in K; apply K end. }
      destruct v; auto.
    + eapply ptr_app; eauto.
      * rewrite Hc, app_length. lia.
      * simpl. rewrite pres_len. auto.
      * simpl. intros c0 Hc0; inversion Hc0; subst. rewrite Hc, app_length, pcomps_len. lia.
  - (* absorb *)
    unfold absorb in H. mrget H. mrget H. rename x into a0, x0 into b0.
    destruct (r_qual a0) as [ca|sa0] eqn:Ea, (r_qual b0) as [cb|sb0] eqn:Eb; try (inversion H; subst; congruence).
    + apply mat_absorb_phys in H as [c0 [c1 [w2 [a [b [[w1 [M1 M2]] [Ha [Hb D]]]]]]]]; auto.
      assert (W1 : WF E w1) by (eapply mat_comp_WF; eauto; discriminate).
      assert (W2 : WF E w2) by (eapply mat_comp_WF; eauto; discriminate).
      destruct D as [[x0 [x1 [_ [_ [_ [_ [_ ->]]]]]]]|[-> [q' [cs [p' [Hm [_ [Hp [Hc [_ [_ [_ Hl]]]]]]]]]]]]; auto.
      destruct (WF_ptr_nth _ _ _ _ W2 Ha) as [A B]. destruct (WF_ptr_nth _ _ _ _ W2 Hb) as [A' B'].
      assert (Hq : forall c0, q' = QMat c0 -> (c0 < length (pcomps w'))%nat).
      { rewrite Hc, app_length, pcomps_len. inversion Hm; subst; intros c2 Hc2; inversion Hc2; subst; simpl; [|lia].
        destruct (mat_comp_phys _ _ _ _ _ M2 ltac:(discriminate)) as [rr [cp [Hrr [_ [[e [? _]]|[c' [pp [Ec [Hpp [_ _]]]]]]]]]]; [discriminate|].
        inversion Ec; subst c'. 
        assert (Z : nth_error (pres w2) j = Some (ph_with_prev pp (ph_with_qual (QMat c2) (phys_of rr)))).
        { rewrite Hpp. apply nth_upd_same. rewrite pres_len. eapply nth_error_lt; eauto. }
        apply (wf_ptr _ _ W2) in Z as [_ Z]. specialize (Z c2 eq_refl). rewrite pcomps_len in Z. lia. }
      eapply (WF_grow E w2); eauto.
      * inversion Hm; subst; constructor; [|constructor]. simpl. split; [|rewrite Hl, app_length; simpl; lia].
        match goal with |- good_vec E (match ?vv with _ => _ end) => assert (good_vec E vv) as G; [|destruct vv; auto] end.
        apply acceptable_good; auto. apply comp_add_wf. apply normalize_wf.
        match goal with K : nth_error (w_comps w2) c0 = Some ?z |- _ => apply (wf_cmp_nth _ _ _ _ W2) in K; apply K end.
      * cbv zeta in Hp. destruct (nth_error (upd (pres w2) i _) j) as [pj|] eqn:Ej.
        -- intros k q Hk. rewrite Hp in Hk |- *. rewrite !upd_length.
           assert (P1 : forall k q, nth_error (upd (pres w2) i (ph_with_qty (r_qty a + r_qty b) (ph_with_prev p' (ph_with_qual q' (phys_of a))))) k = Some q ->
             (ph_tres q < length (pres w2))%nat /\ forall c, ph_qual q = QMat c -> (c < length (pcomps w'))%nat).
           { intros k0 q0 Hk0. destruct (Nat.eq_dec i k0) as [->|Hne].
             - rewrite nth_upd_same in Hk0 by (rewrite pres_len; eapply nth_error_lt; eauto). inversion Hk0; subst. simpl. auto.
             - rewrite nth_upd_other in Hk0 by auto. apply (wf_ptr _ _ W2) in Hk0 as [Z1 Z2]. split; auto.
               intros c2 Hc2. apply Z2 in Hc2. rewrite Hc, app_length. lia. }
           destruct (Nat.eq_dec j k) as [->|Hne].
           ++ rewrite nth_upd_same in Hk by (eapply nth_error_lt; eauto). inversion Hk; subst. simpl. apply (P1 _ _ Ej).
           ++ rewrite nth_upd_other in Hk by auto. apply (P1 _ _ Hk).
        -- intros. eapply ptr_upd; eauto. rewrite Hc, app_length. lia.
    + apply prod_absorb_phys in H as [a [b [sa [sb [Ha [Hb [Qa [Qb [[_ [_ ->]]|[_ [_ [Hp [R _]]]]]]]]]]]]]; auto.
      pose proof R as [R1 R2 R3 R4].
      destruct (WF_ptr_nth _ _ _ _ HW Ha) as [A B]. destruct (WF_ptr_nth _ _ _ _ HW Hb) as [A' B'].
      eapply WF_rest; eauto. cbv zeta in Hp. destruct (nth_error (upd (pres w) i _) j) as [pj|] eqn:Ej.
      * intros k p Hk. rewrite Hp in Hk |- *. rewrite !upd_length, R1.
        assert (P1 : forall k q, nth_error (upd (pres w) i (ph_with_qty (r_qty a + r_qty b) (phys_of a))) k = Some q ->
             (ph_tres q < length (pres w))%nat /\ forall c, ph_qual q = QMat c -> (c < length (pcomps w))%nat).
        { intros k0 q0 Hk0. destruct (Nat.eq_dec i k0) as [->|Hne].
          - rewrite nth_upd_same in Hk0 by (rewrite pres_len; eapply nth_error_lt; eauto). inversion Hk0; subst. simpl. auto.
          - rewrite nth_upd_other in Hk0 by auto. apply (wf_ptr _ _ HW) in Hk0. auto. }
        destruct (Nat.eq_dec j k) as [->|Hne].
        -- rewrite nth_upd_same in Hk by (eapply nth_error_lt; eauto). inversion Hk; subst. simpl. apply (P1 _ _ Ej).
        -- rewrite nth_upd_other in Hk by auto. apply (P1 _ _ Hk).
      * intros. eapply ptr_upd; eauto; rewrite ?R1; auto.
  - (* transmute *)
    apply mat_only_inv in H as [x [cx [Hx [Ex H]]]]; auto. apply valid_comp_inv in H as [y [Hy H]]; auto.
    eapply transmute_WF; eauto. rewrite pcomps_len. eapply nth_error_lt; eauto.
  - unfold res_decay in H. mrget H. destruct (r_qual x); [eapply mat_decay_WF; eauto|inversion H; subst; auto].
  - apply mat_only_inv in H as [x [cx [Hx [Ex H]]]]; auto. apply drop_inv in H as [r0 [H [N0 _]]]; auto.
    eapply mat_comp_WF; eauto.
  - apply drop_inv in H as [r0 [H [N0 _]]]; auto.
    apply (package_loop_WF E i pkg [qty] w (match r0 with Ok j => Ok [j] | Throw e => Throw e | UB => UB end)); auto.
    + simpl. unfold bind at 1. rewrite H. destruct r0; reflexivity.
    + destruct r0; congruence.
  - apply drop_inv in H as [r0 [H [N0 _]]]; auto. unfold res_package in H. mrget H.
    destruct (get_fill_mass _ _ _ _) as [[[fills|e|] ?]|]; try (inversion H; subst; first [assumption|congruence]).
    eapply package_loop_WF; eauto.
  - apply change_package_phys in H as [x [Hx [[[e [_ ->]]|[_ [pk [_ Hp]]]] [R _]]]]; auto.
    eapply WF_upd; eauto. simpl. apply (WF_ptr_nth _ _ _ _ HW Hx).
  - inversion H; subst. destruct HW as [A B C]. constructor; auto.
Qed.

Lemma run_WF E : env_ok E -> forall ops w w', Forall op_wf ops -> WF E w -> run E ops w = Some w' -> WF E w'.
Proof.
  intros HE. induction ops as [|o ops IH]; simpl; intros w w' P HW H.
  - inversion H; subst. auto.
  - inversion P; subst. destruct (step E o w) as [[u|e|] w1] eqn:Hs; [| |discriminate];
      (eapply IH; [| |exact H]; auto; eapply step_WF; eauto; discriminate).
Qed.

Lemma WF0 E : WF E world0.
Proof. constructor; [intros [|k] p H; discriminate|constructor|constructor]. Qed.

Lemma reachable_WF E w : env_ok E -> reachable E w -> WF E w.
Proof. intros HE [ops [P H]]. eapply run_WF; eauto. apply WF0. Qed.
