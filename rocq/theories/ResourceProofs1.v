(** * Resources: monad rules, frame of the tracker, physical effect of each operation. *)
From Verif Require Import Base CompModel CompSpec CompProofs PackageModel ResourceModel.
Open Scope Q_scope.
Open Scope m_scope.

(** ** Monad *)
Lemma bind_ok {A B} (m : M A) (f : A -> M B) w a w1 :
  m w = (Ok a, w1) -> bind m f w = f a w1.
Proof. unfold bind. now intros ->. Qed.

Lemma bind_inv {A B} (m : M A) (f : A -> M B) w r w' :
  bind m f w = (r, w') ->
  (exists a w1, m w = (Ok a, w1) /\ f a w1 = (r, w')) \/
  (exists e, m w = (Throw e, w') /\ r = Throw e) \/
  (m w = (UB, w') /\ r = UB).
Proof.
  unfold bind. destruct (m w) as [[a|e|] w1]; intros H.
  - left. eauto.
  - right; left. inversion H; subst. eauto.
  - right; right. inversion H; subst. auto.
Qed.

Lemma rget_ok i w r : nth_error (w_res w) i = Some r -> rget i w = (Ok r, w).
Proof. unfold rget. now intros ->. Qed.
Lemma rget_inv i w r w' : rget i w = (r, w') ->
  w' = w /\ (r = UB \/ exists x, r = Ok x /\ nth_error (w_res w) i = Some x).
Proof.
  unfold rget, deref, ret, ub. destruct (nth_error (w_res w) i); intros H; inversion H; eauto.
Qed.
Lemma cref_ok i w r : nth_error (w_comps w) i = Some r -> cref i w = (Ok r, w).
Proof. unfold cref. now intros ->. Qed.
Lemma cref_inv i w r w' : cref i w = (r, w') ->
  w' = w /\ (r = UB \/ exists x, r = Ok x /\ nth_error (w_comps w) i = Some x).
Proof.
  unfold cref, deref, ret, ub. destruct (nth_error (w_comps w) i); intros H; inversion H; eauto.
Qed.
Lemma rmod_ok i f w r : nth_error (w_res w) i = Some r ->
  rmod i f w = (Ok tt, set_res (upd (w_res w) i (f r)) w).
Proof. intros H. unfold rmod, bind. rewrite (rget_ok _ _ _ H). reflexivity. Qed.
Lemma rmod_inv i f w r w' : rmod i f w = (r, w') -> r <> UB ->
  exists x, nth_error (w_res w) i = Some x /\ r = Ok tt /\ w' = set_res (upd (w_res w) i (f x)) w.
Proof.
  unfold rmod. intros H N. apply bind_inv in H as [[a [w1 [H1 H2]]]|[[e [H1 H2]]|[H1 H2]]].
  - apply rget_inv in H1 as [-> [?|[x [E Hx]]]]; [discriminate|]. inversion E; subst.
    inversion H2; subst. eauto.
  - apply rget_inv in H1 as [_ [?|[x [E Hx]]]]; discriminate.
  - congruence.
Qed.

(** Inversion of a monadic run that did not end in UB. *)
Ltac minv1 H :=
  match type of H with
  | ret _ _ = _ => unfold ret in H; inversion H; subst; clear H
  | throw _ _ = _ => unfold throw in H; inversion H; subst; clear H
  | ub _ = _ => unfold ub in H; inversion H; subst; clear H; try congruence
  | get _ = _ => unfold get in H; inversion H; subst; clear H
  | modify _ _ = _ => unfold modify in H; inversion H; subst; clear H
  | emit _ _ = _ => unfold emit, modify in H; inversion H; subst; clear H
  end.

(** ** What the tracker leaves alone *)
Record phys := mkPhys {
  ph_qual : qual; ph_qty : Q; ph_obj : Z; ph_ctx : bool; ph_tres : nat; ph_pkg : string; ph_prev : Z
}.
Definition phys_of (r : resource) : phys :=
  mkPhys (r_qual r) (r_qty r) (r_obj r) (r_ctx r) (r_tres r) (r_pkg r) (r_prev r).
Definition cphys_of (c : comp) : Z * compmap * compmap * Z * nat :=
  (c_id c, c_atom c, c_mass c, c_prev c, c_line c).

Record sp (w w' : world) : Prop := mkSp {
  sp_res : map phys_of (w_res w') = map phys_of (w_res w);
  sp_comps : map cphys_of (w_comps w') = map cphys_of (w_comps w);
  sp_lines : w_lines w' = w_lines w;
  sp_obj : w_next_obj w' = w_next_obj w;
  sp_comp : w_next_comp w' = w_next_comp w;
  sp_time : w_time w' = w_time w;
  sp_state : (w_next_state w <= w_next_state w')%Z
}.

Lemma sp_refl w : sp w w.
Proof. constructor; auto. lia. Qed.
Lemma sp_trans w1 w2 w3 : sp w1 w2 -> sp w2 w3 -> sp w1 w3.
Proof. intros [] []. constructor; try congruence. lia. Qed.

Lemma sp_nth w w' i r : sp w w' -> nth_error (w_res w) i = Some r ->
  exists r', nth_error (w_res w') i = Some r' /\ phys_of r' = phys_of r.
Proof.
  intros S H. pose proof (sp_res _ _ S) as E.
  assert (H2 : nth_error (map phys_of (w_res w')) i = Some (phys_of r)).
  { rewrite E. rewrite nth_error_map, H. reflexivity. }
  rewrite nth_error_map in H2. destruct (nth_error (w_res w') i) as [r'|]; [|discriminate].
  exists r'. split; auto. cbn [option_map] in H2. congruence.
Qed.
Lemma sp_nth_back w w' i r' : sp w w' -> nth_error (w_res w') i = Some r' ->
  exists r, nth_error (w_res w) i = Some r /\ phys_of r' = phys_of r.
Proof.
  intros S H. pose proof (sp_res _ _ S) as E.
  assert (H2 : nth_error (map phys_of (w_res w)) i = Some (phys_of r')).
  { rewrite <- E. rewrite nth_error_map, H. reflexivity. }
  rewrite nth_error_map in H2. destruct (nth_error (w_res w) i) as [r|]; [|discriminate].
  exists r. split; auto. cbn [option_map] in H2. congruence.
Qed.
Lemma sp_len w w' : sp w w' -> length (w_res w') = length (w_res w).
Proof. intros S. rewrite <- (map_length phys_of), (sp_res _ _ S), map_length. reflexivity. Qed.

(** [m] never throws and keeps the physical state. *)
Definition keeps {A} (m : M A) := forall w r w', m w = (r, w') -> r <> UB ->
  (exists a, r = Ok a) /\ sp w w'.

Lemma keeps_bind {A B} (m : M A) (f : A -> M B) : keeps m -> (forall a, keeps (f a)) -> keeps (bind m f).
Proof.
  intros K1 K2 w r w' H N. apply bind_inv in H as [[a [w1 [H1 H2]]]|[[e [H1 H2]]|[H1 H2]]].
  - destruct (K1 _ _ _ H1 ltac:(discriminate)) as [_ S1]. destruct (K2 _ _ _ _ H2 N) as [Ea S2].
    split; auto. eapply sp_trans; eauto.
  - destruct (K1 _ _ _ H1 ltac:(discriminate)) as [[a Ea] _]. discriminate.
  - congruence.
Qed.
Lemma keeps_ret {A} (a : A) : keeps (ret a).
Proof. intros w r w' H _. inversion H; subst. split; [eauto|apply sp_refl]. Qed.
Lemma keeps_ub {A} : keeps (@ub A).
Proof. intros w r w' H N. inversion H; subst. congruence. Qed.
Lemma keeps_get : keeps get.
Proof. intros w r w' H _. inversion H; subst. split; [eauto|apply sp_refl]. Qed.
Lemma keeps_rget i : keeps (rget i).
Proof.
  intros w r w' H N. apply rget_inv in H as [-> [?|[x [-> _]]]]; [congruence|].
  split; [eauto|apply sp_refl].
Qed.
Lemma keeps_cref i : keeps (cref i).
Proof.
  intros w r w' H N. apply cref_inv in H as [-> [?|[x [-> _]]]]; [congruence|].
  split; [eauto|apply sp_refl].
Qed.
Lemma keeps_emit d : keeps (emit d).
Proof. intros w r w' H _. inversion H; subst. split; [eauto|]. constructor; simpl; auto; lia. Qed.
Lemma keeps_rmod i f : (forall r, phys_of (f r) = phys_of r) -> keeps (rmod i f).
Proof.
  intros Hf w r w' H N. apply rmod_inv in H as [x [Hx [-> ->]]]; auto.
  split; [eauto|]. constructor; simpl; auto; try lia.
  rewrite map_upd, Hf. apply upd_same. rewrite nth_error_map, Hx. reflexivity.
Qed.
Lemma keeps_bump i : keeps (bump_state i).
Proof.
  intros w r w' H N. unfold bump_state in H.
  apply bind_inv in H as [[a [w1 [H1 H2]]]|[[e [H1 H2]]|[H1 H2]]].
  - destruct (keeps_rmod i (with_state (w_next_state w)) ltac:(reflexivity) _ _ _ H1 ltac:(discriminate)) as [_ S]. inversion H2; subst.
    split; [eauto|]. destruct S. constructor; simpl in *; auto. lia.
  - destruct (rmod_inv _ _ _ _ _ H1 ltac:(discriminate)) as [x [_ [? _]]]. discriminate.
  - congruence.
Qed.
Lemma keeps_modify f : (forall w, sp w (f w)) -> keeps (modify f).
Proof. intros Hf w r w' H _. inversion H; subst. split; eauto. Qed.
Lemma keeps_qual_id q : keeps (qual_id q).
Proof.
  destruct q; simpl.
  - apply keeps_bind; [apply keeps_cref|intros; apply keeps_ret].
  - apply keeps_bind; [apply keeps_get|]. intros w0. destruct (assoc q (w_quals w0)); [apply keeps_ret|].
    apply keeps_bind; [apply keeps_modify|intros; apply keeps_ret].
    intros w. constructor; simpl; auto; lia.
Qed.
Lemma keeps_comp_record E c : keeps (comp_record E c).
Proof.
  unfold comp_record. apply keeps_bind; [apply keeps_cref|]. intros x.
  destruct (c_recorded x); [apply keeps_ret|]. apply keeps_bind; [|intros; apply keeps_modify].
  - unfold cmod. intros w r w' H N.
    apply bind_inv in H as [[a [w1 [H1 H2]]]|[[e [H1 H2]]|[H1 H2]]].
    + apply cref_inv in H1 as [-> [?|[y [Ey Hy]]]]; [discriminate|]. inversion Ey; subst.
      inversion H2; subst. split; [eauto|]. constructor; simpl; auto; try lia.
      rewrite map_upd. apply upd_same. rewrite nth_error_map, Hy. reflexivity.
    + apply cref_inv in H1 as [_ [?|[y [Ey Hy]]]]; discriminate.
    + congruence.
  - intros w. constructor; simpl; auto; lia.
Qed.

Create HintDb keeps.
#[export] Hint Resolve keeps_ret keeps_ub keeps_get keeps_rget keeps_cref keeps_emit keeps_bump
  keeps_qual_id keeps_comp_record : keeps.

Ltac keeps_tac :=
  repeat first
    [ apply keeps_rmod; intros; reflexivity
    | solve [auto with keeps nocore]
    | match goal with |- keeps (bind _ _) => apply keeps_bind; intros end
    | match goal with |- keeps (match ?x with _ => _ end) => destruct x end
    | match goal with |- keeps (if ?x then _ else _) => destruct x end ].

Lemma keeps_res_record E i : keeps (res_record E i).
Proof. unfold res_record. keeps_tac. Qed.
#[export] Hint Resolve keeps_res_record : keeps.
Lemma keeps_tr_record E b i : keeps (tr_record E b i).
Proof. unfold tr_record. keeps_tac. Qed.
#[export] Hint Resolve keeps_tr_record : keeps.
Lemma keeps_tr_create E a i : keeps (tr_create E a i).
Proof. unfold tr_create. keeps_tac. Qed.
Lemma keeps_tr_modify E i : keeps (tr_modify E i).
Proof. unfold tr_modify. keeps_tac. Qed.
Lemma keeps_tr_extract E i j : keeps (tr_extract E i j).
Proof. unfold tr_extract. keeps_tac. Qed.
Lemma keeps_tr_absorb E i j : keeps (tr_absorb E i j).
Proof. unfold tr_absorb. keeps_tac. Qed.
Lemma keeps_tr_package E i p : keeps (tr_package E i p).
Proof. unfold tr_package. keeps_tac. Qed.
#[export] Hint Resolve keeps_tr_create keeps_tr_modify keeps_tr_extract keeps_tr_absorb keeps_tr_package : keeps.

(** ** Inversion of runs step by step.  [N : r <> UB] must be in the context. *)
Ltac mbind H :=
  let a := fresh "a" in let w1 := fresh "w" in let H1 := fresh "H" in let e := fresh "e" in
  apply bind_inv in H as [[a [w1 [H1 H]]]|[[e [H1 H]]|[H1 H]]];
  [ | | exfalso; congruence ].
Ltac mrget H :=
  let a := fresh "r" in let w1 := fresh "w" in let H1 := fresh "H" in let e := fresh "e" in
  let E := fresh "E" in let Hn := fresh "Hn" in
  apply bind_inv in H as [[a [w1 [H1 H]]]|[[e [H1 H]]|[H1 H]]];
  [ apply rget_inv in H1 as [-> [E|[? [E Hn]]]]; [discriminate|inversion E; subst; clear E]
  | apply rget_inv in H1 as [_ [E|[? [E _]]]]; discriminate
  | exfalso; congruence ].
Ltac mcref H :=
  let a := fresh "c" in let w1 := fresh "w" in let H1 := fresh "H" in let e := fresh "e" in
  let E := fresh "E" in let Hn := fresh "Hc" in
  apply bind_inv in H as [[a [w1 [H1 H]]]|[[e [H1 H]]|[H1 H]]];
  [ apply cref_inv in H1 as [-> [E|[? [E Hn]]]]; [discriminate|inversion E; subst; clear E]
  | apply cref_inv in H1 as [_ [E|[? [E _]]]]; discriminate
  | exfalso; congruence ].
Ltac mrmod H :=
  let a := fresh "u" in let w1 := fresh "w" in let H1 := fresh "H" in let e := fresh "e" in
  let E := fresh "E" in let Hn := fresh "Hn" in
  apply bind_inv in H as [[a [w1 [H1 H]]]|[[e [H1 H]]|[H1 H]]];
  [ apply rmod_inv in H1 as [? [Hn [E ->]]]; [clear E|discriminate]
  | apply rmod_inv in H1 as [? [_ [E _]]]; [discriminate E|discriminate]
  | exfalso; congruence ].
Ltac mget H :=
  match type of H with bind get ?f ?w = ?r => change (f w w = r) in H; cbv beta in H end.
(** A step known to [keeps]: leaves [sp] between the states. *)
Ltac mkeep H :=
  let a := fresh "u" in let w1 := fresh "w" in let H1 := fresh "H" in let e := fresh "e" in
  let S := fresh "S" in let X := fresh "X" in
  apply bind_inv in H as [[a [w1 [H1 H]]]|[[e [H1 H]]|[H1 H]]];
  [ match type of H1 with ?m _ = _ =>
      let K := fresh in assert (K : keeps m) by keeps_tac;
      destruct (K _ _ _ H1 ltac:(discriminate)) as [_ S]; clear K end
  | match type of H1 with ?m _ = _ =>
      let K := fresh in assert (K : keeps m) by keeps_tac;
      destruct (K _ _ _ H1 ltac:(discriminate)) as [[? X] _]; discriminate X end
  | exfalso; congruence ].

(** ** Physical effect of the operations *)
Definition pres (w : world) : list phys := map phys_of (w_res w).
Definition pcomps (w : world) := map cphys_of (w_comps w).

Definition ph_with_qty q p := mkPhys (ph_qual p) q (ph_obj p) (ph_ctx p) (ph_tres p) (ph_pkg p) (ph_prev p).
Definition ph_with_qual q p := mkPhys q (ph_qty p) (ph_obj p) (ph_ctx p) (ph_tres p) (ph_pkg p) (ph_prev p).

(** The physical state of a resource just made by the constructors. *)
Definition fresh_phys (w : world) (q : qual) (ctx : bool) (qty : Q) (pkg : string) (prev : Z) : phys :=
  mkPhys q qty (w_next_obj w) ctx (length (w_res w)) pkg prev.

Lemma map_app1 {A B} (f : A -> B) l x : map f (l ++ [x]) = map f l ++ [f x].
Proof. rewrite map_app. reflexivity. Qed.
Lemma upd_app_old {A} (l : list A) i x y : (i < length l)%nat -> upd (l ++ [y]) i x = upd l i x ++ [y].
Proof. revert i. induction l; destruct i; simpl; intros; try lia; auto. rewrite IHl; auto. lia. Qed.
Lemma upd_app_new {A} (l : list A) x y : upd (l ++ [y]) (length l) x = l ++ [x].
Proof. induction l; simpl; congruence. Qed.
Lemma upd_upd {A} (l : list A) i x y : upd (upd l i x) i y = upd l i y.
Proof. revert i. induction l; destruct i; simpl; congruence. Qed.

Lemma new_resource_run q ctx qty pkg w :
  exists r, new_resource q ctx qty pkg w =
    (Ok (length (w_res w)),
     set_next_obj (w_next_obj w + 1)%Z (set_next_state (w_next_state w + 1)%Z (set_res (w_res w ++ [r]) w)))
  /\ r = mkRes q qty (w_next_obj w) (w_next_state w) ctx
           (match q with QMat _ => ctx | QProd _ => true end) 0 0 (length (w_res w)) pkg
           (match q with QMat _ => if ctx then w_time w else 0%Z | QProd _ => 0%Z end).
Proof. eexists. split; reflexivity. Qed.

Ltac mnew H :=
  let a := fresh "j" in let w1 := fresh "w" in let H1 := fresh "H" in let e := fresh "e" in
  apply bind_inv in H as [[a [w1 [H1 H]]]|[[e [H1 H]]|[H1 H]]];
  [ unfold new_resource in H1; inversion H1; subst; clear H1 | discriminate | discriminate ].

(** The step of ExtractComp that computes the remaining composition: either nothing (same pointer),
    or a new composition object. *)
Definition extract_rest (E : env) (c0 c1 : comp) (Q0 q t : Q) : result compmap :=
  apply_threshold (comp_sub (normalize (comp_mass E c0) Q0) (normalize (comp_mass E c1) q)) t.

Definition acceptable (E : env) (v : compmap) : Prop :=
  valid_nucs (e_isnuc E) v = true /\ all_positive v = true.

Lemma create_from_mass_inv E v w r w' : create_from_mass E v w = (r, w') ->
  (~ acceptable E v /\ r = Throw ValueError /\ w' = w) \/
  (acceptable E v /\ r = Ok (length (w_comps w)) /\
   w' = set_next_comp (w_next_comp w + 1)%Z
     (set_lines (w_lines w ++ [[]])
       (set_comps (w_comps w ++ [mkComp (w_next_comp w) [] v false 0 (length (w_lines w))]) w))).
Proof.
  unfold create_from_mass, acceptable.
  destruct (valid_nucs (e_isnuc E) v); simpl.
  2:{ intros H; inversion H; subst. left. repeat split; auto. intros [? _]; discriminate. }
  destruct (all_positive v); simpl.
  2:{ intros H; inversion H; subst. left. repeat split; auto. intros [_ ?]; discriminate. }
  unfold comp_new. intros H; inversion H; subst. right. repeat split; auto.
Qed.

(** What ExtractComp does to the remaining material: [q'] is its new quality, [cs] the compositions
    that were created (none or one). *)
Inductive rest_qual (E : env) (w : world) (cp c : nat) (Q0 q t : Q) : qual -> list (Z * compmap * compmap * Z * nat) -> Prop :=
| rest_same : cp = c -> rest_qual E w cp c Q0 q t (QMat cp) []
| rest_new c0 c1 v : cp <> c -> nth_error (w_comps w) cp = Some c0 -> nth_error (w_comps w) c = Some c1 ->
    extract_rest E c0 c1 Q0 q t = Ok v -> acceptable E v ->
    rest_qual E w cp c Q0 q t (QMat (length (w_comps w)))
      [(w_next_comp w, [], v, 0%Z, length (w_lines w))].

Inductive rest_fails (E : env) (w : world) (cp c : nat) (Q0 q t : Q) : Prop :=
| fail_intro c0 c1 : cp <> c -> nth_error (w_comps w) cp = Some c0 -> nth_error (w_comps w) c = Some c1 ->
    (t < 0 \/ exists v, extract_rest E c0 c1 Q0 q t = Ok v /\ ~ acceptable E v) ->
    rest_fails E w cp c Q0 q t.

Lemma extract_comp_phys E i q c t w res w' :
  mat_extract_comp E i q c t w = (res, w') -> res <> UB ->
  exists r cp, nth_error (w_res w) i = Some r /\ r_qual r = QMat cp /\
  ((r_qty r < q /\ res = Throw ValueError /\ w' = w) \/
   (q <= r_qty r /\ rest_fails E w cp c (r_qty r) q t /\ res = Throw ValueError /\ w' = w) \/
   (q <= r_qty r /\ res = Ok (length (w_res w)) /\
    exists q' cs, rest_qual E w cp c (r_qty r) q t q' cs /\
      pres w' = upd (pres w) i (ph_with_qty (r_qty r - q) (ph_with_qual q' (phys_of r)))
                ++ [fresh_phys w (QMat c) (r_ctx r) q unpackaged_name (r_prev r)] /\
      pcomps w' = pcomps w ++ cs /\
      w_next_obj w' = (w_next_obj w + 1)%Z /\ w_time w' = w_time w /\
      w_next_comp w' = (w_next_comp w + Z.of_nat (length cs))%Z /\
      w_lines w' = w_lines w ++ map (fun _ => []) cs)).
Proof.
  intros H N. unfold mat_extract_comp in H.
  mrget H. rename x into r. exists r.
  unfold mat_comp_ptr in H. destruct (r_qual r) as [cp|] eqn:Eq.
  2:{ apply bind_inv in H as [[a [w1 [H1 H]]]|[[e [H1 H]]|[H1 H]]]; [discriminate|discriminate|congruence]. }
  apply bind_inv in H as [[a [w1 [H1 H]]]|[[e [H1 H]]|[H1 H]]]; [|discriminate|congruence].
  inversion H1; subst; clear H1. exists a. split; [auto|]. split; [auto|].
  destruct (Qltb_spec (r_qty r) q) as [Hlt|Hge].
  { left. inversion H; subst. auto. }
  apply Qnot_lt_le in Hge. right.
  (* the middle step *)
  apply bind_inv in H as [[u [w2 [H1 H]]]|[[e [H1 H]]|[H1 H]]]; [| |congruence].
  - right. split; [auto|].
    assert (Hmid : exists q' cs, rest_qual E w1 a c (r_qty r) q t q' cs /\
      w_res w2 = upd (w_res w1) i (with_qual q' r) /\ pcomps w2 = pcomps w1 ++ cs /\
      w_next_obj w2 = w_next_obj w1 /\ w_time w2 = w_time w1 /\
      w_next_comp w2 = (w_next_comp w1 + Z.of_nat (length cs))%Z /\
      w_lines w2 = w_lines w1 ++ map (fun _ => []) cs).
    { destruct (Nat.eqb_spec a c) as [->|Hne].
      - inversion H1; subst. exists (QMat c), []. split; [now constructor|].
        split; [|simpl; rewrite ?app_nil_r, ?Z.add_0_r; auto].
        symmetry. apply upd_same. rewrite Hn. f_equal. destruct r; simpl in *; subst; reflexivity.
      - assert (N1 : Ok u <> UB) by discriminate. clear N H.
        mcref H1. mcref H1. 
        apply bind_inv in H1 as [[v [w3 [H2 H1]]]|[[e [H2 H1]]|[H2 H1]]]; [|discriminate|congruence].
        unfold lift in H2. inversion H2; subst; clear H2.
        apply bind_inv in H1 as [[n [w4 [H2 H1]]]|[[e [H2 H1]]|[H2 H1]]]; [|discriminate|congruence].
        apply create_from_mass_inv in H2 as [[_ [? _]]|[Hacc [En ->]]]; [discriminate|].
        inversion En; subst; clear En.
        apply rmod_inv in H1 as [x' [Hx' [_ ->]]]; [|discriminate].
        simpl in Hx'. rewrite Hn in Hx'. inversion Hx'; subst.
        eexists _, _. split; [eapply rest_new; eauto|].
        unfold pcomps. simpl. rewrite map_app1. repeat (split; [reflexivity|]). reflexivity. }
    destruct Hmid as [q' [cs [Hrest [Hres [Hcs [Ho [Ht [Hnc Hl]]]]]]]].
    assert (Hi : (i < length (w_res w1))%nat) by (eapply nth_error_lt; eauto).
    mrmod H. rewrite Hres, nth_upd_same in Hn0 by auto. inversion Hn0; subst x; clear Hn0.
    mrget H. simpl in Hn0. rewrite Hres, upd_upd, nth_upd_same in Hn0 by auto.
    inversion Hn0; subst x; clear Hn0.
    mnew H. simpl in H.
    mrmod H. simpl in Hn0. rewrite Hres, upd_upd in Hn0.
    rewrite nth_app_new in Hn0. inversion Hn0; subst x; clear Hn0. simpl in H.
    mkeep H. unfold ret in H. inversion H; subst; clear H.
    split; [rewrite Hres, !upd_length; reflexivity|]. exists q', cs. split; [auto|].
    destruct S as [S_res S_comps S_lines S_obj S_comp S_time S_state]. unfold pcomps, pres in *. simpl in *.
    rewrite S_res. rewrite Hres, upd_upd.
    replace (length (w_res w1)) with (length (upd (w_res w1) i (with_qty (r_qty r - q) (with_qual q' r))))
      at 1 by apply upd_length.
    rewrite upd_app_new, map_app1, map_upd, upd_length.
    split; [|split; [congruence|split; [congruence|split; [congruence|split; congruence]]]].
    unfold fresh_phys. simpl. rewrite Ho. reflexivity.
  - left. split; [auto|].
    destruct (Nat.eqb_spec a c) as [->|Hne]; [inversion H1|].
    assert (N1 : @Throw unit e <> UB) by discriminate. clear N.
    mcref H1. mcref H1.
    apply bind_inv in H1 as [[v [w3 [H2 H1]]]|[[e' [H2 H1]]|[H2 H1]]]; [| |congruence].
    + unfold lift in H2. inversion H2; subst; clear H2.
      apply bind_inv in H1 as [[n [w4 [H2 H1]]]|[[e' [H2 H1]]|[H2 H1]]]; [| |congruence].
      * apply rmod_inv in H1 as [x' [_ [? _]]]; [discriminate|discriminate].
      * inversion H1; subst. apply create_from_mass_inv in H2 as [[Hacc [En ->]]|[_ [? _]]]; [|discriminate].
        inversion En; subst. split; [|auto]. econstructor; eauto. 
    + unfold lift in H2. inversion H2 as [[H3 H4]]; subst; clear H2. inversion H1; subst e'.
      unfold apply_threshold in H3. destruct (Qltb_spec t 0); [|discriminate].
      inversion H3; subst. split; [|auto]. econstructor; eauto.
Qed.
