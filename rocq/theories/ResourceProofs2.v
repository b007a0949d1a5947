(** * Resources: physical effect of the remaining operations. *)
From Verif Require Import Base CompModel CompSpec CompProofs PackageModel ResourceModel ResourceProofs1.
Open Scope Q_scope.
Open Scope m_scope.

Lemma pres_nth w i r : nth_error (w_res w) i = Some r -> nth_error (pres w) i = Some (phys_of r).
Proof. intros H. unfold pres. rewrite nth_error_map, H. reflexivity. Qed.
Lemma pres_len w : length (pres w) = length (w_res w).
Proof. apply map_length. Qed.
Lemma pres_nth_inv w i p : nth_error (pres w) i = Some p ->
  exists r, nth_error (w_res w) i = Some r /\ phys_of r = p.
Proof.
  unfold pres. rewrite nth_error_map. destruct (nth_error (w_res w) i) as [r|]; simpl; intros H; [|discriminate].
  exists r. split; congruence.
Qed.

(** Everything except the resources' physical state and the database is as before. *)
Record rest_same_w (w w' : world) : Prop := mkRestSame {
  rs_comps : pcomps w' = pcomps w;
  rs_lines : w_lines w' = w_lines w;
  rs_next_comp : w_next_comp w' = w_next_comp w;
  rs_time : w_time w' = w_time w
}.

Lemma extract_qty_phys E i q w res w' :
  mat_extract_qty E i q w = (res, w') -> res <> UB ->
  exists r cp, nth_error (w_res w) i = Some r /\ r_qual r = QMat cp /\
  ((r_qty r < q /\ res = Throw ValueError /\ w' = w) \/
   (q <= r_qty r /\ res = Ok (length (w_res w)) /\
      pres w' = upd (pres w) i (ph_with_qty (r_qty r - q) (phys_of r))
                ++ [fresh_phys w (r_qual r) (r_ctx r) q unpackaged_name (r_prev r)] /\
      rest_same_w w w' /\ w_next_obj w' = (w_next_obj w + 1)%Z)).
Proof.
  intros H N. unfold mat_extract_qty in H. mrget H. rename x into r. exists r.
  unfold mat_comp_ptr in H. destruct (r_qual r) as [cp|] eqn:Eq.
  2:{ apply bind_inv in H as [[a [w1 [H1 H]]]|[[e [H1 H]]|[H1 H]]]; [discriminate|discriminate|congruence]. }
  apply bind_inv in H as [[a [w1 [H1 H]]]|[[e [H1 H]]|[H1 H]]]; [|discriminate|congruence].
  inversion H1; subst; clear H1. exists a. split; [auto|]. split; [auto|].
  destruct (extract_comp_phys _ _ _ _ _ _ _ _ H N) as [r' [cp' [Hr [Eq' D]]]].
  rewrite Hn in Hr. inversion Hr; subst r'; clear Hr. rewrite Eq in Eq'. inversion Eq'; subst cp'.
  destruct D as [D|[[Hq [[? ? Hne] _]]|[Hq [-> [q' [cs [Hrest [Hp [Hc [Ho [Ht [Hnc Hl]]]]]]]]]]]]; [left; auto|congruence|].
  right. inversion Hrest; subst; [|congruence].
  split; [auto|]. split; [reflexivity|]. rewrite app_nil_r in Hc. simpl in Hl, Hnc. rewrite app_nil_r in Hl.
  split; [|split; [constructor; try congruence; lia|auto]].
  rewrite Hp. f_equal. f_equal. unfold ph_with_qty, ph_with_qual, phys_of. simpl. rewrite Eq. reflexivity.
Qed.

Lemma prod_extract_phys E i q w res w' :
  prod_extract E i q w = (res, w') -> res <> UB ->
  exists r s, nth_error (w_res w) i = Some r /\ r_qual r = QProd s /\
  ((r_qty r < q /\ res = Throw ValueError /\ w' = w) \/
   (q <= r_qty r /\ res = Ok (length (w_res w)) /\
      pres w' = upd (pres w) i (ph_with_qty (r_qty r - q) (phys_of r))
                ++ [fresh_phys w (r_qual r) (r_ctx r) q (r_pkg r) 0] /\
      rest_same_w w w' /\ w_next_obj w' = (w_next_obj w + 1)%Z)).
Proof.
  intros H N. unfold prod_extract in H. mrget H. rename x into r. exists r.
  unfold prod_quality in H. destruct (r_qual r) as [|s] eqn:Eq.
  { apply bind_inv in H as [[a [w1 [H1 H]]]|[[e [H1 H]]|[H1 H]]]; [discriminate|discriminate|congruence]. }
  apply bind_inv in H as [[a [w1 [H1 H]]]|[[e [H1 H]]|[H1 H]]]; [|discriminate|congruence].
  inversion H1; subst; clear H1. exists a. split; [auto|]. split; [auto|].
  destruct (Qltb_spec (r_qty r) q) as [Hlt|Hge].
  { left. inversion H; subst. auto. }
  apply Qnot_lt_le in Hge. right. split; [auto|].
  mrmod H. rewrite Hn in Hn0. inversion Hn0; subst x; clear Hn0.
  mnew H. simpl in H. mkeep H. inversion H; subst; clear H.
  split; [rewrite upd_length; reflexivity|].
  destruct S as [S_res S_comps S_lines S_obj S_comp S_time S_state]. unfold pcomps, pres in *. simpl in *.
  split; [|split; [constructor; simpl; auto|auto]].
  rewrite S_res, map_app1, map_upd. unfold fresh_phys. simpl. rewrite upd_length. reflexivity.
Qed.

Lemma package_extract_phys E i q pkg w res w' :
  package_extract E i q pkg w = (res, w') -> res <> UB ->
  exists r, nth_error (w_res w) i = Some r /\
  let limit := match r_qual r with QMat _ => r_qty r + e_eps E | QProd _ => r_qty r end in
  ((limit < q /\ res = Throw ValueError /\ w' = w) \/
   (q <= limit /\ res = Ok (length (w_res w)) /\
      pres w' = upd (pres w) i (ph_with_qty (r_qty r - q) (phys_of r))
                ++ [fresh_phys w (r_qual r) (r_ctx r) q pkg (match r_qual r with QMat _ => r_prev r | _ => 0%Z end)] /\
      rest_same_w w w' /\ w_next_obj w' = (w_next_obj w + 1)%Z)).
Proof.
  intros H N. unfold package_extract in H. mrget H. rename x into r. exists r. split; [auto|].
  destruct (r_qual r) as [cp|s] eqn:Eq; cbv zeta.
  - unfold mat_package_extract in H. mrget H. rewrite Hn in Hn0; inversion Hn0; subst x; clear Hn0.
    unfold mat_comp_ptr in H. rewrite Eq in H. 
    apply bind_inv in H as [[a [w1 [H1 H]]]|[[e [H1 H]]|[H1 H]]]; [|discriminate|congruence].
    inversion H1; subst; clear H1.
    destruct (Qltb_spec (e_eps E) (q - r_qty r)).
    { left. inversion H; subst. split; [lra|auto]. }
    right. split; [lra|].
    mrmod H. rewrite Hn in Hn0. inversion Hn0; subst x; clear Hn0.
    mnew H. simpl in H. mrmod H. simpl in Hn0. rewrite nth_app_new in Hn0. inversion Hn0; subst x; clear Hn0.
    simpl in H. mkeep H. mrget H. mkeep H. inversion H; subst; clear H.
    split; [rewrite upd_length; reflexivity|].
    pose proof (sp_trans _ _ _ S S0) as S1. destruct S1 as [S_res S_comps S_lines S_obj S_comp S_time S_state]. unfold pcomps, pres in *. simpl in *.
    split; [|split; [constructor; simpl; auto|auto]].
    rewrite S_res, upd_app_new, map_app1, map_upd, upd_length. unfold fresh_phys. simpl. reflexivity.
  - unfold prod_package_extract in H. mrget H. rewrite Hn in Hn0; inversion Hn0; subst x; clear Hn0.
    unfold prod_quality in H. rewrite Eq in H. 
    apply bind_inv in H as [[a [w1 [H1 H]]]|[[e [H1 H]]|[H1 H]]]; [|discriminate|congruence].
    inversion H1; subst; clear H1.
    destruct (Qltb_spec (r_qty r) q).
    { left. inversion H; subst. auto. }
    right. split; [lra|].
    mrmod H. rewrite Hn in Hn0. inversion Hn0; subst x; clear Hn0.
    mnew H. simpl in H. mkeep H. mrget H. mkeep H. inversion H; subst; clear H.
    split; [rewrite upd_length; reflexivity|].
    pose proof (sp_trans _ _ _ S S0) as S1. destruct S1 as [S_res S_comps S_lines S_obj S_comp S_time S_state]. unfold pcomps, pres in *. simpl in *.
    split; [|split; [constructor; simpl; auto|auto]].
    rewrite S_res, map_app1, map_upd, upd_length. unfold fresh_phys. simpl. reflexivity.
Qed.

(** Compositions and decay lines only grow. *)
Record cext (w w' : world) : Prop := mkCext {
  ce_comps : exists cs, pcomps w' = pcomps w ++ cs /\
     w_next_comp w' = (w_next_comp w + Z.of_nat (length cs))%Z;
  ce_lines : (length (w_lines w) <= length (w_lines w'))%nat;
  ce_obj : w_next_obj w' = w_next_obj w;
  ce_time : w_time w' = w_time w
}.
Lemma cext_refl w : cext w w.
Proof. constructor; auto. exists []. rewrite app_nil_r. split; auto. simpl. lia. Qed.
Lemma cext_trans w1 w2 w3 : cext w1 w2 -> cext w2 w3 -> cext w1 w3.
Proof.
  intros [[cs [A B]] L1 O1 T1] [[cs' [A' B']] L2 O2 T2]. constructor; try congruence; try lia.
  exists (cs ++ cs'). rewrite A', A, app_assoc. split; auto. rewrite B', B, app_length. lia.
Qed.
Lemma sp_cext w w' : sp w w' -> cext w w'.
Proof.
  intros [S_res S_comps S_lines S_obj S_comp S_time S_state]. constructor; auto; [|rewrite S_lines; auto].
  exists []. unfold pcomps. rewrite app_nil_r. split; auto. simpl. lia.
Qed.

Lemma comp_decay_phys E ci d s w res w' :
  comp_decay E ci d s w = (res, w') -> res <> UB ->
  (exists di, res = Ok di) /\ w_res w' = w_res w /\ w_db w' = w_db w /\ cext w w' /\
  w_next_state w' = w_next_state w.
Proof.
  intros H N. unfold comp_decay in H. mcref H. mget H.
  apply bind_inv in H as [[line [wl [H1 H]]]|[[e [H1 H]]|[H1 H]]]; [| |congruence].
  2:{ unfold deref in H1. destruct (nth_error (w_lines w) (c_line x)); inversion H1; subst; congruence. }
  unfold deref in H1. destruct (nth_error (w_lines w) (c_line x)) eqn:El; inversion H1; subst; clear H1.
  destruct (zfind _ line).
  - inversion H; subst. repeat split; eauto. exists []. rewrite app_nil_r. simpl. split; auto. lia.
  - assert (K : exists c', new_decay E x d s wl = (Ok (length (w_comps wl)),
        set_next_comp (w_next_comp wl + 1)%Z (set_comps (w_comps wl ++ [c']) wl))).
    { unfold new_decay. destruct (comp_atom E x); eexists; reflexivity. }
    destruct K as [c' K].
    apply bind_inv in H as [[di [w2 [H1 H]]]|[[e [H1 H]]|[H1 H]]]; [| |congruence]; rewrite K in H1; inversion H1; subst; clear H1.
    inversion H; subst. simpl. split; [eauto|]. split; [auto|]. split; [auto|]. split; [|auto].
    constructor; simpl; auto; [|rewrite upd_length; auto].
    unfold pcomps. simpl. rewrite map_app1. eexists. split; [reflexivity|]. simpl. lia.
Qed.

Definition ph_with_prev t p := mkPhys (ph_qual p) (ph_qty p) (ph_obj p) (ph_ctx p) (ph_tres p) (ph_pkg p) t.
Definition ph_with_pkg s p := mkPhys (ph_qual p) (ph_qty p) (ph_obj p) (ph_ctx p) (ph_tres p) s (ph_prev p).

Lemma transmute_phys E i c w res w' :
  mat_transmute E i c w = (res, w') -> res <> UB ->
  exists r, nth_error (w_res w) i = Some r /\ res = Ok tt /\
    pres w' = upd (pres w) i (ph_with_prev (if r_ctx r && (r_prev r <? w_time w)%Z then w_time w else r_prev r)
                                 (ph_with_qual (QMat c) (phys_of r))) /\
    rest_same_w w w' /\ w_next_obj w' = w_next_obj w.
Proof.
  intros H N. unfold mat_transmute in H. mrmod H. rename x into r. exists r. split; [auto|].
  assert (Hi := nth_error_lt _ _ _ Hn).
  mkeep H. mrget H. rename x into r2. mget H.
  destruct (sp_nth_back _ _ _ _ S Hn0) as [r1 [Hr1 Hp]]. simpl in Hr1. rewrite nth_upd_same in Hr1 by auto.
  inversion Hr1; subst r1; clear Hr1.
  assert (Ec : r_ctx r2 = r_ctx r) by (apply (f_equal ph_ctx) in Hp; exact Hp).
  assert (Ep : r_prev r2 = r_prev r) by (apply (f_equal ph_prev) in Hp; exact Hp).
  pose proof S as S'. destruct S' as [S_res S_comps S_lines S_obj S_comp S_time S_state]. simpl in *. rewrite Ec, Ep, S_time in H.
  destruct (r_ctx r && (r_prev r <? w_time w)%Z).
  - apply rmod_inv in H as [x [Hx [-> ->]]]; auto. rewrite Hn0 in Hx. inversion Hx; subst x.
    split; [auto|]. unfold pres, pcomps. simpl. split.
    + rewrite map_upd, S_res, map_upd, upd_upd. f_equal.
      unfold ph_with_prev, ph_with_qual. unfold phys_of in *. simpl in *. inversion Hp; reflexivity.
    + split; [constructor; auto|auto].
  - inversion H; subst. split; [auto|]. unfold pres, pcomps. split.
    + rewrite S_res, map_upd. f_equal.
    + split; [constructor; auto|auto].
Qed.

(** Decay (and the lazy decay in comp()) changes only the composition and decay time of [i]. *)
Lemma mat_decay_phys E i t w res w' :
  mat_decay E i t w = (res, w') -> res <> UB ->
  exists r cp, nth_error (w_res w) i = Some r /\ r_qual r = QMat cp /\
    ((exists e, res = Throw e /\ w' = w) \/ res = Ok tt) /\
    (exists c' p', pres w' = upd (pres w) i (ph_with_prev p' (ph_with_qual (QMat c') (phys_of r)))) /\
    cext w w'.
Proof.
  intros H N. unfold mat_decay in H. mrget H. rename x into r. exists r.
  unfold mat_comp_ptr in H. destruct (r_qual r) as [cp|] eqn:Eq.
  2:{ apply bind_inv in H as [[a [w1 [H1 H]]]|[[e [H1 H]]|[H1 H]]]; [discriminate|discriminate|congruence]. }
  apply bind_inv in H as [[a [w1 [H1 H]]]|[[e [H1 H]]|[H1 H]]]; [|discriminate|congruence].
  inversion H1; subst; clear H1. exists a. split; [auto|]. split; [auto|].
  assert (Hsame : pres w1 = upd (pres w1) i (ph_with_prev (r_prev r) (ph_with_qual (QMat a) (phys_of r)))).
  { symmetry. apply upd_same. rewrite (pres_nth _ _ _ Hn). f_equal. unfold ph_with_prev, ph_with_qual, phys_of.
    simpl. rewrite Eq. reflexivity. }
  destruct (r_ctx r && String.eqb (e_decay E) "never").
  { inversion H; subst. split; [auto|]. split; [eauto|apply cext_refl]. }
  destruct ((t <? 0)%Z && negb (r_ctx r)).
  { inversion H; subst. split; [left; eauto|]. split; [eauto|apply cext_refl]. }
  mget H.
  destruct (_ =? 0)%Z.
  { inversion H; subst. split; [auto|]. split; [eauto|apply cext_refl]. }
  mcref H. destruct (_ || _).
  2:{ inversion H; subst. split; [auto|]. split; [eauto|apply cext_refl]. }
  mrmod H. rewrite Hn in Hn0. inversion Hn0; subst x0; clear Hn0.
  apply bind_inv in H as [[d [w2 [H1 H]]]|[[e [H1 H]]|[H1 H]]]; [| |congruence].
  2:{ apply comp_decay_phys in H1 as [[di Hd] _]; [discriminate|discriminate]. }
  apply comp_decay_phys in H1 as [_ [Hr [Hdb [Hce _]]]]; [|discriminate].
  apply transmute_phys in H as [r2 [Hr2 [-> [Hp [Hrs Ho]]]]]; [|auto].
  split; [auto|]. 
  assert (Hi := nth_error_lt _ _ _ Hn).
  rewrite Hr in Hr2. simpl in Hr2. rewrite nth_upd_same in Hr2 by auto. inversion Hr2; subst r2.
  split.
  - eexists _, _. rewrite Hp. unfold pres. rewrite Hr. simpl. rewrite map_upd, upd_upd. reflexivity.
  - destruct Hrs as [R1 R2 R3 R4]. destruct Hce as [Hcs Hl Hob Htm]. constructor; simpl in *; try congruence.
    destruct Hcs as [cs [A B]]. exists cs. unfold pcomps in *. simpl in A. split; [|lia].
      rewrite R1. exact A.
Qed.

Lemma mat_comp_phys E i w res w' :
  mat_comp E i w = (res, w') -> res <> UB ->
  exists r cp, nth_error (w_res w) i = Some r /\ r_qual r = QMat cp /\
    ((exists e, res = Throw e /\ w' = w) \/
     (exists c' p', res = Ok c' /\
        pres w' = upd (pres w) i (ph_with_prev p' (ph_with_qual (QMat c') (phys_of r))) /\
        (e_decay E <> "lazy"%string \/ r_ctx r = false -> w' = w /\ c' = cp /\ p' = r_prev r) /\ cext w w')).
Proof.
  intros H N. unfold mat_comp in H. mrget H. rename x into r. exists r.
  assert (Hi := nth_error_lt _ _ _ Hn).
  apply bind_inv in H as [[u [w1 [H1 H]]]|[[e [H1 H]]|[H1 H]]]; [| |congruence].
  - mrget H. rename x into r1.
    destruct (r_ctx r && String.eqb (e_decay E) "lazy") eqn:El.
    + apply mat_decay_phys in H1 as [r' [cp [Hr' [Eq [_ [[c' [p' Hp]] Hce]]]]]]; [|discriminate].
      rewrite Hn in Hr'. inversion Hr'; subst r'. exists cp. split; [auto|]. split; [auto|]. right.
      apply pres_nth in Hn0. rewrite Hp, nth_upd_same in Hn0 by (rewrite pres_len; auto).
      assert (Eq1 : r_qual r1 = QMat c') by (inversion Hn0; auto).
      unfold mat_comp_ptr in H. rewrite Eq1 in H. inversion H; subst. exists c', p'. split; [auto|].
      split; [auto|]. split; [|auto]. apply andb_prop in El as [El1 El2].
      apply String.eqb_eq in El2. intros [?|?]; [|]; congruence.
    + inversion H1; subst. rewrite Hn in Hn0. inversion Hn0; subst r1.
      unfold mat_comp_ptr in H. destruct (r_qual r) as [cp|] eqn:Eq; [|inversion H; congruence].
      inversion H; subst. exists cp. split; [auto|]. split; [auto|]. right. exists cp, (r_prev r).
      split; [auto|]. split; [|split; [auto|apply cext_refl]].
      symmetry. apply upd_same. rewrite (pres_nth _ _ _ Hn). f_equal. unfold ph_with_prev, ph_with_qual, phys_of.
      simpl. rewrite Eq. reflexivity.
  - destruct (r_ctx r && String.eqb (e_decay E) "lazy") eqn:El; [|discriminate].
    apply mat_decay_phys in H1 as [r' [cp [Hr' [Eq [[[e' [He Hw]]|He] _]]]]]; try discriminate.
    rewrite Hn in Hr'. inversion Hr'; subst r'. exists cp. split; [auto|]. split; [auto|]. left. eauto.
Qed.

Lemma mat_comp_throws E i w e w' : mat_comp E i w = (Throw e, w') -> False.
Proof.
  intros H. assert (N : @Throw nat e <> UB) by discriminate. unfold mat_comp in H. mrget H. rename x into r.
  apply bind_inv in H as [[u [w1 [H1 H]]]|[[e' [H1 H]]|[H1 H]]]; [| |congruence].
  - mrget H. unfold mat_comp_ptr in H. destruct (r_qual x); inversion H.
  - destruct (r_ctx r && String.eqb (e_decay E) "lazy") eqn:El; [|discriminate].
    apply andb_prop in El as [El1 El2]. 
    unfold mat_decay in H1. assert (N1 : @Throw unit e' <> UB) by discriminate. mrget H1.
    rewrite Hn in Hn0; inversion Hn0; subst x; clear Hn0.
    unfold mat_comp_ptr in H1. destruct (r_qual r) as [cp|] eqn:Eq;
      apply bind_inv in H1 as [[a [w2 [H2 H1]]]|[[e2 [H2 H1]]|[H2 H1]]]; try discriminate.
    inversion H2; subst; clear H2. rewrite El1 in H1. simpl in H1.
    destruct (String.eqb (e_decay E) "never"); [inversion H1|].
    mget H1. destruct (_ =? 0)%Z; [inversion H1|]. mcref H1.
    destruct (_ || _); [|inversion H1]. mrmod H1.
    apply bind_inv in H1 as [[d [w3 [H2 H1]]]|[[e2 [H2 H1]]|[H2 H1]]]; [| |congruence].
    + apply transmute_phys in H1 as [? [_ [? _]]]; discriminate.
    + apply comp_decay_phys in H2 as [[? ?] _]; discriminate.
Qed.

(** Absorb of materials.  [c0], [c1]: the compositions after lazy decay. *)
Inductive mix_qual (E : env) (w : world) (c0 c1 : nat) (Q0 Q1 : Q) : qual -> list (Z * compmap * compmap * Z * nat) -> Prop :=
| mix_same : c0 = c1 -> mix_qual E w c0 c1 Q0 Q1 (QMat c0) []
| mix_new x0 x1 v : c0 <> c1 -> nth_error (w_comps w) c0 = Some x0 -> nth_error (w_comps w) c1 = Some x1 ->
    v = comp_add (normalize (comp_mass E x0) Q0) (normalize (comp_mass E x1) Q1) -> acceptable E v ->
    mix_qual E w c0 c1 Q0 Q1 (QMat (length (w_comps w))) [(w_next_comp w, [], v, 0%Z, length (w_lines w))].

Lemma upd_comm {A} (l : list A) i j x y : i <> j -> upd (upd l i x) j y = upd (upd l j y) i x.
Proof. revert i j. induction l; destruct i, j; simpl; intros; auto; try congruence. rewrite IHl; auto. Qed.

Lemma mat_absorb_phys E i j w res w' :
  mat_absorb E i j w = (res, w') -> res <> UB ->
  exists c0 c1 w2 a b,
    (exists w1, mat_comp E i w = (Ok c0, w1) /\ mat_comp E j w1 = (Ok c1, w2)) /\
    nth_error (w_res w2) i = Some a /\ nth_error (w_res w2) j = Some b /\
    ((exists x0 x1, c0 <> c1 /\ nth_error (w_comps w2) c0 = Some x0 /\ nth_error (w_comps w2) c1 = Some x1 /\
        ~ acceptable E (comp_add (normalize (comp_mass E x0) (r_qty a)) (normalize (comp_mass E x1) (r_qty b))) /\
        res = Throw ValueError /\ w' = w2) \/
     (res = Ok tt /\ exists q' cs p', mix_qual E w2 c0 c1 (r_qty a) (r_qty b) q' cs /\
        p' = (if Qltb (r_qty a) (r_qty b) then r_prev b else r_prev a) /\
        pres w' = (let l1 := upd (pres w2) i (ph_with_qty (r_qty a + r_qty b) (ph_with_prev p' (ph_with_qual q' (phys_of a)))) in
                  match nth_error l1 j with Some pj => upd l1 j (ph_with_qty 0 pj) | None => l1 end) /\
        pcomps w' = pcomps w2 ++ cs /\ w_next_obj w' = w_next_obj w2 /\ w_time w' = w_time w2 /\
        w_next_comp w' = (w_next_comp w2 + Z.of_nat (length cs))%Z /\
        w_lines w' = w_lines w2 ++ map (fun _ => []) cs)).
Proof.
  intros H N. unfold mat_absorb in H.
  apply bind_inv in H as [[c0 [w1 [H1 H]]]|[[e [H1 H]]|[H1 H]]]; [|exfalso; eapply mat_comp_throws; eauto|congruence].
  apply bind_inv in H as [[c1 [w2 [H2 H]]]|[[e [H2 H]]|[H2 H]]]; [|exfalso; eapply mat_comp_throws; eauto|congruence].
  exists c0, c1, w2.
  destruct (mat_comp_phys _ _ _ _ _ H1 ltac:(discriminate)) as [ra [cpa [Hra [Eqa [[? [? _]]|[ca [pa [Ea [Hpa [_ Xa]]]]]]]]]]; [discriminate|].
  destruct (mat_comp_phys _ _ _ _ _ H2 ltac:(discriminate)) as [rb [cpb [Hrb [Eqb [[? [? _]]|[cb [pb [Eb [Hpb [_ Xb]]]]]]]]]]; [discriminate|].
  assert (La : exists a, nth_error (w_res w2) i = Some a).
  { destruct (nth_error (w_res w2) i) eqn:X; [eauto|]. apply nth_error_None in X.
    apply nth_error_lt in Hra. rewrite <- pres_len, Hpb, upd_length, Hpa, upd_length, pres_len in X. lia. }
  assert (Lb : exists b, nth_error (w_res w2) j = Some b).
  { destruct (nth_error (w_res w2) j) eqn:X; [eauto|]. apply nth_error_None in X.
    apply nth_error_lt in Hrb. rewrite <- pres_len, Hpb, upd_length, pres_len in X. lia. }
  destruct La as [a Ha]. destruct Lb as [b Hb]. exists a, b. split; [eauto|]. split; [auto|]. split; [auto|].
  apply bind_inv in H as [[u [w3 [H3 H]]]|[[e [H3 H]]|[H3 H]]]; [| |congruence].
  - right.
    assert (Qa : c0 = c1 -> r_qual a = QMat c0).
    { intros Hc. apply pres_nth in Ha. rewrite Hpb in Ha. inversion Ea; subst ca. inversion Eb; subst cb.
      destruct (Nat.eq_dec j i) as [->|Hne].
      - rewrite nth_upd_same in Ha by (rewrite pres_len; eapply nth_error_lt; eauto).
        inversion Ha. congruence.
      - rewrite nth_upd_other in Ha by auto. rewrite Hpa, nth_upd_same in Ha by (rewrite pres_len; eapply nth_error_lt; eauto).
        inversion Ha; auto. }
    assert (Hmid : exists q' cs, mix_qual E w2 c0 c1 (r_qty a) (r_qty b) q' cs /\
      w_res w3 = upd (w_res w2) i (with_qual q' a) /\ pcomps w3 = pcomps w2 ++ cs /\
      w_next_obj w3 = w_next_obj w2 /\ w_time w3 = w_time w2 /\
      w_next_comp w3 = (w_next_comp w2 + Z.of_nat (length cs))%Z /\
      w_lines w3 = w_lines w2 ++ map (fun _ => []) cs).
    { destruct (Nat.eqb_spec c0 c1) as [Hc|Hne].
      - inversion H3; subst. exists (QMat c1), []. split; [now constructor|].
        split; [|simpl; rewrite ?app_nil_r, ?Z.add_0_r; auto].
        symmetry. apply upd_same. rewrite Ha. f_equal. specialize (Qa eq_refl).
        destruct a; simpl in *; subst; reflexivity.
      - assert (N1 : Ok u <> UB) by discriminate. clear N H.
        mcref H3. mcref H3. mrget H3. mrget H3. rewrite Ha in Hn; inversion Hn; subst x1; clear Hn.
        rewrite Hb in Hn0; inversion Hn0; subst x2; clear Hn0.
        apply bind_inv in H3 as [[n [w4 [H4 H3]]]|[[e [H4 H3]]|[H4 H3]]]; [|discriminate|congruence].
        apply create_from_mass_inv in H4 as [[_ [? _]]|[Hacc [En ->]]]; [discriminate|].
        inversion En; subst; clear En.
        apply rmod_inv in H3 as [x' [Hx' [_ ->]]]; [|discriminate].
        simpl in Hx'. rewrite Ha in Hx'. inversion Hx'; subst.
        eexists _, _. split; [eapply mix_new; eauto|].
        unfold pcomps. simpl. rewrite map_app1. repeat (split; [reflexivity|]). reflexivity. }
    destruct Hmid as [q' [cs [Hmix [Hres [Hcs [Ho [Ht [Hnc Hl]]]]]]]].
    assert (Hi : (i < length (w_res w2))%nat) by (eapply nth_error_lt; eauto).
    assert (Hj : (j < length (w_res w2))%nat) by (eapply nth_error_lt; eauto).
    mrget H. rewrite Hres, nth_upd_same in Hn by auto. inversion Hn; subst x; clear Hn.
    mrget H. rename x into b2.
    assert (Eb2 : r_qty b2 = r_qty b /\ r_prev b2 = r_prev b).
    { rewrite Hres in Hn. destruct (Nat.eq_dec i j) as [->|Hne].
      - rewrite nth_upd_same in Hn by auto. inversion Hn; subst. rewrite Ha in Hb; inversion Hb; subst. auto.
      - rewrite nth_upd_other in Hn by auto. rewrite Hb in Hn; inversion Hn; auto. }
    destruct Eb2 as [Eb2 Eb3].
    assert (Hp3 : exists w4, (if Qltb (r_qty (with_qual q' a)) (r_qty b2) then rmod i (with_prev (r_prev b2)) else ret tt) w3 = (Ok tt, w4) /\
       w4 = set_res (upd (w_res w2) i (with_prev (if Qltb (r_qty a) (r_qty b) then r_prev b else r_prev a) (with_qual q' a))) w3).
    { simpl. rewrite Eb2. destruct (Qltb (r_qty a) (r_qty b)).
      - rewrite (rmod_ok i _ w3 (with_qual q' a)) by (rewrite Hres, nth_upd_same; auto).
        eexists. split; [reflexivity|]. rewrite Hres, upd_upd, Eb3. reflexivity.
      - exists w3. split; [reflexivity|].
        replace (with_prev (r_prev a) (with_qual q' a)) with (with_qual q' a) by (destruct a; reflexivity).
        rewrite <- Hres. destruct w3; reflexivity. }
    destruct Hp3 as [w4 [Hp3 Hw4]]. rewrite (bind_ok _ _ _ _ _ Hp3) in H. subst w4. clear Hp3.
    set (p' := if Qltb (r_qty a) (r_qty b) then r_prev b else r_prev a) in *.
    mrmod H. simpl in Hn0. rewrite nth_upd_same in Hn0 by auto. inversion Hn0; subst x; clear Hn0.
    simpl in H. rewrite upd_upd in H.
    mrmod H. simpl in Hn0. rename x into b3.
    destruct (keeps_tr_absorb _ _ _ _ _ _ H N) as [[u' Hu'] S]. destruct u'. split; [auto|].
    exists q', cs, p'. split; [auto|]. split; [auto|].
    destruct S as [S_res S_comps S_lines S_obj S_comp S_time S_state]. unfold pcomps, pres in *. simpl in *.
    split.
    { rewrite S_res. rewrite !map_upd. rewrite Eb2.
      assert (X : nth_error (upd (map phys_of (w_res w2)) i
           (ph_with_qty (r_qty a + r_qty b) (ph_with_prev p' (ph_with_qual q' (phys_of a))))) j = Some (phys_of b3)).
      { replace (ph_with_qty (r_qty a + r_qty b) (ph_with_prev p' (ph_with_qual q' (phys_of a))))
          with (phys_of (with_qty (r_qty a + r_qty b2) (with_prev p' (with_qual q' a)))) by (rewrite Eb2; reflexivity).
        rewrite <- map_upd, nth_error_map, Hn0. reflexivity. }
      rewrite X. reflexivity. }
    split; [congruence|]. split; [congruence|]. split; [congruence|]. split; congruence.
  - left. destruct (Nat.eqb_spec c0 c1) as [Hc|Hne]; [inversion H3|].
    assert (N1 : @Throw unit e <> UB) by discriminate.
    mcref H3. mcref H3. mrget H3. mrget H3. rewrite Ha in Hn; inversion Hn; subst x1; clear Hn.
    rewrite Hb in Hn0; inversion Hn0; subst x2; clear Hn0.
    apply bind_inv in H3 as [[n [w4 [H4 H3]]]|[[e' [H4 H3]]|[H4 H3]]]; [| |congruence].
    + apply rmod_inv in H3 as [? [_ [? _]]]; discriminate.
    + apply create_from_mass_inv in H4 as [[Hacc [En ->]]|[_ [? _]]]; [|discriminate].
      inversion En; subst e'. inversion H3; subst e. exists x, x0. repeat split; auto.
Qed.

Lemma prod_absorb_phys E i j w res w' :
  prod_absorb E i j w = (res, w') -> res <> UB ->
  exists a b sa sb, nth_error (w_res w) i = Some a /\ nth_error (w_res w) j = Some b /\
    r_qual a = QProd sa /\ r_qual b = QProd sb /\
    ((sa <> sb /\ res = Throw ValueError /\ w' = w) \/
     (sa = sb /\ res = Ok tt /\
      pres w' = (let l1 := upd (pres w) i (ph_with_qty (r_qty a + r_qty b) (phys_of a)) in
                 match nth_error l1 j with Some pj => upd l1 j (ph_with_qty 0 pj) | None => l1 end) /\
      rest_same_w w w' /\ w_next_obj w' = w_next_obj w)).
Proof.
  intros H N. unfold prod_absorb in H. mrget H. rename x into a. mrget H. rename x into b.
  exists a, b. unfold prod_quality in H.
  destruct (r_qual a) as [|sa] eqn:Ea; [apply bind_inv in H as [[? [? [? ?]]]|[[? [? ?]]|[? ?]]]; [discriminate|discriminate|congruence]|].
  apply bind_inv in H as [[s1 [w1 [H1 H]]]|[[e [H1 H]]|[H1 H]]]; [|discriminate|congruence]. inversion H1; subst; clear H1.
  destruct (r_qual b) as [|sb] eqn:Eb; [apply bind_inv in H as [[? [? [? ?]]]|[[? [? ?]]|[? ?]]]; [discriminate|discriminate|congruence]|].
  apply bind_inv in H as [[s2 [w2 [H1 H]]]|[[e [H1 H]]|[H1 H]]]; [|discriminate|congruence]. inversion H1; subst; clear H1.
  exists s1, s2. split; [auto|]. split; [auto|]. split; [auto|]. split; [auto|].
  destruct (String.eqb_spec s2 s1) as [->|Hne]; simpl in H.
  2:{ left. inversion H; subst. auto. }
  right. split; [auto|].
  assert (Hi := nth_error_lt _ _ _ Hn).
  mrmod H. rewrite Hn in Hn1. inversion Hn1; subst x; clear Hn1.
  mrmod H. simpl in Hn1. rename x into b3.
  destruct (keeps_tr_absorb _ _ _ _ _ _ H N) as [[u' Hu'] S]. destruct u'. split; [auto|].
  destruct S as [S_res S_comps S_lines S_obj S_comp S_time S_state]. unfold pcomps, pres in *. simpl in *.
  split; [|split; [constructor; auto|auto]].
  rewrite S_res, !map_upd.
  assert (X : nth_error (upd (map phys_of (w_res w2)) i (ph_with_qty (r_qty a + r_qty b) (phys_of a))) j = Some (phys_of b3)).
  { replace (ph_with_qty (r_qty a + r_qty b) (phys_of a)) with (phys_of (with_qty (r_qty a + r_qty b) a)) by reflexivity.
    rewrite <- map_upd, nth_error_map, Hn1. reflexivity. }
  rewrite X. reflexivity.
Qed.

Lemma change_package_phys E i pkg w res w' :
  change_package E i pkg w = (res, w') -> res <> UB ->
  exists r, nth_error (w_res w) i = Some r /\
    ((exists e, res = Throw e /\ w' = w) \/
     (res = Ok tt /\ exists pkg', (pkg' = pkg \/ pkg' = r_pkg r) /\
        pres w' = upd (pres w) i (ph_with_pkg pkg' (phys_of r)))) /\
    rest_same_w w w' /\ w_next_obj w' = w_next_obj w.
Proof.
  intros H N. unfold change_package in H. mrget H. rename x into r. exists r. split; [auto|].
  assert (Hi := nth_error_lt _ _ _ Hn).
  assert (Hsame : pres w = upd (pres w) i (ph_with_pkg (r_pkg r) (phys_of r))).
  { symmetry. apply upd_same. rewrite (pres_nth _ _ _ Hn). reflexivity. }
  assert (Rr : rest_same_w w w) by (constructor; auto).
  assert (Hset : forall w2 u, (rmod i (with_pkg pkg);; tr_package E i None) w = (u, w2) -> u <> UB ->
     u = Ok tt /\ pres w2 = upd (pres w) i (ph_with_pkg pkg (phys_of r)) /\ rest_same_w w w2 /\ w_next_obj w2 = w_next_obj w).
  { intros w2 u Hu Nu. mrmod Hu. rewrite Hn in Hn0; inversion Hn0; subst x; clear Hn0.
    destruct (keeps_tr_package _ _ _ _ _ _ Hu Nu) as [[u' Hu'] S]. destruct u'. split; [auto|].
    destruct S as [S_res S_comps S_lines S_obj S_comp S_time S_state]. unfold pcomps, pres in *. simpl in *.
    split; [rewrite S_res, map_upd; reflexivity|]. split; [constructor; auto|auto]. }
  destruct (r_qual r).
  - unfold mat_change_package in H. mrget H. rewrite Hn in Hn0; inversion Hn0; subst x; clear Hn0.
    destruct (r_ctx r); simpl in H.
    2:{ inversion H; subst. split; [right; split; eauto|split; auto]. }
    destruct (String.eqb pkg unpackaged_name).
    { apply rmod_inv in H as [x [Hx [-> ->]]]; auto. rewrite Hn in Hx; inversion Hx; subst x.
      unfold pres, pcomps. simpl. split; [|split; [constructor; auto|auto]]. right. split; [auto|].
      exists pkg. rewrite map_upd. auto. }
    apply bind_inv in H as [[p [w1 [H1 H]]]|[[e [H1 H]]|[H1 H]]]; [| |congruence].
    + assert (w1 = w) as ->. { unfold get_package in H1. destruct (String.eqb _ _); [inversion H1; auto|].
        destruct (find _ _) as [[? ?]|]; inversion H1; auto. }
      destruct (_ && _).
      * apply Hset in H as [-> [A [B C]]]; auto. split; [right; split; eauto|auto].
      * inversion H; subst. split; [left; eauto|auto].
    + assert (w' = w) as ->. { unfold get_package in H1. destruct (String.eqb _ _); [inversion H1; auto|].
        destruct (find _ _) as [[? ?]|]; inversion H1; auto. }
      split; [left; eauto|auto].
  - unfold prod_change_package in H. mrget H. rewrite Hn in Hn0; inversion Hn0; subst x; clear Hn0.
    destruct (_ || _). { inversion H; subst. split; [right; split; eauto|split; auto]. }
    destruct (String.eqb pkg unpackaged_name).
    { apply Hset in H as [-> [A [B C]]]; auto. split; [right; split; eauto|auto]. }
    apply bind_inv in H as [[p [w1 [H1 H]]]|[[e [H1 H]]|[H1 H]]]; [| |congruence].
    + assert (w1 = w) as ->. { unfold get_package in H1. destruct (String.eqb _ _); [inversion H1; auto|].
        destruct (find _ _) as [[? ?]|]; inversion H1; auto. }
      destruct (_ && _).
      * apply Hset in H as [-> [A [B C]]]; auto. split; [right; split; eauto|auto].
      * inversion H; subst. split; [left; eauto|auto].
    + assert (w' = w) as ->. { unfold get_package in H1. destruct (String.eqb _ _); [inversion H1; auto|].
        destruct (find _ _) as [[? ?]|]; inversion H1; auto. }
      split; [left; eauto|auto].
Qed.

Lemma mat_create_phys E a q c pkg w res w' :
  mat_create E a q c pkg w = (res, w') -> res <> UB ->
  res = Ok (length (w_res w)) /\ pres w' = pres w ++ [fresh_phys w (QMat c) true q pkg (w_time w)] /\
  rest_same_w w w' /\ w_next_obj w' = (w_next_obj w + 1)%Z.
Proof.
  intros H N. unfold mat_create in H. mnew H. simpl in H. mkeep H. inversion H; subst. split; [auto|].
  destruct S as [S_res S_comps S_lines S_obj S_comp S_time S_state]. unfold pcomps, pres in *. simpl in *.
  split; [rewrite S_res, map_app1; reflexivity|]. split; [constructor; auto|auto].
Qed.
Lemma prod_create_phys E a q s pkg w res w' :
  prod_create E a q s pkg w = (res, w') -> res <> UB ->
  res = Ok (length (w_res w)) /\ pres w' = pres w ++ [fresh_phys w (QProd s) true q pkg 0] /\
  rest_same_w w w' /\ w_next_obj w' = (w_next_obj w + 1)%Z.
Proof.
  intros H N. unfold prod_create in H. mget H.
  apply bind_inv in H as [[u [w1 [H1 H]]]|[[e [H1 H]]|[H1 H]]]; [| |congruence].
  2:{ destruct (assoc s (w_quals w)); inversion H1. }
  assert (X : w_res w1 = w_res w /\ w_comps w1 = w_comps w /\ w_lines w1 = w_lines w /\ w_time w1 = w_time w /\
     w_next_obj w1 = w_next_obj w /\ w_next_comp w1 = w_next_comp w).
  { destruct (assoc s (w_quals w)); inversion H1; subst; auto 10. }
  clear H1. destruct X as [X1 [X2 [X3 [X4 [X5 X6]]]]].
  mnew H. simpl in H. mkeep H. inversion H; subst. rewrite X1. split; [auto|].
  destruct S as [S_res S_comps S_lines S_obj S_comp S_time S_state]. unfold pcomps, pres in *. simpl in *.
  split; [rewrite S_res, map_app1, X1; unfold fresh_phys; simpl; rewrite X5; reflexivity|].
  split; [constructor; unfold pcomps; congruence|congruence].
Qed.
