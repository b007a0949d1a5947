(** Recipes: what is loaded, and what a reader of the database then gets. *)
From Coq Require Import String Ascii List ZArith QArith Bool Arith Lia Lqa Permutation.
From Verif Require Import Base CompModel CompSpec CompProofs PackageModel ResourceModel ResourceSpec ResourceProofs1 ResourceProofs4
  ResourceProofs9 ReloadModel ReloadProofs2 LoaderSpec LoaderProofs ConfigModel ConfigSpec ConfigProofs ConfigProofs2.
From Verif Require PpModel LoaderModel.
Import PpModel(xml(..)).
Import LoaderModel(path, rbind).
Import ListNotations.
Local Open Scope string_scope.

(** ** Vectors *)
Lemma vec_sorted l : forall v, zsorted v -> zsorted (vec l v).
Proof. induction l as [|p l IH]; intros v H; simpl; auto. apply IH. now apply zset_sorted. Qed.
Lemma vec_amount k l : forall v, amount k (vec l v) = match last_amount k l with Some a => a | None => amount k v end.
Proof.
  induction l as [|[n q] l IH]; intros v; simpl; auto. rewrite IH. destruct (last_amount k l); auto.
  destruct (Z.eqb_spec n k) as [->|N]; [apply amount_zset_same|now apply amount_zset_other].
Qed.
Lemma vec_keys k l : forall v, In k (zkeys (vec l v)) <-> In k (map fst l) \/ In k (zkeys v).
Proof.
  induction l as [|[n q] l IH]; intros v; simpl; [tauto|]. rewrite IH, zset_keys_In. firstorder.
Qed.
Lemma zset_Forall (P : Z * Q -> Prop) k q v : P (k, q) -> Forall P v -> Forall P (zset k q v).
Proof.
  intros H F. induction F as [|[k0 x0] t H0 Ft IH]; simpl; [repeat constructor; auto|].
  destruct (Z.ltb k k0); [repeat constructor; auto|]. destruct (Z.eqb k k0); constructor; auto.
Qed.
Lemma vec_Forall (P : Z * Q -> Prop) l : Forall P l -> forall v, Forall P v -> Forall P (vec l v).
Proof. induction 1 as [|[k q] l H F IH]; intros v G; simpl; auto. apply IH. now apply zset_Forall. Qed.

Section R.
Variable E : env.
Hypothesis HE : env_ok E.

Definition stated (r : recipe) : compmap := vec (rc_nucs r) [].
Definition masses (r : recipe) : compmap :=
  if rc_atom r then map (fun p => (fst p, snd p * e_amass E (fst p))) (stated r) else stated r.
Definition fractions (r : recipe) : compmap := normalize (masses r) 1.

Lemma stated_wf r : wf_comp (stated r).
Proof. apply vec_sorted. exact I. Qed.
Lemma sorted_scaled (f : Z -> Q) v : zsorted v -> zsorted (map (fun p => (fst p, snd p * f (fst p))) v).
Proof.
  induction v as [|[k x] t IH]; simpl; auto. intros [H1 H2]. split; auto. rewrite Forall_map. simpl. exact H1.
Qed.
Lemma masses_wf r : wf_comp (masses r).
Proof. unfold masses. destruct (rc_atom r); [apply sorted_scaled|]; apply stated_wf. Qed.
Lemma amount_scaled (f : Z -> Q) k v : amount k (map (fun p => (fst p, snd p * f (fst p))) v) == amount k v * f k.
Proof.
  unfold amount. induction v as [|[n x] t IH]; simpl; [ring|]. destruct (Z.eqb_spec k n) as [->|N]; [reflexivity|]. exact IH.
Qed.
Lemma keys_scaled (f : Z -> Q) (v : compmap) : zkeys (map (fun p => (fst p, snd p * f (fst p))) v) = zkeys v.
Proof. unfold zkeys. rewrite map_map. reflexivity. Qed.
Lemma masses_amount r k : amount k (masses r) == weight E r k.
Proof.
  unfold masses, weight, stated. destruct (rc_atom r).
  - rewrite amount_scaled, vec_amount. destruct (last_amount k (rc_nucs r)); simpl; reflexivity.
  - rewrite vec_amount. change (amount k []) with 0. destruct (last_amount k (rc_nucs r)); cbn [given]; lra.
Qed.
Lemma masses_keys r k : In k (zkeys (masses r)) <-> In k (map fst (rc_nucs r)).
Proof.
  unfold masses, stated. destruct (rc_atom r); rewrite ?keys_scaled, vec_keys; simpl; tauto.
Qed.

Lemma sorted_nodup (v : compmap) : zsorted v -> NoDup (zkeys v).
Proof.
  induction v as [|[k x] t IH]; simpl; [constructor|]. intros [H1 H2]. constructor; auto. unfold zkeys. rewrite in_map_iff.
  intros ([n y] & E1 & H). simpl in E1. subst n. rewrite Forall_forall in H1. apply H1 in H. simpl in H. lia.
Qed.
Lemma total_keys (v : compmap) : zsorted v -> total v == qsum (map (fun k => amount k v) (zkeys v)).
Proof.
  unfold total. intros H.
  assert (G : map snd v = map (fun k => amount k v) (zkeys v)); [|now rewrite G].
  assert (A : forall p, In p v -> amount (fst p) v = snd p).
  { intros [k x] Hp. unfold amount. simpl. clear - H Hp. induction v as [|[n y] t IH]; [destruct Hp|]. simpl in *. destruct H as [H1 H2].
    destruct Hp as [E1|Hp]; [injection E1 as -> ->; now rewrite Z.eqb_refl|].
    rewrite Forall_forall in H1. specialize (H1 _ Hp). simpl in H1. destruct (Z.eqb_spec k n); [lia|]. auto. }
  unfold zkeys. rewrite map_map. apply map_ext_in. intros p Hp. now rewrite A.
Qed.
Lemma qsum_perm l l' : Permutation l l' -> qsum l == qsum l'.
Proof. induction 1; simpl; [reflexivity|rewrite IHPermutation; reflexivity|ring|etransitivity; eauto]. Qed.
Lemma qsum_ext {A} (f g : A -> Q) l : (forall a, f a == g a) -> qsum (map f l) == qsum (map g l).
Proof. intros H. induction l; simpl; [reflexivity|]. now rewrite H, IHl. Qed.

Lemma fractions_made r : made_to E r (fractions r).
Proof.
  intros ks N K whole k.
  assert (T : total (masses r) == whole).
  { rewrite total_keys by apply masses_wf. unfold whole. rewrite (qsum_ext _ (weight E r)) by (intro; apply masses_amount).
    apply qsum_perm, Permutation_map, NoDup_Permutation; [apply sorted_nodup, masses_wf|exact N|].
    intros x. rewrite masses_keys, K. tauto. }
  unfold fractions. split; intros W.
  - rewrite normalize_amount by now rewrite T. rewrite masses_amount, T. field. exact W.
  - rewrite normalize_zero by now rewrite T. apply masses_amount.
Qed.

Definition taken (r : recipe) : bool := valid_nucs (e_isnuc E) (stated r) && all_positive (stated r).
Lemma taken_good r : taken r = true <-> good_vec E (stated r).
Proof.
  unfold taken. rewrite andb_true_iff. split; intros H.
  - apply acceptable_good; [apply stated_wf|exact H].
  - apply good_acceptable in H. exact H.
Qed.
Lemma good_masses r : taken r = true -> good_vec E (masses r).
Proof. rewrite taken_good. intros H. unfold masses. destruct (rc_atom r); auto. now apply good_atom_mass. Qed.
Lemma good_normalized v : good_vec E v -> good_vec E (normalize v 1).
Proof.
  intros [W G]. destruct (Qeq_dec (total v) 0) as [Z|Z].
  - rewrite normalize_zero by exact Z. split; auto.
  - assert (P : 0 < total v).
    { assert (0 <= total v); [|lra]. unfold total. clear - G. induction G as [|p l [_ H] F IH]; simpl; lra. }
    split; [now apply normalize_wf|].
    assert (K : zkeys (normalize v 1) = zkeys v) by apply normalize_keys.
    assert (W' := normalize_wf v 1 W). rewrite Forall_forall in *. intros p Hp. split.
    + assert (I1 : In (fst p) (zkeys v)) by (rewrite <- K; unfold zkeys; now apply in_map).
      unfold zkeys in I1. apply in_map_iff in I1. destruct I1 as (q & E1 & Hq). rewrite <- E1. now apply G.
    + assert (A : amount (fst p) (normalize v 1) = snd p).
      { destruct p as [k x]. unfold amount. simpl. revert W' Hp. generalize (normalize v 1). clear. intros v W Hp.
        induction v as [|[n y] t IH]; [destruct Hp|]. simpl in *. destruct W as [H1 H2].
        destruct Hp as [E1|Hp]; [injection E1 as -> ->; now rewrite Z.eqb_refl|].
        rewrite Forall_forall in H1. specialize (H1 _ Hp). simpl in H1. destruct (Z.eqb_spec k n); [lia|]. auto. }
      rewrite <- A, normalize_amount by exact Z.
      assert (0 <= amount (fst p) v).
      { unfold amount. destruct (zfind (fst p) v) eqn:F; [|lra].
        assert (In (fst p, q) v); [|now apply G in H].
        clear - F. induction v as [|[n y] t IH]; [discriminate|]. simpl in F. destruct (Z.eqb_spec (fst p) n) as [->|]; [injection F as ->; now left|right; auto]. }
      apply Qmult_le_0_compat; auto. unfold Qdiv. apply Qmult_le_0_compat; [lra|]. apply Qlt_le_weak, Qinv_lt_0_compat, P.
Qed.
Lemma good_fractions r : taken r = true -> wf_comp (fractions r) /\ acceptable E (fractions r).
Proof.
  intros T. pose proof (good_normalized _ (good_masses _ T)) as G. split; [apply G|]. now apply good_acceptable.
Qed.

(** ** Loading *)
Variable strtod : string -> Q.
Variable nucid : string -> result Z.

Definition recipe_comp (r : recipe) (w : world) : comp :=
  mkComp (w_next_comp w) (if rc_atom r then stated r else []) (if rc_atom r then [] else stated r) false 0 (List.length (w_lines w)).
Lemma recipe_comp_mass r w : comp_mass E (recipe_comp r w) = masses r.
Proof.
  unfold recipe_comp, comp_mass, masses. simpl. destruct (rc_atom r); [reflexivity|]. now destruct (stated r).
Qed.
Definition after_recipe (r : recipe) (s : st) : st :=
  let w := s_w s in
  on_t (add_recipe_row (rc_name r, w_next_comp w)) (on_ctx (put_recipe (rc_name r) (List.length (w_comps w)))
    (set_w (mkWorld (w_res w) (w_comps w ++ [with_recorded true (recipe_comp r w)]) (w_lines w ++ [[]])
              (w_next_state w) (w_next_obj w) (w_next_comp w + 1)%Z (w_quals w) (w_next_qual w) (w_time w)
              (w_db w ++ comp_rows E (recipe_comp r w))) s)).

Lemma record_run c w x : nth_error (w_comps w) c = Some x -> c_recorded x = false ->
  comp_record E c w = (Ok tt, set_db (w_db w ++ comp_rows E x) (set_comps (upd (w_comps w) c (with_recorded true x)) w)).
Proof.
  intros H R. unfold comp_record, bind, cref, get, cmod, modify. rewrite H. simpl. rewrite R. 
  unfold bind, cref, get, ret. simpl. rewrite ?H. reflexivity.
Qed.

Lemma recipe_loaded y r s : says_recipe strtod nucid y r ->
  load_recipe strtod nucid E y s = if taken r then Ok (after_recipe r s) else Throw ValueError.
Proof.
  intros (S1 & S2 & F). unfold load_recipe. rewrite (get_says _ _ _ S1). cbn [rbind]. unfold read_recipe.
  rewrite (get_says _ _ _ S2). cbn [rbind].
  assert (B : basis_of (if rc_atom r then "atom" else "mass") = Ok (rc_atom r)) by (destruct (rc_atom r); reflexivity).
  rewrite B. cbn [rbind]. rewrite nm1. cbn [rbind]. rewrite (nuclides_read strtod nucid y _ F). cbn [rbind].
  fold (stated r).
  assert (C : (if rc_atom r then create_from_atom E (stated r) (s_w s) else create_from_mass E (stated r) (s_w s)) =
              if taken r then (Ok (List.length (w_comps (s_w s))),
                set_next_comp (w_next_comp (s_w s) + 1)%Z (set_lines (w_lines (s_w s) ++ [[]])
                  (set_comps (w_comps (s_w s) ++ [recipe_comp r (s_w s)]) (s_w s))))
              else (Throw ValueError, s_w s)).
  { unfold create_from_atom, create_from_mass, taken, recipe_comp, comp_new.
    destruct (rc_atom r), (valid_nucs (e_isnuc E) (stated r)), (all_positive (stated r)); reflexivity. }
  rewrite C. destruct (taken r); [|reflexivity]. cbn [rbind].
  rewrite (record_run _ _ (recipe_comp r (s_w s))); [|simpl; apply nth_last|reflexivity].
  unfold add_recipe. simpl. rewrite upd_last, nth_last. reflexivity.
Qed.

(** ids given so far *)
Definition below (n : Z) (d : list datum) : Prop := Forall (fun x => match x with DComp i _ _ => (i < n)%Z | _ => True end) d.
Lemma below_none n d k : below n d -> (n <= k)%Z -> comp_table d k = [].
Proof.
  intros B L. apply comp_table_none. intros id m f H. unfold below in B. rewrite Forall_forall in B. specialize (B _ H). simpl in B. lia.
Qed.
Lemma below_mono n m d : below n d -> (n <= m)%Z -> below m d.
Proof. intros B L. eapply Forall_impl; [|exact B]. intros [] H; auto; lia. Qed.
Lemma below_rows r w : below (w_next_comp w + 1) (comp_rows E (recipe_comp r w)).
Proof. unfold comp_rows, below. apply Forall_map, Forall_forall. intros p _. simpl. lia. Qed.

Definition recorded (d : list datum) (r : recipe) (row : string * Z) : Prop :=
  taken r = true /\ fst row = rc_name r /\ comp_table d (snd row) = fractions r.

Lemma recipes_loaded : forall rs ys s s', Forall2 (says_recipe strtod nucid) ys rs -> below (w_next_comp (s_w s)) (w_db (s_w s)) ->
  for_rows (load_recipe strtod nucid E) ys s = Ok s' ->
  exists rows extra, s_t s' = fold_left (fun t r => add_recipe_row r t) rows (s_t s) /\
    g_eps s' = g_eps s /\ g_epsr s' = g_epsr s /\ g_unr s' = g_unr s /\
    c_pkgs (s_ctx s') = c_pkgs (s_ctx s) /\ c_units (s_ctx s') = c_units (s_ctx s) /\
    w_db (s_w s') = (w_db (s_w s) ++ extra)%list /\ below (w_next_comp (s_w s')) (w_db (s_w s')) /\
    (w_next_comp (s_w s) <= w_next_comp (s_w s'))%Z /\
    (forall k, (k < w_next_comp (s_w s))%Z -> comp_table extra k = []) /\
    Forall (fun row => (w_next_comp (s_w s) <= snd row < w_next_comp (s_w s'))%Z) rows /\
    Forall2 (recorded (w_db (s_w s'))) rs rows.
Proof.
  induction rs as [|r rs IH]; intros ys s s' F B H; inversion F as [|y ? ys' ? S1 F']; subst.
  - cbn [for_rows] in H. injection H as <-. exists [], []. rewrite app_nil_r. simpl. repeat split; auto; try lia; constructor.
  - cbn [for_rows] in H. rewrite (recipe_loaded _ _ _ S1) in H. destruct (taken r) eqn:T; [|discriminate]. cbn [rbind] in H.
    pose proof (below_rows r (s_w s)) as B1.
    assert (B' : below (w_next_comp (s_w (after_recipe r s))) (w_db (s_w (after_recipe r s)))).
    { simpl. apply Forall_app. split; [eapply below_mono; [exact B|lia]|exact B1]. }
    destruct (IH _ _ _ F' B' H) as (rows & extra & H1 & H2 & H3 & H4 & H5 & H6 & H7 & H8 & H9 & H10 & H11 & H12).
    cbn [after_recipe on_t on_ctx set_w s_t s_w s_ctx g_eps g_epsr g_unr w_next_comp w_db] in *.
    exists ((rc_name r, w_next_comp (s_w s)) :: rows), (comp_rows E (recipe_comp r (s_w s)) ++ extra)%list.
    rewrite H1, H2, H3, H4, H5, H6, H7. rewrite <- app_assoc in *. simpl fold_left.
    assert (CT : comp_table (comp_rows E (recipe_comp r (s_w s))) (w_next_comp (s_w s)) = fractions r).
    { rewrite comp_table_rows. simpl c_id. rewrite Z.eqb_refl, recipe_comp_mass. reflexivity. }
    assert (W : w_db (s_w s') = (w_db (s_w s) ++ comp_rows E (recipe_comp r (s_w s)) ++ extra)%list) by exact H7.
    repeat split; auto; try lia.
    + rewrite <- W. exact H8.
    + intros k Hk. rewrite comp_table_app, H10 by lia. rewrite comp_table_rows. simpl c_id.
      destruct (Z.eqb_spec (w_next_comp (s_w s)) k); [lia|reflexivity].
    + constructor; [simpl; lia|]. eapply Forall_impl; [|exact H11]. intros row Hr. simpl in *. lia.
    + constructor; [|rewrite <- W; exact H12]. split; [exact T|]. split; [reflexivity|]. simpl snd.
      rewrite !comp_table_app, (below_none _ _ _ B) by lia. rewrite CT, H10 by lia. now rewrite app_nil_r.
Qed.

(** ** Reloading *)
Definition holds (rs : list recipe) (s : st) : Prop := forall n,
  match last_named rc_name n rs with
  | Some r => exists c x, slookup n (c_recipes (s_ctx s)) = Some c /\ nth_error (w_comps (s_w s)) c = Some x /\
                          comp_mass E x = fractions r
  | None => slookup n (c_recipes (s_ctx s)) = None
  end.
Lemma last_named_snoc {A} (name : A -> string) n l a :
  last_named name n (l ++ [a]) = if String.eqb (name a) n then Some a else last_named name n l.
Proof.
  induction l as [|b l IH]; simpl; [now destruct (String.eqb (name a) n)|]. rewrite IH. now destruct (String.eqb (name a) n).
Qed.

Lemma recipes_reloaded d : forall rs rows, Forall2 (recorded d) rs rows -> forall done s, holds done s ->
  exists s', for_rows (reload_recipe E d) rows s = Ok s' /\ holds (done ++ rs) s' /\
    g_eps s' = g_eps s /\ g_epsr s' = g_epsr s /\
    c_si (s_ctx s') = c_si (s_ctx s) /\ c_now (s_ctx s') = c_now (s_ctx s) /\ c_gen (s_ctx s') = c_gen (s_ctx s) /\
    c_pkgs (s_ctx s') = c_pkgs (s_ctx s) /\ c_units (s_ctx s') = c_units (s_ctx s).
Proof.
  induction 1 as [|r row rs rows (T & N & C) F IH]; intros done s H.
  - exists s. rewrite app_nil_r. repeat split; auto.
  - cbn [for_rows]. destruct (good_fractions r T) as [W A].
    unfold reload_recipe at 1. rewrite (load_composition_run E d (snd row) _ _ C W A).
    unfold add_recipe. cbn [set_w s_w w_comps]. rewrite nth_last. cbn [rbind c_id].
    set (s1 := on_t _ _).
    assert (H1 : holds (done ++ [r]) s1).
    { intros n. rewrite last_named_snoc. unfold s1. cbn [on_t on_ctx s_ctx put_recipe c_recipes slookup s_w set_w w_comps]. rewrite N.
      destruct (String.eqb (rc_name r) n).
      - eexists _, _. split; [reflexivity|]. split; [apply nth_last|]. unfold comp_mass. simpl. now destruct (fractions r).
      - specialize (H n). destruct (last_named rc_name n done); auto. destruct H as (c & x & L & Hn & M).
        exists c, x. split; [exact L|]. split; [|exact M]. rewrite nth_error_app1; auto.
        apply nth_error_Some. rewrite Hn. discriminate. }
    destruct (IH _ _ H1) as (s' & R & H2 & G). exists s'. split; [exact R|]. split; [now rewrite <- app_assoc in H2|exact G].
Qed.
End R.
