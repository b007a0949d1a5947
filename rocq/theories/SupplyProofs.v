(** Refinement: the state of the model is what the history says (C53). *)
From Coq Require Import String QArith List Bool Arith ZArith Lia.
From Verif Require Import Base ProgModel ProgSpec SupplyModel SupplySpec.
Import ListNotations.
Open Scope Q_scope.

(** ** Containers *)
Lemma sget_sput {A} k k' (v : A) l : sget k (sput k' v l) = if String.eqb k k' then Some v else sget k l.
Proof.
  induction l as [|[x u] t IH]; cbn.
  - destruct (String.eqb_spec k k'); reflexivity.
  - destruct (String.eqb_spec k' x) as [->|N]; cbn.
    + destruct (String.eqb_spec k x); reflexivity.
    + rewrite IH. destruct (String.eqb_spec k x) as [->|]; auto.
      destruct (String.eqb_spec x k'); congruence.
Qed.
Lemma sget_sins {A} k k' (v : A) l :
  sget k (sins k' v l) = if String.eqb k k' then otherwise (sget k l) (Some v) else sget k l.
Proof.
  unfold sins. destruct (sget k' l) eqn:E.
  - destruct (String.eqb_spec k k') as [->|]; auto. rewrite E. reflexivity.
  - rewrite sget_sput. destruct (String.eqb_spec k k') as [->|]; auto. rewrite E. reflexivity.
Qed.
Lemma sget_srm {A} k k' (l : list (string * A)) : sget k (srm k' l) = if String.eqb k k' then None else sget k l.
Proof.
  unfold srm. induction l as [|[x u] t IH]; cbn.
  - destruct (String.eqb k k'); reflexivity.
  - destruct (String.eqb_spec k' x) as [->|N]; cbn.
    + rewrite IH. destruct (String.eqb_spec k x); auto.
    + rewrite IH. destruct (String.eqb_spec k x) as [->|]; auto. destruct (String.eqb_spec x k'); congruence.
Qed.
Lemma sget_in {A} k (l : list (string * A)) : In k (map fst l) <-> sget k l <> None.
Proof.
  induction l as [|[x u] t IH]; cbn; [tauto|].
  destruct (String.eqb_spec k x) as [->|N].
  - split; intros; [discriminate|auto].
  - rewrite <- IH. split; [intros [H|H]; [congruence|auto]|auto].
Qed.

Lemma pins_in pos x l y : In y (pins pos x l) <-> y = x \/ In y l.
Proof.
  unfold pins. destruct (existsb (Nat.eqb x) l) eqn:E.
  - apply existsb_exists in E as (z & Hz & Ez). apply Nat.eqb_eq in Ez; subst z. split; [auto|intros [->|]; auto].
  - rewrite in_app_iff. cbn. rewrite <- (firstn_skipn pos l) at 3. rewrite in_app_iff. split.
    + intros [H|[H|H]]; subst; auto.
    + intros [H|[H|H]]; subst; auto.
Qed.
Lemma pins_nodup pos x l : NoDup l -> NoDup (pins pos x l).
Proof.
  intros N. unfold pins. destruct (existsb (Nat.eqb x) l) eqn:E; auto.
  apply NoDup_Add with (a := x) (l := l).
  - rewrite <- (firstn_skipn pos l) at 1. apply Add_app.
  - split; auto. intros I. assert (existsb (Nat.eqb x) l = true) as Ht.
    { apply existsb_exists. exists x. split; auto. apply Nat.eqb_refl. }
    congruence.
Qed.
Lemma prm_in x l y : In y (prm x l) <-> y <> x /\ In y l.
Proof.
  unfold prm. rewrite filter_In. destruct (Nat.eqb_spec x y); cbn; intuition congruence.
Qed.
Lemma prm_nodup x l : NoDup l -> NoDup (prm x l).
Proof. apply NoDup_filter. Qed.

(** ** Sets of registrations *)
Definition setinv (l : list (list nat)) (has : nat -> nat -> Prop) (n : nat) : Prop :=
  (forall i xs, nth_error l i = Some xs -> NoDup xs /\ forall x, In x xs <-> has i x) /\
  (forall i x, has i x -> (i < length l)%nat /\ (x < n)%nat).

Lemma setinv_new l has n : setinv l has n -> setinv (l ++ [[]]) has n.
Proof.
  intros [A B]. split.
  - intros i xs H. destruct (Nat.lt_ge_cases i (length l)).
    + rewrite nth_error_app1 in H by auto. apply A; auto.
    + rewrite nth_error_app2 in H by auto. destruct (i - length l)%nat as [|k] eqn:E; cbn in H.
      * injection H as <-. split; [constructor|]. intros x. split; [intros []|]. intros Hx. apply B in Hx. lia.
      * destruct k; discriminate.
  - intros i x H. apply B in H as [H1 H2]. rewrite app_length. cbn. lia.
Qed.
Lemma setinv_mono l has n n' : setinv l has n -> (n <= n')%nat -> setinv l has n'.
Proof. intros [A B] H. split; auto. intros i x Hx. apply B in Hx. lia. Qed.

Lemma at_obj_ok {A} (l : list A) i f l' :
  at_obj l i f = Ok l' -> exists x, nth_error l i = Some x /\ l' = upd l i (f x).
Proof. unfold at_obj. destruct (nth_error l i); intros H; [injection H as <-; eauto|discriminate]. Qed.
Lemma nth_upd {A} (l : list A) i j x :
  nth_error (upd l i x) j = if Nat.eqb i j then (match nth_error l j with Some _ => Some x | None => None end) else nth_error l j.
Proof.
  destruct (Nat.eqb_spec i j) as [->|N]; [|apply nth_upd_other; auto].
  destruct (nth_error l j) eqn:E.
  - apply nth_upd_same. eapply nth_error_lt; eauto.
  - apply nth_error_None. rewrite upd_length. now apply nth_error_None.
Qed.

Lemma setinv_reg l has n pos i x xs :
  setinv l has n -> nth_error l i = Some xs -> (x < n)%nat ->
  setinv (upd l i (pins pos x xs)) (fun j y => j = i /\ y = x \/ has j y) n.
Proof.
  intros [A B] E V. split.
  - intros j ys H. rewrite nth_upd in H. destruct (Nat.eqb_spec i j) as [<-|N].
    + rewrite E in H. injection H as <-. destruct (A _ _ E) as [A1 A2]. split; [apply pins_nodup; auto|].
      intros y. rewrite pins_in, A2. intuition.
    + destruct (A _ _ H) as [A1 A2]. split; auto. intros y. rewrite A2. intuition congruence.
  - intros j y [[-> ->]|H]; rewrite upd_length; [split; auto; eapply nth_error_lt; eauto|auto].
Qed.
Lemma setinv_unreg l has n i x xs :
  setinv l has n -> nth_error l i = Some xs ->
  setinv (upd l i (prm x xs)) (fun j y => ~ (j = i /\ y = x) /\ has j y) n.
Proof.
  intros [A B] E. split.
  - intros j ys H. rewrite nth_upd in H. destruct (Nat.eqb_spec i j) as [<-|N].
    + rewrite E in H. injection H as <-. destruct (A _ _ E) as [A1 A2]. split; [apply prm_nodup; auto|].
      intros y. rewrite prm_in, A2. intuition.
    + destruct (A _ _ H) as [A1 A2]. split; auto. intros y. rewrite A2. intuition congruence.
  - intros j y [_ H]; rewrite upd_length; auto.
Qed.
Lemma upd_map {A B} (f : A -> B) l i x : map f (upd l i x) = upd (map f l) i (f x).
Proof. revert i; induction l; destruct i; cbn; auto. rewrite IHl. reflexivity. Qed.
Lemma upd_same {A} (l : list A) i x : nth_error l i = Some x -> upd l i x = l.
Proof. revert i; induction l; destruct i; cbn; intros H; try discriminate; [congruence|]. f_equal; auto. Qed.

(** ** The invariant *)
Record inv (h : list op) (w : world) : Prop := mkInv {
  i_made : length (w_prod w) = producers_made h;
  i_prod : forall p x, nth_error (w_prod w) p = Some x ->
    defaults h p = Some (mkCI (cp_dcap x) (cp_dcost x)) /\ forall c, sget c (cp_info x) = info h p c;
  i_none : forall p c, (length (w_prod w) <= p)%nat -> info h p c = None;
  i_build : setinv (w_build w) (builder_has h) (length (w_prod w));
  i_bman : setinv (w_bman w) (manager_has h) (length (w_build w));
  i_pman : setinv (w_pman w) (producers_has h) (length (w_prod w));
  i_sd : setinv (map sd_mans (w_sd w)) (supply_has h) (length (w_pman w));
  i_fun : forall s x, nth_error (w_sd w) s = Some x -> forall c, sget c (sd_fun x) = demand_function h s c;
  i_nofun : forall s c, (length (w_sd w) <= s)%nat -> demand_function h s c = None
}.

Lemma copy_get src : forall ks x c,
  sget c (cp_info (fold_left (fun y c => cp_set_cost c (ci_cost (cp_entry c src)) (cp_set_cap c (ci_cap (cp_entry c src)) (cp_add c y))) ks x))
  = if existsb (String.eqb c) ks then Some (cp_entry c src) else sget c (cp_info x).
Proof.
  induction ks as [|k t IH]; intros x c; cbn; auto.
  rewrite IH. cbn. destruct (existsb (String.eqb c) t); [rewrite orb_true_r; auto|]. rewrite orb_false_r.
  rewrite sget_sput. destruct (String.eqb_spec c k) as [->|N].
  - unfold cp_entry at 1. cbn. rewrite sget_sput, String.eqb_refl. cbn. destruct (cp_entry k src); reflexivity.
  - rewrite sget_sput. destruct (String.eqb_spec c k); [congruence|]. rewrite sget_sins.
    destruct (String.eqb_spec c k); [congruence|]. reflexivity.
Qed.
Lemma copy_dflt src : forall ks x,
  let y := fold_left (fun y c => cp_set_cost c (ci_cost (cp_entry c src)) (cp_set_cap c (ci_cap (cp_entry c src)) (cp_add c y))) ks x in
  cp_dcap y = cp_dcap x /\ cp_dcost y = cp_dcost x.
Proof. induction ks as [|k t IH]; intros x; cbn; auto. destruct (IH (cp_set_cost k (ci_cost (cp_entry k src)) (cp_set_cap k (ci_cap (cp_entry k src)) (cp_add k x)))). cbn in *. auto. Qed.

(** One producer changes, nothing else does. *)
Lemma inv_prod h w o p f x :
  inv h w -> nth_error (w_prod w) p = Some x ->
  producers_made (o :: h) = producers_made h -> (forall q, defaults (o :: h) q = defaults h q) ->
  (forall b q, builder_has (o :: h) b q = builder_has h b q) -> (forall b q, manager_has (o :: h) b q = manager_has h b q) ->
  (forall b q, producers_has (o :: h) b q = producers_has h b q) -> (forall b q, supply_has (o :: h) b q = supply_has h b q) ->
  (forall s c, demand_function (o :: h) s c = demand_function h s c) ->
  (forall q c, q <> p -> info (o :: h) q c = info h q c) ->
  cp_dcap (f x) = cp_dcap x -> cp_dcost (f x) = cp_dcost x ->
  (forall c, sget c (cp_info (f x)) = info (o :: h) p c) ->
  inv (o :: h) (set_prod w (upd (w_prod w) p (f x))).
Proof.
  intros I E H1 H2 H3 H4 H5 H6 H7 H8 H9 H10 H11. destruct I. constructor; cbn [set_prod w_prod w_build w_bman w_pman w_sd].
  - rewrite upd_length. congruence.
  - intros q y Hq. rewrite nth_upd in Hq. rewrite H2. destruct (Nat.eqb_spec p q) as [<-|N].
    + rewrite E in Hq. injection Hq as <-. destruct (i_prod0 _ _ E) as [A B]. rewrite H9, H10. auto.
    + destruct (i_prod0 _ _ Hq) as [A B]. split; auto. intros c. rewrite H8; auto.
  - intros q c Hq. rewrite upd_length in Hq. assert (q <> p). { intros ->. apply nth_error_lt in E. lia. } rewrite H8; auto.
  - rewrite upd_length. destruct i_build0 as [A B]. split.
    + intros i xs Hx. destruct (A _ _ Hx) as [A1 A2]. split; auto. intros y. rewrite H3. auto.
    + intros i y. rewrite H3. auto.
  - destruct i_bman0 as [A B]. split.
    + intros i xs Hx. destruct (A _ _ Hx) as [A1 A2]. split; auto. intros y. rewrite H4. auto.
    + intros i y. rewrite H4. auto.
  - rewrite upd_length. destruct i_pman0 as [A B]. split.
    + intros i xs Hx. destruct (A _ _ Hx) as [A1 A2]. split; auto. intros y. rewrite H5. auto.
    + intros i y. rewrite H5. auto.
  - destruct i_sd0 as [A B]. split.
    + intros i xs Hx. destruct (A _ _ Hx) as [A1 A2]. split; auto. intros y. rewrite H6. auto.
    + intros i y. rewrite H6. auto.
  - intros s y Hy c. rewrite H7. eapply i_fun0; eauto.
  - intros s c Hs. rewrite H7. auto.
Qed.

Ltac prod_case I E :=
  eapply (inv_prod _ _ _ _ _ _ I E); cbn [producers_made defaults builder_has manager_has producers_has supply_has demand_function info];
  auto; unfold here.

Lemma here_other p q c c' : q <> p -> here q p c c' = false.
Proof. intros N. unfold here. destruct (Nat.eqb_spec q p); [congruence|reflexivity]. Qed.
Lemma here_same p c c' : here p p c c' = String.eqb c c'.
Proof. unfold here. rewrite Nat.eqb_refl. reflexivity. Qed.

Lemma valid_lt {A} (l : list A) i : valid l i = true -> (i < length l)%nat.
Proof. unfold valid. destruct (nth_error l i) eqn:E; [intros _; eapply nth_error_lt; eauto|discriminate]. Qed.

Theorem refine h w : reached h w -> inv h w.
Proof.
  induction 1 as [|h w o w' R I S].
  - constructor; cbn; auto; try (intros [|i] *; discriminate); split; try (intros [|i] *; discriminate); intros i x [].
  - destruct o; cbn [step] in S.
    + (* NewProducer *)
      injection S as <-. destruct I. constructor; cbn [set_prod w_prod w_build w_bman w_pman w_sd]; auto.
      * rewrite app_length. cbn. lia.
      * intros p x Hp. cbn [defaults info]. destruct (Nat.lt_ge_cases p (length (w_prod w))).
        -- rewrite nth_error_app1 in Hp by auto. destruct (i_prod0 _ _ Hp) as [A B]. split; auto.
           destruct (Nat.eqb_spec p (producers_made h)); auto. lia.
        -- rewrite nth_error_app2 in Hp by auto. destruct (p - length (w_prod w))%nat as [|k] eqn:E; cbn in Hp.
           2:{ destruct k; discriminate. }
           injection Hp as <-. cbn. split.
           ++ destruct (Nat.eqb_spec p (producers_made h)); auto. lia.
           ++ intros c. symmetry. apply i_none0. lia.
      * intros p c Hp. rewrite app_length in Hp. cbn in *. apply i_none0. lia.
      * eapply setinv_mono; eauto. rewrite app_length. lia.
      * eapply setinv_mono; eauto. rewrite app_length. lia.
    + (* NewBuilder *)
      injection S as <-. destruct I. constructor; cbn [set_build w_prod w_build w_bman w_pman w_sd]; auto.
      * now apply setinv_new.
      * eapply setinv_mono; eauto. rewrite app_length. lia.
    + injection S as <-. destruct I. constructor; cbn [set_bman w_prod w_build w_bman w_pman w_sd]; auto.
      now apply setinv_new.
    + injection S as <-. destruct I. constructor; cbn [set_pman w_prod w_build w_bman w_pman w_sd]; auto.
      * now apply setinv_new.
      * eapply setinv_mono; eauto. rewrite app_length. lia.
    + (* NewSupplyDemand *)
      injection S as <-. destruct I. constructor; cbn [set_sd w_prod w_build w_bman w_pman w_sd]; auto.
      * rewrite map_app. cbn [map sd_mans]. now apply setinv_new.
      * intros s x Hs c. cbn [demand_function]. destruct (Nat.lt_ge_cases s (length (w_sd w))).
        -- rewrite nth_error_app1 in Hs by auto. eapply i_fun0; eauto.
        -- rewrite nth_error_app2 in Hs by auto. destruct (s - length (w_sd w))%nat as [|k] eqn:E; cbn in Hs.
           2:{ destruct k; discriminate. }
           injection Hs as <-. cbn. symmetry. apply i_nofun0. lia.
      * intros s c Hs. rewrite app_length in Hs. cbn in *. apply i_nofun0. lia.
    + (* Add *)
      destruct (at_obj (w_prod w) p (cp_add c)) eqn:E; try discriminate. injection S as <-.
      apply at_obj_ok in E as (x & E & ->). destruct (i_prod _ _ I _ _ E) as [D F].
      prod_case I E.
      * intros q c' N. fold (here q p c' c). rewrite here_other; auto.
      * intros c'. fold (here p p c' c). rewrite here_same. cbn. rewrite sget_sins, F. destruct (String.eqb_spec c' c); auto. rewrite D. reflexivity.
    + (* AddInfo *)
      destruct (at_obj (w_prod w) p (cp_add_info c (mkCI cap cost))) eqn:E; try discriminate. injection S as <-.
      apply at_obj_ok in E as (x & E & ->). destruct (i_prod _ _ I _ _ E) as [D F].
      prod_case I E.
      * intros q c' N. fold (here q p c' c). rewrite here_other; auto.
      * intros c'. fold (here p p c' c). rewrite here_same. cbn. rewrite sget_sins, F. reflexivity.
    + (* Rm *)
      destruct (at_obj (w_prod w) p (cp_rm c)) eqn:E; try discriminate. injection S as <-.
      apply at_obj_ok in E as (x & E & ->). destruct (i_prod _ _ I _ _ E) as [D F].
      prod_case I E.
      * intros q c' N. fold (here q p c' c). rewrite here_other; auto.
      * intros c'. fold (here p p c' c). rewrite here_same. cbn. rewrite sget_srm, F. reflexivity.
    + (* SetCapacity *)
      destruct (at_obj (w_prod w) p (cp_set_cap c q)) eqn:E; try discriminate. injection S as <-.
      apply at_obj_ok in E as (x & E & ->). destruct (i_prod _ _ I _ _ E) as [D F].
      prod_case I E.
      * intros r c' N. fold (here r p c' c). rewrite here_other; auto.
      * intros c'. fold (here p p c' c). rewrite here_same. cbn. rewrite sget_sput, F. destruct (String.eqb_spec c' c); auto. subst.
        unfold cp_entry. rewrite F. destruct (info h p c); reflexivity.
    + (* SetCost *)
      destruct (at_obj (w_prod w) p (cp_set_cost c q)) eqn:E; try discriminate. injection S as <-.
      apply at_obj_ok in E as (x & E & ->). destruct (i_prod _ _ I _ _ E) as [D F].
      prod_case I E.
      * intros r c' N. fold (here r p c' c). rewrite here_other; auto.
      * intros c'. fold (here p p c' c). rewrite here_same. cbn. rewrite sget_sput, F. destruct (String.eqb_spec c' c); auto. subst.
        unfold cp_entry. rewrite F. destruct (info h p c); reflexivity.
    + (* AskCapacity *)
      destruct (at_obj (w_prod w) p (cp_touch c)) eqn:E; try discriminate. injection S as <-.
      apply at_obj_ok in E as (x & E & ->). destruct (i_prod _ _ I _ _ E) as [D F].
      prod_case I E.
      * intros r c' N. fold (here r p c' c). rewrite here_other; auto.
      * intros c'. fold (here p p c' c). rewrite here_same. cbn. rewrite sget_sput, F. destruct (String.eqb_spec c' c); auto. subst.
        unfold cp_entry. rewrite F. destruct (info h p c); reflexivity.
    + destruct (at_obj (w_prod w) p (cp_touch c)) eqn:E; try discriminate. injection S as <-.
      apply at_obj_ok in E as (x & E & ->). destruct (i_prod _ _ I _ _ E) as [D F].
      prod_case I E.
      * intros r c' N. fold (here r p c' c). rewrite here_other; auto.
      * intros c'. fold (here p p c' c). rewrite here_same. cbn. rewrite sget_sput, F. destruct (String.eqb_spec c' c); auto. subst.
        unfold cp_entry. rewrite F. destruct (info h p c); reflexivity.
    + (* Copy *)
      destruct (nth_error (w_prod w) src) as [sx|] eqn:Es; try discriminate.
      destruct (at_obj (w_prod w) p (cp_copy sx)) eqn:E; try discriminate. injection S as <-.
      apply at_obj_ok in E as (x & E & ->). destruct (i_prod _ _ I _ _ E) as [D F].
      destruct (i_prod _ _ I _ _ Es) as [Ds Fs].
      prod_case I E.
      * intros r c' N. destruct (Nat.eqb_spec r p); congruence.
      * apply copy_dflt.
      * apply copy_dflt.
      * intros c'. rewrite Nat.eqb_refl. unfold cp_copy. rewrite copy_get, F. unfold cp_entry. rewrite Fs.
        destruct (existsb (String.eqb c') (cp_produced sx)) eqn:X.
        -- apply existsb_exists in X as (z & Hz & Ez). apply String.eqb_eq in Ez. subst z.
           apply sget_in in Hz. rewrite Fs in Hz. destruct (info h src c'); [reflexivity|congruence].
        -- assert (info h src c' = None) as ->; auto. destruct (info h src c') eqn:Y; auto. exfalso.
           assert (In c' (cp_produced sx)) as G. { apply sget_in. rewrite Fs, Y. discriminate. }
           assert (existsb (String.eqb c') (cp_produced sx) = true); [|congruence].
           apply existsb_exists. exists c'. rewrite String.eqb_refl. auto.
    + (* BuilderReg *)
      destruct (valid (w_prod w) p) eqn:V; try discriminate.
      destruct (at_obj (w_build w) b (pins pos p)) eqn:E; try discriminate. injection S as <-.
      apply at_obj_ok in E as (x & E & ->). destruct I. constructor; cbn [set_build w_prod w_build w_bman w_pman w_sd]; auto.
      * apply setinv_reg; auto. now apply valid_lt.
      * rewrite upd_length. auto.
    + destruct (at_obj (w_build w) b (prm p)) eqn:E; try discriminate. injection S as <-.
      apply at_obj_ok in E as (x & E & ->). destruct I. constructor; cbn [set_build w_prod w_build w_bman w_pman w_sd]; auto.
      * apply setinv_unreg; auto.
      * rewrite upd_length. auto.
    + destruct (valid (w_build w) b) eqn:V; try discriminate.
      destruct (at_obj (w_bman w) m (pins pos b)) eqn:E; try discriminate. injection S as <-.
      apply at_obj_ok in E as (x & E & ->). destruct I. constructor; cbn [set_bman w_prod w_build w_bman w_pman w_sd]; auto.
      apply setinv_reg; auto. now apply valid_lt.
    + destruct (at_obj (w_bman w) m (prm b)) eqn:E; try discriminate. injection S as <-.
      apply at_obj_ok in E as (x & E & ->). destruct I. constructor; cbn [set_bman w_prod w_build w_bman w_pman w_sd]; auto.
      apply setinv_unreg; auto.
    + destruct (valid (w_prod w) p) eqn:V; try discriminate.
      destruct (at_obj (w_pman w) m (pins pos p)) eqn:E; try discriminate. injection S as <-.
      apply at_obj_ok in E as (x & E & ->). destruct I. constructor; cbn [set_pman w_prod w_build w_bman w_pman w_sd]; auto.
      * apply setinv_reg; auto. now apply valid_lt.
      * rewrite upd_length. auto.
    + destruct (at_obj (w_pman w) m (prm p)) eqn:E; try discriminate. injection S as <-.
      apply at_obj_ok in E as (x & E & ->). destruct I. constructor; cbn [set_pman w_prod w_build w_bman w_pman w_sd]; auto.
      * apply setinv_unreg; auto.
      * rewrite upd_length. auto.
    + (* SupplyReg *)
      destruct (valid (w_pman w) m) eqn:V; try discriminate.
      destruct (at_obj (w_sd w) s _) eqn:E; try discriminate. injection S as <-.
      apply at_obj_ok in E as (x & E & ->). destruct I. constructor; cbn [set_sd w_prod w_build w_bman w_pman w_sd]; auto.
      * rewrite upd_map. cbn [sd_mans]. apply setinv_reg; auto; [|now apply valid_lt]. apply map_nth_error. auto.
      * intros s' y Hy c. rewrite nth_upd in Hy. cbn [demand_function]. destruct (Nat.eqb_spec s s') as [<-|].
        -- rewrite E in Hy. injection Hy as <-. cbn. eapply i_fun0; eauto.
        -- eapply i_fun0; eauto.
      * intros s' c Hs. rewrite upd_length in Hs. cbn. auto.
    + destruct (at_obj (w_sd w) s _) eqn:E; try discriminate. injection S as <-.
      apply at_obj_ok in E as (x & E & ->). destruct I. constructor; cbn [set_sd w_prod w_build w_bman w_pman w_sd]; auto.
      * rewrite upd_map. cbn [sd_mans]. apply setinv_unreg; auto. apply map_nth_error. auto.
      * intros s' y Hy c. rewrite nth_upd in Hy. cbn [demand_function]. destruct (Nat.eqb_spec s s') as [<-|].
        -- rewrite E in Hy. injection Hy as <-. cbn. eapply i_fun0; eauto.
        -- eapply i_fun0; eauto.
      * intros s' c Hs. rewrite upd_length in Hs. cbn. auto.
    + (* RegisterCommodity *)
      destruct (at_obj (w_sd w) s _) eqn:E; try discriminate. injection S as <-.
      apply at_obj_ok in E as (x & E & ->). destruct I. constructor; cbn [set_sd w_prod w_build w_bman w_pman w_sd]; auto.
      * rewrite upd_map. cbn [sd_mans]. rewrite upd_same; auto. apply map_nth_error. auto.
      * intros s' y Hy c'. rewrite nth_upd in Hy. cbn [demand_function]. destruct (Nat.eqb_spec s s') as [<-|].
        -- rewrite E in Hy. injection Hy as <-. cbn. rewrite here_same, sget_sins, (i_fun0 _ _ E). reflexivity.
        -- rewrite here_other; eauto.
      * intros s' c' Hs. rewrite upd_length in Hs. cbn. rewrite here_other; auto. intros ->. apply nth_error_lt in E. lia.
    + destruct (at_obj (w_sd w) s _) eqn:E; try discriminate. injection S as <-.
      apply at_obj_ok in E as (x & E & ->). destruct I. constructor; cbn [set_sd w_prod w_build w_bman w_pman w_sd]; auto.
      * rewrite upd_map. cbn [sd_mans]. rewrite upd_same; auto. apply map_nth_error. auto.
      * intros s' y Hy c'. rewrite nth_upd in Hy. cbn [demand_function]. destruct (Nat.eqb_spec s s') as [<-|].
        -- rewrite E in Hy. injection Hy as <-. cbn. rewrite here_same, sget_sins, (i_fun0 _ _ E). reflexivity.
        -- rewrite here_other; eauto.
      * intros s' c' Hs. rewrite upd_length in Hs. cbn. rewrite here_other; auto. intros ->. apply nth_error_lt in E. lia.
Qed.
