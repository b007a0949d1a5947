(** Packages and transport units. *)
From Coq Require Import String Ascii List ZArith QArith Bool Arith Lia Lqa.
From Verif Require Import Base PackageModel ResourceModel LoaderSpec LoaderProofs ConfigModel ConfigSpec ConfigProofs ConfigProofs2 ConfigProofs3.
From Verif Require PpModel LoaderModel.
Import PpModel(xml(..)).
Import LoaderModel(path, rbind).
Import ListNotations.
Local Open Scope string_scope.

Lemma slookup_none {A} n (l : list (string * A)) : slookup n l = None <-> ~ In n (map fst l).
Proof.
  induction l as [|[k a] l IH]; simpl; [tauto|]. destruct (String.eqb_spec k n) as [->|N].
  - split; [discriminate|]. intros H. exfalso. apply H. now left.
  - rewrite IH. tauto.
Qed.
Lemma slookup_app {A} n (l m : list (string * A)) : slookup n (l ++ m) = match slookup n l with Some a => Some a | None => slookup n m end.
Proof. induction l as [|[k a] l IH]; simpl; auto. now destruct (String.eqb k n). Qed.

(** ** Packages *)
Definition add_pk (q : package) (s : st) : result st := add_package (p_name q) (p_fill_min q) (p_fill_max q) (p_strategy q) s.
Definition fine (q : package) : Prop := pkg_create true (p_name q) (p_fill_min q) (p_fill_max q) (p_strategy q) = Ok q.
Definition one_pk (q : package) (s : st) : st := on_t (add_pkg_row q) (on_ctx (put_pkg (p_name q) q) s).

Lemma pkg_create_is n lo hi g q : pkg_create true n lo hi g = Ok q -> q = mkPackage n lo hi g.
Proof.
  unfold pkg_create, pkg_ctor. repeat (match goal with |- (if ?b then _ else _) = _ -> _ => destruct b end; try discriminate). now intros [= <-].
Qed.
Lemma fine_name q : fine q -> p_name q <> unpackaged_name.
Proof.
  unfold fine, pkg_create, pkg_ctor. intros H N. rewrite N in H. 
  repeat (match type of H with (if ?b then _ else _) = _ => destruct b eqn:? end; try discriminate).
Qed.
Lemma add_pk_ok q s s' : add_pk q s = Ok s' <-> fine q /\ ~ In (p_name q) (map fst (c_pkgs (s_ctx s))) /\ s' = one_pk q s.
Proof.
  unfold add_pk, add_package, fine. split.
  - destruct (slookup _ _) eqn:L; [discriminate|]. apply slookup_none in L.
    destruct (pkg_create _ _ _ _ _) as [p| |] eqn:P; simpl; try discriminate. intros [= <-].
    assert (p = q) as -> by (apply pkg_create_is in P; now destruct q). auto.
  - intros (F & L & ->). apply slookup_none in L. rewrite L, F. reflexivity.
Qed.
Definition all_pk (qs : list package) (s : st) : st := fold_left (fun s q => one_pk q s) qs s.
Lemma add_pks_ok qs : forall s s', for_rows add_pk qs s = Ok s' <->
  Forall fine qs /\ NoDup (map p_name qs) /\ (forall q, In q qs -> ~ In (p_name q) (map fst (c_pkgs (s_ctx s)))) /\ s' = all_pk qs s.
Proof.
  induction qs as [|q qs IH]; intros s s'; simpl.
  - split; [intros [= <-]; repeat split; auto; constructor|intros (_ & _ & _ & ->); reflexivity].
  - split.
    + destruct (add_pk q s) as [s1| |] eqn:A; simpl; try discriminate. intros H. apply add_pk_ok in A as (F & N & ->).
      apply IH in H as (F' & D & N' & ->). simpl in N'.
      assert (~ In (p_name q) (map p_name qs)).
      { intros I. apply in_map_iff in I as (q' & E & I). apply (N' q' I). left. now rewrite E. }
      repeat split; auto; try (constructor; auto; fail). intros p [<-|I] J; [auto|]. apply (N' p I). now right.
    + intros (F & D & N & ->). inversion F; subst. inversion D; subst.
      assert (A : add_pk q s = Ok (one_pk q s)) by (apply add_pk_ok; repeat split; auto).
      rewrite A. simpl. apply IH. repeat split; auto. intros p I J. simpl in J. destruct J as [J|J].
      * apply H3. rewrite J. now apply in_map.
      * exact (N p (or_intror I) J).
Qed.
Lemma all_pk_ctx qs : forall s, c_pkgs (s_ctx (all_pk qs s)) = (rev (map (fun q => (p_name q, q)) qs) ++ c_pkgs (s_ctx s))%list.
Proof.
  induction qs as [|q qs IH]; intros s; simpl; auto. rewrite IH. simpl. now rewrite <- app_assoc.
Qed.
Lemma all_pk_frame qs : forall s, let s' := all_pk qs s in
  s_t s' = fold_left (fun t q => add_pkg_row q t) qs (s_t s) /\ g_eps s' = g_eps s /\ g_epsr s' = g_epsr s /\ g_unr s' = g_unr s /\ s_w s' = s_w s /\
  c_si (s_ctx s') = c_si (s_ctx s) /\ c_now (s_ctx s') = c_now (s_ctx s) /\ c_gen (s_ctx s') = c_gen (s_ctx s) /\
  c_recipes (s_ctx s') = c_recipes (s_ctx s) /\ c_units (s_ctx s') = c_units (s_ctx s) /\ c_solver (s_ctx s') = c_solver (s_ctx s).
Proof.
  induction qs as [|q qs IH]; intros s; simpl; [repeat split|]. apply (IH (one_pk q s)).
Qed.
Lemma lookup_rev {A} (name : A -> string) n (l : list A) : slookup n (rev (map (fun a => (name a, a)) l)) = last_named name n l.
Proof.
  induction l as [|a l IH]; simpl; auto. rewrite slookup_app, IH. destruct (last_named name n l); auto. 
Qed.
Lemma last_named_map {A B} (f : A -> B) (na : A -> string) (nb : B -> string) n l : (forall a, nb (f a) = na a) ->
  last_named nb n (map f l) = option_map f (last_named na n l).
Proof.
  intros H. induction l as [|a l IH]; simpl; auto. rewrite IH, H. destruct (last_named na n l); simpl; auto. now destruct (String.eqb (na a) n).
Qed.

Section P.
Variable lexd : string -> result Q.

Lemma pack_loaded c y p s : g_eps s = tol c -> says_pack lexd y p -> load_package lexd y s = add_pk (as_pack c p) s.
Proof.
  intros G (S1 & S2 & S3 & S4). unfold load_package.
  rewrite (rbind_ok _ _ _ (opt_string_says "name" y (Some (pk_name p)) "default" S1)).
  rewrite (rbind_ok _ _ _ (opt_double_says lexd _ _ _ (g_eps s) S2)).
  rewrite (rbind_ok _ _ _ (opt_double_says lexd _ _ _ DBL_MAX S3)).
  rewrite (rbind_ok _ _ _ (opt_string_says _ _ _ "first" S4)).
  rewrite G. reflexivity.
Qed.
Lemma add_pk_eps q s s' : add_pk q s = Ok s' -> g_eps s' = g_eps s.
Proof. intros H. apply add_pk_ok in H as (_ & _ & ->). reflexivity. Qed.
Lemma packs_loaded c : forall ps ys s, Forall2 (says_pack lexd) ys ps -> g_eps s = tol c ->
  for_rows (load_package lexd) ys s = for_rows add_pk (map (as_pack c) ps) s.
Proof.
  induction ps as [|p ps IH]; intros ys s F G; inversion F as [|y ? ys' ? S1 F']; subst; [reflexivity|].
  simpl. rewrite (pack_loaded c y p s G S1). destruct (add_pk (as_pack c p) s) as [s'| |] eqn:A; simpl; auto.
  apply IH; auto. now rewrite (add_pk_eps _ _ _ A).
Qed.
Lemma packs_reloaded qs : Forall fine qs -> forall s, for_rows reload_package qs s = for_rows add_pk qs s.
Proof.
  induction 1 as [|q qs F Fs IH]; intros s; [reflexivity|]. cbn [for_rows]. unfold reload_package at 1.
  apply fine_name in F. destruct (String.eqb_spec (p_name q) unpackaged_name); [contradiction|]. cbn [negb].
  fold (add_pk q s). destruct (add_pk q s); simpl; auto.
Qed.

(** ** Transport units *)
Definition add_un (u : transport_unit) (s : st) : result st := add_unit (tu_name u) (tu_fill_min u) (tu_fill_max u) (tu_strategy u) s.
Definition one_un (u : transport_unit) (s : st) : st := on_t (add_unit_row u) (on_ctx (put_unit (tu_name u) u) s).
Definition fit (g : bool) (u : transport_unit) : Prop := tu_create g (tu_name u) (tu_fill_min u) (tu_fill_max u) (tu_strategy u) = Ok u.
Lemma tu_create_is g n lo hi t u : tu_create g n lo hi t = Ok u -> u = mkTU n lo hi t.
Proof.
  unfold tu_create. repeat (match goal with |- (if ?b then _ else _) = _ -> _ => destruct b end; try discriminate). now intros [= <-].
Qed.
Lemma fit_other g u : fit g u -> tu_name u <> unrestricted_name -> forall h, fit h u.
Proof.
  unfold fit, tu_create. intros H N h. destruct (String.eqb_spec (tu_name u) unrestricted_name); [contradiction|]. exact H.
Qed.
Lemma add_un_ok u s s' : add_un u s = Ok s' <-> fit (g_unr s) u /\ ~ In (tu_name u) (map fst (c_units (s_ctx s))) /\ s' = one_un u s.
Proof.
  unfold add_un, add_unit, fit. split.
  - destruct (slookup _ _) eqn:L; [discriminate|]. apply slookup_none in L.
    destruct (tu_create _ _ _ _ _) as [p| |] eqn:P; simpl; try discriminate. intros [= <-].
    assert (p = u) as -> by (apply tu_create_is in P; now destruct u). auto.
  - intros (F & L & ->). apply slookup_none in L. rewrite L, F. reflexivity.
Qed.

Lemma to_int_nat k : (Z.of_nat k <= 2147483647)%Z -> to_int (inject_Z (Z.of_nat k)) = Some (Z.of_nat k).
Proof.
  intros H. assert (T : qtrunc (inject_Z (Z.of_nat k)) = Z.of_nat k).
  { unfold qtrunc. rewrite Qceiling_Z, Qfloor_Z. now destruct (Qltb _ 0). }
  unfold to_int. rewrite T. unfold INT_MIN, INT_MAX.
  destruct (Z.leb_spec (-2147483648) (Z.of_nat k)); [|lia]. destruct (Z.leb_spec (Z.of_nat k) 2147483647); [reflexivity|lia].
Qed.
Lemma trunc_small q : 0 <= q < 1 -> to_int q = Some 0%Z.
Proof.
  intros [H1 H2]. unfold to_int, qtrunc. destruct (Qltb_spec q 0); [lra|]. destruct q as [a b]. unfold Qle, Qlt in *. simpl in *.
  rewrite Z.div_small by lia. reflexivity.
Qed.

Lemma unit_loaded c y u s s' : numerals lexd -> g_eps s = tol c -> says_unit y u -> load_unit lexd y s = Ok s' ->
  exists v, right_unit c u v /\ add_un v s = Ok s'.
Proof.
  intros NU G (S1 & S2 & S3 & S4). unfold load_unit.
  rewrite (rbind_ok _ _ _ (opt_string_says "name" y (Some (un_name u)) "default" S1)).
  rewrite (rbind_ok _ _ _ (opt_double_number lexd _ _ _ (g_eps s) NU S2)).
  rewrite (rbind_ok _ _ _ (opt_double_number lexd _ _ _ DBL_MAX NU S3)).
  rewrite (rbind_ok _ _ _ (opt_string_says _ _ _ "first" S4)).
  intros H. destruct (int_of _) as [lo| |] eqn:L in H; try discriminate. cbn [rbind] in H.
  destruct (int_of _) as [hi| |] eqn:U in H; try discriminate. cbn [rbind] in H.
  exists (mkTU (un_name u) lo hi (given (un_strategy u) "first")). split; [|exact H].
  unfold int_of in L, U. unfold right_unit. cbn [tu_name tu_fill_max tu_fill_min tu_strategy].
  assert (M : un_max u = Some (Z.to_nat hi) /\ (0 <= hi)%Z).
  { destruct (un_max u) as [k|]; simpl in S3.
    - destruct S3 as (t & _ & S3). apply says_bound in S3. cbn [option_map given] in U. rewrite to_int_nat in U by exact S3.
      injection U as <-. rewrite Nat2Z.id. split; [reflexivity|lia].
    - cbn [option_map given] in U. revert U. vm_compute. discriminate. }
  destruct M. repeat split; auto.
  destruct (un_min u) as [k|]; simpl in S2.
  - destruct S2 as (t & _ & S2). apply says_bound in S2. cbn [option_map given] in L. rewrite to_int_nat in L by exact S2.
    now injection L as <-.
  - intros T. cbn [option_map given] in L. rewrite G, trunc_small in L by exact T. now injection L as <-.
Qed.

Definition all_un (qs : list transport_unit) (s : st) : st := fold_left (fun s q => one_un q s) qs s.
Lemma all_un_frame qs : forall s, let s' := all_un qs s in
  s_t s' = fold_left (fun t q => add_unit_row q t) qs (s_t s) /\ g_eps s' = g_eps s /\ g_epsr s' = g_epsr s /\ g_unr s' = g_unr s /\ s_w s' = s_w s.
Proof. induction qs as [|q qs IH]; intros s; simpl; [repeat split|]. apply (IH (one_un q s)). Qed.

Lemma units_loaded c (NU : numerals lexd) : forall us ys s s', Forall2 says_unit ys us -> g_eps s = tol c ->
  for_rows (load_unit lexd) ys s = Ok s' ->
  exists vs, Forall2 (right_unit c) us vs /\ Forall (fit (g_unr s)) vs /\ NoDup (map tu_name vs) /\
    (forall v, In v vs -> ~ In (tu_name v) (map fst (c_units (s_ctx s)))) /\ s' = all_un vs s.
Proof.
  induction us as [|u us IH]; intros ys s s' F G H; inversion F as [|y ? ys' ? S1 F']; subst.
  - injection H as <-. exists []. repeat split; auto; try constructor.
  - cbn [for_rows] in H. destruct (load_unit lexd y s) as [s1| |] eqn:L; try discriminate. cbn [rbind] in H.
    destruct (unit_loaded c y u s s1 NU G S1 L) as (v & R & A). apply add_un_ok in A as (A & B & ->).
    destruct (IH _ (one_un v s) _ F' G H) as (vs & I1 & I2 & I3 & I4 & ->). simpl in I4.
    exists (v :: vs). repeat split; try (constructor; auto).
    + intros J. apply in_map_iff in J as (v' & E & J). apply (I4 v' J). left. now rewrite E.
    + intros w [<-|J] K; [auto|]. apply (I4 w J). now right.
Qed.

Lemma units_reloaded : forall vs s, (forall v, In v vs -> exists g, fit g v) -> NoDup (map tu_name vs) ->
  (forall v, In v vs -> ~ In (tu_name v) (map fst (c_units (s_ctx s)))) ->
  exists s', for_rows reload_unit vs s = Ok s' /\
    (forall n, n <> unrestricted_name -> slookup n (c_units (s_ctx s')) =
        match last_named tu_name n vs with Some v => Some v | None => slookup n (c_units (s_ctx s)) end) /\
    g_eps s' = g_eps s /\ g_epsr s' = g_epsr s /\ s_w s' = s_w s /\
    c_si (s_ctx s') = c_si (s_ctx s) /\ c_now (s_ctx s') = c_now (s_ctx s) /\ c_gen (s_ctx s') = c_gen (s_ctx s) /\
    c_recipes (s_ctx s') = c_recipes (s_ctx s) /\ c_pkgs (s_ctx s') = c_pkgs (s_ctx s).
Proof.
  induction vs as [|v vs IH]; intros s F D N.
  - exists s. repeat split; auto.
  - inversion D as [|? ? D1 D2]; subst. cbn [for_rows]. unfold reload_unit at 1. destruct (String.eqb_spec (tu_name v) unrestricted_name) as [Q|Q]; cbn [negb rbind].
    + destruct (IH (on_t (add_unit_row tu_unrestricted) (made_unr s))) as (s' & R & L & K); auto.
      { intros w J. apply F. now right. } { intros w J. apply N. now right. }
      exists s'. split; [exact R|]. split; [|exact K]. intros n Hn. rewrite (L n Hn). cbn [last_named].
      destruct (last_named tu_name n vs); auto. destruct (String.eqb_spec (tu_name v) n); auto. congruence.
    + fold (add_un v s).
      assert (A : add_un v s = Ok (one_un v s)).
      { apply add_un_ok. repeat split; auto; [|apply N; now left]. destruct (F v (or_introl eq_refl)) as (g & Fg). eapply fit_other; eauto. }
      rewrite A. cbn [rbind]. destruct (IH (one_un v s)) as (s' & R & L & K); auto.
      { intros w J. apply F. now right. }
      { intros w J M. simpl in M. destruct M as [M|M]; [|exact (N w (or_intror J) M)]. apply D1. rewrite M. now apply in_map. }
      exists s'. split; [exact R|]. split; [|exact K]. intros n Hn. rewrite (L n Hn). cbn [last_named].
      destruct (last_named tu_name n vs); auto. simpl. now destruct (String.eqb (tu_name v) n).
Qed.
End P.
