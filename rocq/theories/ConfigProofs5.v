(** From the input file to the simulation that runs. *)
From Coq Require Import String Ascii List ZArith QArith Bool Arith Lia Lqa.
From Verif Require Import Base CompModel PackageModel ResourceModel ResourceSpec ResourceProofs9 LoaderSpec LoaderProofs
  ConfigModel ConfigSpec ConfigProofs ConfigProofs2 ConfigProofs3 ConfigProofs4.
From Verif Require PpModel LoaderModel LoadSolverModel.
Import PpModel(xml(..)).
Import LoaderModel(path, rbind).
Import ListNotations.
Local Open Scope string_scope.

Lemma rbind_inv {A B} (r : result A) (f : A -> result B) b : rbind r f = Ok b -> exists a, r = Ok a /\ f a = Ok b.
Proof. destruct r; simpl; try discriminate. eauto. Qed.

Lemma fold_recipes rows : forall t, fold_left (fun t r => add_recipe_row r t) rows t =
  mkT (t_info t) (t_decay t) (t_expl t) (t_dt t) (t_eps t) (t_recipes t ++ rows) (t_pkgs t) (t_units t) (t_commod t) (t_solver t) (t_greedy t) (t_coin t).
Proof.
  induction rows as [|r rows IH]; intros t; simpl; [rewrite app_nil_r; now destruct t|]. rewrite IH. simpl. now rewrite <- app_assoc.
Qed.
Lemma fold_pkgs rows : forall t, fold_left (fun t r => add_pkg_row r t) rows t =
  mkT (t_info t) (t_decay t) (t_expl t) (t_dt t) (t_eps t) (t_recipes t) (t_pkgs t ++ rows) (t_units t) (t_commod t) (t_solver t) (t_greedy t) (t_coin t).
Proof.
  induction rows as [|r rows IH]; intros t; simpl; [rewrite app_nil_r; now destruct t|]. rewrite IH. simpl. now rewrite <- app_assoc.
Qed.
Lemma fold_units rows : forall t, fold_left (fun t r => add_unit_row r t) rows t =
  mkT (t_info t) (t_decay t) (t_expl t) (t_dt t) (t_eps t) (t_recipes t) (t_pkgs t) (t_units t ++ rows) (t_commod t) (t_solver t) (t_greedy t) (t_coin t).
Proof.
  induction rows as [|r rows IH]; intros t; simpl; [rewrite app_nil_r; now destruct t|]. rewrite IH. simpl. now rewrite <- app_assoc.
Qed.

Section S.
Variable lexd : string -> result Q.
Variable strtod : string -> Q.
Variable nucid : string -> result Z.
Variable has_coin : bool.
Variable E : env.

(** the database that the loader leaves *)
Definition loaded_tables (c : settings) (m : list (string * Q)) (rows : list (string * Z)) (us : list transport_unit) : tables :=
  let si := info_of c 0 "init" (-1) in
  mkT [mkInfo (si_handle si) (si_y0 si) (si_m0 si) (si_dur si) (as_int (si_seed si)) (as_int (si_stride si)) 0 "init" (-1)]
    [si_decay si] [(si_expl si, si_expc si)] [as_int (si_dt si)] [(tol c, tol_res c)] rows
    (pkg_unpackaged :: map (as_pack c) (se_packs c)) us m
    [(solver_name (the_config c), exclusive c)]
    (match the_config c with CGreedy p => [given p "greedy"] | CCoin _ _ _ => [] end)
    (match the_config c with CGreedy _ => [] | CCoin q v m => [(given q (-(1)), given v false, given m false)] end).

Lemma settings_loaded x c s0 s1 : env_ok E -> says_settings lexd strtod nucid x c -> numerals lexd -> unused s0 ->
  load_settings lexd strtod nucid E x s0 = Ok s1 ->
  exists m rows us, s_t s1 = loaded_tables c m rows us /\ tolerances s1 = (tol c, tol_res c) /\
    (1 <= k_month (se_control c) <= 12)%nat /\
    Forall2 (recorded E (w_db (s_w s1))) (se_recipes c) rows /\ Forall (fun r => (snd r < w_next_comp (s_w s1))%Z) rows /\
    Forall fine (map (as_pack c) (se_packs c)) /\ NoDup (map p_name (map (as_pack c) (se_packs c))) /\
    Forall2 (right_unit c) (se_units c) us /\ Forall (fit (g_unr s0)) us /\ NoDup (map tu_name us).
Proof.
  intros HE ((y & Hy & Sc) & Fc & Fr & Fp & Fu) NU (U1 & U2 & U3) H. unfold load_settings in H.
  apply rbind_inv in H as (s2 & H1 & H). rewrite (control_loaded lexd x y c s0 Hy Sc) in H1. unfold init_sim in H1.
  destruct (Z.ltb_spec (si_m0 (info_of c 0 "init" (-1))) 1) as [|M1]; [discriminate|].
  destruct (Z.ltb_spec 12 (si_m0 (info_of c 0 "init" (-1)))) as [|M2]; [discriminate|]. simpl orb in H1. injection H1 as <-.
  cbn [si_m0 info_of] in M1, M2.
  apply rbind_inv in H as (s3 & H1 & H). destruct (solver_loaded lexd x y c (on_ctx (init_ctx (info_of c 0 "init" (-1)))
     (on_t (init_rows (info_of c 0 "init" (-1))) (set_tol (tol c) (tol_res c) s0))) Hy Sc Fc) as (m & Hm). rewrite Hm in H1.
  injection H1 as <-. clear Hm.
  apply rbind_inv in H as (s4 & H1 & H). unfold load_recipes in H1. rewrite each_rows in H1.
  eapply (recipes_loaded E strtod nucid) in H1; [|exact Fr|]; [|simpl; rewrite U3; constructor].
  destruct H1 as (rows & extra & T4 & E4 & R4 & G4 & P4 & N4 & D4 & B4 & _ & _ & I4 & F4).
  cbn [on_t on_ctx set_tol s_t s_ctx g_eps g_epsr g_unr s_w init_ctx c_pkgs c_units] in *.
  apply rbind_inv in H as (s5 & H1 & H). unfold load_packages in H1. rewrite each_rows in H1.
  rewrite (packs_loaded lexd c _ _ _ Fp) in H1 by exact E4. apply add_pks_ok in H1 as (F5 & D5 & _ & ->).
  unfold load_units in H. rewrite each_rows in H.
  pose proof (all_pk_frame (map (as_pack c) (se_packs c)) (on_t (add_pkg_row pkg_unpackaged) s4)) as (T5 & E5 & R5 & G5 & W5 & _).
  apply (units_loaded lexd c NU _ _ _ _ Fu) in H; [|rewrite E5; exact E4]. destruct H as (us & F6 & Q6 & D6 & _ & ->).
  pose proof (all_un_frame us (all_pk (map (as_pack c) (se_packs c)) (on_t (add_pkg_row pkg_unpackaged) s4))) as (T6 & E6 & R6 & G6 & W6).
  exists m, rows, us. rewrite T6, fold_units, T5, fold_pkgs. cbn [on_t s_t]. rewrite T4, fold_recipes, U2, W6, W5. cbn [on_t s_w].
  split; [unfold loaded_tables, solver_rows, config_row; destruct (the_config c); reflexivity|].
  split; [unfold tolerances; rewrite E6, E5, R6, R5; simpl; now rewrite E4, R4|].
  split; [lia|]. split; [exact F4|]. split; [eapply Forall_impl; [|exact I4]; intros r Hr; simpl in Hr; lia|].
  rewrite G5 in Q6. simpl in Q6. rewrite G4 in Q6. repeat split; auto.
Qed.

Lemma last_named_rel {A B} (R : A -> B -> Prop) (na : A -> string) (nb : B -> string) n l m : (forall a b, R a b -> nb b = na a) -> Forall2 R l m ->
  match last_named na n l with Some a => exists b, last_named nb n m = Some b /\ R a b | None => last_named nb n m = None end.
Proof.
  intros H. induction 1 as [|a b l m Hab F IH]; simpl; auto. destruct (last_named na n l) as [a'|].
  - destruct IH as (b' & -> & R'). eauto.
  - rewrite IH, (H _ _ Hab). destruct (String.eqb (na a) n); eauto.
Qed.
Lemma names_rel c us vs : Forall2 (right_unit c) us vs -> map tu_name vs = map un_name us.
Proof. induction 1 as [|a b l m H F IH]; simpl; auto. rewrite IH. f_equal. apply H. Qed.

Lemma started c m rows us d s' : env_ok E ->
  (1 <= k_month (se_control c) <= 12)%nat ->
  (let si := info_of c 0 "init" (-1) in
   (0 <= si_seed si <= 2147483647)%Z /\ (0 <= si_stride si <= 2147483647)%Z /\ (0 <= si_dt si <= 2147483647)%Z) ->
  Forall2 (recorded E d) (se_recipes c) rows ->
  Forall fine (map (as_pack c) (se_packs c)) -> NoDup (map p_name (map (as_pack c) (se_packs c))) ->
  Forall2 (right_unit c) (se_units c) us -> (exists g, Forall (fit g) us) -> NoDup (map tu_name us) ->
  (forall t v mp, the_config c = CCoin t v mp -> has_coin = true) ->
  exists s2, start has_coin E (loaded_tables c m rows us) d s' = Ok s2 /\ runs_with E c 0 "init" (-1) 0 s2 /\
    tolerances s2 = tolerances s'.
Proof.
  intros HE M (B1 & B2 & B3) Fr Fp Dp Fu (g & Gu) Du HC. unfold start. unfold load_info. cbn [loaded_tables t_info t_decay t_dt t_eps t_expl first rbind fst snd
     ir_dur ir_y0 ir_m0 ir_handle ir_seed ir_stride ir_parent].
  rewrite !as_int_id, !as_u64_id by lia.
  match goal with |- context [init_sim ?a _] => change a with (info_of c 0 "init" (-1)) end.
  unfold init_sim. cbn [si_m0 info_of].
  destruct (Z.ltb_spec (Z.of_nat (k_month (se_control c))) 1); [lia|]. destruct (Z.ltb_spec 12 (Z.of_nat (k_month (se_control c)))); [lia|]. cbn [orb rbind].
  fold (info_of c 0 "init" (-1)).
  set (sa := on_ctx (init_ctx _) _).
  assert (Ha : holds E [] sa) by (intros n; reflexivity).
  destruct (recipes_reloaded E HE d _ _ Fr [] sa Ha) as (sb & Rb & Hb & Eb & Qb & Sb & Nb & Gb & Pb & Ub).
  cbn [loaded_tables t_recipes t_pkgs t_units]. rewrite Rb. cbn [rbind app for_rows].
  change (reload_package pkg_unpackaged sb) with (Ok (on_t (add_pkg_row pkg_unpackaged) sb)). cbn [rbind].
  rewrite (packs_reloaded _ Fp).
  set (sb' := on_t (add_pkg_row pkg_unpackaged) sb).
  assert (Hp : for_rows add_pk (map (as_pack c) (se_packs c)) sb' = Ok (all_pk (map (as_pack c) (se_packs c)) sb')).
  { apply add_pks_ok. repeat split; auto. intros q _. unfold sb'. simpl. rewrite Pb. auto. }
  rewrite Hp. cbn [rbind].
  set (sc := all_pk _ sb').
  pose proof (all_pk_frame (map (as_pack c) (se_packs c)) sb') as (_ & Ec & Qc & _ & Wc & Sc & Nc & Gc & Rc & Uc & _).
  pose proof (all_pk_ctx (map (as_pack c) (se_packs c)) sb') as Pc. fold sc in Ec, Qc, Wc, Sc, Nc, Gc, Rc, Uc, Pc.
  destruct (units_reloaded us sc) as (sd & Rd & Ld & Ed & Qd & Wd & Sd & Nd & Gd & Cd & Pd); auto.
  { intros v Hv. exists g. rewrite Forall_forall in Gu. auto. }
  { intros v _. rewrite Uc. unfold sb'. simpl. rewrite Ub. auto. }
  rewrite Rd. cbn [rbind]. unfold reload_solver. cbn [loaded_tables t_solver].
  assert (V : exists v, (if String.eqb (solver_name (the_config c)) "greedy" then reload_greedy (exclusive c) (loaded_tables c m rows us)
             else if String.eqb (solver_name (the_config c)) "coin-or" then reload_coin has_coin (exclusive c) (loaded_tables c m rows us)
             else Throw ValueError) = Ok v /\ right_solver c v).
  { unfold right_solver, reload_greedy, reload_coin, loaded_tables. cbn [t_greedy t_coin]. unfold commod_of. cbn [t_commod].
    destruct (the_config c) as [p|q v mp] eqn:TC; cbn [solver_name]; simpl String.eqb; cbv iota.
    - assert (W : exists w, LoadSolverModel.load_greedy "SolutionOrder" (given p "greedy")
                 (match m with [] => None | p0 :: l => Some (LoadSolverModel.commod_table (p0 :: l)) end) = Ok w).
      { destruct m as [|[n0 q0] m0]; [now exists []|]. exists []. reflexivity. }
      destruct W as (w & ->). cbn [rbind]. eauto.
    - rewrite (HC _ _ _ eq_refl). eexists. split; [reflexivity|]. destruct q as [q|]; [|reflexivity]. simpl given.
      destruct (Qleb_spec q 0), (Qltb_spec 0 q); try reflexivity; exfalso; lra. }
  destruct V as (v & Hv & RV). rewrite Hv. cbn [rbind]. eexists. split; [reflexivity|].
  split; [|unfold tolerances; simpl; now rewrite Ed, Qd, Ec, Qc; simpl; rewrite Eb, Qb].
  unfold runs_with. cbn [on_ctx put_solver s_ctx c_si c_now c_gen c_solver].
  split; [rewrite Sd, Sc; simpl; now rewrite Sb|]. split; [rewrite Nd, Nc; simpl; now rewrite Nb|].
  split; [rewrite Gd, Gc; simpl; now rewrite Gb|]. split; [eauto|].
  split; [|split].
  - intros n. specialize (Hb n). simpl app in Hb. unfold get_recipe. cbn [on_ctx put_solver s_ctx c_recipes s_w]. rewrite Cd, Rc, Wd, Wc.
    change (s_w sb') with (s_w sb). change (c_recipes (s_ctx sb')) with (c_recipes (s_ctx sb)).
    destruct (last_named rc_name n (se_recipes c)) as [r|].
    + destruct Hb as (k & x & -> & -> & Mx). exists x. split; [reflexivity|]. rewrite Mx. apply fractions_made.
    + now rewrite Hb.
  - unfold has_packs. rewrite map_map in Dp. split; [exact Dp|]. split.
    { intros I. apply in_map_iff in I as (p & Np & Ip). rewrite Forall_map, Forall_forall in Fp. apply (fine_name _ (Fp p Ip)). exact Np. }
    intros n Hn. unfold get_package. cbn [on_ctx put_solver s_ctx c_pkgs]. destruct (String.eqb_spec n unpackaged_name); [contradiction|].
    rewrite Pd, Pc, slookup_app, lookup_rev. change (c_pkgs (s_ctx sb')) with (c_pkgs (s_ctx sb)). rewrite Pb.
    rewrite (last_named_map (as_pack c) pk_name p_name) by reflexivity.
    now destruct (last_named pk_name n (se_packs c)).
  - unfold has_units. rewrite <- (names_rel _ _ _ Fu). split; [exact Du|].
    intros n Hn. unfold get_unit. cbn [on_ctx put_solver s_ctx c_units]. destruct (String.eqb_spec n unrestricted_name); [contradiction|].
    rewrite (Ld n Hn), Uc. change (c_units (s_ctx sb')) with (c_units (s_ctx sb)). rewrite Ub.
    pose proof (last_named_rel (right_unit c) un_name tu_name n _ _ (fun a b Hab => proj1 Hab) Fu) as L.
    destruct (last_named un_name n (se_units c)) as [u|].
    + destruct L as (v' & -> & R'). eauto.
    + now rewrite L.
Qed.

Lemma recorded_later s1 more rs rows : later_rows s1 more -> Forall (fun r => (snd r < w_next_comp (s_w s1))%Z) rows ->
  Forall2 (recorded E (w_db (s_w s1))) rs rows -> Forall2 (recorded E (w_db (s_w s1) ++ more)) rs rows.
Proof.
  intros L B F. induction F as [|r row rs rows (T & N & C) F IH]; constructor.
  - inversion B as [|? ? B1 B2]; subst. split; [exact T|]. split; [exact N|]. rewrite comp_table_app, C.
    rewrite (comp_table_none more); [apply app_nil_r|]. intros id n f I. unfold later_rows in L. rewrite Forall_forall in L.
    specialize (L _ I). simpl in L. lia.
  - inversion B; subst. auto.
Qed.

Theorem settings_reach x c s0 s1 more s' : env_ok E -> says_settings lexd strtod nucid x c -> numerals lexd -> unused s0 ->
  load_settings lexd strtod nucid E x s0 = Ok s1 -> later_rows s1 more ->
  (forall t v mp, the_config c = CCoin t v mp -> has_coin = true) ->
  tolerances s1 = (tol c, tol_res c) /\
  exists s2, start has_coin E (s_t s1) (w_db (s_w s1) ++ more) s' = Ok s2 /\ runs_with E c 0 "init" (-1) 0 s2 /\
    tolerances s2 = tolerances s'.
Proof.
  intros HE Says NU U H L HC. destruct (settings_loaded x c s0 s1 HE Says NU U H) as (m & rows & us & T & G & M & Fr & Br & Fp & Dp & Fu & Gu & Du).
  split; [exact G|]. rewrite T. apply started; auto.
  - destruct Says as ((y & Hy & Sc) & _). exact (info_small lexd x y c Hy Sc).
  - eapply recorded_later; eauto.
  - eauto.
Qed.

Theorem settings_restart x c s0 s1 more s' id at_ : env_ok E -> says_settings lexd strtod nucid x c -> numerals lexd -> unused s0 ->
  load_settings lexd strtod nucid E x s0 = Ok s1 -> later_rows s1 more ->
  (forall t v mp, the_config c = CCoin t v mp -> has_coin = true) -> (0 <= at_)%Z ->
  exists s2, restart has_coin E (s_t s1) (w_db (s_w s1) ++ more) id at_ s' = Ok s2 /\ runs_with E c id "restart" at_ at_ s2 /\
    tolerances s2 = tolerances s'.
Proof.
  intros HE Says NU U H L HC A. destruct (settings_loaded x c s0 s1 HE Says NU U H) as (_ & _ & _ & _ & _ & M & _).
  destruct (settings_reach x c s0 s1 more s' HE Says NU U H L HC) as (_ & s2 & R & (S1 & S2 & S3 & S4 & S5 & S6 & S7) & T).
  unfold restart. rewrite R. cbn [rbind]. rewrite S1. unfold init_sim, as_restart. cbn [si_m0 info_of].
  destruct (Z.ltb_spec (Z.of_nat (k_month (se_control c))) 1); [lia|]. destruct (Z.ltb_spec 12 (Z.of_nat (k_month (se_control c)))); [lia|]. cbn [orb].
  eexists. split; [reflexivity|]. split; [|exact T].
  unfold runs_with. cbn [on_ctx on_t init_ctx s_ctx c_si c_now c_gen c_solver si_branch si_seed].
  split; [reflexivity|]. split; [destruct (Z.ltb_spec (-1) at_); [reflexivity|lia]|]. split; [reflexivity|]. split; [exact S4|].
  split; [exact S5|]. split; [exact S6|exact S7].
Qed.

(** ** Settings that can be loaded *)
Lemma recipes_load : forall rs ys s, Forall2 (says_recipe strtod nucid) ys rs -> Forall (good_recipe E) rs ->
  exists s', for_rows (load_recipe strtod nucid E) ys s = Ok s'.
Proof.
  induction rs as [|r rs IH]; intros ys s F G; inversion F as [|y ? ys' ? S1 F']; subst; [now exists s|].
  inversion G as [|? ? G1 G2]; subst. cbn [for_rows]. rewrite (recipe_loaded E strtod nucid _ _ _ S1).
  assert (T : taken E r = true).
  { apply taken_good. split; [apply stated_wf|]. apply vec_Forall; [exact G1|constructor]. }
  rewrite T. cbn [rbind]. now apply IH.
Qed.
Lemma good_fine c p : good_pack c p -> fine (as_pack c p).
Proof.
  intros ([A1 A2] & B & C & D). unfold fine, pkg_create, pkg_ctor. set (q := as_pack c p) in *.
  destruct (Qltb_spec (p_fill_min q) 0); [exfalso; lra|]. destruct (Qltb_spec (p_fill_max q) 0); [exfalso; lra|]. cbn [orb].
  destruct (Qltb_spec (p_fill_max q) (p_fill_min q)); [exfalso; lra|].
  destruct (String.eqb_spec (p_name q) unpackaged_name); [contradiction|]. cbn [andb].
  assert (V : pkg_valid_strategy (p_strategy q) = true).
  { cbn [In] in B. unfold pkg_valid_strategy. destruct B as [B|[B|[B|[B|[]]]]]; rewrite <- B; reflexivity. }
  rewrite V. cbn [negb]. destruct (String.eqb_spec (p_strategy q) "normal") as [N|N]; cbn [andb].
  - unfold Qeqb. destruct (Qeq_bool (p_fill_min q) (p_fill_max q)) eqn:Q; [apply Qeq_bool_iff in Q; now destruct (C N)|]. now destruct q.
  - now destruct q.
Qed.
Lemma units_load c (NU : numerals lexd) : 0 <= tol c < 1 -> forall us ys s, Forall2 says_unit ys us -> g_eps s = tol c -> Forall good_unit us ->
  NoDup (map un_name us) -> (forall u, In u us -> ~ In (un_name u) (map fst (c_units (s_ctx s)))) ->
  exists s', for_rows (load_unit lexd) ys s = Ok s'.
Proof.
  intros Tl. induction us as [|u us IH]; intros ys s F G Gu D N; inversion F as [|y ? ys' ? S1 F']; subst; [now exists s|].
  inversion Gu as [|? ? G1 G2]; subst. inversion D as [|? ? D1 D2]; subst. cbn [for_rows].
  assert (L : exists lo hi, load_unit lexd y s = Ok (one_un (mkTU (un_name u) lo hi (given (un_strategy u) "first")) s)).
  { destruct S1 as (S1 & S2 & S3 & S4). unfold load_unit.
    rewrite (rbind_ok _ _ _ (opt_string_says "name" y (Some (un_name u)) "default" S1)).
    rewrite (rbind_ok _ _ _ (opt_double_number lexd _ _ _ (g_eps s) NU S2)).
    rewrite (rbind_ok _ _ _ (opt_double_number lexd _ _ _ DBL_MAX NU S3)).
    rewrite (rbind_ok _ _ _ (opt_string_says _ _ _ "first" S4)).
    destruct G1 as ((k & Hk & Le) & St & Nm). set (g := given (un_strategy u) "first") in *. clearbody g. rewrite Hk in *. cbn [option_map given].
    simpl in S3. destruct S3 as (t & _ & S3). apply says_bound in S3.
    assert (I1 : int_of (given (option_map (fun k => inject_Z (Z.of_nat k)) (un_min u)) (g_eps s)) = Ok (Z.of_nat (given (un_min u) 0%nat))).
    { unfold int_of. destruct (un_min u) as [j|]; cbn [option_map given] in *.
      - rewrite to_int_nat by lia. reflexivity.
      - rewrite G, trunc_small by exact Tl. reflexivity. }
    rewrite I1. cbn [rbind]. unfold int_of. rewrite to_int_nat by exact S3. cbn [rbind].
    exists (Z.of_nat (given (un_min u) 0%nat)), (Z.of_nat k).
    assert (Lo : (0 <= Z.of_nat (given (un_min u) 0%nat) <= Z.of_nat k)%Z) by lia.
    revert Lo. generalize (Z.of_nat (given (un_min u) 0%nat)) (Z.of_nat k). intros lo hi Lo.
    apply (add_un_ok (mkTU (un_name u) lo hi g)). split; [|split; [apply N; now left|reflexivity]].
    unfold fit, tu_create. cbn [tu_name tu_fill_min tu_fill_max tu_strategy].
    destruct (Z.ltb_spec lo 0); [lia|]. destruct (Z.ltb_spec hi 0); [lia|]. cbn [orb].
    destruct (Z.ltb_spec hi lo); [lia|].
    destruct (String.eqb_spec (un_name u) unrestricted_name); [contradiction|]. cbn [andb].
    cbn [In] in St. destruct St as [St|[St|[St|[]]]]; rewrite <- St; reflexivity. }
  destruct L as (lo & hi & ->). cbn [rbind]. apply IH; auto.
  intros w J M. simpl in M. destruct M as [M|M]; [|exact (N w (or_intror J) M)]. apply D1. rewrite M. now apply in_map.
Qed.

Theorem sensible_load x c s0 : says_settings lexd strtod nucid x c -> numerals lexd -> unused s0 -> sensible E c ->
  exists s1, load_settings lexd strtod nucid E x s0 = Ok s1.
Proof.
  intros ((y & Hy & Sc) & Fc & Fr & Fp & Fu) NU (U1 & U2 & U3) (M & Tl & Gr & Gp & Dp & Gu & Du). unfold load_settings.
  rewrite (control_loaded lexd x y c s0 Hy Sc). unfold init_sim. cbn [si_m0 info_of].
  destruct (Z.ltb_spec (Z.of_nat (k_month (se_control c))) 1); [lia|]. destruct (Z.ltb_spec 12 (Z.of_nat (k_month (se_control c)))); [lia|]. cbn [orb rbind].
  fold (info_of c 0 "init" (-1)). set (sa := on_ctx _ _).
  destruct (solver_loaded lexd x y c sa Hy Sc Fc) as (m & ->). cbn [rbind].
  unfold load_recipes. rewrite each_rows. set (sb := on_t _ sa). 
  destruct (recipes_load _ _ sb Fr Gr) as (s4 & H4). rewrite H4. cbn [rbind].
  assert (K : g_eps s4 = tol c /\ c_pkgs (s_ctx s4) = [] /\ c_units (s_ctx s4) = []).
  { eapply (recipes_loaded E strtod nucid) in H4; [|exact Fr|simpl; rewrite U3; constructor].
    destruct H4 as (rows & extra & _ & E4 & _ & _ & P4 & N4 & _). rewrite E4, P4, N4. simpl. now rewrite U1. }
  destruct K as (E4 & P4 & N4). unfold load_packages. rewrite each_rows, (packs_loaded lexd c _ _ _ Fp) by exact E4.
  set (sc := on_t (add_pkg_row pkg_unpackaged) s4).
  assert (Hp : for_rows add_pk (map (as_pack c) (se_packs c)) sc = Ok (all_pk (map (as_pack c) (se_packs c)) sc)).
  { apply add_pks_ok. repeat split; auto.
    - apply Forall_map. eapply Forall_impl; [|exact Gp]. apply good_fine.
    - rewrite map_map. exact Dp.
    - intros q _. unfold sc. simpl. rewrite P4. auto. }
  rewrite Hp. cbn [rbind]. unfold load_units. rewrite each_rows.
  pose proof (all_pk_frame (map (as_pack c) (se_packs c)) sc) as (_ & E5 & _ & _ & _ & _ & _ & _ & _ & U5 & _).
  apply (units_load c NU Tl _ _ _ Fu); auto.
  - now rewrite E5.
  - intros u _. rewrite U5. unfold sc. simpl. rewrite N4. auto.
Qed.

(** a transport unit without an upper limit *)
Theorem unlimited_unit x c s0 s1 : env_ok E -> says_settings lexd strtod nucid x c -> numerals lexd -> unused s0 ->
  (exists u, In u (se_units c) /\ un_max u = None) -> load_settings lexd strtod nucid E x s0 <> Ok s1.
Proof.
  intros HE Says NU U (u & I & N) H. destruct (settings_loaded x c s0 s1 HE Says NU U H) as (m & rows & us & _ & _ & _ & _ & _ & _ & _ & Fu & _).
  revert u I N. induction Fu as [|u v l k R F IH]; intros w I N; [destruct I|]. destruct I as [<-|I]; [|eauto].
  destruct R as (_ & R & _). congruence.
Qed.
End S.

Lemma settings_run : forall lexd strtod nucid has_coin E x c s0 s1 more s',
  env_ok E -> numerals lexd -> says_settings lexd strtod nucid x c -> unused s0 ->
  load_settings lexd strtod nucid E x s0 = Ok s1 -> later_rows s1 more ->
  (forall t v m, the_config c = CCoin t v m -> has_coin = true) -> tolerances s' = tolerances s1 ->
  exists s2, start has_coin E (s_t s1) (w_db (s_w s1) ++ more) s' = Ok s2 /\
    runs_with E c 0 "init" (-1) 0 s2 /\ tolerances s2 = (tol c, tol_res c).
Proof.
  intros lexd strtod nucid has_coin E x c s0 s1 more s' HE NU Sa U H L HC T.
  destruct (settings_reach lexd strtod nucid has_coin E x c s0 s1 more s' HE Sa NU U H L HC) as (T1 & s2 & R & W & T2).
  exists s2. split; [exact R|]. split; [exact W|]. now rewrite T2, T.
Qed.
Lemma settings_restarted : forall lexd strtod nucid has_coin E x c s0 s1 more s' id at_,
  env_ok E -> numerals lexd -> says_settings lexd strtod nucid x c -> unused s0 ->
  load_settings lexd strtod nucid E x s0 = Ok s1 -> later_rows s1 more ->
  (forall t v m, the_config c = CCoin t v m -> has_coin = true) -> (0 <= at_)%Z ->
  exists s2, restart has_coin E (s_t s1) (w_db (s_w s1) ++ more) id at_ s' = Ok s2 /\
    runs_with E c id "restart" at_ at_ s2 /\ tolerances s2 = tolerances s'.
Proof. intros. eapply settings_restart; eauto. Qed.
Lemma sensible_loads : forall lexd strtod nucid E x c s0,
  numerals lexd -> says_settings lexd strtod nucid x c -> unused s0 -> sensible E c ->
  exists s1, load_settings lexd strtod nucid E x s0 = Ok s1.
Proof. intros. eapply sensible_load; eauto. Qed.
Lemma without_limit : forall lexd strtod nucid E x c s0 s1,
  env_ok E -> numerals lexd -> says_settings lexd strtod nucid x c -> unused s0 ->
  (exists u, In u (se_units c) /\ un_max u = None) -> load_settings lexd strtod nucid E x s0 <> Ok s1.
Proof. intros. eapply unlimited_unit; eauto. Qed.
