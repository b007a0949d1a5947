(** The control parameters and the solver. *)
From Coq Require Import String Ascii List ZArith QArith Bool Arith Lia Lqa.
From Verif Require Import Base CompModel PackageModel ResourceModel LoaderSpec LoaderProofs ConfigModel ConfigSpec ConfigProofs.
From Verif Require PpModel LoaderModel LoadSolverModel LoadSolverProofs BuyModel.
Import PpModel(xml(..), find_path, find, nmatches, get_string, sub_tree, trim, ltrim, rtrim, is_space, Name).
Import LoaderModel(path, rbind, opt_string, opt_int, element_name, digits, sign, atoi, in_int).
Import ListNotations.
Local Open Scope string_scope.

Lemma rbind_ok {A B} (a : A) (f : A -> result B) r : r = Ok a -> rbind r f = f a.
Proof. now intros ->. Qed.

Section S.
Variable lexd : string -> result Q.

Lemma maybe_bound n x o d : says_maybe says_number n x o -> (0 <= d <= 2147483647)%Z ->
  (0 <= given (option_map Z.of_nat o) d <= 2147483647)%Z.
Proof. destruct o as [k|]; simpl; auto. intros (t & _ & H) _. apply says_bound in H. lia. Qed.

Lemma control_loaded x y c s : children "control" x = [y] -> says_control lexd y (se_control c) ->
  load_control lexd x s = init_sim (info_of c 0 "init" (-1)) (set_tol (tol c) (tol_res c) s).
Proof.
  intros Hy (H1 & (t2 & H2 & N2) & (t3 & H3 & N3) & (t4 & H4 & N4) & H5 & H6 & H7 & H8 & H9 & H10 & H11 & H12 & _).
  unfold load_control. rewrite (rbind_ok _ _ _ (sub1 _ _ _ Hy)).
  rewrite (rbind_ok _ _ _ (nm1 "simhandle" y)).
  assert (G1 : (if (0 <? List.length (children "simhandle" y))%nat then get_string y (path ["simhandle"]) 0 else Ok "") =
               Ok (given (k_handle (se_control c)) "")).
  { destruct (k_handle (se_control c)) as [h|]; simpl in H1.
    - rewrite (get_says _ _ _ H1). unfold says in H1. now rewrite H1.
    - now rewrite H1. }
  rewrite (rbind_ok _ _ _ G1), (rbind_ok _ _ _ (get_says _ _ _ H2)), (rbind_ok _ _ _ (get_says _ _ _ H3)),
    (rbind_ok _ _ _ (get_says _ _ _ H4)), (rbind_ok _ _ _ (opt_string_says _ _ _ "manual" H5)),
    (rbind_ok _ _ _ (opt_bool_says _ _ _ false H6)), (rbind_ok _ _ _ (opt_bool_says _ _ _ false H7)),
    (rbind_ok _ _ _ (opt_int_says _ _ _ default_dt H8)), (rbind_ok _ _ _ (opt_double_says lexd _ _ _ (1 # 1000000) H9)),
    (rbind_ok _ _ _ (opt_double_says lexd _ _ _ (1 # 1000000) H10)), (rbind_ok _ _ _ (opt_int_says _ _ _ default_seed H11)),
    (rbind_ok _ _ _ (opt_int_says _ _ _ default_stride H12)).
  rewrite (strtol_number _ _ N2), (strtol_number _ _ N3), (strtol_number _ _ N4).
  rewrite !as_u64_id by (eapply maybe_bound; eauto; unfold default_stride, default_seed, default_dt; lia).
  reflexivity.
Qed.

Lemma info_small x y c : children "control" x = [y] -> says_control lexd y (se_control c) ->
  let si := info_of c 0 "init" (-1) in
  (0 <= si_seed si <= 2147483647)%Z /\ (0 <= si_stride si <= 2147483647)%Z /\ (0 <= si_dt si <= 2147483647)%Z.
Proof.
  intros Hy (H1 & _ & _ & _ & H5 & H6 & H7 & H8 & H9 & H10 & H11 & H12 & _). cbn [si_seed si_stride si_dt info_of].
  repeat split; eapply maybe_bound; eauto; lia.
Qed.

(** ** Commodities *)
Lemma commods_from x : forall l cs pre, children "commodity" x = (pre ++ l)%list -> Forall2 (says_commod lexd) l cs ->
  read_commods lexd x (seq (List.length pre) (List.length l)) = Ok (map (fun c => (fst c, Some (given (snd c) (-(1))))) cs).
Proof.
  induction l as [|y l IH]; intros cs pre H F; inversion F as [|? p ? cs' [S1 S2] F']; subst; [reflexivity|].
  cbn [read_commods List.length seq]. unfold sub_tree. rewrite find_ok, find1, H.
  rewrite nth_error_app2, Nat.sub_diag by lia. cbn [nth_error]. cbn [rbind]. unfold read_commod.
  rewrite (get_says _ _ _ S1). cbn [rbind]. rewrite (opt_double_says lexd _ _ _ _ S2). cbn [rbind].
  replace (S (List.length pre)) with (List.length (pre ++ [y])) by (rewrite app_length; simpl; lia).
  rewrite (IH cs') by (rewrite <- ?app_assoc; assumption). reflexivity.
Qed.
Lemma priorities_ok ds : exists m, priorities ds = Ok m.
Proof.
  destruct ds as [|d ds]; [now exists []|]. unfold priorities.
  destruct (LoadSolverModel.declared (d :: ds)) as [|[n q] m] eqn:D.
  - exfalso. eapply LoadSolverProofs.declared_nonempty; [|exact D]. discriminate.
  - simpl. eexists. reflexivity.
Qed.

(** ** The solver *)
Definition solver_name (c : config) : string := match c with CGreedy _ => "greedy" | CCoin _ _ _ => "coin-or" end.
Definition config_row (c : config) (t : tables) : tables :=
  match c with
  | CGreedy p => add_greedy_row (given p "greedy") t
  | CCoin q v m => add_coin_row (given q (-(1)), given v false, given m false) t
  end.
Definition solver_rows (c : settings) (m : list (string * Q)) (t : tables) : tables :=
  config_row (the_config c) (add_solver_row (solver_name (the_config c), exclusive c) (add_commod_rows m t)).

Lemma names_pre pre y post n k : Forall not_element pre -> y = XElem n k ->
  element_name (XElem "config" (pre ++ y :: post)) 0 = Ok n.
Proof.
  intros P ->. unfold element_name, LoaderModel.element_names. cbn [PpModel.kids_of]. rewrite flat_map_app.
  assert (Z : flat_map (fun y => match y with XElem n0 _ => [n0] | _ => [] end) pre = []).
  { induction P as [|x l H P IH]; simpl; [reflexivity|]. rewrite IH. destruct x; auto. now destruct (H n0 kids). }
  rewrite Z. reflexivity.
Qed.
Lemma only_child pre y post n m k : Forall not_element pre -> Forall not_element post -> y = XElem m k ->
  children n (XElem "config" (pre ++ y :: post)) = if String.eqb m n then [y] else [].
Proof.
  intros P R ->. unfold children. cbn [kids]. rewrite filter_app. 
  assert (Z : forall l, Forall not_element l -> filter (named n) l = []).
  { induction 1 as [|x l H F IH]; simpl; [reflexivity|]. rewrite IH. destruct x; auto. now destruct (H n0 kids). }
  rewrite (Z pre P). simpl. rewrite (Z post R). now destruct (String.eqb m n).
Qed.
Lemma flat_one {A B} (f : A -> list B) a : flat_map f [a] = f a.
Proof. simpl. apply app_nil_r. Qed.

(** the innermost element of a nest of queries *)
Lemma deep_none l n x z : find_path (map Name l) x = z -> (forall y, In y z -> children n y = []) -> find_path (map Name (l ++ [n])) x = [].
Proof.
  intros <- H. revert x H. induction l as [|a l IH]; intros x H.
  - change (map Name ([] ++ [n])) with (map Name [n]). rewrite find1. apply H. now left.
  - cbn [app map] in *. rewrite find_cons in *. 
    assert (H' : forall w, In w (children a x) -> find_path (map Name (l ++ [n])) w = []).
    { intros w Hw. apply IH. intros y Hy. apply H. apply in_flat_map. exists w. split; assumption. }
    revert H'. clear H IH. induction (children a x) as [|w t IHt]; intros H'; [reflexivity|]. simpl. rewrite (H' w) by now left. simpl.
    apply IHt. intros; apply H'; now right.
Qed.
Lemma deep_one l n x y : find_path (map Name l) x = [y] -> find_path (map Name (l ++ [n])) x = children n y.
Proof.
  intros H. assert (G : forall l x, find_path (map Name (l ++ [n])) x = flat_map (children n) (find_path (map Name l) x)).
  { clear. induction l as [|a l IH]; intros x.
    - change (map Name ([] ++ [n])) with (map Name [n]). rewrite find1. simpl. now rewrite app_nil_r.
    - cbn [app map]. rewrite !find_cons. induction (children a x) as [|w t IHt]; [reflexivity|]. simpl. rewrite flat_map_app, IH, IHt. reflexivity. }
  rewrite G, H. apply flat_one.
Qed.
Lemma deep_nil l n x : find_path (map Name l) x = [] -> find_path (map Name (l ++ [n])) x = [].
Proof. intros H. apply (deep_none l n x []); [exact H|]. intros y []. Qed.

(** queries that end at the same elements have the same results *)
Lemma same_bool q q' x x' d : find x q = find x' q' -> opt_bool x q d = opt_bool x' q' d.
Proof. intros H. unfold opt_bool, nmatches, get_string. now rewrite H. Qed.
Lemma same_double q q' x x' d : find x q = find x' q' -> opt_double lexd x q d = opt_double lexd x' q' d.
Proof. intros H. unfold opt_double, nmatches, get_string. now rewrite H. Qed.
Lemma same_string q q' x x' d : find x q = find x' q' -> opt_string x q d = opt_string x' q' d.
Proof. intros H. unfold opt_string, nmatches, get_string. now rewrite H. Qed.

Lemma choice_made x y c : children "control" x = [y] -> says_control lexd y (se_control c) ->
  ConfigModel.solver_choice x = Ok (solver_name (the_config c), exclusive c).
Proof.
  intros Hy (_ & _ & _ & _ & _ & _ & _ & _ & _ & _ & _ & _ & H). unfold ConfigModel.solver_choice, the_config, exclusive.
  assert (P : find_path (map Name ["control"; "solver"]) x = children "solver" y) by (rewrite find2, Hy; apply flat_one).
  rewrite nmatches_ok, P. destruct (k_solver (se_control c)) as [so|].
  - destruct H as (z & Hz & Ex & Cf). unfold sub_tree. rewrite find_ok, P, Hz. cbn [List.length rbind Nat.eqb nth_error].
    rewrite nm1. cbn [rbind]. rewrite (opt_bool_says _ _ _ true Ex).
    destruct (so_config so) as [cf|].
    + destruct Cf as (pre & e & post & K & N1 & N2 & Sc). rewrite K. cbn [List.length rbind Nat.eqb]. rewrite find_ok, find1, K.
      cbn [nth_error rbind given]. destruct cf as [p|t v m].
      * destruct Sc as (k & -> & _). rewrite (names_pre _ _ _ "greedy" k) by auto. reflexivity.
      * destruct Sc as (k & -> & _). rewrite (names_pre _ _ _ "coin-or" k) by auto. reflexivity.
    + rewrite Cf. reflexivity.
  - rewrite H. reflexivity.
Qed.

Lemma solver_loaded x y c s : children "control" x = [y] -> says_control lexd y (se_control c) ->
  Forall2 (says_commod lexd) (children "commodity" x) (se_commods c) ->
  exists m, load_solver lexd x s = Ok (on_t (solver_rows c m) s).
Proof.
  intros Hy Hc F. unfold load_solver. rewrite nm1. cbn [rbind].
  pose proof (commods_from x _ _ [] eq_refl F) as RC. cbn [List.length] in RC. rewrite RC. cbn [rbind].
  destruct (priorities_ok (map (fun c0 : string * option Q => (fst c0, Some (given (snd c0) (-(1))))) (se_commods c))) as (m & ->).
  cbn [rbind]. rewrite (choice_made x y c Hy Hc). cbn [rbind]. exists m.
  destruct Hc as (_ & _ & _ & _ & _ & _ & _ & _ & _ & _ & _ & _ & H).
  assert (P : find_path (map Name ["control"; "solver"]) x = children "solver" y) by (rewrite find2, Hy; apply flat_one).
  unfold solver_rows, the_config.
  destruct (k_solver (se_control c)) as [so|].
  - destruct H as (z & Hz & Ex & Cf). rewrite Hz in P. destruct (so_config so) as [cf|].
    + destruct Cf as (pre & e & post & K & N1 & N2 & Sc).
      pose proof (deep_one _ "config" _ _ P) as P3. rewrite K in P3. cbn [app] in P3.
      cbn [given]. destruct cf as [p|t v mp]; cbn [solver_name]; destruct Sc as (k & Ek & Sc).
      * pose proof (deep_one _ "greedy" _ _ P3) as P4. rewrite (only_child _ _ _ "greedy" _ _ N1 N2 Ek) in P4. cbn [app] in P4.
        change (String.eqb "greedy" "greedy") with true in P4. cbv iota in P4. pose proof (deep_one _ "preconditioner" _ _ P4) as P5. cbn [app] in P5.
        simpl String.eqb. cbv iota.
        rewrite (same_string _ (path ["preconditioner"]) x e "greedy") by (rewrite !find_ok, P5, find1; reflexivity).
        rewrite (opt_string_says _ _ _ "greedy" Sc). reflexivity.
      * destruct Sc as (S1 & S2 & S3).
        pose proof (deep_one _ "coin-or" _ _ P3) as P4. rewrite (only_child _ _ _ "coin-or" _ _ N1 N2 Ek) in P4. cbn [app] in P4.
        change (String.eqb "coin-or" "coin-or") with true in P4. cbv iota in P4. simpl String.eqb. cbv iota.
        rewrite (same_double _ (path ["timeout"]) x e) by (rewrite !find_ok, find1; f_equal; exact (deep_one _ "timeout" _ _ P4)).
        rewrite (opt_double_says lexd _ _ _ _ S1). cbn [rbind].
        rewrite (same_bool _ (path ["verbose"]) x e) by (rewrite !find_ok, find1; f_equal; exact (deep_one _ "verbose" _ _ P4)).
        rewrite (opt_bool_says _ _ _ _ S2). cbn [rbind].
        rewrite (same_bool _ (path ["mps"]) x e) by (rewrite !find_ok, find1; f_equal; exact (deep_one _ "mps" _ _ P4)).
        rewrite (opt_bool_says _ _ _ _ S3). reflexivity.
    + pose proof (deep_one _ "config" _ _ P) as P3. rewrite Cf in P3. cbn [app] in P3.
      cbn [given solver_name]. simpl String.eqb. cbv iota.
      assert (P5 : find_path (map Name ["control"; "solver"; "config"; "greedy"; "preconditioner"]) x = [])
        by (apply (deep_nil ["control"; "solver"; "config"; "greedy"]); apply (deep_nil ["control"; "solver"; "config"]); exact P3).
      unfold opt_string. rewrite nmatches_ok, P5. reflexivity.
  - rewrite H in P. cbn [given solver_name]. simpl String.eqb. cbv iota.
    assert (P5 : find_path (map Name ["control"; "solver"; "config"; "greedy"; "preconditioner"]) x = []).
    { apply (deep_nil ["control"; "solver"; "config"; "greedy"]). apply (deep_nil ["control"; "solver"; "config"]).
      apply (deep_nil ["control"; "solver"]). exact P. }
    unfold opt_string. rewrite nmatches_ok, P5. reflexivity.
Qed.
End S.
