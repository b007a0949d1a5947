(** Concrete input files. *)
From Coq Require Import String Ascii List ZArith QArith Bool Arith Lia Lqa.
From Verif Require Import Base PackageModel ResourceModel ResourceSpec LoaderSpec LoaderProofs LoaderExamples ConfigModel ConfigSpec.
From Verif Require PpModel LoaderModel.
Import PpModel(xml(..)).
Import ListNotations.
Local Open Scope string_scope.

Definition lexd0 (t : string) : result Q :=
  if String.eqb t "0.001" then Ok (1 # 1000) else match LoaderModel.atoi t with Ok z => Ok (inject_Z z) | Throw e => Throw e | UB => UB end.
Lemma numerals0 : numerals lexd0.
Proof.
  intros ds plus n N D P V B. unfold lexd0.
  destruct (String.eqb_spec (text (plus ++ map figure ds)) "0.001") as [E|E].
  - exfalso.
    assert (G : forall l, text l = "0.001" -> In "."%char l).
    { intros l. destruct l as [|a l]; [discriminate|]. unfold text. cbn [fold_right]. destruct l as [|b l]; [discriminate|]. cbn [fold_right].
      intros H. injection H as -> -> _. right. now left. }
    specialize (G _ E). apply in_app_or in G as [G|G].
    + destruct P as [->| ->]; simpl in G; [exact G|destruct G as [G|[]]; discriminate].
    + apply in_map_iff in G as (d & F & I). rewrite Forall_forall in D. specialize (D d I). clear - F D.
      do 10 (destruct d as [|d]; [vm_compute in F; discriminate|]). lia.
  - rewrite (atoi_number _ n); [reflexivity|]. exists [], ds, plus, []. rewrite app_nil_r. repeat split; auto.
Qed.
Definition strtod0 (t : string) : Q := match lexd0 t with Ok q => q | _ => 0 end.
Definition nucid0 (t : string) : result Z :=
  if String.eqb t "U235" then Ok 922350000%Z else if String.eqb t "U238" then Ok 922380000%Z else Throw ValueError.
Definition E0 : env := mkEnv (1 # 1000000) "manual" 2629846 [] (fun _ => true) (fun n => if Z.eqb n 922350000 then 235 else 238) (fun _ _ _ => 0)
  (fun _ => true) (fun _ _ => []).
Lemma env_ok0 : env_ok E0.
Proof. split; [intros n; simpl; destruct (Z.eqb n 922350000); lra|constructor]. Qed.

Definition control_elem (rest : list xml) : xml :=
  XElem "control" ([gap; elem "simhandle" "test run"; elem "duration" " 120 "; elem "startmonth" "2"; elem "startyear" "2000"] ++ rest).
Definition nuc (n q : string) : xml := XElem "nuclide" [elem "id" n; elem "comp" q].
Definition solver_elem : xml :=
  XElem "solver" [XElem "config" [gap; XElem "greedy" [elem "preconditioner" "greedy"]; gap]; elem "allow_exclusive_orders" " false "].
Definition file1 (units : list xml) : xml := XElem "simulation" ([
  control_elem [elem "decay" "never"; elem "tolerance_resource" "0.001"; elem "explicit_inventory" "1"; elem "seed" "7"; solver_elem];
  XElem "commodity" [elem "name" "fuel"; elem "solution_priority" "3"]; gap;
  XElem "commodity" [elem "name" "waste"];
  XElem "recipe" [elem "name" "natural"; elem "basis" "mass"; nuc "U235" "1"; nuc "U238" "3"];
  XElem "recipe" [elem "name" "even"; elem "basis" "atom"; nuc "U235" "1"; nuc "U238" "1"];
  XElem "package" [elem "name" "drum"; elem "fill_min" "1"; elem "fill_max" "10"; elem "strategy" "equal"];
  XElem "package" [elem "name" "bag"]] ++ units)%list.
Definition truck : xml := XElem "transportunit" [elem "name" "truck"; elem "fill_max" "4"].
Definition control1 : control := {| k_handle := Some "test run"; k_duration := 120; k_month := 2; k_year := 2000; k_decay := Some "never";
  k_inv := Some true; k_inv_compact := None; k_dt := None; k_tol := None; k_tol_res := Some (1 # 1000); k_seed := Some 7%nat; k_stride := None;
  k_solver := Some {| so_config := Some (CGreedy (Some "greedy")); so_exclusive := Some false |} |}.
Definition settings1 (us : list unit_) : settings := {| se_control := control1; se_commods := [("fuel", Some 3); ("waste", None)];
  se_recipes := [{| rc_name := "natural"; rc_atom := false; rc_nucs := [(922350000%Z, 1); (922380000%Z, 3)] |};
                 {| rc_name := "even"; rc_atom := true; rc_nucs := [(922350000%Z, 1); (922380000%Z, 1)] |}];
  se_packs := [{| pk_name := "drum"; pk_min := Some 1; pk_max := Some 10; pk_strategy := Some "equal" |};
               {| pk_name := "bag"; pk_min := None; pk_max := None; pk_strategy := None |}];
  se_units := us |}.
Definition truck_unit : unit_ := {| un_name := "truck"; un_min := None; un_max := Some 4%nat; un_strategy := None |}.

Ltac num ds := exists (@nil ascii), ds, (@nil ascii), (@nil ascii); repeat split; try reflexivity; try (repeat constructor; fail);
  try (left; reflexivity); try discriminate; try (repeat constructor; simpl; lia); try (cbn; lia).
Lemma n120 : says_number " 120 " 120. Proof. number [" "%char] [1%nat; 2%nat; 0%nat] (@nil ascii) [" "%char]. Qed.
Lemma n7 : says_number "7" 7. Proof. num [7%nat]. Qed.
Lemma n4 : says_number "4" 4. Proof. num [4%nat]. Qed.
Lemma n_2 : says_number "2" 2. Proof. num [2%nat]. Qed.
Lemma n2000 : says_number "2000" 2000.
Proof.
  exists [], [2; 0; 0; 0]%nat, [], []. split; [reflexivity|]. split; [constructor|]. split; [constructor|]. split; [now left|]. split; [discriminate|].
  split; [repeat constructor|]. split; [vm_compute; reflexivity|]. apply Z.leb_le. vm_compute. reflexivity.
Qed.
Lemma solid m : forallb (fun c => negb (existsb (Ascii.eqb c) [" "; "009"; "010"; "011"; "012"; "013"]%char)) m = true ->
  Forall (fun c => ~ blank c) m.
Proof.
  intros H. apply Forall_forall. intros c I B. rewrite forallb_forall in H. specialize (H c I). apply negb_true_iff in H.
  assert (X : existsb (Ascii.eqb c) [" "; "009"; "010"; "011"; "012"; "013"]%char = true); [|congruence].
  apply existsb_exists. exists c. split; [exact B|]. apply Ascii.eqb_refl.
Qed.
Ltac word m := exists (@nil ascii), m, (@nil ascii);
  repeat split; try reflexivity; try (constructor; fail); try discriminate; apply solid; reflexivity.
Lemma w_false : says_flag " false " false.
Proof.
  exists "false". split; [|simpl; tauto]. exists [" "%char], ["f"; "a"; "l"; "s"; "e"]%char, [" "%char].
  repeat split; try reflexivity; try discriminate; try (repeat constructor; simpl; tauto). apply solid. reflexivity.
Qed.
Lemma w_1 : says_flag "1" true.
Proof. exists "1". split; [|simpl; tauto]. word ["1"%char]. Qed.
Lemma r_001 : says_real lexd0 "0.001" (1 # 1000).
Proof. exists "0.001". split; [|reflexivity]. word ["0"; "."; "0"; "0"; "1"]%char. Qed.
Lemma r_1 : says_real lexd0 "1" 1.
Proof. exists "1". split; [|reflexivity]. word ["1"%char]. Qed.
Lemma r_3 : says_real lexd0 "3" 3.
Proof. exists "3". split; [|reflexivity]. word ["3"%char]. Qed.
Lemma r_10 : says_real lexd0 "10" 10.
Proof. exists "10". split; [|reflexivity]. word ["1"; "0"]%char. Qed.

Ltac given_as H := eexists; split; [reflexivity|exact H].
Lemma says_control1 y : y = control_elem [elem "decay" "never"; elem "tolerance_resource" "0.001"; elem "explicit_inventory" "1"; elem "seed" "7"; solver_elem] ->
  says_control lexd0 y control1.
Proof.
  intros ->. split; [reflexivity|]. split; [given_as n120|]. split; [given_as n_2|]. split; [given_as n2000|]. split; [reflexivity|].
  split; [given_as w_1|]. split; [reflexivity|]. split; [reflexivity|]. split; [reflexivity|]. split; [given_as r_001|].
  split; [given_as n7|]. split; [reflexivity|]. exists solver_elem. split; [reflexivity|]. split; [given_as w_false|].
  eexists [gap], _, [gap]. split; [reflexivity|]. split; [constructor; [intros n k H; discriminate|constructor]|].
  split; [constructor; [intros n k H; discriminate|constructor]|]. eexists. split; reflexivity.
Qed.
Lemma says_nuc n z q t : nucid0 n = Ok z -> strtod0 t = q -> says_nuclide strtod0 nucid0 (nuc n t) (z, q).
Proof. intros H1 H2. split; (eexists; split; [reflexivity|assumption]). Qed.
Lemma says_settings1 xs us : Forall2 says_unit xs us -> Forall (fun x => exists k, x = XElem "transportunit" k) xs ->
  says_settings lexd0 strtod0 nucid0 (file1 xs) (settings1 us).
Proof.
  intros F N.
  assert (C : forall n, n <> "transportunit" -> children n (file1 xs) = children n (file1 [])).
  { intros n Hn. unfold children, file1, kids. rewrite !filter_app. f_equal. simpl filter at 2. clear F.
    induction N as [|x xs (k & ->) N IH]; [reflexivity|]. cbn [filter named].
    destruct (String.eqb_spec "transportunit" n); [congruence|]. exact IH. }
  assert (U : children "transportunit" (file1 xs) = xs).
  { unfold children, file1, kids. rewrite filter_app. clear F C.
    induction N as [|x xs (k & ->) N IH]; [reflexivity|]. simpl in *. now rewrite IH. }
  unfold says_settings. rewrite U, !C by discriminate.
  split; [eexists; split; [reflexivity|now apply says_control1]|].
  split. { constructor; [split; [reflexivity|given_as r_3]|]. constructor; [split; reflexivity|constructor]. }
  split. { constructor; [|constructor; [|constructor]]; (split; [reflexivity|split; [reflexivity|]]); repeat constructor; (eexists; split; reflexivity). }
  split; [|exact F].
  constructor; [|constructor; [|constructor]].
  - split; [reflexivity|]. split; [given_as r_1|]. split; [given_as r_10|reflexivity].
  - repeat split; reflexivity.
Qed.
Lemma says_truck : says_unit truck truck_unit.
Proof. split; [reflexivity|]. split; [reflexivity|]. split; [given_as n4|reflexivity]. Qed.
Lemma says1 : says_settings lexd0 strtod0 nucid0 (file1 [truck]) (settings1 [truck_unit]).
Proof. apply says_settings1; (constructor; [|constructor]); [exact says_truck|eexists; reflexivity]. Qed.

(** a program that has just begun *)
Definition program0 : st := mkSt (1 # 1000000) (1 # 1000000) false ctx0 tables0 world0.
Lemma unused0 : unused program0.
Proof. repeat split. Qed.
Lemma sensible1 : sensible E0 (settings1 [truck_unit]).
Proof.
  split; [simpl; lia|]. split; [unfold tol; simpl; lra|]. split; [repeat constructor; simpl; lra|].
  split.
  { constructor; [|constructor; [|constructor]]; (split; [|split; [simpl; tauto|split; [discriminate|discriminate]]]).
    - simpl; lra.
    - unfold as_pack, tol. cbn [p_fill_min p_fill_max pk_min pk_max given se_control settings1 control1 k_tol]. split; vm_compute; discriminate. }
  split; [repeat constructor; simpl; intuition discriminate|].
  split. { constructor; [|constructor]. split; [exists 4%nat; split; [reflexivity|simpl; lia]|]. split; [simpl; tauto|discriminate]. }
  repeat constructor; simpl; intuition.
Qed.

Definition get_ok {A} (r : result A) (d : A) : A := match r with Ok a => a | _ => d end.
Definition loaded1 : st := get_ok (load_settings lexd0 strtod0 nucid0 E0 (file1 [truck]) program0) program0.
Lemma loads1 : load_settings lexd0 strtod0 nucid0 E0 (file1 [truck]) program0 = Ok loaded1.
Proof. vm_compute. reflexivity. Qed.

(** transport units that go wrong *)
Definition lorry : xml := XElem "transportunit" [elem "name" "lorry"].
Definition lorry_unit : unit_ := {| un_name := "lorry"; un_min := None; un_max := None; un_strategy := None |}.
Definition free : xml := XElem "transportunit" [elem "name" "unrestricted"; elem "fill_max" "4"].
Definition free_unit : unit_ := {| un_name := "unrestricted"; un_min := None; un_max := Some 4%nat; un_strategy := None |}.
Lemma says_lorry : says_settings lexd0 strtod0 nucid0 (file1 [lorry]) (settings1 [lorry_unit]).
Proof. apply says_settings1; (constructor; [|constructor]); [repeat split|eexists; reflexivity]. Qed.
Lemma says_free : says_settings lexd0 strtod0 nucid0 (file1 [free]) (settings1 [free_unit]).
Proof. apply says_settings1; (constructor; [|constructor]); [repeat split; given_as n4|eexists; reflexivity]. Qed.
Definition loaded2 : st := get_ok (load_settings lexd0 strtod0 nucid0 E0 (file1 [free]) program0) program0.
Lemma loads2 : load_settings lexd0 strtod0 nucid0 E0 (file1 [free]) program0 = Ok loaded2.
Proof. vm_compute. reflexivity. Qed.
Lemma later1 : later_rows loaded1 [DComp 3 10 1].
Proof. constructor; [vm_compute; discriminate|constructor]. Qed.
Definition started1 : st := get_ok (start false E0 (s_t loaded1) (w_db (s_w loaded1) ++ [DComp 3 10 1]) loaded1) program0.
Lemma settings_example :
  env_ok E0 /\ numerals lexd0 /\ says_settings lexd0 strtod0 nucid0 (file1 [truck]) (settings1 [truck_unit]) /\ unused program0 /\
  load_settings lexd0 strtod0 nucid0 E0 (file1 [truck]) program0 = Ok loaded1 /\ later_rows loaded1 [DComp 3 10 1] /\
  exists s2, start false E0 (s_t loaded1) (w_db (s_w loaded1) ++ [DComp 3 10 1]) loaded1 = Ok s2 /\
    tolerances s2 = (1 # 1000000, 1 # 1000) /\
    c_si (s_ctx s2) = Some (mkSi 120 2000 2 "test run" "never" 2629846 (1 # 1000000) (1 # 1000) true false 7 10000 0 "init" (-1)) /\
    get_unit "truck" s2 = Ok (mkTU "truck" 0 4 "first") /\
    match get_recipe "natural" s2 with
    | Ok x => map (fun p => (fst p, Qred (snd p))) (comp_mass E0 x) = [(922350000%Z, 1 # 4); (922380000%Z, 3 # 4)]
    | _ => False end.
Proof.
  split; [exact env_ok0|]. split; [exact numerals0|]. split; [exact says1|]. split; [exact unused0|]. split; [exact loads1|]. split; [exact later1|].
  exists started1. split; [|split; [|split; [|split]]].
  - vm_compute. reflexivity.
  - vm_compute. reflexivity.
  - vm_compute. reflexivity.
  - vm_compute. reflexivity.
  - vm_compute. reflexivity.
Qed.
Definition restarted1 : st := get_ok (restart false E0 (s_t loaded1) (w_db (s_w loaded1) ++ [DComp 3 10 1]) 5 60 program0) program0.
Lemma restart_tolerances : ~ (forall lexd strtod nucid has_coin E x c s0 s1 more s' id at_ s2,
  env_ok E -> numerals lexd -> says_settings lexd strtod nucid x c -> unused s0 ->
  load_settings lexd strtod nucid E x s0 = Ok s1 -> later_rows s1 more ->
  restart has_coin E (s_t s1) (w_db (s_w s1) ++ more) id at_ s' = Ok s2 -> tolerances s2 = (tol c, tol_res c)).
Proof.
  intros H. assert (R : restart false E0 (s_t loaded1) (w_db (s_w loaded1) ++ [DComp 3 10 1]) 5 60 program0 = Ok restarted1) by (vm_compute; reflexivity).
  specialize (H _ _ _ _ _ _ _ _ _ _ _ _ _ _ env_ok0 numerals0 says1 unused0 loads1 later1 R).
  clear R. apply (f_equal (fun p => Qeq_bool (snd p) (1 # 1000))) in H. revert H. vm_compute. intros H. inversion H.
Qed.
Lemma lorry_example :
  says_settings lexd0 strtod0 nucid0 (file1 [lorry]) (settings1 [lorry_unit]) /\ In lorry_unit (se_units (settings1 [lorry_unit])) /\
  load_settings lexd0 strtod0 nucid0 E0 (file1 [lorry]) program0 = UB.
Proof. split; [exact says_lorry|]. split; [now left|]. vm_compute. reflexivity. Qed.
Definition started2 : st := get_ok (start false E0 (s_t loaded2) (w_db (s_w loaded2)) loaded2) program0.
Lemma reserved_unit : exists x c s1 s2,
  says_settings lexd0 strtod0 nucid0 x c /\ load_settings lexd0 strtod0 nucid0 E0 x program0 = Ok s1 /\
  start false E0 (s_t s1) (w_db (s_w s1)) s1 = Ok s2 /\
  (exists u, last_named un_name "unrestricted" (se_units c) = Some u /\ un_max u = Some 4%nat) /\
  get_unit "unrestricted" s2 = Ok (mkTU "unrestricted" 0 2147483647 "hybrid").
Proof.
  exists (file1 [free]), (settings1 [free_unit]), loaded2, started2. split; [exact says_free|]. split; [exact loads2|].
  split; [vm_compute; reflexivity|]. split; [exists free_unit; split; reflexivity|]. vm_compute. reflexivity.
Qed.
