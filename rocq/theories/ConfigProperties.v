(** * C60: the settings of a simulation (src/xml_file_loader.cc, src/context.cc, src/sim_init.cc) *)
From Coq Require Import String Ascii List ZArith QArith Bool Arith.
From Verif Require Import Base PackageModel ResourceModel ResourceSpec ConfigModel ConfigSpec ConfigProofs5 ConfigExamples.
From Verif Require PpModel.
Import PpModel(xml(..)).
Import ListNotations.
Local Open Scope string_scope.

(** A simulation started from a database that was made from an input file runs with the settings of the file:
    duration, start date, decay mode, time step, seed, tolerances, solver, recipes, packages and transport units,
    and the defaults for what the file leaves out.  [s'] is the program at the time, with the tolerances that
    reading the file gave it. *)
Theorem C60_settings_are_those_of_the_file : forall lexd strtod nucid has_coin E x c s0 s1 more s',
  env_ok E -> numerals lexd -> says_settings lexd strtod nucid x c -> unused s0 ->
  load_settings lexd strtod nucid E x s0 = Ok s1 ->
  later_rows s1 more ->
  (forall t v m, the_config c = CCoin t v m -> has_coin = true) ->
  tolerances s' = tolerances s1 ->
  exists s2, start has_coin E (s_t s1) (w_db (s_w s1) ++ more) s' = Ok s2 /\
    runs_with E c 0 "init" (-1) 0 s2 /\ tolerances s2 = (tol c, tol_res c).
Proof. exact settings_run. Qed.
Print Assumptions C60_settings_are_those_of_the_file.
Example C60_settings_example :
  env_ok E0 /\ numerals lexd0 /\ says_settings lexd0 strtod0 nucid0 (file1 [truck]) (settings1 [truck_unit]) /\ unused program0 /\
  load_settings lexd0 strtod0 nucid0 E0 (file1 [truck]) program0 = Ok loaded1 /\ later_rows loaded1 [DComp 3 10 1] /\
  exists s2, start false E0 (s_t loaded1) (w_db (s_w loaded1) ++ [DComp 3 10 1]) loaded1 = Ok s2 /\
    tolerances s2 = (1 # 1000000, 1 # 1000) /\
    c_si (s_ctx s2) = Some (mkSi 120 2000 2 "test run" "never" 2629846 (1 # 1000000) (1 # 1000) true false 7 10000 0 "init" (-1)) /\
    get_unit "truck" s2 = Ok (mkTU "truck" 0 4 "first") /\
    match get_recipe "natural" s2 with
    | Ok x => map (fun p => (fst p, Qred (snd p))) (comp_mass E0 x) = [(922350000%Z, 1 # 4); (922380000%Z, 3 # 4)]
    | _ => False end.
Proof. exact settings_example. Qed.

(** A simulation restarted from the database at time [at_], perhaps by another program, has the same settings and
    continues at that time.  The tolerances in force are those of the program. *)
Theorem C60_restart_has_the_settings : forall lexd strtod nucid has_coin E x c s0 s1 more s' id at_,
  env_ok E -> numerals lexd -> says_settings lexd strtod nucid x c -> unused s0 ->
  load_settings lexd strtod nucid E x s0 = Ok s1 ->
  later_rows s1 more ->
  (forall t v m, the_config c = CCoin t v m -> has_coin = true) -> (0 <= at_)%Z ->
  exists s2, restart has_coin E (s_t s1) (w_db (s_w s1) ++ more) id at_ s' = Ok s2 /\
    runs_with E c id "restart" at_ at_ s2 /\ tolerances s2 = tolerances s'.
Proof. exact settings_restarted. Qed.
Print Assumptions C60_restart_has_the_settings.
(** so they are not those of the file *)
Theorem C60_restart_tolerances_refuted : ~ (forall lexd strtod nucid has_coin E x c s0 s1 more s' id at_ s2,
  env_ok E -> numerals lexd -> says_settings lexd strtod nucid x c -> unused s0 ->
  load_settings lexd strtod nucid E x s0 = Ok s1 -> later_rows s1 more ->
  restart has_coin E (s_t s1) (w_db (s_w s1) ++ more) id at_ s' = Ok s2 -> tolerances s2 = (tol c, tol_res c)).
Proof. exact restart_tolerances. Qed.
Print Assumptions C60_restart_tolerances_refuted.

(** Sensible settings are loaded. *)
Theorem C60_sensible_settings_load : forall lexd strtod nucid E x c s0,
  numerals lexd -> says_settings lexd strtod nucid x c -> unused s0 -> sensible E c ->
  exists s1, load_settings lexd strtod nucid E x s0 = Ok s1.
Proof. exact sensible_loads. Qed.
Print Assumptions C60_sensible_settings_load.
Example C60_sensible_example :
  numerals lexd0 /\ says_settings lexd0 strtod0 nucid0 (file1 [truck]) (settings1 [truck_unit]) /\ unused program0 /\
  sensible E0 (settings1 [truck_unit]).
Proof. exact (conj numerals0 (conj says1 (conj unused0 sensible1))). Qed.

(** A transport unit may leave out its upper limit, but then the file cannot be loaded: the default does not fit
    in an int. *)
Theorem C60_unit_without_limit_refuted : forall lexd strtod nucid E x c s0 s1,
  env_ok E -> numerals lexd -> says_settings lexd strtod nucid x c -> unused s0 ->
  (exists u, In u (se_units c) /\ un_max u = None) ->
  load_settings lexd strtod nucid E x s0 <> Ok s1.
Proof. exact without_limit. Qed.
Print Assumptions C60_unit_without_limit_refuted.
Example C60_unit_without_limit_example :
  says_settings lexd0 strtod0 nucid0 (file1 [lorry]) (settings1 [lorry_unit]) /\ In lorry_unit (se_units (settings1 [lorry_unit])) /\
  load_settings lexd0 strtod0 nucid0 E0 (file1 [lorry]) program0 = UB.
Proof. exact lorry_example. Qed.

(** A transport unit that is called "unrestricted" is loaded, but agents get another one under that name. *)
Theorem C60_reserved_unit_refuted : exists x c s1 s2,
  says_settings lexd0 strtod0 nucid0 x c /\ load_settings lexd0 strtod0 nucid0 E0 x program0 = Ok s1 /\
  start false E0 (s_t s1) (w_db (s_w s1)) s1 = Ok s2 /\
  (exists u, last_named un_name "unrestricted" (se_units c) = Some u /\ un_max u = Some 4%nat) /\
  get_unit "unrestricted" s2 = Ok (mkTU "unrestricted" 0 2147483647 "hybrid").
Proof. exact reserved_unit. Qed.
Print Assumptions C60_reserved_unit_refuted.
