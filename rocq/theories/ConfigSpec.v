(** What an input file says about the settings of a simulation, and what a simulation that runs with
    them must have.  Elements and numbers in text are those of LoaderSpec. *)
From Coq Require Import String Ascii List ZArith QArith Bool Arith.
From Verif Require Import Base CompSpec PackageModel ResourceModel LoaderSpec ConfigModel.
From Verif Require PpModel.
Import PpModel(xml(..)).
Import ListNotations.
Local Open Scope string_scope.

(** ** Text *)
(** [t] is the word [u], possibly with white space around it *)
Definition says_word (t u : string) : Prop :=
  exists l m r, t = text (l ++ m ++ r)%list /\ u = text m /\ Forall blank l /\ Forall blank r /\
                m <> [] /\ Forall (fun c => ~ blank c) m.
Definition says_flag (t : string) (b : bool) : Prop :=
  exists u, says_word t u /\ In (u, b) [("true", true); ("1", true); ("false", false); ("0", false)].
(** [lexd] tells what a word means as a real number *)
Definition says_real (lexd : string -> result Q) (t : string) (q : Q) : Prop :=
  exists u, says_word t u /\ lexd u = Ok q.
(** whole numbers mean what they say *)
Definition numerals (lexd : string -> result Q) : Prop := forall ds plus n,
  ds <> [] -> Forall (fun d => (d < 10)%nat) ds -> plus = [] \/ plus = ["+"%char] ->
  numeral 0 ds = Z.of_nat n -> (Z.of_nat n <= 2147483647)%Z ->
  lexd (text (plus ++ map figure ds)%list) = Ok (inject_Z (Z.of_nat n)).
Definition says_maybe {A} (P : string -> A -> Prop) (n : string) (x : xml) (o : option A) : Prop :=
  match o with None => children n x = [] | Some a => exists t, says n x t /\ P t a end.

(** ** What the file says *)
Inductive config := CGreedy (preconditioner : option string) | CCoin (timeout : option Q) (verbose mps : option bool).
Record solver_choice := { so_config : option config; so_exclusive : option bool }.
Record control := {
  k_handle : option string; k_duration : nat; k_month : nat; k_year : nat; k_decay : option string;
  k_inv : option bool; k_inv_compact : option bool; k_dt : option nat; k_tol : option Q; k_tol_res : option Q;
  k_seed : option nat; k_stride : option nat; k_solver : option solver_choice }.
Record recipe := { rc_name : string; rc_atom : bool; rc_nucs : list (Z * Q) }.
Record pack := { pk_name : string; pk_min : option Q; pk_max : option Q; pk_strategy : option string }.
Record unit_ := { un_name : string; un_min : option nat; un_max : option nat; un_strategy : option string }.
Record settings := { se_control : control; se_commods : list (string * option Q); se_recipes : list recipe;
  se_packs : list pack; se_units : list unit_ }.

Section Says.
Variable lexd : string -> result Q.
Variable strtod : string -> Q.
Variable nucid : string -> result Z.

Definition says_config (y : xml) (c : config) : Prop :=
  match c with
  | CGreedy p => exists k, y = XElem "greedy" k /\ says_opt "preconditioner" y p
  | CCoin t v m => exists k, y = XElem "coin-or" k /\ says_maybe (says_real lexd) "timeout" y t /\
                     says_maybe says_flag "verbose" y v /\ says_maybe says_flag "mps" y m
  end.
Definition says_solver (x : xml) (s : solver_choice) : Prop :=
  says_maybe says_flag "allow_exclusive_orders" x (so_exclusive s) /\
  match so_config s with
  | None => children "config" x = []
  | Some c => exists pre y post, children "config" x = [XElem "config" (pre ++ y :: post)%list] /\
                Forall not_element pre /\ Forall not_element post /\ says_config y c
  end.
Definition says_control (x : xml) (c : control) : Prop :=
  says_opt "simhandle" x (k_handle c) /\
  (exists t, says "duration" x t /\ says_number t (k_duration c)) /\
  (exists t, says "startmonth" x t /\ says_number t (k_month c)) /\
  (exists t, says "startyear" x t /\ says_number t (k_year c)) /\
  says_opt "decay" x (k_decay c) /\
  says_maybe says_flag "explicit_inventory" x (k_inv c) /\
  says_maybe says_flag "explicit_inventory_compact" x (k_inv_compact c) /\
  says_maybe says_number "dt" x (k_dt c) /\
  says_maybe (says_real lexd) "tolerance_generic" x (k_tol c) /\
  says_maybe (says_real lexd) "tolerance_resource" x (k_tol_res c) /\
  says_maybe says_number "seed" x (k_seed c) /\
  says_maybe says_number "stride" x (k_stride c) /\
  match k_solver c with
  | None => children "solver" x = []
  | Some s => exists y, children "solver" x = [y] /\ says_solver y s
  end.
Definition says_commod (x : xml) (c : string * option Q) : Prop :=
  says "name" x (fst c) /\ says_maybe (says_real lexd) "solution_priority" x (snd c).
Definition says_nuclide (x : xml) (p : Z * Q) : Prop :=
  (exists t, says "id" x t /\ nucid t = Ok (fst p)) /\ (exists t, says "comp" x t /\ strtod t = snd p).
Definition says_recipe (x : xml) (r : recipe) : Prop :=
  says "name" x (rc_name r) /\ says "basis" x (if rc_atom r then "atom" else "mass") /\
  Forall2 says_nuclide (children "nuclide" x) (rc_nucs r).
Definition says_pack (x : xml) (p : pack) : Prop :=
  says "name" x (pk_name p) /\ says_maybe (says_real lexd) "fill_min" x (pk_min p) /\
  says_maybe (says_real lexd) "fill_max" x (pk_max p) /\ says_opt "strategy" x (pk_strategy p).
Definition says_unit (x : xml) (u : unit_) : Prop :=
  says "name" x (un_name u) /\ says_maybe says_number "fill_min" x (un_min u) /\
  says_maybe says_number "fill_max" x (un_max u) /\ says_opt "strategy" x (un_strategy u).
Definition says_settings (x : xml) (c : settings) : Prop :=
  (exists y, children "control" x = [y] /\ says_control y (se_control c)) /\
  Forall2 says_commod (children "commodity" x) (se_commods c) /\
  Forall2 says_recipe (children "recipe" x) (se_recipes c) /\
  Forall2 says_pack (children "package" x) (se_packs c) /\
  Forall2 says_unit (children "transportunit" x) (se_units c).
End Says.

(** ** What the simulation then has *)
Definition given {A} (o : option A) (d : A) : A := match o with Some a => a | None => d end.
Definition tol (c : settings) : Q := given (k_tol (se_control c)) (1 # 1000000).
Definition tol_res (c : settings) : Q := given (k_tol_res (se_control c)) (1 # 1000000).

(** the parameters, with a month of 2629846 seconds, seed 20160212 and stride 10000 unless the file says otherwise *)
Definition info_of (c : settings) (parent : Z) (kind : string) (branch : Z) : siminfo :=
  let k := se_control c in
  mkSi (Z.of_nat (k_duration k)) (Z.of_nat (k_year k)) (Z.of_nat (k_month k)) (given (k_handle k) "")
    (given (k_decay k) "manual") (given (option_map Z.of_nat (k_dt k)) 2629846%Z) (tol c) (tol_res c)
    (given (k_inv k) false) (given (k_inv_compact k) false)
    (given (option_map Z.of_nat (k_seed k)) 20160212%Z) (given (option_map Z.of_nat (k_stride k)) 10000%Z)
    parent kind branch.

Definition the_config (c : settings) : config :=
  match k_solver (se_control c) with
  | Some s => given (so_config s) (CGreedy None)
  | None => CGreedy None
  end.
Definition exclusive (c : settings) : bool :=
  match k_solver (se_control c) with Some s => given (so_exclusive s) true | None => true end.
(** the weights that the greedy solver gives to commodities are the subject of C22 *)
Definition right_solver (c : settings) (v : solver) : Prop :=
  match the_config c with
  | CGreedy _ => exists w, v = Greedy (exclusive c) w
  | CCoin t vb m =>
      v = Coin (match t with Some q => if Qltb 0 q then q else 300 | None => 300 end) (exclusive c)
            (given vb false) (given m false)
  end.

(** ** Recipes *)
(** the amount stated for nuclide [k]: if it is stated twice, the last counts *)
Fixpoint last_amount (k : Z) (l : list (Z * Q)) : option Q :=
  match l with
  | [] => None
  | (n, q) :: l => match last_amount k l with Some a => Some a | None => if Z.eqb n k then Some q else None end
  end.
(** as a mass *)
Definition weight (E : env) (r : recipe) (k : Z) : Q :=
  given (last_amount k (rc_nucs r)) 0 * (if rc_atom r then e_amass E k else 1).
(** the composition [m] (mass fractions) is that of the recipe: with [ks] its nuclides, each has its share of the
    total mass; if there is no mass at all, each has the mass stated *)
Definition made_to (E : env) (r : recipe) (m : zmap Q) : Prop :=
  forall ks, NoDup ks -> (forall k, In k ks <-> In k (map fst (rc_nucs r))) ->
  let whole := qsum (map (weight E r) ks) in
  forall k, (~ whole == 0 -> amount k m * whole == weight E r k) /\ (whole == 0 -> amount k m == weight E r k).
(** the last of [l] with the name [n] *)
Fixpoint last_named {A} (name : A -> string) (n : string) (l : list A) : option A :=
  match l with
  | [] => None
  | a :: l => match last_named name n l with Some b => Some b | None => if String.eqb (name a) n then Some a else None end
  end.
Definition has_recipes (E : env) (c : settings) (s : st) : Prop := forall n,
  match last_named rc_name n (se_recipes c) with
  | Some r => exists x, get_recipe n s = Ok x /\ made_to E r (comp_mass E x)
  | None => get_recipe n s = Throw KeyError
  end.

(** ** Packages and transport units *)
Definition as_pack (c : settings) (p : pack) : package :=
  mkPackage (pk_name p) (given (pk_min p) (tol c)) (given (pk_max p) DBL_MAX) (given (pk_strategy p) "first").
Definition has_packs (c : settings) (s : st) : Prop :=
  NoDup (map pk_name (se_packs c)) /\ ~ In unpackaged_name (map pk_name (se_packs c)) /\
  forall n, n <> unpackaged_name ->
  match last_named pk_name n (se_packs c) with
  | Some p => get_package n s = Ok (as_pack c p)
  | None => get_package n s = Throw KeyError
  end.
(** without fill_min, a unit may be empty *)
Definition right_unit (c : settings) (u : unit_) (v : transport_unit) : Prop :=
  tu_name v = un_name u /\ un_max u = Some (Z.to_nat (tu_fill_max v)) /\ (0 <= tu_fill_max v)%Z /\
  tu_strategy v = given (un_strategy u) "first" /\
  match un_min u with
  | Some k => tu_fill_min v = Z.of_nat k
  | None => 0 <= tol c < 1 -> tu_fill_min v = 0%Z
  end.
Definition has_units (c : settings) (s : st) : Prop :=
  NoDup (map un_name (se_units c)) /\
  forall n, n <> unrestricted_name ->
  match last_named un_name n (se_units c) with
  | Some u => exists v, get_unit n s = Ok v /\ right_unit c u v
  | None => get_unit n s = Throw KeyError
  end.

(** A simulation that has the settings [c], begun for the reason [kind] at time [now]. *)
Definition runs_with (E : env) (c : settings) (parent : Z) (kind : string) (branch now : Z) (s : st) : Prop :=
  let si := info_of c parent kind branch in
  c_si (s_ctx s) = Some si /\ c_now (s_ctx s) = now /\ c_gen (s_ctx s) = Some (si_seed si) /\
  (exists v, c_solver (s_ctx s) = Some v /\ right_solver c v) /\
  has_recipes E c s /\ has_packs c s /\ has_units c s.
(** the tolerances that eps() and eps_rsrc() return *)
Definition tolerances (s : st) : Q * Q := (g_eps s, g_epsr s).

(** a program that has not recorded anything yet *)
Definition unused (s : st) : Prop := s_ctx s = ctx0 /\ s_t s = tables0 /\ s_w s = world0.
(** rows recorded later: their compositions are new *)
Definition later_rows (s : st) (d : list datum) : Prop :=
  Forall (fun x => match x with DComp i _ _ => (w_next_comp (s_w s) <= i)%Z | _ => True end) d.

(** ** Settings that can be loaded *)
Definition good_pack (c : settings) (p : pack) : Prop :=
  let q := as_pack c p in
  0 <= p_fill_min q <= p_fill_max q /\ In (p_strategy q) ["first"; "equal"; "uniform"; "normal"] /\
  (p_strategy q = "normal" -> ~ p_fill_min q == p_fill_max q) /\ pk_name p <> unpackaged_name.
Definition good_unit (u : unit_) : Prop :=
  (exists k, un_max u = Some k /\ (given (un_min u) 0 <= k)%nat) /\
  In (given (un_strategy u) "first") ["first"; "equal"; "hybrid"] /\ un_name u <> unrestricted_name.
Definition good_recipe (E : env) (r : recipe) : Prop :=
  Forall (fun p => e_isnuc E (fst p) = true /\ 0 <= snd p) (rc_nucs r).
Definition sensible (E : env) (c : settings) : Prop :=
  (1 <= k_month (se_control c) <= 12)%nat /\ 0 <= tol c < 1 /\
  Forall (good_recipe E) (se_recipes c) /\
  Forall (good_pack c) (se_packs c) /\ NoDup (map pk_name (se_packs c)) /\
  Forall good_unit (se_units c) /\ NoDup (map un_name (se_units c)).
