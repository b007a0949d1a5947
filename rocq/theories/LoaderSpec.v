(** What an input file says about archetypes, prototypes and the agents a simulation starts with,
    and what a context must then hold.  Nothing here refers to how the file is queried or to how
    agents are created. *)
From Coq Require Import String Ascii List ZArith Bool Arith.
From Verif Require Import Base SpecModel SimModel.
From Verif Require PpModel.
Import PpModel(xml(..)).
Import ListNotations.
Local Open Scope string_scope.

(** ** Text *)
Fixpoint text (l : list ascii) : string :=
  match l with [] => "" | c :: l => String c (text l) end.
Definition blank (c : ascii) : Prop := In c [" "; "009"; "010"; "011"; "012"; "013"]%char.
(** a decimal numeral, most significant digit first *)
Definition figure (d : nat) : ascii := ascii_of_nat (48 + d).
Fixpoint numeral (acc : Z) (ds : list nat) : Z :=
  match ds with [] => acc | d :: ds => numeral (10 * acc + Z.of_nat d) ds end.
(** [t] is the number [n], possibly with a plus sign, zeros or white space around it *)
Definition says_number (t : string) (n : nat) : Prop :=
  exists l ds plus r,
    t = text (l ++ plus ++ map figure ds ++ r)%list /\
    Forall blank l /\ Forall blank r /\ (plus = [] \/ plus = ["+"%char]) /\
    ds <> [] /\ Forall (fun d => (d < 10)%nat) ds /\ numeral 0 ds = Z.of_nat n /\
    (Z.of_nat n <= 2147483647)%Z.

(** ** Elements *)
Definition named (n : string) (x : xml) : bool :=
  match x with XElem m _ => String.eqb m n | _ => false end.
Definition kids (x : xml) : list xml := match x with XElem _ k => k | _ => [] end.
(** the children of [x] called [n], in the order of the file *)
Definition children (n : string) (x : xml) : list xml := filter (named n) (kids x).
Definition says (n : string) (x : xml) (v : string) : Prop := children n x = [XElem n [XText v]].
Definition says_opt (n : string) (x : xml) (v : option string) : Prop :=
  match v with Some v => says n x v | None => children n x = [] end.
Definition not_element (x : xml) : Prop := forall n k, x <> XElem n k.

(** ** What the file says *)
Record archetype := { ar_name : string; ar_lib : option string; ar_path : option string; ar_alias : option string }.
Record proto := { pr_name : string; pr_class : string; pr_life : option nat }.
Record entry := { en_proto : string; en_number : nat }.
Record inst := { in_self : proto; in_list : list entry }.
Record region := { re_self : proto; re_insts : list inst }.
Record input := { archetypes : list archetype; facilities : list proto; regions : list region }.

Definition says_archetype (x : xml) (a : archetype) : Prop :=
  says "name" x (ar_name a) /\ says_opt "lib" x (ar_lib a) /\
  says_opt "path" x (ar_path a) /\ says_opt "alias" x (ar_alias a).
(** a prototype: its name, the element in its configuration and its lifetime *)
Definition says_proto (x : xml) (p : proto) : Prop :=
  says "name" x (pr_name p) /\
  (exists pre body post, children "config" x = [XElem "config" (pre ++ XElem (pr_class p) body :: post)%list] /\
                         Forall not_element pre) /\
  match pr_life p with
  | None => children "lifetime" x = []
  | Some n => exists t, says "lifetime" x t /\ says_number t n
  end.
Definition says_entry (x : xml) (e : entry) : Prop :=
  says "prototype" x (en_proto e) /\ exists t, says "number" x t /\ says_number t (en_number e).
Definition says_inst (x : xml) (i : inst) : Prop :=
  says_proto x (in_self i) /\
  Forall2 says_entry (flat_map (children "entry") (children "initialfacilitylist" x)) (in_list i).
Definition says_region (x : xml) (r : region) : Prop :=
  says_proto x (re_self r) /\ Forall2 says_inst (children "institution" x) (re_insts r).
Definition says_archetypes (x : xml) (l : list archetype) : Prop :=
  (exists k, x = XElem "simulation" k) /\
  Forall2 says_archetype (flat_map (children "spec") (children "archetypes" x)) l.
Definition says_input (x : xml) (i : input) : Prop :=
  says_archetypes x (archetypes i) /\
  Forall2 says_proto (children "facility" x) (facilities i) /\
  Forall2 says_region (children "region" x) (regions i).

(** ** Archetypes *)
Definition or_else (o : option string) (d : string) : string := match o with Some s => s | None => d end.
Definition alias_of (a : archetype) : string := or_else (ar_alias a) (ar_name a).
(** path:lib:name *)
Definition full_name (a : archetype) : string :=
  or_else (ar_path a) "" ++ ":" ++ or_else (ar_lib a) (ar_name a) ++ ":" ++ ar_name a.
Definition as_spec (a : archetype) : spec :=
  mkSpec (or_else (ar_path a) "") (or_else (ar_lib a) (ar_name a)) (ar_name a) (alias_of a).

(** ** Prototypes and agents *)

(** every prototype of the file, with its element: facilities, institutions, regions *)
Definition prototypes (i : input) : list proto :=
  (facilities i ++ flat_map (fun r => map in_self (re_insts r)) (regions i) ++ map re_self (regions i))%list.
Definition prototype_elements (x : xml) : list xml :=
  (children "facility" x ++ flat_map (children "institution") (children "region" x) ++ children "region" x)%list.

(** the agents to start with, numbered from [base]: the prototype of each and the number of its
    parent *)
Definition place_inst (reg base : nat) (i : inst) : list (string * option nat) :=
  (pr_name (in_self i), Some reg) ::
  flat_map (fun e => repeat (en_proto e, Some base) (en_number e)) (in_list i).
Fixpoint place_insts (reg base : nat) (l : list inst) : list (string * option nat) :=
  match l with
  | [] => []
  | i :: l => (place_inst reg base i ++ place_insts reg (base + List.length (place_inst reg base i)) l)%list
  end.
Definition place_region (base : nat) (r : region) : list (string * option nat) :=
  (pr_name (re_self r), None) :: place_insts base (S base) (re_insts r).
Fixpoint place_regions (base : nat) (l : list region) : list (string * option nat) :=
  match l with
  | [] => []
  | r :: l => (place_region base r ++ place_regions (base + List.length (place_region base r)) l)%list
  end.
(** the prototypes have the first numbers *)
Definition placements (i : input) : list (string * option nat) :=
  place_regions (List.length (prototypes i)) (regions i).

Definition life_of (p : proto) : Z := match pr_life p with Some n => Z.of_nat n | None => (-1)%Z end.
Definition number_of (par : option nat) : Z := match par with Some q => Z.of_nat q | None => (-1)%Z end.
(** an agent: id, class, specification, prototype, lifetime, entry time, parent, parent's id and
    whether it exists *)
Definition view (x : agent) : Z * (kind * bool * string) * string * Z * Z * option nat * Z * bool :=
  (a_id x, (a_kind x, a_shim x, a_spec x), a_proto x, a_life x, a_enter x, a_parent x, a_pid x, a_alive x).
(** prototype number [k] *)
Definition proto_view (cls : kind * bool * string) (k : nat) (p : proto) :=
  (Z.of_nat k, cls, pr_name p, life_of p, (-1)%Z, @None nat, (-1)%Z, true).
(** agent number [k] made from prototype [p] at time [now], whose parent has number [par] *)
Definition agent_view (cls : kind * bool * string) (now : Z) (k : nat) (par : option nat) (p : proto) :=
  (Z.of_nat k, cls, pr_name p, life_of p, now, par, number_of par, true).
(** its row in AgentEntry and the notice to its parent *)
Definition agent_events (now : Z) (k : nat) (par : option nat) (p : proto) : list event :=
  EEntry k (Z.of_nat k) (pr_name p) (number_of par) (life_of p) now ::
  match par with Some q => [EBuildNotify q k] | None => [] end.
Definition is_entry (e : event) : bool :=
  match e with EEntry _ _ _ _ _ _ | EBuildNotify _ _ => true | _ => false end.
Definition entries (l : list (Z * event)) : list event := filter is_entry (map snd l).

(** the class, scheduling side and full name of the archetype that a configuration element called
    [al] means *)
Definition class_of (make : spec -> result (kind * bool)) (l : list archetype) (al : string)
    (cls : kind * bool * string) : Prop :=
  exists a, In a l /\ alias_of a = al /\ make (as_spec a) = Ok (fst cls) /\ snd cls = full_name a.

(** User code that neither creates, changes nor removes agents or prototypes: it may register and
    unregister for time services, schedule, ask for the end or a snapshot, and raise. *)
Definition quiet_cmd (c : cmd) : Prop :=
  match c with
  | CReg _ | CUnreg _ | CSchedB _ _ _ | CSchedD _ _ | CKill | CSnap | CInstTock _ => True
  | _ => False
  end.
Inductive quiet : prog -> Prop :=
| QDone : quiet Done
| QRaise e : quiet (Raise e)
| QDo c k : quiet_cmd c -> (forall r, quiet (k r)) -> quiet (Do c k).
Definition quiet_code (beh : hook -> sim -> prog) : Prop :=
  forall s, (forall a, quiet (beh (HEnter a) s)) /\ (forall p a, quiet (beh (HBuildNotify p a) s)).

Definition fresh (s : sim) : Prop := heap (w s) = [] /\ nid (w s) = 0%Z /\ protos (w s) = [].

(** What a context holds once the prototypes [ps] and the agents [pl] of a file have been loaded
    into the fresh context [s0]. *)
Definition holds (make : spec -> result (kind * bool)) (archs : list archetype)
    (ps : list proto) (pl : list (string * option nat)) (s0 s : sim) : Prop :=
  let now := tm (ti s0) in
  (* no name is used twice *)
  NoDup (map pr_name ps) /\
  exists (classes : list (kind * bool * string)) (made : list (proto * (kind * bool * string))),
    (* the class of each prototype, and the prototype each agent is made from *)
    Forall2 (fun p cls => class_of make archs (pr_class p) cls) ps classes /\
    Forall2 (fun e m => In m (combine ps classes) /\ pr_name (fst m) = fst e) pl made /\
    (* the context has exactly these prototypes and agents *)
    map view (heap (w s)) =
      (map (fun '(k, (p, cls)) => proto_view cls k p) (combine (seq 0 (List.length ps)) (combine ps classes)) ++
       map (fun '(k, ((_, par), (p, cls))) => agent_view cls now k par p)
         (combine (seq (List.length ps) (List.length pl)) (combine pl made)))%list /\
    (* a prototype is found under its own name *)
    (forall n k, sfind n (protos (w s)) = Some k <-> option_map pr_name (nth_error ps k) = Some n) /\
    (* each agent is recorded, and its parent told, once and in order *)
    entries (log s) = (entries (log s0) ++
      flat_map (fun '(k, ((_, par), (p, _))) => agent_events now k par p)
         (combine (seq (List.length ps) (List.length pl)) (combine pl made)))%list.

(** ** Files that can be loaded *)

(** each archetype is declared once, under one alias *)
Definition good_archetypes (l : list archetype) : Prop :=
  l <> [] /\ NoDup (map alias_of l) /\ NoDup (map full_name l).
(** the class of a prototype is declared and can be made, and reads its configuration *)
Definition good_proto (make : spec -> result (kind * bool)) (read : spec -> xml -> result unit)
    (l : list archetype) (x : xml) (p : proto) : Prop :=
  exists a cls, In a l /\ alias_of a = pr_class p /\ make (as_spec a) = Ok cls /\ read (as_spec a) x = Ok tt.
Definition complete (make : spec -> result (kind * bool)) (read : spec -> xml -> result unit) (x : xml) (i : input) : Prop :=
  good_archetypes (archetypes i) /\
  NoDup (map pr_name (prototypes i)) /\
  Forall2 (good_proto make read (archetypes i)) (prototype_elements x) (prototypes i) /\
  (* what is deployed is a prototype of the file *)
  (forall r j e, In r (regions i) -> In j (re_insts r) -> In e (in_list j) ->
     In (en_proto e) (map pr_name (prototypes i))).
(** the user code called when an agent enters or gets a child ends without raising if the agents
    concerned exist *)
Definition exists_in (s : sim) (a : nat) : Prop := exists x, nth_error (heap (w s)) a = Some x /\ a_alive x = true.
Definition concerned (h : hook) : list nat := match h with HEnter a => [a] | HBuildNotify p a => [p; a] | _ => [] end.
Definition ends_normally (beh : hook -> sim -> prog) (cond : nat -> sim -> bool) (fuel : nat) (h : hook) : Prop :=
  forall f s, (f = fuel \/ S f = fuel) -> (forall a, In a (concerned h) -> exists_in s a) ->
    exists s', exec beh cond f (beh h s) s = (Normal tt, s').

(** ** The flat format *)
Record member := { me_name : string; me_proto : string; me_parent : option string }.
Record flat := { fl_archetypes : list archetype; fl_protos : list proto; fl_members : list member }.
Definition says_member (x : xml) (m : member) : Prop :=
  says "name" x (me_name m) /\ says "prototype" x (me_proto m) /\ says_opt "parent" x (me_parent m) /\
  me_parent m <> Some "".
Definition says_flat (x : xml) (f : flat) : Prop :=
  says_archetypes x (fl_archetypes f) /\
  Forall2 says_proto (children "prototype" x) (fl_protos f) /\
  Forall2 says_member (children "agent" x) (fl_members f).
(** what the file says of the agent called [n]: if it says it twice, the last counts *)
Definition last_said (ms : list member) (n : string) (m : member) : Prop :=
  exists l1 l2, ms = (l1 ++ m :: l2)%list /\ me_name m = n /\ ~ In n (map me_name l2).
(** [order] is an order in which the agents are created: each once, parents first; [pl] are their
    prototypes and the numbers of their parents, counting from [base] *)
Definition creation_order (ms : list member) (base : nat) (order : list string) (pl : list (string * option nat)) : Prop :=
  NoDup order /\ (forall n, In n order <-> In n (map me_name ms)) /\ List.length pl = List.length order /\
  forall k n, nth_error order k = Some n ->
    exists m par, last_said ms n m /\ nth_error pl k = Some (me_proto m, par) /\
      match me_parent m with
      | None => par = None
      | Some q => exists j, (j < k)%nat /\ nth_error order j = Some q /\ par = Some (base + j)%nat
      end.
(** every agent has a line of parents that ends: [rank] is how far it is from it *)
Definition rooted (ms : list member) : Prop :=
  exists rank : string -> nat, forall n m q, last_said ms n m -> me_parent m = Some q ->
    In q (map me_name ms) /\ (rank q < rank n)%nat.
Definition flat_complete (make : spec -> result (kind * bool)) (read : spec -> xml -> result unit) (x : xml) (f : flat) : Prop :=
  good_archetypes (fl_archetypes f) /\
  NoDup (map pr_name (fl_protos f)) /\
  Forall2 (good_proto make read (fl_archetypes f)) (children "prototype" x) (fl_protos f) /\
  (forall m, In m (fl_members f) -> In (me_proto m) (map pr_name (fl_protos f))).
