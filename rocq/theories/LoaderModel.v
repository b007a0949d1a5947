(** Reading a simulation's archetypes, prototypes and initial agents from the input file:
    ParseSpecs, LoadSpecs, LoadInitialAgents and BuildAgent of XMLFileLoader
    (src/xml_file_loader.cc 60-82, 351-450) and LoadInitialAgents of XMLFlatLoader
    (src/xml_flat_loader.cc 47-121), on the input trees of PpModel (src/infile_tree.cc), the
    archetype specifications of SpecModel and the context, agents and user code of SimModel.

    Simplifications.
    - Finding and constructing an archetype (DynamicModule::Make) is a function [make] of its
      specification: the class of the agent it constructs, or an exception.  The archetype's own
      InfileToDb and InitFrom are a function [read] of the specification and the element.
    - The row that Agent::InfileToDb writes is the row that Agent::InitFrom reads back (C44, C55).
    - Absolute queries start at the root element, which is where every InfileTree made from the
      parser points. *)
From Coq Require Import String Ascii List ZArith Bool Arith.
From Verif Require Import Base SpecModel SimModel.
From Verif Require PpModel.
Import PpModel(xml(..), Name, Star, QPath, kids_of, find, nmatches, get_string, sub_tree, trim, is_space).
Import ListNotations.
Local Open Scope string_scope.

Definition path (l : list string) : PpModel.query := QPath (map Name l).

(** ** Numbers in text *)
Definition is_digit (c : ascii) : bool :=
  let n := nat_of_ascii c in Nat.leb 48 n && Nat.leb n 57.
Definition digit (c : ascii) : Z := Z.of_nat (nat_of_ascii c) - 48.
(** the value of the leading digits, and what follows them *)
Fixpoint digits (acc : Z) (s : string) : Z * string :=
  match s with
  | String c s' => if is_digit c then digits (acc * 10 + digit c) s' else (acc, s)
  | EmptyString => (acc, s)
  end.
Definition sign (s : string) : Z * string :=
  match s with
  | String c s' => if Ascii.eqb c "-" then ((-1)%Z, s') else if Ascii.eqb c "+" then (1%Z, s') else (1%Z, s)
  | EmptyString => (1%Z, s)
  end.
Definition in_int (z : Z) : bool := Z.leb (-2147483648) z && Z.leb z 2147483647.
(** atoi: leading white space, a sign, digits; the rest is ignored; out of range is undefined. *)
Definition atoi (s : string) : result Z :=
  let '(sg, r) := sign (PpModel.ltrim s) in
  let z := (sg * fst (digits 0 r))%Z in
  if in_int z then Ok z else UB.
(** boost::lexical_cast<int>: a sign, digits and nothing else; otherwise bad_lexical_cast. *)
Definition lex_int (s : string) : result Z :=
  let '(sg, r) := sign s in
  match r with
  | EmptyString => Throw PlainError
  | _ => match digits 0 r with
         | (n, EmptyString) => if in_int (sg * n) then Ok (sg * n)%Z else Throw PlainError
         | _ => Throw PlainError
         end
  end.

Definition rbind {A B} (r : result A) (f : A -> result B) : result B :=
  match r with Ok a => f a | Throw e => Throw e | UB => UB end.

(** OptionalQuery<std::string>, infile_tree.h 120-127. *)
Definition opt_string (x : xml) (q : PpModel.query) (d : string) : result string :=
  rbind (nmatches x q) (fun n => if Nat.eqb n 1 then get_string x q 0 else Ok d).
(** OptionalQuery<int>, infile_tree.h 129-139. *)
Definition opt_int (x : xml) (q : PpModel.query) (d : Z) : result Z :=
  rbind (nmatches x q) (fun n =>
    if Nat.eqb n 1 then rbind (get_string x q 0) (fun s => lex_int (trim s)) else Ok d).

(** InfileTree::GetElementName, infile_tree.cc 100-117. *)
Definition element_names (x : xml) : list string :=
  flat_map (fun y => match y with XElem n _ => [n] | _ => [] end) (kids_of x).
Definition element_name (x : xml) (i : nat) : result string :=
  match nth_error (element_names x) i with Some n => Ok n | None => Throw ValueError end.

(** ** Archetypes *)
(** AgentSpec(InfileTree), dynamic_module.cc 35-40. *)
Definition read_spec (x : xml) : result spec :=
  rbind (get_string x (path ["name"]) 0) (fun name =>
  rbind (opt_string x (path ["lib"]) name) (fun lib =>
  rbind (opt_string x (path ["path"]) "") (fun pth =>
  rbind (opt_string x (path ["alias"]) name) (fun alias =>
  spec_infile (Some name) (Some lib) (Some pth) (Some alias))))).
(** the loop of ParseSpecs, xml_file_loader.cc 69-77: a specification whose str() was seen
    before is dropped *)
Fixpoint spec_loop (x : xml) (l : list nat) (specs : list spec) (unique : list string) : result (list spec) :=
  match l with
  | [] => Ok specs
  | i :: l =>
      rbind (sub_tree x (path ["archetypes"; "spec"]) i) (fun y =>
      rbind (read_spec y) (fun sp =>
        if existsb (String.eqb (spec_str sp)) unique then spec_loop x l specs unique
        else spec_loop x l (List.app specs [sp]) (spec_str sp :: unique)))
  end.
(** ParseSpecs, 60-82; the query begins with /simulation. *)
Definition parse_specs (x : xml) : result (list spec) :=
  match x with
  | XElem "simulation" _ =>
      rbind (nmatches x (path ["archetypes"; "spec"])) (fun n =>
      rbind (spec_loop x (seq 0 n) [] []) (fun l =>
        match l with [] => Throw ValidationError | _ => Ok l end))
  | _ => Throw ValidationError
  end.
(** LoadSpecs, 351-356, and specs_[alias], 378: a missing alias gives AgentSpec(). *)
Definition spec_for (l : list spec) (alias : string) : spec :=
  fold_left (fun acc sp => if String.eqb (sp_alias sp) alias then sp else acc) l (mkSpec "" "" "" "").

(** ** Prototypes and agents *)
Definition lift {A} (r : result A) : M A :=
  match r with Ok a => ret a | Throw e => raise e | UB => undef end.
(** prototype_ and lifetime_ set by Agent::InitFrom, agent.cc 46-51 *)
Definition set_proto_life (n : string) (life : Z) (x : agent) : agent :=
  mkA (a_id x) (a_kind x) (a_shim x) n (a_spec x) life (a_enter x) (a_parent x) (a_pid x) (a_kids x) (a_alive x).

Section Loader.
Variable beh : hook -> sim -> prog.
Variable cond : nat -> sim -> bool.
Variable make : spec -> result (kind * bool).
Variable read : spec -> xml -> result unit.
Variable fuel : nat.

(** One prototype, xml_file_loader.cc 374-404, xml_flat_loader.cc 53-80.  The result is the agent
    and the element it was configured from. *)
Definition load_proto (specs : list spec) (qe : xml) : M (nat * xml) :=
  name <- lift (get_string qe (path ["name"]) 0) ;;
  cfg <- lift (sub_tree qe (path ["config"]) 0) ;;
  alias <- lift (element_name cfg 0) ;;
  let sp := spec_for specs alias in
  cls <- lift (make sp) ;;
  a <- construct (fst cls) (snd cls) "" (spec_str sp) (-1) ;;
  proto <- lift (get_string qe (path ["name"]) 0) ;;
  life <- lift (opt_int qe (path ["lifetime"]) (-1)) ;;
  lift (read sp qe) ;;
  modify_agent a (set_proto_life proto life) ;;
  add_prototype name a false ;;
  ret (a, qe).

Fixpoint collect {A B} (f : A -> M B) (l : list A) : M (list B) :=
  match l with
  | [] => ret []
  | x :: t => y <- f x ;; r <- collect f t ;; ret (y :: r)
  end.

(** the loop over the elements that match [q] *)
Definition over {B} (x : xml) (q : PpModel.query) (f : xml -> M B) : M (list B) :=
  n <- lift (nmatches x q) ;;
  collect (fun i => qe <- lift (sub_tree x q i) ;; f qe) (seq 0 n).

(** BuildAgent, xml_file_loader.cc 440-447. *)
Definition build_agent (proto : string) (parent : option nat) : M nat :=
  m <- create_agent None proto ;;
  do_cmd beh cond fuel (CBuild m parent) ;;
  match parent with
  | Some p => deref p ;; modify (emit (EBuildNotify p m)) ;; call beh cond fuel p (HBuildNotify p m)
  | None => ret tt
  end ;;
  ret m.

(** LoadInitialAgents of XMLFileLoader, xml_file_loader.cc 358-438.  schema_paths is a std::map:
    its keys Facility, Inst, Region come in this order. *)
Definition load_entry (inst : nat) (qe3 : xml) : M unit :=
  proto <- lift (get_string qe3 (path ["prototype"]) 0) ;;
  txt <- lift (get_string qe3 (path ["number"]) 0) ;;
  number <- lift (atoi txt) ;;
  each (fun _ => m <- build_agent proto (Some inst) ;; ret tt) (seq 0 (Z.to_nat number)).
Definition load_inst (reg : nat) (qe2 : xml) : M unit :=
  proto <- lift (get_string qe2 (path ["name"]) 0) ;;
  inst <- build_agent proto (Some reg) ;;
  over qe2 (path ["initialfacilitylist"; "entry"]) (load_entry inst) ;;
  ret tt.
Definition load_region (qe : xml) : M unit :=
  proto <- lift (get_string qe (path ["name"]) 0) ;;
  reg <- build_agent proto None ;;
  over qe (path ["institution"]) (load_inst reg) ;;
  ret tt.
Definition load_agents (specs : list spec) (x : xml) : M (list (nat * xml)) :=
  fs <- over x (path ["facility"]) (load_proto specs) ;;
  is <- over x (path ["region"; "institution"]) (load_proto specs) ;;
  rs <- over x (path ["region"]) (load_proto specs) ;;
  over x (path ["region"]) load_region ;;
  ret (fs ++ is ++ rs)%list.

(** LoadSpecs and LoadInitialAgents (LoadSim, xml_file_loader.cc 195-199). *)
Definition load_file (x : xml) : M (list (nat * xml)) :=
  specs <- lift (parse_specs x) ;; load_agents specs x.

(** ** The flat format *)

(** std::set<std::string>, and std::map<std::string, ...> with the last write winning *)
Fixpoint sset_ins (s : string) (l : list string) : list string :=
  match l with
  | [] => [s]
  | y :: t => match String.compare s y with Lt => s :: l | Eq => l | Gt => y :: sset_ins s t end
  end.
Fixpoint find_last {A} (s : string) (l : list (string * A)) : option A :=
  match l with
  | [] => None
  | (k, v) :: t => match find_last s t with Some r => Some r | None => if String.eqb k s then Some v else None end
  end.

(** the loop of 86-97: name, prototype and parent of an agent element *)
Definition read_agent (qe : xml) : M (string * (string * string)) :=
  name <- lift (get_string qe (path ["name"]) 0) ;;
  proto <- lift (get_string qe (path ["prototype"]) 0) ;;
  parent <- lift (opt_string qe (path ["parent"]) "") ;;
  ret (name, (proto, parent)).

(** the loop of 100-120.  [pre] and [post] are the agents before the iterator and from it on;
    [n] bounds the number of iterations. *)
Fixpoint place (n : nat) (table : list (string * (string * string))) (pre post : list string)
    (built : list (string * nat)) : M (list (string * nat)) :=
  match n with
  | O => fun s => (NoFuel, s)
  | S n =>
      match post with
      | [] => match pre with [] => ret built | _ => undef end
      | name :: post =>
          let next (pre post : list string) (built : list (string * nat)) :=
            match post with [] => place n table [] pre built | _ => place n table pre post built end in
          match find_last name table with
          | None => undef
          | Some (proto, parent) =>
              if String.eqb parent "" then
                a <- build_agent proto None ;; next pre post (List.app built [(name, a)])
              else match find_last parent built with
              | Some p => a <- build_agent proto (Some p) ;; next pre post (List.app built [(name, a)])
              | None => next (List.app pre [name]) post built
              end
          end
      end
  end.
(** LoadInitialAgents of XMLFlatLoader. *)
Definition load_flat_agents (n : nat) (specs : list spec) (x : xml) : M (list (nat * xml) * list (string * nat)) :=
  ps <- over x (path ["prototype"]) (load_proto specs) ;;
  table <- over x (path ["agent"]) read_agent ;;
  let agents := fold_left (fun acc e => sset_ins (fst e) acc) table [] in
  built <- place n table [] agents [] ;;
  ret (ps, built).
Definition load_flat_file (n : nat) (x : xml) : M (list (nat * xml) * list (string * nat)) :=
  specs <- lift (parse_specs x) ;; load_flat_agents n specs x.
End Loader.
