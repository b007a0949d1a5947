(** * SpecModel: agent specifications (src/dynamic_module.cc 19-68). *)
From Coq Require Import Ascii.
From Verif Require Import Base.
Local Open Scope string_scope.

(** dynamic_module.h 38-42. *)
Record spec := mkSpec { sp_path : string; sp_lib : string; sp_agent : string; sp_alias : string }.

(** dynamic_module.cc 19-33, AgentSpec(path, lib, agent, alias): line 31 assigns the parameter [alias], not
    the member [alias_]. *)
Definition spec_new (path lib agent alias : string) : spec :=
  mkSpec path (if String.eqb lib "" then agent else lib) agent alias.

(** 35-40, AgentSpec(InfileTree); [None]: the element is missing.  GetString throws KeyError. *)
Definition spec_infile (name lib path alias : option string) : result spec :=
  match name with
  | None => Throw KeyError
  | Some a => Ok (mkSpec (match path with Some x => x | None => "" end) (match lib with Some x => x | None => a end)
                    a (match alias with Some x => x | None => a end))
  end.

(** boost::split(strs, s, is_any_of(":")): adjacent separators are not merged. *)
Fixpoint split_colon (s : string) : list string :=
  match s with
  | EmptyString => [""]
  | String c s =>
      if Ascii.eqb c ":" then "" :: split_colon s
      else match split_colon s with h :: t => String c h :: t | [] => [String c ""] end
  end.
(** 42-52, AgentSpec(str_spec). *)
Definition spec_parse (s : string) : result spec :=
  match split_colon s with
  | [path; lib; agent] => Ok (mkSpec path lib agent agent)
  | _ => Throw ValueError
  end.
(** 67-69, str. *)
Definition spec_str (x : spec) : string := sp_path x ++ ":" ++ sp_lib x ++ ":" ++ sp_agent x.
(** boost::replace_all with one-character arguments. *)
Fixpoint replace_char (a b : ascii) (s : string) : string :=
  match s with
  | EmptyString => EmptyString
  | String c s => String (if Ascii.eqb c a then b else c) (replace_char a b s)
  end.
(** 54-61, Sanitize. *)
Definition sanitize (x : spec) : string :=
  replace_char "." "_" (replace_char ":" "_" (replace_char "-" "_" (replace_char "/" "_" (spec_str x)))).
