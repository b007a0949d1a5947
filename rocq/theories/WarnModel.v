(** * WarnModel: warnings and log entries.

    Models src/error.h 83-141, src/error.cc 13-34, src/logger.h and src/logger.cc.  What is printed is
    a list of lines. *)
From Verif Require Import Base.
Open Scope string_scope.
Open Scope list_scope.

(** ** Warnings (error.h 83-94) *)
Inductive kind :=
| WARNING | VALUE_WARNING | KEY_WARNING | STATE_WARNING | IO_WARNING | CAST_WARNING
| VALIDATION_WARNING | DEPRECATION_WARNING | PENDING_DEPRECATION_WARNING | EXPERIMENTAL_WARNING.

Definition kind_eq_dec (a b : kind) : {a = b} + {a <> b}.
Proof. decide equality. Defined.
Definition kind_eqb (a b : kind) : bool := if kind_eq_dec a b then true else false.

(** error.cc 20-33. *)
Definition prefix (k : kind) : string :=
  match k with
  | WARNING => "Warning"
  | VALUE_WARNING => "Value Warning"
  | KEY_WARNING => "Key Warning"
  | STATE_WARNING => "State Warning"
  | IO_WARNING => "I/O Warning"
  | CAST_WARNING => "Cast Warning"
  | VALIDATION_WARNING => "Validation Warning"
  | DEPRECATION_WARNING => "Deprecation Warning"
  | PENDING_DEPRECATION_WARNING => "Pending Deprecation Warning"
  | EXPERIMENTAL_WARNING => "Experimental Warning"
  end.

(** The settings and counters (error.cc 13-18): [unsigned int]s of 32 bits. *)
Record warner := { limit : Z; as_error : bool; count : kind -> Z }.
Definition fresh (l : Z) (e : bool) : warner := {| limit := l; as_error := e; count := fun _ => 0%Z |}.

(** Warn, error.h 114-141: the counters, the lines printed and the outcome. *)
Definition warn (k : kind) (msg : string) (w : warner) : warner * list string * result unit :=
  if as_error w then
    (w, [], Throw match k with
                  | VALUE_WARNING => ValueError
                  | KEY_WARNING => KeyError
                  | STATE_WARNING => StateError
                  | IO_WARNING => IOError
                  | CAST_WARNING => CastError
                  | VALIDATION_WARNING => ValidationError
                  | _ => PlainError
                  end)
  else
    let cnt := count w k in
    let w' := {| limit := limit w; as_error := as_error w;
                 count := fun j => if kind_eqb j k then ((cnt + 1) mod 2 ^ 32)%Z else count w j |} in
    let lines :=
      if (cnt <? limit w)%Z then [String.append (prefix k) (String.append ": " msg)]
      else if (cnt =? 0)%Z then []
      else if (cnt =? limit w)%Z
           then [String.append "Further " (String.append (prefix k) "s will be suppressed.")]
      else [] in
    (w', lines, Ok tt).

(** A sequence of warnings, and what each printed. *)
Fixpoint warn_all (ws : list (kind * string)) (w : warner) : warner * list (kind * string) :=
  match ws with
  | [] => (w, [])
  | (k, m) :: r =>
      let '(w1, lines, _) := warn k m w in
      let (w2, out) := warn_all r w1 in
      (w2, map (fun l => (k, l)) lines ++ out)
  end.

(** ** Log entries (logger.h 35-63, 85-113; logger.cc 8-15) *)
Inductive source := Agent | Core | Memory.            (* LOG, CLOG, MLOG *)
Record logger := { report : nat; no_agent : bool; no_mem : bool }.
Definition start : logger := {| report := 0; no_agent := false; no_mem := false |}.

(** The settings: ReportLevel, NoAgent and NoMem by reference (as the command line of cli/cyclus.cc
    510-521 does), SetReportLevel, SetNoAgent and SetNoMem (as cyclus/lib.pyx 729-739 does). *)
Inductive setting :=
| ReportLevel (l : nat) | NoAgent (b : bool) | NoMem (b : bool) | SetNoMem (b : bool).
Definition set (s : logger) (x : setting) : logger :=
  match x with
  | ReportLevel l => {| report := l; no_agent := no_agent s; no_mem := no_mem s |}
  | NoAgent b => {| report := report s; no_agent := b; no_mem := no_mem s |}
  | NoMem b => {| report := report s; no_agent := no_agent s; no_mem := b |}
  | SetNoMem b => {| report := report s; no_agent := b; no_mem := no_mem s |}
  end.
Definition settings (h : list setting) : logger := fold_left set h start.

(** The macros, logger.h 35-45. *)
Definition printed (s : logger) (src : source) (level : nat) : bool :=
  match src with
  | Agent => negb (Nat.ltb (report s) level || no_agent s)
  | Core => negb (Nat.ltb (report s) level)
  | Memory => negb (Nat.ltb (report s) level || no_mem s)
  end.

(** The names of the levels, logger.cc 43-56; ToLogLevel, logger.cc 59-65. *)
Definition level_names : list string :=
  ["LEV_ERROR"; "LEV_WARN"; "LEV_INFO1"; "LEV_INFO2"; "LEV_INFO3"; "LEV_INFO4"; "LEV_INFO5";
   "LEV_DEBUG1"; "LEV_DEBUG2"; "LEV_DEBUG3"; "LEV_DEBUG4"; "LEV_DEBUG5"].
Fixpoint position_in (t : string) (l : list string) (i : nat) : option nat :=
  match l with
  | [] => None
  | x :: r => if String.eqb t x then Some i else position_in t r (S i)
  end.
Definition to_level (t : string) : nat :=
  match position_in t level_names 0 with Some i => i | None => 0 end.
