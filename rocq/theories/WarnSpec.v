(** * WarnSpec *)
From Verif Require Import Base WarnModel.
Open Scope string_scope.
Open Scope list_scope.

(** The messages (lines) of one kind, in order. *)
Definition of_kind (k : kind) (l : list (kind * string)) : list string :=
  map snd (filter (fun x => if kind_eq_dec (fst x) k then true else false) l).

(** What a user sees of the warnings of one kind: the first ones up to the limit, then one notice. *)
Definition seen (k : kind) (limit : nat) (msgs : list string) : list string :=
  map (fun m => String.append (prefix k) (String.append ": " m)) (firstn limit msgs) ++
  (if Nat.ltb 0 limit && Nat.ltb limit (length msgs)
   then [String.append "Further " (String.append (prefix k) "s will be suppressed.")] else []).

(** The exception that a warning turned into an error is. *)
Definition error_of (k : kind) : err :=
  match k with
  | VALUE_WARNING => ValueError
  | KEY_WARNING => KeyError
  | STATE_WARNING => StateError
  | IO_WARNING => IOError
  | CAST_WARNING => CastError
  | VALIDATION_WARNING => ValidationError
  | _ => PlainError
  end.

(** The last value set of each setting. *)
Definition last_set {A} (says : setting -> option A) (d : A) (h : list setting) : A :=
  fold_left (fun acc x => match says x with Some v => v | None => acc end) h d.
Definition says_report (x : setting) : option nat := match x with ReportLevel l => Some l | _ => None end.
Definition says_no_agent (x : setting) : option bool := match x with NoAgent b => Some b | _ => None end.
Definition says_no_mem (x : setting) : option bool := match x with NoMem b => Some b | _ => None end.
