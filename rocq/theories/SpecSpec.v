(** * Specification vocabulary for agent specifications (C45). *)
From Coq Require Import Ascii.
From Verif Require Import Base SpecModel.
Local Open Scope string_scope.

(** The characters of a string. *)
Fixpoint chars (s : string) : list ascii := match s with EmptyString => [] | String c s => c :: chars s end.
Definition colons (s : string) : nat := count_occ ascii_dec (chars s) ":"%char.
(** No part contains the separator. *)
Definition plain (x : spec) : Prop := colons (sp_path x) = 0%nat /\ colons (sp_lib x) = 0%nat /\ colons (sp_agent x) = 0%nat.
(** Same archetype: same path, library and agent (the alias is a name given by the input file). *)
Definition same_archetype (x y : spec) : Prop := sp_path x = sp_path y /\ sp_lib x = sp_lib y /\ sp_agent x = sp_agent y.
(** The characters that do not survive in a table name. *)
Definition unsafe (c : ascii) : Prop := c = "/"%char \/ c = "-"%char \/ c = ":"%char \/ c = "."%char.
(** [c] and [d] look alike in a table name. *)
Definition alike (c d : ascii) : Prop := c = d \/ ((unsafe c \/ c = "_"%char) /\ (unsafe d \/ d = "_"%char)).
