(** * RecCtxSpec: what was last said. *)
From Coq Require Import Sorting.Sorted.
From Verif Require Import Base RecCtxModel.
Open Scope string_scope.
Open Scope list_scope.

(** What the last call that says something says; an empty string when none did. *)
Definition last_said (says : op -> option string) (h : list op) : string :=
  fold_left (fun acc o => match says o with Some x => x | None => acc end) h "".

(** What a call says of the output commodity, input recipe and output recipe of an input commodity,
    and of the commodity of a resource. *)
Definition says_out_commod (c : string) (o : op) : option string :=
  match o with AddInCommod ic _ oc _ => if String.eqb ic c then Some oc else None | _ => None end.
Definition says_in_recipe (c : string) (o : op) : option string :=
  match o with
  | AddInCommod ic ir _ _ => if String.eqb ic c then Some ir else None
  | UpdateInRec ic r => if String.eqb ic c then Some r else None
  | _ => None
  end.
Definition says_out_recipe (c : string) (o : op) : option string :=
  match o with AddInCommod ic _ _ ort => if String.eqb ic c then Some ort else None | _ => None end.
Definition says_commod (id : Z) (o : op) : option string :=
  match o with
  | AddRsrc c i | UpdateRsrc c i => if Z.eqb i id then Some c else None
  | RemoveRsrc i => if Z.eqb i id then Some "" else None
  | _ => None
  end.

(** The input commodity was added. *)
Definition added (c : string) (h : list op) : Prop := exists ir oc ort, In (AddInCommod c ir oc ort) h.

(** The same answer to every question about an added commodity or about a resource. *)
Definition same_answers (cs : string -> Prop) (s s' : ctx) : Prop :=
  (forall c, cs c -> answer s (AskOutCommod c) = answer s' (AskOutCommod c) /\
                     answer s (AskInRecipe c) = answer s' (AskInRecipe c) /\
                     answer s (AskOutRecipe c) = answer s' (AskOutRecipe c)) /\
  (forall id, answer s (AskCommod id) = answer s' (AskCommod id)).
