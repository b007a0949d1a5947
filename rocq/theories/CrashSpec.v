(** * Specification: when is a resource operation a valid call?  (C51) *)
From Coq Require Import String List.
From Verif Require Import Base CompModel PackageModel ResourceModel.
Import ListNotations.
Open Scope Q_scope.

(** Resource [i] exists; it exists and is a Material / a Product; composition [c] exists. *)
Definition handle (w : world) (i : nat) : Prop := exists r, nth_error (w_res w) i = Some r.
Definition is_material (r : resource) : Prop := exists c, r_qual r = QMat c.
Definition mat_handle (w : world) (i : nat) : Prop := exists r, nth_error (w_res w) i = Some r /\ is_material r.
Definition prod_handle (w : world) (i : nat) : Prop := exists r, nth_error (w_res w) i = Some r /\ ~ is_material r.
Definition comp_handle (w : world) (c : nat) : Prop := exists x, nth_error (w_comps w) c = Some x.

(** The caller keeps the rules of C++: handles of live objects of the right class, and, for packaging with
    sampled fills, as many samples as the loop draws and no integer overflow in the number of packages. *)
Definition valid_op (E : env) (w : world) (o : op) : Prop :=
  match o with
  | ONewComp _ _ | OCreateProd _ _ _ _ | OCreateProdUntracked _ _ | OAdvance => True
  | OCompDecay c _ _ | OCreateMat _ _ c _ | OCreateMatUntracked _ c => comp_handle w c
  | OClone i | OExtract i _ | ODecay i _ | OPackageExtract i _ _ | OChangePackage i _ => handle w i
  | OExtractComp i _ c _ | OTransmute i c => mat_handle w i /\ comp_handle w c
  | OAbsorb i j => (mat_handle w i /\ mat_handle w j) \/ (prod_handle w i /\ prod_handle w j)
  | OComp i => mat_handle w i
  | OPackage i p samples => exists r, nth_error (w_res w) i = Some r /\
      exists a rest, get_fill_mass (e_eps E) p samples (r_qty r) = Some (a, rest) /\ a <> UB
  end.

(** Operations other than Product::CreateUntracked. *)
Definition no_untracked_product (o : op) : Prop :=
  match o with OCreateProdUntracked _ _ => False | _ => True end.

(** Every call of a history is valid in the world it is made in ([after]: the world a call leaves, whether it
    returns or throws). *)
Definition after (E : env) (o : op) (w : world) : world := snd (step E o w).
Fixpoint valid_history (E : env) (ops : list op) (w : world) : Prop :=
  match ops with
  | [] => True
  | o :: rest => valid_op E w o /\ valid_history E rest (after E o w)
  end.
