(** * Specification vocabulary for the total inventory tracker (C41). *)
From Verif Require Import Base CompModel PackageModel ResourceModel ResourceSpec BufModel BufSpec TrackerModel.
Local Open Scope Q_scope.

(** The tracked buffers of a heap, in order; every pointer must point to a buffer. *)
Inductive tracks (bufs : list buf) : list nat -> list buf -> Prop :=
| tracks_nil : tracks bufs [] []
| tracks_cons i l b bs : nth_error bufs i = Some b -> tracks bufs l bs -> tracks bufs (i :: l) (b :: bs).

(** The mass that really is in some buffers: of every resource they hold. *)
Definition content (w : world) (bs : list buf) : Q := qsum (map (fun b => sum_qty w (b_rs b)) bs).

(** Sums of quantities that may be infinite ([None]). *)
Definition osum (l : list (option Q)) : option Q :=
  fold_right (fun a s => match a, s with Some x, Some y => Some (x + y) | _, _ => None end) (Some 0) l.
(** [a <= b] where [b] may be infinite. *)
Definition ole (a : Q) (b : option Q) : Prop := match b with Some y => a <= y | None => True end.
Definition within_capacity (b : buf) : Prop := ole (quantity b) (b_cap b).

(** What a client can do: (re-)initialise the tracker, change its capacity, or let the buffers change in
    any way.  The state is the heap of buffers and the tracker. *)
Inductive trk_op := TInit (bufs : list nat) (max : Q) | TSet (cap : Q) | TBufs (new : list buf).
Definition trk_step (eps : Q) (o : trk_op) (s : list buf * tracker) : result unit * (list buf * tracker) :=
  let '(bufs, t) := s in
  match o with
  | TInit l m => let '(r, t') := trk_init l m t in (r, (bufs, t'))
  | TSet c => let '(r, t') := trk_set_capacity bufs eps c t in (r, (bufs, t'))
  | TBufs new => (Ok tt, (new, t))
  end.
Inductive trk_hist (eps : Q) : list (trk_op * result unit) -> list buf * tracker -> Prop :=
| th_new bufs : trk_hist eps [] (bufs, trk_new)
| th_step tr s o r s' : trk_hist eps tr s -> trk_step eps o s = (r, s') -> r <> UB ->
    trk_hist eps (tr ++ [(o, r)]) s'.
(** The limit last accepted: by a successful Init or set_capacity. *)
Definition limit_set (tr : list (trk_op * result unit)) : Q :=
  fold_left (fun m p => match p with (TInit _ c, Ok _) | (TSet c, Ok _) => c | _ => m end) tr DBL_MAX.
