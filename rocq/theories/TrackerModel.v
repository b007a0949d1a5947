(** * TrackerModel: TotalInvTracker (src/toolkit/total_inv_tracker.h).

    Buffers are positions in a heap of ResBuf<Material> objects (BufModel); an entry without a buffer is a
    dangling pointer ([UB]).  The member [qty_] only caches the result of quantity() during the call and
    is not modelled.  Doubles are exact rationals; the infinite capacity of a buffer is [None], the
    default capacity of the tracker is the largest double. *)
From Verif Require Import Base CompModel PackageModel ResourceModel BufModel.
Local Open Scope Q_scope.

(** 140-143: the members. *)
Record tracker := mkTrk { t_max : Q; t_bufs : list nat }.

(** 43: TotalInvTracker(). *)
Definition trk_new : tracker := mkTrk DBL_MAX [].

(** 54-64: Init.  The buffers are assigned before the capacity is checked. *)
Definition trk_init (bufs : list nat) (max : Q) (t : tracker) : result unit * tracker :=
  match bufs with
  | [] => (Throw ValueError, t)
  | _ =>
      let t := mkTrk (t_max t) bufs in
      if Qleb max 0 then (Throw ValueError, t) else (Ok tt, mkTrk max bufs)
  end.

(** 45-48: TotalInvTracker(bufs, max).  [None]: the object was not constructed. *)
Definition trk_make (bufs : list nat) (max : Q) : result unit * option tracker :=
  match trk_init bufs max trk_new with
  | (Ok tt, t) => (Ok tt, Some t)
  | (r, _) => (r, None)
  end.

(** 112-118: num_bufs. *)
Definition trk_num (t : tracker) : result Z :=
  match t_bufs t with [] => Throw ValueError | l => Ok (Z.of_nat (length l)) end.

Definition rbind {A B} (r : result A) (f : A -> result B) : result B :=
  match r with Ok a => f a | Throw e => Throw e | UB => UB end.

Section WithBufs.
Variable bufs : list buf.

(** The loop 71-73. *)
Fixpoint sum_quantity (l : list nat) (acc : Q) : result Q :=
  match l with
  | [] => Ok acc
  | i :: rest =>
      match nth_error bufs i with Some b => sum_quantity rest (acc + quantity b) | None => UB end
  end.
(** 68-75: quantity(). *)
Definition trk_quantity (t : tracker) : result Q :=
  rbind (trk_num t) (fun _ => sum_quantity (t_bufs t) 0).

(** The loop 89-91; [Some None] stands for infinity. *)
Fixpoint sum_capacity (l : list nat) (acc : option Q) : result (option Q) :=
  match l with
  | [] => Ok acc
  | i :: rest =>
      match nth_error bufs i with
      | Some b =>
          sum_capacity rest
            (match acc, b_cap b with Some a, Some c => Some (a + c) | _, _ => None end)
      | None => UB
      end
  end.
(** 86-93: total_capacity_bufs(). *)
Definition trk_capacity_bufs (t : tracker) : result (option Q) :=
  rbind (trk_num t) (fun _ => sum_capacity (t_bufs t) (Some 0)).

(** 80-82: capacity(), std::min of the two. *)
Definition trk_capacity (t : tracker) : result Q :=
  rbind (trk_capacity_bufs t) (fun c =>
  Ok (match c with Some c => qmin c (t_max t) | None => t_max t end)).

(** 96: tracker_capacity(). *)
Definition trk_own_capacity (t : tracker) : Q := t_max t.

(** 99: space(). *)
Definition trk_space (t : tracker) : result Q :=
  rbind (trk_capacity t) (fun c => rbind (trk_quantity t) (fun q => Ok (qmax 0 (c - q)))).

(** 103-105: constrained_buf_space(buf). *)
Definition trk_buf_space (i : nat) (t : tracker) : result Q :=
  match nth_error bufs i with
  | None => UB
  | Some b =>
      rbind (trk_space t) (fun s =>
      Ok (match space b with Some x => qmin x s | None => s end))
  end.

(** 108: empty(). *)
Definition trk_empty (t : tracker) : result bool :=
  rbind (trk_quantity t) (fun q => Ok (Qeqb q 0)).

(** 123-131: set_capacity(cap). *)
Definition trk_set_capacity (eps cap : Q) (t : tracker) : result unit * tracker :=
  match trk_quantity t with
  | Ok q => if Qltb eps (q - cap) then (Throw ValueError, t) else (Ok tt, mkTrk cap (t_bufs t))
  | Throw e => (Throw e, t)
  | UB => (UB, t)
  end.
End WithBufs.

(** 133-138: buf_in_tracker(buf). *)
Definition trk_has (i : nat) (t : tracker) : result bool :=
  rbind (trk_num t) (fun _ => Ok (existsb (Nat.eqb i) (t_bufs t))).
