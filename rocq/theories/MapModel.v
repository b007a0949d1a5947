(** * MapModel: ResMap<K, R> (src/toolkit/res_map.h).

    Keys are integers (the code needs an ordered key type); the two std::maps are association lists in
    ascending key order.  Resource pointers are positions in [w_res]; [None] is a null pointer, whose
    dereference is [UB].  Iterators are represented by positions in key order. *)
From Verif Require Import Base CompModel PackageModel ResourceModel.
Open Scope Q_scope.

(** std::map operations on ascending association lists. *)
Fixpoint kfind {A} (k : Z) (m : list (Z * A)) : option A :=
  match m with
  | [] => None
  | (k', a) :: m' => if (k =? k')%Z then Some a else kfind k m'
  end.
Fixpoint kset {A} (k : Z) (a : A) (m : list (Z * A)) : list (Z * A) :=
  match m with
  | [] => [(k, a)]
  | (k', a') :: m' =>
      if (k =? k')%Z then (k, a) :: m'
      else if (k <? k')%Z then (k, a) :: m
      else (k', a') :: kset k a m'
  end.
Definition kdel {A} (k : Z) (m : list (Z * A)) : list (Z * A) := filter (fun p => negb (Z.eqb k (fst p))) m.

(** src/toolkit/res_map.h 228-242: the members. *)
Record rmap := mkMap {
  m_dirty : bool;                     (* dirty_quantity_ *)
  m_qty : Q;                          (* quantity_ *)
  m_res : list (Z * option nat);      (* resources_ *)
  m_obj : list (Z * Z)                (* obj_ids_ *)
}.
(** 43: the constructor. *)
Definition map_new : rmap := mkMap true 0 [] [].
Definition set_dirty m := mkMap true (m_qty m) (m_res m) (m_obj m).
Definition set_mres l m := mkMap (m_dirty m) (m_qty m) l (m_obj m).
Definition set_mobj l m := mkMap (m_dirty m) (m_qty m) (m_res m) l.

(** src/cyc_arithmetic.cc 9-33: sort_inplace_ascending and KahanSum, without rounding. *)
Fixpoint qinsert (x : Q) (l : list Q) : list Q :=
  match l with [] => [x] | y :: l' => if Qleb x y then x :: l else y :: qinsert x l' end.
Definition qsort (l : list Q) : list Q := fold_right qinsert [] l.
Definition kahan_step (st : Q * Q) (x : Q) : Q * Q :=
  let '(sum, c) := st in
  let y := x - c in
  let t := sum + y in
  (t, (t - sum) - y).
Definition kahan_sum (l : list Q) : Q := fst (fold_left kahan_step (qsort l) (0, 0)).

(** [it->second->quantity()] and [->obj_id()] of each entry. *)
Fixpoint entries (m : list (Z * option nat)) (w : world) : option (list (Z * resource)) :=
  match m with
  | [] => Some []
  | (k, p) :: m' =>
      match p with
      | None => None
      | Some i => match nth_error (w_res w) i, entries m' w with
                  | Some r, Some l => Some ((k, r) :: l)
                  | _, _ => None
                  end
      end
  end.

(** 207-226: UpdateQuantity. *)
Definition update_quantity (w : world) (m : rmap) : result unit * rmap :=
  match m_res m with
  | [] => (Ok tt, mkMap false 0 (m_res m) (m_obj m))
  | _ => match entries (m_res m) w with
         | Some l => (Ok tt, mkMap false (kahan_sum (map (fun p => r_qty (snd p)) l)) (m_res m) (m_obj m))
         | None => (UB, m)
         end
  end.

(** 66-70: quantity(). *)
Definition map_quantity (w : world) (m : rmap) : result Q * rmap :=
  if m_dirty m then
    let '(r, m') := update_quantity w m in
    (match r with Ok _ => Ok (m_qty m') | Throw e => Throw e | UB => UB end, m')
  else (Ok (m_qty m), m).

(** 72-79: obj_ids(). *)
Definition map_obj_ids (w : world) (m : rmap) : result (list (Z * Z)) * rmap :=
  match entries (m_res m) w with
  | Some l => let o := map (fun p => (fst p, r_obj (snd p))) l in (Ok o, set_mobj o m)
  | None => (UB, m)
  end.
(** 81-84: obj_ids(oi). *)
Definition map_set_obj_ids (o : list (Z * Z)) (m : rmap) : rmap := set_dirty (set_mobj o m).

(** 94-97: operator[], which inserts a null pointer if the key is absent; and [m[k] = r]. *)
Definition map_index (k : Z) (m : rmap) : option nat * rmap :=
  match kfind k (m_res m) with
  | Some p => (p, set_dirty m)
  | None => (None, set_dirty (set_mres (kset k None (m_res m)) m))
  end.
Definition map_assign (k : Z) (i : nat) (m : rmap) : rmap := set_dirty (set_mres (kset k (Some i) (m_res m)) m).

(** 106-109, 118-121: begin() and end() (non-const). *)
Definition map_begin (m : rmap) : rmap := set_dirty m.

(** 130-147: erase(iterator), erase(key), erase(first, last). *)
Definition map_erase_range (first last : nat) (w : world) (m : rmap) : result unit * rmap :=
  if Nat.leb first last && Nat.leb last (length (m_res m)) then
    update_quantity w (set_mres (firstn first (m_res m) ++ skipn last (m_res m)) m)
  else (UB, m).
Definition map_erase_it (pos : nat) (w : world) (m : rmap) : result unit * rmap :=
  if Nat.ltb pos (length (m_res m)) then map_erase_range pos (S pos) w m else (UB, m).
Definition map_erase_key (k : Z) (w : world) (m : rmap) : result unit * rmap :=
  update_quantity w (set_mres (kdel k (m_res m)) m).

(** 150-154: clear(). *)
Definition map_clear (m : rmap) : rmap := mkMap true (m_qty m) [] [].

(** 161-172: Values(). *)
Definition map_values (m : rmap) : list (option nat) := map snd (m_res m).

(** 180-192: Values(vals).  [lookup[id]] of an unknown id is the default key 0. *)
Definition lookup_of (o : list (Z * Z)) : list (Z * Z) := fold_left (fun l p => kset (snd p) (fst p) l) o [].
Fixpoint assign_values (vals : list (option nat)) (look : list (Z * Z)) (w : world) (m : rmap) : result unit * rmap :=
  match vals with
  | [] => (Ok tt, set_dirty m)
  | None :: _ => (UB, m)
  | Some i :: vals =>
      match nth_error (w_res w) i with
      | None => (UB, m)
      | Some r =>
          let k := match kfind (r_obj r) look with Some k => k | None => 0%Z end in
          let look' := match kfind (r_obj r) look with Some _ => look | None => kset (r_obj r) 0%Z look end in
          assign_values vals look' w (set_mres (kset k (Some i) (m_res m)) m)
      end
  end.
Definition map_set_values (vals : list (option nat)) (w : world) (m : rmap) : result unit * rmap :=
  assign_values vals (lookup_of (m_obj m)) w m.

(** 202-213: Pop(key). *)
Definition map_pop (k : Z) (m : rmap) : result (option nat) * rmap :=
  match kfind k (m_res m) with
  | None => (Throw KeyError, m)
  | Some p => (Ok p, set_dirty (set_mres (kdel k (m_res m)) m))
  end.

(** ** Histories of one map; [MOther o] is a resource operation made by other code. *)
Inductive mop :=
| MQuantity | MObjIds | MSetObjIds (o : list (Z * Z)) | MIndex (k : Z) | MAssign (k : Z) (i : nat) | MBegin
| MEraseIt (pos : nat) | MEraseKey (k : Z) | MEraseRange (first last : nat) | MClear | MValues
| MSetValues (vals : list (option nat)) | MPop (k : Z) | MOther (o : op).

Definition strip {A} (r : result A) : result unit := match r with Ok _ => Ok tt | Throw e => Throw e | UB => UB end.
Definition mstep (E : env) (o : mop) (s : world * rmap) : result unit * (world * rmap) :=
  let '(w, m) := s in
  match o with
  | MQuantity => let '(r, m') := map_quantity w m in (strip r, (w, m'))
  | MObjIds => let '(r, m') := map_obj_ids w m in (strip r, (w, m'))
  | MSetObjIds o => (Ok tt, (w, map_set_obj_ids o m))
  | MIndex k => (Ok tt, (w, snd (map_index k m)))
  | MAssign k i => (Ok tt, (w, map_assign k i m))
  | MBegin => (Ok tt, (w, map_begin m))
  | MEraseIt p => let '(r, m') := map_erase_it p w m in (r, (w, m'))
  | MEraseKey k => let '(r, m') := map_erase_key k w m in (r, (w, m'))
  | MEraseRange a b => let '(r, m') := map_erase_range a b w m in (r, (w, m'))
  | MClear => (Ok tt, (w, map_clear m))
  | MValues => (Ok tt, (w, m))
  | MSetValues v => let '(r, m') := map_set_values v w m in (r, (w, m'))
  | MPop k => let '(r, m') := map_pop k m in (strip r, (w, m'))
  | MOther o => let '(r, w') := step E o w in (r, (w', m))
  end.
