(** * BufModel: the resource buffer ResBuf<T> (src/toolkit/res_buf.h) and Squash
    (src/toolkit/res_manip.cc), over the resource world of ResourceModel.

    Pointers to resources are positions in [w_res]; two pointers are equal iff the positions are.
    [int] counts are natural numbers or integers without overflow; doubles are exact rationals;
    the infinite capacity is [None]. *)
From Verif Require Import Base CompModel PackageModel ResourceModel.
Open Scope Q_scope.

(** The template argument T. *)
Inductive elem := EMaterial | EProduct | EResource.

(** src/toolkit/res_buf.h 368-384: the members. *)
Record buf := mkBuf {
  b_qty : Q;                (* qty_ *)
  b_cap : option Q;         (* cap_; None is INFINITY *)
  b_bulk : bool;            (* is_bulk_ *)
  b_keep : bool;            (* keep_packaging_ *)
  b_rs : list nat;          (* rs_, front first *)
  b_present : list nat      (* rs_present_, a set *)
}.
Definition set_b_qty q b := mkBuf q (b_cap b) (b_bulk b) (b_keep b) (b_rs b) (b_present b).
Definition set_b_cap c b := mkBuf (b_qty b) c (b_bulk b) (b_keep b) (b_rs b) (b_present b).
Definition set_b_keep k b := mkBuf (b_qty b) (b_cap b) (b_bulk b) k (b_rs b) (b_present b).
Definition set_b_rs l b := mkBuf (b_qty b) (b_cap b) (b_bulk b) (b_keep b) l (b_present b).
Definition set_b_present l b := mkBuf (b_qty b) (b_cap b) (b_bulk b) (b_keep b) (b_rs b) l.

(** State monad over the world and one buffer. *)
Definition BM (A : Type) := world * buf -> result A * (world * buf).
Definition bret {A} (a : A) : BM A := fun s => (Ok a, s).
Definition bthrow {A} (e : err) : BM A := fun s => (Throw e, s).
Definition bub {A} : BM A := fun s => (UB, s).
Definition bbind {A B} (m : BM A) (f : A -> BM B) : BM B := fun s =>
  match m s with
  | (Ok a, s') => f a s'
  | (Throw e, s') => (Throw e, s')
  | (UB, s') => (UB, s')
  end.
Declare Scope bm_scope.
Delimit Scope bm_scope with bm.
Notation "x <~ m ;; f" := (bbind m (fun x => f)) (at level 61, m at next level, right associativity) : bm_scope.
Notation "m ~; f" := (bbind m (fun _ => f)) (at level 61, right associativity) : bm_scope.
Open Scope bm_scope.
(** The buffer's fields, an update of them, and a call on a resource. *)
Definition bget : BM buf := fun s => (Ok (snd s), s).
Definition bmod (f : buf -> buf) : BM unit := fun s => (Ok tt, (fst s, f (snd s))).
Definition call {A} (m : M A) : BM A := fun s => let '(r, w) := m (fst s) in (r, (w, snd s)).

(** src/toolkit/res_buf.h 64-67: ResBuf(is_bulk, keep_pkg), which calls capacity(INFINITY) and
    keep_packaging(keep_pkg) (96-101, throwing for a bulk buffer that keeps packages). *)
Definition buf_new (bulk keep : bool) : result buf :=
  if bulk && keep then Throw ValueError else Ok (mkBuf 0 None bulk keep [] []).

(** 96-101: keep_packaging(k). *)
Definition buf_keep_packaging (k : bool) : BM unit :=
  b <~ bget;;
  if b_bulk b && k then bthrow ValueError else bmod (set_b_keep k).

(** 106, 110, 115, 118: count, quantity, space, empty. *)
Definition count (b : buf) : Z := Z.of_nat (length (b_rs b)).
Definition quantity (b : buf) : Q := b_qty b.
Definition space (b : buf) : option Q :=
  match b_cap b with None => None | Some c => Some (qmax 0 (c - b_qty b)) end.
Definition empty (b : buf) : bool := match b_rs b with [] => true | _ => false end.

(** rs_present_.erase, .insert, .count *)
Definition erase (i : nat) (l : list nat) : list nat := filter (fun j => negb (Nat.eqb i j)) l.
Definition insert (i : nat) (l : list nat) : list nat := if existsb (Nat.eqb i) l then l else l ++ [i].
Definition present (i : nat) (b : buf) : bool := existsb (Nat.eqb i) (b_present b).

(** boost::dynamic_pointer_cast<T> succeeds. *)
Definition casts (T : elem) (r : resource) : bool :=
  match T, r_qual r with
  | EMaterial, QMat _ => true
  | EProduct, QProd _ => true
  | EResource, _ => true
  | _, _ => false
  end.

(** T::Absorb(T::Ptr): Material::Absorb, Product::Absorb, and for T = Resource the throwing default of
    src/resource.h 93 (neither Material nor Product overrides that signature). *)
Definition absorb_as (T : elem) (E : env) (i j : nat) : M unit :=
  match T with EResource => throw PlainError | _ => absorb E i j end.

(** [a - space() > eps] *)
Definition too_big (eps a : Q) (b : buf) : bool :=
  match space b with None => false | Some s => Qltb eps (a - s) end.

Section WithEnv.
Variable E : env.
Variable T : elem.

(** 81-93: capacity(cap). *)
Definition buf_capacity (cap : option Q) : BM unit :=
  b <~ bget;;
  match cap with
  | None => bmod (set_b_cap None)
  | Some c =>
      if Qltb c 0 then bthrow ValueError
      else if Qltb (e_eps E) (b_qty b - c) then bthrow ValueError
      else bmod (set_b_cap (Some c))
  end.

(** 359-366: UpdateQty. *)
Definition update_qty : BM unit :=
  b <~ bget;;
  match b_rs b with
  | [] => bmod (set_b_qty 0)
  | [i] => r <~ call (rget i);; bmod (set_b_qty (r_qty r))
  | _ => bret tt
  end.

(** 140-158: the loop of PopVector.  The recursion is on a bound for the number of iterations: every
    iteration but the last shortens rs_, so [S (length rs_)] suffices (theorem
    [popvec_loop_fuel]); running out is [UB]. *)
Fixpoint popvec_loop (fuel : nat) (left : Q) : BM (list nat) :=
  match fuel with
  | O => bub
  | S fuel =>
      b <~ bget;;
      if Qltb 0 left then
        match b_rs b with
        | [] => bret []
        | i :: rest =>
            r <~ call (rget i);;
            out <~ (if Qltb left (r_qty r) then
                      call (extract_res E i left)          (* r stays at the front *)
                    else
                      bmod (set_b_rs rest) ~;
                      bmod (fun b => set_b_present (erase i (b_present b)) b) ~;
                      bret i);;
            o <~ call (rget out);;
            bmod (fun b => set_b_qty (b_qty b - r_qty o) b) ~;
            outs <~ popvec_loop fuel (left - r_qty r);;
            bret (out :: outs)
        end
      else bret []
  end.

(** 129-163: PopVector(qty). *)
Definition buf_pop_vector (q : Q) : BM (list nat) :=
  b <~ bget;;
  if Qltb (b_qty b) q then bthrow ValueError
  else
    outs <~ popvec_loop (S (length (b_rs b))) q;;
    update_qty ~;
    bret outs.

(** src/toolkit/res_manip.cc 7-49: Squash.  For T = Resource the vector is cast to Material if the
    first element is one, else to Product; an element of another class becomes a null pointer and
    Absorb dereferences it ([absorb] on a mixed pair is [UB]). *)
Fixpoint absorb_all (i : nat) (js : list nat) : M unit :=
  match js with
  | [] => ret tt
  | j :: rest => bind (absorb E i j) (fun _ => absorb_all i rest)
  end.
Definition squash (is : list nat) : M nat :=
  match is with
  | [] => throw PlainError
  | i :: rest =>
      bind (absorb_all i rest) (fun _ =>
      bind (change_package E i unpackaged_name) (fun _ => ret i))
  end.

(** 171-173: Pop(qty). *)
Definition buf_pop_qty (q : Q) : BM nat :=
  outs <~ buf_pop_vector q;; call (squash outs).

(** 204-212: the loop of PopN. *)
Fixpoint popn_loop (n : nat) : BM (list nat) :=
  match n with
  | O => bret []
  | S n =>
      b <~ bget;;
      match b_rs b with
      | [] => bub
      | i :: rest =>
          r <~ call (rget i);;
          bmod (fun b => set_b_qty (b_qty b - r_qty r) b) ~;
          bmod (set_b_rs rest) ~;
          bmod (fun b => set_b_present (erase i (b_present b)) b) ~;
          outs <~ popn_loop n;;
          bret (i :: outs)
      end
  end.

(** 197-216: PopN(n). *)
Definition buf_pop_n (n : Z) : BM (list nat) :=
  b <~ bget;;
  if (count b <? n)%Z || (n <? 0)%Z then bthrow ValueError
  else
    outs <~ popn_loop (Z.to_nat n);;
    update_qty ~;
    bret outs.

(** 178-190: Pop(qty, eps). *)
Definition buf_pop_qty_eps (q eps : Q) : BM nat :=
  b <~ bget;;
  if Qltb (b_qty b + eps) q then bthrow ValueError
  else if Qleb (b_qty b) q then
    outs <~ buf_pop_n (count b);; call (squash outs)
  else buf_pop_qty q.

(** 223-228: Peek. *)
Definition buf_peek : BM nat :=
  b <~ bget;;
  match b_rs b with [] => bthrow ValueError | i :: _ => bret i end.

(** 235-246: Pop. *)
Definition buf_pop : BM nat :=
  b <~ bget;;
  match b_rs b with
  | [] => bthrow ValueError
  | i :: rest =>
      bmod (set_b_rs rest) ~;
      bmod (fun b => set_b_present (erase i (b_present b)) b) ~;
      r <~ call (rget i);;
      bmod (fun b => set_b_qty (b_qty b - r_qty r) b) ~;
      update_qty ~;
      bret i
  end.

(** 249-260: PopBack. *)
Definition buf_pop_back : BM nat :=
  b <~ bget;;
  match rev (b_rs b) with
  | [] => bthrow ValueError
  | i :: rest =>
      bmod (set_b_rs (rev rest)) ~;
      bmod (fun b => set_b_present (erase i (b_present b)) b) ~;
      r <~ call (rget i);;
      bmod (fun b => set_b_qty (b_qty b - r_qty r) b) ~;
      update_qty ~;
      bret i
  end.

(** 284-293 and 336-346: put one resource in. *)
Definition put (i : nat) : BM unit :=
  b <~ bget;;
  match b_rs b with
  | front :: _ =>
      if b_bulk b then call (absorb_as T E front i)
      else
        (if b_keep b then bret tt else call (change_package E i unpackaged_name)) ~;
        bmod (fun b => set_b_rs (b_rs b ++ [i]) b) ~;
        bmod (fun b => set_b_present (insert i (b_present b)) b)
  | [] =>
      (if b_keep b then bret tt else call (change_package E i unpackaged_name)) ~;
      bmod (fun b => set_b_rs (b_rs b ++ [i]) b) ~;
      bmod (fun b => set_b_present (insert i (b_present b)) b)
  end.

(** 272-296: Push(r). *)
Definition buf_push (i : nat) : BM unit :=
  r <~ call (rget i);;
  b <~ bget;;
  if negb (casts T r) then bthrow CastError
  else if too_big (e_eps E) (r_qty r) b then bthrow ValueError
  else if present i b then bthrow KeyError
  else
    put i ~;
    r' <~ call (rget i);;
    bmod (fun b => set_b_qty (b_qty b + r_qty r') b) ~;
    update_qty.

(** 315-322: cast every element. *)
Fixpoint cast_all (is : list nat) : M unit :=
  match is with
  | [] => ret tt
  | i :: rest => bind (rget i) (fun r => if casts T r then cast_all rest else throw CastError)
  end.
(** 324-327: the total quantity. *)
Fixpoint sum_all (is : list nat) (acc : Q) : M Q :=
  match is with
  | [] => ret acc
  | i :: rest => bind (rget i) (fun r => sum_all rest (acc + r_qty r))
  end.
Fixpoint put_all (is : list nat) : BM unit :=
  match is with
  | [] => bret tt
  | i :: rest => put i ~; put_all rest
  end.

(** 312-349: Push(vector). *)
Definition buf_push_vector (is : list nat) : BM unit :=
  call (cast_all is) ~;
  tot <~ call (sum_all is 0);;
  b <~ bget;;
  if too_big (e_eps E) tot b then bthrow ValueError
  else if existsb (fun i => present i b) is then bthrow KeyError
  else
    put_all is ~;
    bmod (fun b => set_b_qty (b_qty b + tot) b).

(** 354-358: Decay(curr_time). *)
Fixpoint decay_all (is : list nat) (t : Z) : M unit :=
  match is with
  | [] => ret tt
  | i :: rest => bind (res_decay E i t) (fun _ => decay_all rest t)
  end.
Definition buf_decay (t : Z) : BM unit :=
  b <~ bget;; call (decay_all (b_rs b) t).

(** ** Histories of one buffer.  [BOther o] is any resource operation made by other code. *)
Inductive bop :=
| BCapacity (c : option Q) | BKeep (k : bool)
| BPush (i : nat) | BPushV (is : list nat)
| BPop | BPopBack | BPopN (n : Z) | BPopVector (q : Q) | BPopQty (q : Q) | BPopQtyEps (q eps : Q)
| BPeek | BDecay (t : Z) | BOther (o : op).

(** What the call hands back to the caller. *)
Definition one (m : BM nat) : BM (list nat) := x <~ m;; bret [x].
Definition none (m : BM unit) : BM (list nat) := m ~; bret [].

Definition bstep (o : bop) : BM (list nat) :=
  match o with
  | BCapacity c => none (buf_capacity c)
  | BKeep k => none (buf_keep_packaging k)
  | BPush i => none (buf_push i)
  | BPushV is => none (buf_push_vector is)
  | BPop => one buf_pop
  | BPopBack => one buf_pop_back
  | BPopN n => buf_pop_n n
  | BPopVector q => buf_pop_vector q
  | BPopQty q => one (buf_pop_qty q)
  | BPopQtyEps q e => one (buf_pop_qty_eps q e)
  | BPeek => one buf_peek
  | BDecay t => none (buf_decay t)
  | BOther o => none (call (step E o))
  end.
End WithEnv.
