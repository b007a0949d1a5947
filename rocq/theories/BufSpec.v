(** * Specification vocabulary for resource buffers. *)
From Verif Require Import Base CompModel CompSpec PackageModel ResourceModel ResourceSpec BufModel.
Open Scope Q_scope.

(** A fresh buffer of type [T] in world [w]. *)
Definition fresh_buf (bulk keep : bool) (b : buf) : Prop := buf_new bulk keep = Ok b.

(** These resources can be mixed into one: all materials of non-negative quantity, or all products of
    one quality. *)
Definition mixable (w : world) (is : list nat) : Prop :=
  (forall i, In i is -> exists r c, nth_error (w_res w) i = Some r /\ r_qual r = QMat c /\ 0 <= r_qty r) \/
  (exists s, forall i, In i is -> exists r, nth_error (w_res w) i = Some r /\ r_qual r = QProd s).

(** What is asked of the code using the buffer.  A vector push does not list one object twice, and if
    the buffer is a bulk one, its elements can be mixed with each other and with the content.  Other
    code may do anything to resources, as long as it does not change the quantity of a resource while
    it is in the buffer. *)
Definition fair (T : elem) (o : bop) (s s' : world * buf) : Prop :=
  match o with
  | BPushV is =>
      NoDup is /\ (b_bulk (snd s) = true -> T <> EResource /\ mixable (fst s) (b_rs (snd s) ++ is))
  | BOther o => op_wf o /\ forall i, In i (b_rs (snd s)) -> qty_of (fst s') i = qty_of (fst s) i
  | _ => True
  end.

(** A history of one buffer: operations with their results, oldest first.  Exceptions are caught by the
    caller, and what they left behind is kept. *)
Inductive bhist (E : env) (T : elem) (s0 : world * buf) : list (bop * result (list nat)) -> world * buf -> Prop :=
| bh_start : bhist E T s0 [] s0
| bh_step tr s o res s' :
    bhist E T s0 tr s -> bstep E T o s = (res, s') -> res <> UB -> fair T o s s' ->
    bhist E T s0 (tr ++ [(o, res)]) s'.

(** C08: the buffer's accounting is right. *)
Definition accounted (w : world) (b : buf) : Prop :=
  quantity b == sum_qty w (b_rs b) /\ NoDup (b_rs b) /\
  (forall i, In i (b_rs b) -> exists r, nth_error (w_res w) i = Some r).

(** C09/C10: [outs] is what PopVector(q) takes from the queue [rs]: whole elements from the front as
    long as the total stays below [q], the last one split if it is too big; [rs'] is what is left. *)
Definition takes (w w' : world) (rs : list nat) (q : Q) (outs rs' : list nat) : Prop :=
  exists pre,
    (forall p l, pre = p ++ l -> l <> [] -> sum_qty w p < q) /\
    ((rs = pre ++ rs' /\ outs = pre /\ w' = w /\ (sum_qty w pre == q \/ q <= 0 /\ pre = [])) \/
     (exists i rest r l, rs = pre ++ i :: rest /\ rs' = i :: rest /\ outs = pre ++ [length (w_res w)] /\
        nth_error (w_res w) i = Some r /\ 0 < l < r_qty r /\ sum_qty w pre + l == q /\
        extracted w w' i r l (r_qual r) (Ok (length (w_res w))))).

(** A state some history of a fresh buffer leads to. *)
Definition in_use (E : env) (T : elem) (w : world) (b : buf) : Prop :=
  exists w0 bulk keep b0 tr, env_ok E /\ reachable E w0 /\ fresh_buf bulk keep b0 /\ bhist E T (w0, b0) tr (w, b).

(** C08, C11: an amount fits if it exceeds the space by at most eps_rsrc. *)
Definition fits (eps tot : Q) (b : buf) : Prop :=
  match space b with None => True | Some s => tot <= s + eps end.

(** C09: what went in and what came out, in order, in a history of a non-bulk buffer without PopBack
    and without pops by quantity. *)
Definition pushed (tr : list (bop * result (list nat))) : list nat :=
  flat_map (fun p => match p with (BPush i, Ok _) => [i] | (BPushV is, Ok _) => is | _ => [] end) tr.
Definition popped (tr : list (bop * result (list nat))) : list nat :=
  flat_map (fun p => match p with (BPop, Ok l) | (BPopN _, Ok l) => l | _ => [] end) tr.
Definition whole_front (o : bop) : Prop :=
  match o with BPopBack | BPopVector _ | BPopQty _ | BPopQtyEps _ _ => False | _ => True end.

(** What a push is given. *)
Definition push_list (o : bop) : option (list nat) :=
  match o with BPush i => Some [i] | BPushV is => Some is | _ => None end.
(** C08: a state in which no contained resource has a negative quantity, and an operation that, if it is
    a push, pushes more than eps_rsrc in total. *)
Definition sizable (E : env) (s : world * buf) (o : bop) : Prop :=
  (forall i r, In i (b_rs (snd s)) -> nth_error (w_res (fst s)) i = Some r -> 0 <= r_qty r) /\
  (forall is, push_list o = Some is -> e_eps E < sum_qty (fst s) is).
(** A history in which every operation is sizable. *)
Inductive bhist_sizable (E : env) (T : elem) (s0 : world * buf) : list (bop * result (list nat)) -> world * buf -> Prop :=
| bs_start : bhist_sizable E T s0 [] s0
| bs_step tr s o res s' :
    bhist_sizable E T s0 tr s -> bstep E T o s = (res, s') -> res <> UB -> fair T o s s' -> sizable E s o ->
    bhist_sizable E T s0 (tr ++ [(o, res)]) s'.
