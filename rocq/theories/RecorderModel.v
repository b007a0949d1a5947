(** The recorder: recorder.cc/.h and datum.cc.

    Simplifications.
    - Datum objects live in the array data_; a Datum* is the number of the array (set_dump_count allocates a new one)
      and a position in it. Using a pointer into an array that was deleted is undefined behaviour.
    - The const char* copy of field names is not modelled (only the std::string one).
    - Values are opaque. Which Notify or Flush calls of a backend throw is an argument, a function of all calls made
      before. Backends only use their argument during the call. *)
From Coq Require Import String List ZArith Bool Arith Lia.
From Verif Require Import Base.
Import ListNotations.

Section Recorder.
Context {V : Type}.

(** class Datum, datum.h 86-92: title_, and (fields_, vals_, shapes_). *)
Record datum := mkDatum { d_title : string; d_vals : list (string * V * list Z) }.
(** A call of a backend: its number, and the batch passed to Notify, or Flush. *)
Inductive bcall := BNotify (b : nat) (l : list datum) | BFlush (b : nat).
(** class Recorder, recorder.h 94-99; [gen] counts the arrays allocated so far; [calls] is the list of calls made. *)
Record recorder := mkRec {
  data : list datum; index : nat; backs : list nat; dump : nat; simid : V; inject : bool; gen : nat; calls : list bcall }.
Variable bad : nat -> list bcall -> bcall -> bool.

(** A new datum of set_dump_count, recorder.cc 58-63. *)
Definition blank (r : recorder) : datum := mkDatum "" (if inject r then [("SimId"%string, simid r, [])] else []).
(** Recorder::set_dump_count, recorder.cc 52-67. *)
Definition set_dump_count (n : nat) (r : recorder) : recorder :=
  mkRec (repeat (blank r) n) (index r) (backs r) n (simid r) (inject r) (S (gen r)) (calls r).
(** The constructors, recorder.cc 13-31. *)
Definition new_recorder (n : nat) (id : V) (inj : bool) : recorder :=
  set_dump_count n (mkRec [] 0 [] 0 id inj 0 []).

Definition with_data (f : list datum -> list datum) (r : recorder) : recorder :=
  mkRec (f (data r)) (index r) (backs r) (dump r) (simid r) (inject r) (gen r) (calls r).
Definition with_index (n : nat) (r : recorder) : recorder :=
  mkRec (data r) n (backs r) (dump r) (simid r) (inject r) (gen r) (calls r).

(** Recorder::NewDatum, recorder.cc 69-84: vals_.resize(1) keeps the SimId. *)
Definition new_datum (t : string) (r : recorder) : result (nat * nat) * recorder :=
  match nth_error (data r) (index r) with
  | None => (UB, r)
  | Some d =>
      (Ok (gen r, index r),
       with_index (S (index r)) (with_data (fun l => upd l (index r) (mkDatum t (if inject r then firstn 1 (d_vals d) else []))) r))
  end.
(** Datum::AddVal, datum.cc 11-32. *)
Definition add_val (h : nat * nat) (f : string) (v : V) (sh : list Z) (r : recorder) : result unit * recorder :=
  if Nat.eqb (fst h) (gen r) then
    match nth_error (data r) (snd h) with
    | None => (UB, r)
    | Some d => (Ok tt, with_data (fun l => upd l (snd h) (mkDatum (d_title d) (d_vals d ++ [(f, v, sh)]))) r)
    end
  else (UB, r).

(** One call of a backend; it may throw. *)
Definition backend (b : nat) (c : bcall) (r : recorder) : result unit * recorder :=
  (if bad b (calls r) c then Throw IOError else Ok tt,
   mkRec (data r) (index r) (backs r) (dump r) (simid r) (inject r) (gen r) (calls r ++ [c])).
Fixpoint each_back (f : nat -> list bcall) (bs : list nat) (r : recorder) : result unit * recorder :=
  match bs with
  | [] => (Ok tt, r)
  | b :: t =>
      (fix go (cs : list bcall) (r : recorder) : result unit * recorder :=
         match cs with
         | [] => each_back f t r
         | c :: cs => match backend b c r with (Ok _, r1) => go cs r1 | p => p end
         end) (f b) r
  end.
(** Recorder::NotifyBackends, recorder.cc 105-111. *)
Definition notify_backends (r : recorder) : result unit * recorder :=
  each_back (fun b => [BNotify b (data r)]) (backs r) (with_index 0 r).
(** Recorder::AddDatum, recorder.cc 86-90, called by Datum::Record, datum.cc 35-37. *)
Definition record (h : nat * nat) (r : recorder) : result unit * recorder :=
  if Nat.eqb (fst h) (gen r) then
    if Nat.leb (length (data r)) (index r) then notify_backends r else (Ok tt, r)
  else (UB, r).
(** Recorder::Flush, recorder.cc 92-103. tmp.resize(index_) is the beginning of data_ as long as index_ is within it. *)
Definition flush (r : recorder) : result unit * recorder :=
  if Nat.eqb (index r) 0 then (Ok tt, r)
  else if Nat.leb (index r) (length (data r)) then
    each_back (fun b => [BNotify b (firstn (index r) (data r)); BFlush b]) (backs r) (with_index 0 r)
  else (UB, r).
(** Recorder::RegisterBackend, recorder.cc 113-115. *)
Definition register_backend (b : nat) (r : recorder) : recorder :=
  mkRec (data r) (index r) (backs r ++ [b]) (dump r) (simid r) (inject r) (gen r) (calls r).
(** Recorder::Close, recorder.cc 117-120. *)
Definition close (r : recorder) : result unit * recorder :=
  match flush r with
  | (Ok _, r1) => (Ok tt, mkRec (data r1) (index r1) [] (dump r1) (simid r1) (inject r1) (gen r1) (calls r1))
  | p => p
  end.
(** Recorder::inject_sim_id, recorder.h 69-76. *)
Definition set_inject (x : bool) (r : recorder) : result unit * recorder :=
  if Bool.eqb x (inject r) then (Ok tt, r)
  else match flush r with
       | (Ok _, r1) =>
           (Ok tt, set_dump_count (dump r1) (mkRec (data r1) (index r1) (backs r1) (dump r1) (simid r1) x (gen r1) (calls r1)))
       | p => p
       end.

(** The idiom NewDatum(t)->AddVal(..)->...->AddVal(..)->Record(). *)
Fixpoint add_vals (h : nat * nat) (l : list (string * V * list Z)) (r : recorder) : result unit * recorder :=
  match l with
  | [] => (Ok tt, r)
  | (f, v, sh) :: t => match add_val h f v sh r with (Ok _, r1) => add_vals h t r1 | p => p end
  end.
Definition put (t : string) (l : list (string * V * list Z)) (r : recorder) : result unit * recorder :=
  match new_datum t r with
  | (Ok h, r1) => match add_vals h l r1 with (Ok _, r2) => record h r2 | p => p end
  | (Throw e, r1) => (Throw e, r1)
  | (UB, r1) => (UB, r1)
  end.

(** Programs that only use that idiom and do not change the dump count. *)
Inductive rop := OPut (t : string) (l : list (string * V * list Z)) | OFlush | OReg (b : nat) | OClose | OInject (x : bool).
Definition run_op (o : rop) (r : recorder) : result unit * recorder :=
  match o with
  | OPut t l => put t l r
  | OFlush => flush r
  | OReg b => (Ok tt, register_backend b r)
  | OClose => close r
  | OInject x => set_inject x r
  end.
(** Exceptions of single operations are caught by the caller; only undefined behaviour ends the program. *)
Fixpoint run_ops (l : list rop) (r : recorder) : result unit * recorder :=
  match l with
  | [] => (Ok tt, r)
  | o :: t => match run_op o r with (UB, r1) => (UB, r1) | (_, r1) => run_ops t r1 end
  end.
End Recorder.
