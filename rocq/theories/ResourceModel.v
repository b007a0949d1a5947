(** * Model of resources: Composition, Material, Product, ResTracker, Resource::Package.

    Definitions only.  Pointers are indices into the list heaps of [world]; shared_ptr lifetimes are
    not modelled (objects are never freed).  C++ [double] is [Q]; [int] ids and times are [Z]
    without overflow.  The output database is the sequence of datums handed to the Recorder. *)
From Verif Require Import Base CompModel PackageModel.
Open Scope Q_scope.

(** ** Environment: configuration and external code *)
Record env := mkEnv {
  e_eps : Q;                              (** eps_rsrc(), src/cyc_limits.h.in *)
  e_decay : string;                       (** SimInfo::decay: "never", "manual" or "lazy" *)
  e_dt : Z;                               (** SimInfo::dt, seconds per time step *)
  e_pkgs : list (string * package);       (** Context::packages_ *)
  e_isnuc : Z -> bool;                    (** pyne::nucname::isnuclide *)
  e_amass : Z -> Q;                       (** pyne::atomic_mass *)
  e_change : Z -> Z -> Z -> Q;            (** nuc secs dt: 1 - exp(-decay_const(nuc)*secs*dt) *)
  e_known : Z -> bool;                    (** pyne_cram_transmute_nucid_to_i(nuc) >= 0 *)
  e_cram : compmap -> Z -> list (Z * Q)   (** pyne_cram_expm_multiply14 for a duration in seconds *)
}.

Definition default_dt : Z := 2629846.  (* src/context.h 23, kDefaultTimeStepDur *)

(** ** Objects *)

(** Composition (src/composition.h 95-108). *)
Record comp := mkComp {
  c_id : Z;
  c_atom : compmap;
  c_mass : compmap;
  c_recorded : bool;
  c_prev : Z;          (** prev_decay_ *)
  c_line : nat         (** decay_line_, shared by the whole chain *)
}.

(** What kind of resource: a Material with its composition pointer, or a Product with its quality. *)
Inductive qual := QMat (c : nat) | QProd (q : string).

(** A Material (src/material.h 172-178) or Product (src/product.h 85-93) with its Resource base
    (src/resource.h 110-120) and its embedded ResTracker (src/res_tracker.h 54-59). *)
Record resource := mkRes {
  r_qual : qual;
  r_qty : Q;
  r_obj : Z;
  r_state : Z;
  r_ctx : bool;        (** ctx_ != NULL (the same in the resource and in its tracker) *)
  r_tracked : bool;    (** tracker_.tracked_ *)
  r_p1 : Z;
  r_p2 : Z;
  r_tres : nat;        (** tracker_.res_: copied verbatim by Clone(), so it then points to the original *)
  r_pkg : string;
  r_prev : Z           (** prev_decay_time_ (materials only) *)
}.

(** ** Database rows *)
Record row := mkRow {
  row_id : Z; row_obj : Z; row_type : string; row_time : Z; row_qty : Q; row_units : string;
  row_qual : Z; row_pkg : string; row_p1 : Z; row_p2 : Z
}.
Inductive datum :=
| DRes (r : row)                            (** "Resources" *)
| DCreator (state agent : Z)                (** "ResCreators" *)
| DMatInfo (state prev : Z)                 (** "MaterialInfo" *)
| DComp (id nuc : Z) (frac : Q)             (** "Compositions" *)
| DProd (id : Z) (quality : string).        (** "Products" *)

Record world := mkWorld {
  w_res : list resource;
  w_comps : list comp;
  w_lines : list (zmap nat);
  w_next_state : Z;
  w_next_obj : Z;
  w_next_comp : Z;
  w_quals : list (string * Z);    (** Product::qualids_ *)
  w_next_qual : Z;
  w_time : Z;                     (** ctx_->time() *)
  w_db : list datum
}.

(** Counters start at 1 (src/resource.cc 5-6, src/composition.cc 15, src/product.cc 12). *)
Definition world0 : world := mkWorld [] [] [] 1 1 1 [] 1 0 [].

(** Field updates (no source counterpart: C++ assignment). *)
Definition set_res l w := mkWorld l (w_comps w) (w_lines w) (w_next_state w) (w_next_obj w)
  (w_next_comp w) (w_quals w) (w_next_qual w) (w_time w) (w_db w).
Definition set_comps l w := mkWorld (w_res w) l (w_lines w) (w_next_state w) (w_next_obj w)
  (w_next_comp w) (w_quals w) (w_next_qual w) (w_time w) (w_db w).
Definition set_lines l w := mkWorld (w_res w) (w_comps w) l (w_next_state w) (w_next_obj w)
  (w_next_comp w) (w_quals w) (w_next_qual w) (w_time w) (w_db w).
Definition set_next_state n w := mkWorld (w_res w) (w_comps w) (w_lines w) n (w_next_obj w)
  (w_next_comp w) (w_quals w) (w_next_qual w) (w_time w) (w_db w).
Definition set_next_obj n w := mkWorld (w_res w) (w_comps w) (w_lines w) (w_next_state w) n
  (w_next_comp w) (w_quals w) (w_next_qual w) (w_time w) (w_db w).
Definition set_next_comp n w := mkWorld (w_res w) (w_comps w) (w_lines w) (w_next_state w)
  (w_next_obj w) n (w_quals w) (w_next_qual w) (w_time w) (w_db w).
Definition set_quals l n w := mkWorld (w_res w) (w_comps w) (w_lines w) (w_next_state w)
  (w_next_obj w) (w_next_comp w) l n (w_time w) (w_db w).
Definition set_time t w := mkWorld (w_res w) (w_comps w) (w_lines w) (w_next_state w)
  (w_next_obj w) (w_next_comp w) (w_quals w) (w_next_qual w) t (w_db w).
Definition set_db d w := mkWorld (w_res w) (w_comps w) (w_lines w) (w_next_state w)
  (w_next_obj w) (w_next_comp w) (w_quals w) (w_next_qual w) (w_time w) d.

Definition with_qty q r := mkRes (r_qual r) q (r_obj r) (r_state r) (r_ctx r) (r_tracked r) (r_p1 r)
  (r_p2 r) (r_tres r) (r_pkg r) (r_prev r).
Definition with_qual c r := mkRes c (r_qty r) (r_obj r) (r_state r) (r_ctx r) (r_tracked r) (r_p1 r)
  (r_p2 r) (r_tres r) (r_pkg r) (r_prev r).
Definition with_state s r := mkRes (r_qual r) (r_qty r) (r_obj r) s (r_ctx r) (r_tracked r) (r_p1 r)
  (r_p2 r) (r_tres r) (r_pkg r) (r_prev r).
Definition with_tracked b r := mkRes (r_qual r) (r_qty r) (r_obj r) (r_state r) (r_ctx r) b (r_p1 r)
  (r_p2 r) (r_tres r) (r_pkg r) (r_prev r).
Definition with_parents a b r := mkRes (r_qual r) (r_qty r) (r_obj r) (r_state r) (r_ctx r)
  (r_tracked r) a b (r_tres r) (r_pkg r) (r_prev r).
Definition with_pkg p r := mkRes (r_qual r) (r_qty r) (r_obj r) (r_state r) (r_ctx r) (r_tracked r)
  (r_p1 r) (r_p2 r) (r_tres r) p (r_prev r).
Definition with_prev t r := mkRes (r_qual r) (r_qty r) (r_obj r) (r_state r) (r_ctx r) (r_tracked r)
  (r_p1 r) (r_p2 r) (r_tres r) (r_pkg r) t.
Definition with_recorded b c := mkComp (c_id c) (c_atom c) (c_mass c) b (c_prev c) (c_line c).

(** ** State-and-exception monad: the post-state is kept when an exception is thrown. *)
Definition M (A : Type) := world -> result A * world.
Definition ret {A} (a : A) : M A := fun w => (Ok a, w).
Definition throw {A} (e : err) : M A := fun w => (Throw e, w).
Definition ub {A} : M A := fun w => (UB, w).
Definition bind {A B} (m : M A) (f : A -> M B) : M B := fun w =>
  match m w with
  | (Ok a, w') => f a w'
  | (Throw e, w') => (Throw e, w')
  | (UB, w') => (UB, w')
  end.
Declare Scope m_scope.
Notation "x <- m ; f" := (bind m (fun x => f)) (at level 61, m at next level, right associativity) : m_scope.
Notation "m ;; f" := (bind m (fun _ => f)) (at level 61, right associativity) : m_scope.
Open Scope m_scope.

Definition get : M world := fun w => (Ok w, w).
Definition modify (f : world -> world) : M unit := fun w => (Ok tt, f w).
Definition lift {A} (r : result A) : M A := fun w => (r, w).
Definition deref {A} (o : option A) : M A := match o with Some a => ret a | None => ub end.

Definition rget (i : nat) : M resource := fun w => deref (nth_error (w_res w) i) w.
Definition rmod (i : nat) (f : resource -> resource) : M unit :=
  r <- rget i; modify (fun w => set_res (upd (w_res w) i (f r)) w).
Definition cref (c : nat) : M comp := fun w => deref (nth_error (w_comps w) c) w.
Definition cmod (c : nat) (f : comp -> comp) : M unit :=
  x <- cref c; modify (fun w => set_comps (upd (w_comps w) c (f x)) w).
Definition emit (d : datum) : M unit := modify (fun w => set_db (w_db w ++ [d]) w).

Section WithEnv.
Context (E : env).

(** ** Composition *)

(** src/composition.cc 45-54, Composition::atom(); src/composition.cc 56-65, Composition::mass().
    The C++ functions cache their result in the object; here they are pure.  [lazy_atom] and [lazy_mass]
    at the end of this file model the caching, C35 shows that it cannot be observed. *)
Definition comp_atom (c : comp) : compmap :=
  match c_atom c with
  | [] => map (fun p => (fst p, snd p / e_amass E (fst p))) (c_mass c)
  | v => v
  end.
Definition comp_mass (c : comp) : compmap :=
  match c_mass c with
  | [] => map (fun p => (fst p, snd p * e_amass E (fst p))) (c_atom c)
  | v => v
  end.

(** src/composition.cc 105-109, Composition(): new id and new, empty decay line. *)
Definition comp_new (atom mass : compmap) : M nat := fun w =>
  let c := mkComp (w_next_comp w) atom mass false 0 (length (w_lines w)) in
  (Ok (length (w_comps w)),
   set_next_comp (w_next_comp w + 1)%Z
     (set_lines (w_lines w ++ [[]]) (set_comps (w_comps w ++ [c]) w))).

(** src/composition.cc 17-27, CreateFromAtom. *)
Definition create_from_atom (v : compmap) : M nat :=
  if negb (valid_nucs (e_isnuc E) v) then throw ValueError
  else if negb (all_positive v) then throw ValueError
  else comp_new v [].

(** src/composition.cc 29-39, CreateFromMass. *)
Definition create_from_mass (v : compmap) : M nat :=
  if negb (valid_nucs (e_isnuc E) v) then throw ValueError
  else if negb (all_positive v) then throw ValueError
  else comp_new [] v.

(** src/composition.cc 111-117, Composition(prev_decay, decay_line). *)
Definition comp_new_in_line (atom : compmap) (prev : Z) (line : nat) : M nat := fun w =>
  let c := mkComp (w_next_comp w) atom [] false prev line in
  (Ok (length (w_comps w)),
   set_next_comp (w_next_comp w + 1)%Z (set_comps (w_comps w ++ [c]) w)).

(** src/composition.cc 130-161: initial vector of the nuclides in the solver's table, solver, and
    conversion back keeping positive entries. *)
Definition decayed_atoms (atom : compmap) (seconds : Z) : compmap :=
  let n0 := filter (fun p => e_known E (fst p)) atom in
  fold_left (fun m p => if Qltb 0 (snd p) then zset (fst p) (snd p) m else m) (e_cram E n0 seconds) [].

(** src/composition.cc 119-163, NewDecay. *)
Definition new_decay (c : comp) (delta secs : Z) : M nat :=
  match comp_atom c with
  | [] => comp_new_in_line [] (c_prev c + delta) (c_line c)
  | a => comp_new_in_line (decayed_atoms a (secs * delta)) (c_prev c + delta) (c_line c)
  end.

(** src/composition.cc 67-81, Decay(delta, secs_per_timestep). *)
Definition comp_decay (ci : nat) (delta secs : Z) : M nat :=
  c <- cref ci;
  w <- get;
  line <- deref (nth_error (w_lines w) (c_line c));
  let tot := (c_prev c + delta)%Z in
  match zfind tot line with
  | Some d => ret d
  | None =>
      d <- new_decay c delta secs;
      modify (fun w => set_lines (upd (w_lines w) (c_line c) (zset tot d line)) w);;
      ret d
  end.

(** The rows Composition::Record writes (src/composition.cc 93-102). *)
Definition comp_rows (c : comp) : list datum :=
  map (fun p => DComp (c_id c) (fst p) (snd p)) (normalize (comp_mass c) 1).

(** src/composition.cc 87-103, Record. *)
Definition comp_record (ci : nat) : M unit :=
  c <- cref ci;
  if c_recorded c then ret tt
  else
    cmod ci (with_recorded true);;
    modify (fun w => set_db (w_db w ++ comp_rows c) w).

(** ** Resource and ResTracker *)

(** src/resource.h 29 (Resource()), src/res_tracker.cc 8-13 (ResTracker()), and the Material
    (src/material.cc 263-275) and Product (src/product.cc 120-125) constructors. *)
Definition new_resource (q : qual) (ctx : bool) (qty : Q) (pkg : string) : M nat := fun w =>
  let i := length (w_res w) in
  let tracked := match q with QMat _ => ctx | QProd _ => true end in
  let prev := match q with QMat _ => if ctx then w_time w else 0%Z | QProd _ => 0%Z end in
  let r := mkRes q qty (w_next_obj w) (w_next_state w) ctx tracked 0 0 i pkg prev in
  (Ok i, set_next_obj (w_next_obj w + 1)%Z
           (set_next_state (w_next_state w + 1)%Z (set_res (w_res w ++ [r]) w))).

(** src/resource.cc 8-11, BumpStateId. *)
Definition bump_state (i : nat) : M unit := fun w =>
  bind (rmod i (with_state (w_next_state w)))
       (fun _ => modify (fun w => set_next_state (w_next_state w + 1)%Z w)) w.

(** Product::qualids_[quality]: inserts 0 when absent (src/product.h 38-40). *)
Fixpoint assoc (s : string) (l : list (string * Z)) : option Z :=
  match l with
  | [] => None
  | (k, v) :: t => if String.eqb s k then Some v else assoc s t
  end.

(** qual_id(): src/material.cc 30-32, src/product.h 38-40. *)
Definition qual_id (q : qual) : M Z :=
  match q with
  | QMat c => x <- cref c; ret (c_id x)
  | QProd s =>
      w <- get;
      match assoc s (w_quals w) with
      | Some z => ret z
      | None => modify (set_quals (w_quals w ++ [(s, 0%Z)]) (w_next_qual w));; ret 0%Z
      end
  end.

Definition res_type (q : qual) : string :=     (* src/material.cc 13, src/product.cc 9 *)
  match q with QMat _ => "Material" | QProd _ => "Product" end.
Definition res_units (q : qual) : string :=    (* src/material.cc 56-58, src/product.h 55 *)
  match q with QMat _ => "kg" | QProd _ => "NONE" end.

(** Resource::Record: src/material.cc 45-54; Product's is empty (src/product.h 52). *)
Definition res_record (i : nat) : M unit :=
  r <- rget i;
  match r_qual r with
  | QProd _ => ret tt
  | QMat c =>
      (if r_ctx r then emit (DMatInfo (r_state r) (r_prev r)) else ub);;
      comp_record c
  end.

(** src/res_tracker.cc 103-120, ResTracker::Record of the tracker embedded in resource [i]. *)
Definition tr_record (bump : bool) (i : nat) : M unit :=
  t <- rget i;
  (if bump then bump_state (r_tres t) else ret tt);;
  (if r_ctx t then ret tt else ub);;
  x <- rget (r_tres t);
  qid <- qual_id (r_qual x);
  w <- get;
  emit (DRes (mkRow (r_state x) (r_obj x) (res_type (r_qual x)) (w_time w) (r_qty x)
                (res_units (r_qual x)) qid (r_pkg x) (r_p1 t) (r_p2 t)));;
  res_record (r_tres t).

(** src/res_tracker.cc 19-32, Create. *)
Definition tr_create (agent : Z) (i : nat) : M unit :=
  t <- rget i;
  if negb (r_tracked t) then ret tt
  else
    rmod i (with_parents 0 0);;
    tr_record false i;;
    x <- rget (r_tres t);
    emit (DCreator (r_state x) agent).

(** src/res_tracker.cc 34-42, Modify. *)
Definition tr_modify (i : nat) : M unit :=
  t <- rget i;
  if negb (r_tracked t) then ret tt
  else
    x <- rget (r_tres t);
    rmod i (with_parents (r_state x) 0);;
    tr_record true i.

(** src/res_tracker.cc 44-65, Extract; [j] is the removed resource. *)
Definition tr_extract (i j : nat) : M unit :=
  t <- rget i;
  if negb (r_tracked t) then ret tt
  else
    x <- rget (r_tres t);
    (if Qltb (e_eps E) (r_qty x) then rmod i (with_parents (r_state x) 0) else ret tt);;
    rmod j (fun r => with_tracked (r_tracked t) (with_parents (r_state x) 0 r));;
    tr_record true j;;
    y <- rget (r_tres t);
    if Qltb (e_eps E) (r_qty y) then tr_record true i else ret tt.

(** src/res_tracker.cc 67-75, Absorb. *)
Definition tr_absorb (i j : nat) : M unit :=
  t <- rget i;
  if negb (r_tracked t) then ret tt
  else
    x <- rget (r_tres t);
    u <- rget j;
    y <- rget (r_tres u);
    rmod i (with_parents (r_state x) (r_state y));;
    tr_record true i.

(** src/res_tracker.cc 77-101, Package(parent); [None] is a NULL parent. *)
Definition tr_package (i : nat) (parent : option nat) : M unit :=
  t <- rget i;
  if negb (r_tracked t) then ret tt
  else
    match parent with
    | Some p =>
        u <- rget p;
        y <- rget (r_tres u);
        rmod i (with_parents (r_state y) 0);;
        tr_record false i
    | None =>
        x <- rget (r_tres t);
        rmod i (with_parents (r_state x) 0);;
        tr_record true i
    end.

(** ** Material *)

(** src/material.cc 17-22, Create. *)
Definition mat_create (agent : Z) (qty : Q) (c : nat) (pkg : string) : M nat :=
  i <- new_resource (QMat c) true qty pkg;
  tr_create agent i;;
  ret i.

(** src/material.cc 24-28, CreateUntracked. *)
Definition mat_create_untracked (qty : Q) (c : nat) : M nat :=
  new_resource (QMat c) false qty unpackaged_name.

(** src/material.cc 38-43 and src/product.cc 40-45, Clone: the implicit copy constructor copies the
    ids, the context and the tracker with its pointer to the original; then DontTrack. *)
Definition res_clone (i : nat) : M nat :=
  r <- rget i;
  w <- get;
  modify (set_res (w_res w ++ [with_tracked false r]));;
  ret (length (w_res w)).

Definition mat_comp_ptr (r : resource) : M nat :=
  match r_qual r with QMat c => ret c | QProd _ => ub end.

(** src/material.cc 72-99, ExtractComp. *)
Definition mat_extract_comp (i : nat) (qty : Q) (c : nat) (threshold : Q) : M nat :=
  r <- rget i;
  cp <- mat_comp_ptr r;
  if Qltb (r_qty r) qty then throw ValueError
  else
    (if Nat.eqb cp c then ret tt
     else
       c0 <- cref cp;
       c1 <- cref c;
       let v := normalize (comp_mass c0) (r_qty r) in
       let otherv := normalize (comp_mass c1) qty in
       newv <- lift (apply_threshold (comp_sub v otherv) threshold);
       n <- create_from_mass newv;
       rmod i (with_qual (QMat n)));;
    rmod i (fun r => with_qty (r_qty r - qty) r);;
    r <- rget i;
    j <- new_resource (QMat c) (r_ctx r) qty unpackaged_name;
    rmod j (with_prev (r_prev r));;
    tr_extract i j;;
    ret j.

(** src/material.cc 68-70, ExtractQty (default threshold eps_rsrc(), unused for an equal pointer). *)
Definition mat_extract_qty (i : nat) (qty : Q) : M nat :=
  r <- rget i;
  cp <- mat_comp_ptr r;
  mat_extract_comp i qty cp (e_eps E).

(** src/material.cc 127-141, Transmute. *)
Definition mat_transmute (i : nat) (c : nat) : M unit :=
  rmod i (with_qual (QMat c));;
  tr_modify i;;
  r <- rget i;
  w <- get;
  if r_ctx r && (r_prev r <? w_time w)%Z then rmod i (with_prev (w_time w)) else ret tt.

(** src/material.cc 186-236, Decay(curr_time).  The exponential and the decay constants are the
    oracle [e_change]; 1e-3 is the threshold of line 203. *)
Definition mat_decay (i : nat) (curr : Z) : M unit :=
  r <- rget i;
  cp <- mat_comp_ptr r;
  if r_ctx r && String.eqb (e_decay E) "never" then ret tt
  else if (curr <? 0)%Z && negb (r_ctx r) then throw ValueError
  else
    w <- get;
    let curr := if (curr <? 0)%Z then w_time w else curr in
    let dt := (curr - r_prev r)%Z in
    if (dt =? 0)%Z then ret tt
    else
      c <- cref cp;
      let atoms := comp_atom c in
      let secs := if r_ctx r then e_dt E else default_dt in
      let changes := existsb (fun p => Qleb (1#1000) (e_change E (fst p) secs dt)) (rev atoms) in
      if (100 <? Z.of_nat (length atoms))%Z || changes then
        rmod i (with_prev curr);;
        d <- comp_decay cp dt secs;
        mat_transmute i d
      else ret tt.

(** src/material.cc 256-261, comp(). *)
Definition mat_comp (i : nat) : M nat :=
  r <- rget i;
  (if r_ctx r && String.eqb (e_decay E) "lazy" then mat_decay i (-1) else ret tt);;
  r <- rget i;
  mat_comp_ptr r.

(** src/material.cc 101-125, Absorb. *)
Definition mat_absorb (i j : nat) : M unit :=
  c0 <- mat_comp i;
  c1 <- mat_comp j;
  (if Nat.eqb c0 c1 then ret tt
   else
     x0 <- cref c0;
     x1 <- cref c1;
     a <- rget i;
     b <- rget j;
     let v := normalize (comp_mass x0) (r_qty a) in
     let otherv := normalize (comp_mass x1) (r_qty b) in
     n <- create_from_mass (comp_add v otherv);
     rmod i (with_qual (QMat n)));;
  a <- rget i;
  b <- rget j;
  (if Qltb (r_qty a) (r_qty b) then rmod i (with_prev (r_prev b)) else ret tt);;
  rmod i (fun r => with_qty (r_qty r + r_qty b) r);;
  rmod j (with_qty 0);;
  tr_absorb i j.

(** src/material.cc 143-162, PackageExtract. *)
Definition mat_package_extract (i : nat) (qty : Q) (pkg : string) : M nat :=
  r <- rget i;
  cp <- mat_comp_ptr r;
  if Qltb (e_eps E) (qty - r_qty r) then throw ValueError
  else
    rmod i (with_qty (r_qty r - qty));;
    j <- new_resource (QMat cp) (r_ctx r) qty pkg;
    rmod j (with_prev (r_prev r));;
    tr_package j (Some i);;
    r' <- rget i;
    (if Qltb (e_eps E) (r_qty r') then tr_modify i else ret tt);;
    ret j.

(** src/context.cc 224-235, GetPackage. *)
Definition get_package (name : string) : M package :=
  if String.eqb name unpackaged_name then ret pkg_unpackaged
  else
    match find (fun p => String.eqb name (fst p)) (e_pkgs E) with
    | Some (_, p) => ret p
    | None => throw KeyError
    end.

(** src/material.cc 164-184, ChangePackage: note that the limits are those of the current package. *)
Definition mat_change_package (i : nat) (name : string) : M unit :=
  r <- rget i;
  if negb (r_ctx r) then ret tt
  else if String.eqb name unpackaged_name then rmod i (with_pkg name)
  else
    p <- get_package (r_pkg r);
    if Qleb (p_fill_min p) (r_qty r) && Qleb (r_qty r) (p_fill_max p) then
      rmod i (with_pkg name);;
      tr_package i None
    else throw ValueError.

(** ** Product *)

(** src/product.cc 15-29, Create. *)
Definition prod_create (agent : Z) (qty : Q) (quality pkg : string) : M nat :=
  w <- get;
  (match assoc quality (w_quals w) with
   | Some _ => ret tt
   | None =>
       modify (set_quals (w_quals w ++ [(quality, w_next_qual w)]) (w_next_qual w + 1)%Z);;
       emit (DProd (w_next_qual w) quality)
   end);;
  i <- new_resource (QProd quality) true qty pkg;
  tr_create agent i;;
  ret i.

(** src/product.cc 32-37, CreateUntracked. *)
Definition prod_create_untracked (qty : Q) (quality : string) : M nat :=
  i <- new_resource (QProd quality) false qty unpackaged_name;
  rmod i (with_tracked false);;
  ret i.

Definition prod_quality (r : resource) : M string :=
  match r_qual r with QProd s => ret s | QMat _ => ub end.

(** src/product.cc 48-56, Absorb. *)
Definition prod_absorb (i j : nat) : M unit :=
  a <- rget i;
  b <- rget j;
  qa <- prod_quality a;
  qb <- prod_quality b;
  if negb (String.eqb qb qa) then throw ValueError
  else
    rmod i (fun r => with_qty (r_qty r + r_qty b) r);;
    rmod j (with_qty 0);;
    tr_absorb i j.

(** src/product.cc 59-69, Extract. *)
Definition prod_extract (i : nat) (qty : Q) : M nat :=
  r <- rget i;
  s <- prod_quality r;
  if Qltb (r_qty r) qty then throw ValueError
  else
    rmod i (with_qty (r_qty r - qty));;
    j <- new_resource (QProd s) (r_ctx r) qty (r_pkg r);
    tr_extract i j;;
    ret j.

(** src/product.cc 80-95, PackageExtract. *)
Definition prod_package_extract (i : nat) (qty : Q) (pkg : string) : M nat :=
  r <- rget i;
  s <- prod_quality r;
  if Qltb (r_qty r) qty then throw ValueError
  else
    rmod i (with_qty (r_qty r - qty));;
    j <- new_resource (QProd s) (r_ctx r) qty pkg;
    tr_package j (Some i);;
    r' <- rget i;
    (if Qltb (e_eps E) (r_qty r') then tr_modify i else ret tt);;
    ret j.

(** src/product.cc 97-117, ChangePackage. *)
Definition prod_change_package (i : nat) (name : string) : M unit :=
  r <- rget i;
  if String.eqb name (r_pkg r) || negb (r_ctx r) then ret tt
  else if String.eqb name unpackaged_name then
    rmod i (with_pkg name);;
    tr_package i None
  else
    p <- get_package name;
    if Qleb (p_fill_min p) (r_qty r) && Qleb (r_qty r) (p_fill_max p) then
      rmod i (with_pkg name);;
      tr_package i None
    else throw ValueError.

(** ** Virtual dispatch through Resource (src/resource.h 56-96) *)

(** ExtractRes: src/material.cc 64-66, src/product.cc 72-74. *)
Definition extract_res (i : nat) (qty : Q) : M nat :=
  r <- rget i;
  match r_qual r with QMat _ => mat_extract_qty i qty | QProd _ => prod_extract i qty end.
Definition package_extract (i : nat) (qty : Q) (pkg : string) : M nat :=
  r <- rget i;
  match r_qual r with
  | QMat _ => mat_package_extract i qty pkg | QProd _ => prod_package_extract i qty pkg end.
Definition change_package (i : nat) (pkg : string) : M unit :=
  r <- rget i;
  match r_qual r with
  | QMat _ => mat_change_package i pkg | QProd _ => prod_change_package i pkg end.
(** Absorb on two handles of the same class. *)
Definition absorb (i j : nat) : M unit :=
  a <- rget i;
  b <- rget j;
  match r_qual a, r_qual b with
  | QMat _, QMat _ => mat_absorb i j
  | QProd _, QProd _ => prod_absorb i j
  | _, _ => ub
  end.
(** Decay: Material overrides, Product inherits the throwing default (src/resource.h 80). *)
Definition res_decay (i : nat) (curr : Z) : M unit :=
  r <- rget i;
  match r_qual r with QMat _ => mat_decay i curr | QProd _ => throw PlainError end.

(** src/resource.h 139-156: the loop of Resource::Package<T>. *)
Fixpoint package_loop (i : nat) (name : string) (fills : list Q) : M (list nat) :=
  match fills with
  | [] => ret []
  | f :: rest =>
      j <- package_extract i f name;
      js <- package_loop i name rest;
      ret (j :: js)
  end.

(** src/resource.h 139-156, Resource::Package<T>(pkg).  [samples] are the values of the package's
    distribution; if they run out (the C++ code would draw more) the result is [UB] and the theorems
    say nothing. *)
Definition res_package (i : nat) (p : package) (samples : list Q) : M (list nat) :=
  r <- rget i;
  match get_fill_mass (e_eps E) p samples (r_qty r) with
  | Some (Ok fills, _) => package_loop i (p_name p) fills
  | Some (Throw e, _) => throw e
  | Some (UB, _) | None => ub
  end.

(** ** Histories of API calls *)
Inductive op :=
| ONewComp (by_mass : bool) (v : compmap)
| OCompDecay (c : nat) (delta secs : Z)
| OCreateMat (agent : Z) (qty : Q) (c : nat) (pkg : string)
| OCreateMatUntracked (qty : Q) (c : nat)
| OCreateProd (agent : Z) (qty : Q) (quality pkg : string)
| OCreateProdUntracked (qty : Q) (quality : string)
| OClone (i : nat)
| OExtract (i : nat) (qty : Q)
| OExtractComp (i : nat) (qty : Q) (c : nat) (threshold : Q)
| OAbsorb (i j : nat)
| OTransmute (i c : nat)
| ODecay (i : nat) (t : Z)
| OComp (i : nat)
| OPackageExtract (i : nat) (qty : Q) (pkg : string)
| OPackage (i : nat) (p : package) (samples : list Q)
| OChangePackage (i : nat) (pkg : string)
| OAdvance.

Definition drop {A} (m : M A) : M unit := m;; ret tt.

(** Handles of materials only: a Product has no such member function. *)
Definition mat_only (i : nat) (m : M unit) : M unit := r <- rget i; mat_comp_ptr r;; m.

(** Arguments that are composition pointers must point to a composition. *)
Definition valid_comp (c : nat) (m : M unit) : M unit := cref c;; m.

Definition step (o : op) : M unit :=
  match o with
  | ONewComp true v => drop (create_from_mass v)
  | ONewComp false v => drop (create_from_atom v)
  | OCompDecay c d s => drop (comp_decay c d s)
  | OCreateMat a q c p => valid_comp c (drop (mat_create a q c p))
  | OCreateMatUntracked q c => valid_comp c (drop (mat_create_untracked q c))
  | OCreateProd a q s p => drop (prod_create a q s p)
  | OCreateProdUntracked q s => drop (prod_create_untracked q s)
  | OClone i => drop (res_clone i)
  | OExtract i q => drop (extract_res i q)
  | OExtractComp i q c t => mat_only i (valid_comp c (drop (mat_extract_comp i q c t)))
  | OAbsorb i j => absorb i j
  | OTransmute i c => mat_only i (valid_comp c (mat_transmute i c))
  | ODecay i t => res_decay i t
  | OComp i => mat_only i (drop (mat_comp i))
  | OPackageExtract i q p => drop (package_extract i q p)
  | OPackage i p s => drop (res_package i p s)
  | OChangePackage i p => change_package i p
  | OAdvance => modify (fun w => set_time (w_time w + 1)%Z w)
  end.

(** A history: exceptions are caught by the caller and the state they left is kept; undefined
    behaviour ends the history ([None]: nothing is claimed). *)
Fixpoint run (ops : list op) (w : world) : option world :=
  match ops with
  | [] => Some w
  | o :: rest =>
      match step o w with
      | (UB, _) => None
      | (_, w') => run rest w'
      end
  end.

End WithEnv.

(** ** The caching accessors of Composition, for C35 *)

(** src/composition.cc 45-54 and 56-65 with the cached members: each call returns the map and the
    object after the call. *)
Definition lazy_atom (E : env) (c : comp) : compmap * comp :=
  match c_atom c with
  | [] =>
      let a := map (fun p => (fst p, snd p / e_amass E (fst p))) (c_mass c) in
      (a, mkComp (c_id c) a (c_mass c) (c_recorded c) (c_prev c) (c_line c))
  | a => (a, c)
  end.
Definition lazy_mass (E : env) (c : comp) : compmap * comp :=
  match c_mass c with
  | [] =>
      let m := map (fun p => (fst p, snd p * e_amass E (fst p))) (c_atom c) in
      (m, mkComp (c_id c) (c_atom c) m (c_recorded c) (c_prev c) (c_line c))
  | m => (m, c)
  end.
(** The values returned by a sequence of calls on one object ([true]: mass(), [false]: atom()). *)
Fixpoint lazy_calls (E : env) (ks : list bool) (c : comp) : list compmap * comp :=
  match ks with
  | [] => ([], c)
  | k :: t =>
      let '(v, c1) := if k then lazy_mass E c else lazy_atom E c in
      let '(vs, c2) := lazy_calls E t c1 in (v :: vs, c2)
  end.
