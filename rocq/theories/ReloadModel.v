(** * Model of SimInit::LoadResource: reading a resource back from the database.

    Definitions only. [d] is the database of the old run, as the list of datums it recorded; the world is that of the
    program reading it. QueryResult::GetVal throws if there is no row (query_backend.h 457); a table that does not
    exist makes the backend throw too, which is not distinguished here. *)
From Verif Require Import Base CompModel PackageModel ResourceModel.
Open Scope Q_scope.

(** Field updates of the ids (private members, SimInit is a friend). *)
Definition with_ids (s o : Z) (r : resource) : resource :=
  mkRes (r_qual r) (r_qty r) o s (r_ctx r) (r_tracked r) (r_p1 r) (r_p2 r) (r_tres r) (r_pkg r) (r_prev r).
Definition as_loaded (id : Z) (c : comp) : comp := mkComp id (c_atom c) (c_mass c) true (c_prev c) (c_line c).
(** std::map assignment. *)
Fixpoint assoc_set (s : string) (z : Z) (l : list (string * Z)) : list (string * Z) :=
  match l with
  | [] => [(s, z)]
  | (k, v) :: t => if String.eqb s k then (k, z) :: t else (k, v) :: assoc_set s z t
  end.

Section WithEnv.
Context (E : env) (d : list datum).

(** The first row of Resources with this ResourceId. *)
Definition find_row (state : Z) : option row :=
  find (fun r => Z.eqb (row_id r) state) (flat_map (fun x => match x with DRes r => [r] | _ => [] end) d).
Definition find_info (state : Z) : option Z :=
  option_map snd (find (fun p => Z.eqb (fst p) state) (flat_map (fun x => match x with DMatInfo s p => [(s, p)] | _ => [] end) d)).
Definition find_quality (id : Z) : option string :=
  option_map snd (find (fun p => Z.eqb (fst p) id) (flat_map (fun x => match x with DProd i q => [(i, q)] | _ => [] end) d)).
Definition getval {A} (o : option A) : M A := match o with Some a => ret a | None => throw StateError end.

(** SimInit::LoadComposition, sim_init.cc 614-628. *)
Definition load_composition (id : Z) : M nat :=
  let cm := fold_left (fun m p => zset (fst p) (snd p) m)
              (flat_map (fun x => match x with DComp i n f => if Z.eqb i id then [(n, f)] else [] | _ => [] end) d) [] in
  c <- create_from_mass E cm;
  cmod c (as_loaded id);;
  ret c.
(** SimInit::LoadMaterial, sim_init.cc 591-612; [dummy] is the id of the Dummy agent that creates it. *)
Definition load_material (dummy state : Z) : M nat :=
  prev <- getval (find_info state);
  r <- getval (find_row state);
  c <- load_composition (row_qual r);
  i <- mat_create E dummy (row_qty r) c unpackaged_name;
  rmod i (with_prev prev);;
  ret i.
(** SimInit::LoadProduct, sim_init.cc 630-652. *)
Definition load_product (dummy state : Z) : M nat :=
  r <- getval (find_row state);
  q <- getval (find_quality (row_qual r));
  modify (fun w => set_quals (assoc_set q (row_qual r) (w_quals w)) (w_next_qual w) w);;
  prod_create E dummy (row_qty r) q unpackaged_name.
(** SimInit::LoadResource, sim_init.cc 570-589. *)
Definition load_resource (dummy state : Z) : M nat :=
  r <- getval (find_row state);
  i <- (if String.eqb (row_type r) "Material" then load_material dummy state
        else if String.eqb (row_type r) "Product" then load_product dummy state
        else throw IOError);
  rmod i (with_ids state (row_obj r));;
  ret i.
End WithEnv.
