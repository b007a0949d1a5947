(** * Specification vocabulary for resources: what a user of the API observes. *)
From Verif Require Import Base CompModel CompSpec PackageModel ResourceModel.
Open Scope Q_scope.

(** The quantity of resource [i], if there is such a resource. *)
Definition qty_of (w : world) (i : nat) : option Q := option_map r_qty (nth_error (w_res w) i).

(** Total quantity of all resources in the world. *)
Definition total_qty (w : world) : Q := qsum (map r_qty (w_res w)).

(** Resource [r'] is the same as [r] in everything a user sees, except possibly its database state id:
    kind and quality (composition pointer or quality string), quantity, package, object id, context,
    and time of last decay. *)
Definition looks_same (r r' : resource) : Prop :=
  r_qual r' = r_qual r /\ r_qty r' = r_qty r /\ r_pkg r' = r_pkg r /\ r_obj r' = r_obj r /\
  r_ctx r' = r_ctx r /\ r_prev r' = r_prev r.

(** Every resource of [w] other than those in [except] looks the same in [w']. *)
Definition others_same (except : list nat) (w w' : world) : Prop :=
  forall k r, ~ In k except -> nth_error (w_res w) k = Some r ->
  exists r', nth_error (w_res w') k = Some r' /\ looks_same r r'.

(** Composition objects are immutable: every composition of [w] is still there in [w'], with the same
    id and the same content. *)
Definition comps_kept (w w' : world) : Prop :=
  forall c x, nth_error (w_comps w) c = Some x ->
  exists x', nth_error (w_comps w') c = Some x' /\ c_id x' = c_id x /\ c_atom x' = c_atom x /\
             c_mass x' = c_mass x.

(** Mass fraction of nuclide [n] in a composition vector (0 in a composition of total 0). *)
Definition frac (n : Z) (v : compmap) : Q := amount n v / total v.

(** Mass of nuclide [n] in resource [r]: quantity times mass fraction. *)
Definition nuc_mass (E : env) (w : world) (r : resource) (n : Z) : Q :=
  match r_qual r with
  | QMat c => match nth_error (w_comps w) c with
              | Some x => r_qty r * frac n (comp_mass E x)
              | None => 0
              end
  | QProd _ => 0
  end.

(** What a composition must satisfy to be accepted: valid nuclides, no negative amounts; and, as a
    std::map, ascending distinct keys. *)
Definition good_vec (E : env) (v : compmap) : Prop :=
  wf_comp v /\ Forall (fun p => e_isnuc E (fst p) = true /\ 0 <= snd p) v.

(** Assumptions on the nuclear data: positive atomic masses; the decay solver yields known nuclides. *)
Definition env_ok (E : env) : Prop :=
  (forall n, 0 < e_amass E n) /\
  (forall v t, Forall (fun p => e_isnuc E (fst p) = true) (e_cram E v t)).

(** The vectors passed by the caller are std::maps. *)
Definition op_wf (o : op) : Prop :=
  match o with ONewComp _ v => wf_comp v | _ => True end.

(** A world reachable from the start of the program by API calls. *)
Definition reachable (E : env) (w : world) : Prop :=
  exists ops, Forall op_wf ops /\ run E ops world0 = Some w.

(** C01: [q] was taken out of resource [i] (which was [r]); the call returned the new resource, whose
    kind and quality are [new_qual].  The source keeps its identity and package, nothing else moves. *)
Definition extracted (w w' : world) (i : nat) (r : resource) (q : Q) (new_qual : qual) (res : result nat) : Prop :=
  res = Ok (length (w_res w)) /\ length (w_res w') = S (length (w_res w)) /\
  (exists r', nth_error (w_res w') i = Some r' /\ r_qty r' = r_qty r - q /\ r_pkg r' = r_pkg r /\
              r_obj r' = r_obj r /\ r_ctx r' = r_ctx r) /\
  (exists n, nth_error (w_res w') (length (w_res w)) = Some n /\ r_qty n = q /\ r_qual n = new_qual /\
             r_ctx n = r_ctx r) /\
  others_same [i] w w' /\ comps_kept w w'.

(** C02: resource [i] (which was [a]) swallowed resource [j] (which was [b]). *)
Definition absorbed (w w' : world) (i j : nat) (a b : resource) : Prop :=
  (exists a', nth_error (w_res w') i = Some a' /\ r_qty a' = r_qty a + r_qty b /\ r_obj a' = r_obj a /\
              r_pkg a' = r_pkg a /\ r_ctx a' = r_ctx a) /\
  (exists b', nth_error (w_res w') j = Some b' /\ r_qty b' = 0 /\ r_obj b' = r_obj b /\
              r_pkg b' = r_pkg b /\ r_ctx b' = r_ctx b) /\
  others_same [i; j] w w' /\ comps_kept w w' /\ total_qty w' == total_qty w.

(** C04: operations that do not copy a resource (Clone makes a second handle on the same stuff) and do
    not make a resource absorb itself. *)
Definition plain_op (o : op) : Prop :=
  match o with OClone _ => False | OAbsorb i j => i <> j | _ => True end.
(** C04: what an operation brings into the world. *)
Definition op_supply (o : op) : Q :=
  match o with
  | OCreateMat _ q _ _ | OCreateMatUntracked q _ | OCreateProd _ q _ _ | OCreateProdUntracked q _ => q
  | _ => 0
  end.

(** Sum of the quantities of a list of resources. *)
Definition sum_qty (w : world) (js : list nat) : Q :=
  qsum (map (fun j => match nth_error (w_res w) j with Some r => r_qty r | None => 0 end) js).

(** C15: quantity [q] is within the limits of the package called [n]. *)
Definition within_limits_of (E : env) (n : string) (q : Q) : Prop :=
  exists k p, find (fun p => String.eqb n (fst p)) (e_pkgs E) = Some (k, p) /\ p_fill_min p <= q <= p_fill_max p.

(** Entry-wise equality of compositions (same nuclides, equal amounts). *)
Definition same_map (v u : compmap) : Prop := Forall2 (fun a b => fst a = fst b /\ snd a == snd b) v u.

(** ** What the database says *)

(** The rows of the Resources table, in the order written. *)
Definition res_rows (db : list datum) : list row :=
  flat_map (fun d => match d with DRes r => [r] | _ => [] end) db.
(** The rows of the Compositions table for composition id [id]: nuclides and mass fractions. *)
Definition comp_table (db : list datum) (id : Z) : compmap :=
  flat_map (fun d => match d with DComp i n f => if Z.eqb i id then [(n, f)] else [] | _ => [] end) db.
(** The most recent Resources row of object [o]. *)
Definition last_row (o : Z) (rows : list row) : option row :=
  find (fun r => Z.eqb (row_obj r) o) (rev rows).

(** No operation copies a resource. *)
Definition no_clone (o : op) : Prop := match o with OClone _ => False | _ => True end.
(** No operation makes an untracked resource. *)
Definition no_untracked (o : op) : Prop :=
  match o with OClone _ | OCreateMatUntracked _ _ | OCreateProdUntracked _ _ => False | _ => True end.

(** C36: what the solver makes of atom amounts [v] after [t] seconds (nothing stays nothing). *)
Definition decayed (E : env) (v : compmap) (t : Z) : compmap :=
  match v with [] => [] | _ => decayed_atoms E v t end.
(** C36: decaying for [t1] and then for [t2] seconds is decaying for [t1 + t2] seconds. *)
Definition decay_composes (E : env) : Prop :=
  forall v t1 t2, decayed E (decayed E v t1) t2 = decayed E v (t1 + t2).
(** C36: histories that decay with one step length [s] only. *)
Definition one_step_length (s : Z) (o : op) : Prop :=
  match o with
  | OCompDecay _ _ s' => s' = s
  | OCreateMatUntracked _ _ | OCreateProdUntracked _ _ => default_dt = s
  | OClone _ => False
  | _ => True
  end.
