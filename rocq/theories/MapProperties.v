(** * MapProperties: theorems about ResMap (C12). *)
From Coq Require Import String Permutation.
From Verif Require Import Base CompModel CompSpec PackageModel ResourceModel ResourceSpec ResourceProperties
  MapModel MapSpec MapProofs.
Open Scope Q_scope.

(** After any history in which the quantity of contained resources changes only while the map is open for
    change, quantity() is the sum of the quantities the contained resources have now. *)
Theorem C12_quantity_current : forall E w0 tr w m q m',
  mhist E (w0, map_new) tr (w, m) -> map_quantity w m = (Ok q, m') ->
  m_res m' = m_res m /\
  exists is, map_values m = map Some is /\ (forall i, In i is -> exists r, nth_error (w_res w) i = Some r) /\ q == sum_qty w is.
Proof. exact C12_quantity_lemma. Qed.
Print Assumptions C12_quantity_current.

(** Pop(key) removes that key and no other and returns what it held; an absent key throws and nothing
    changes. *)
Theorem C12_pop : forall k m r m', map_pop k m = (r, m') ->
  (kfind k (m_res m) = None /\ r = Throw KeyError /\ m' = m) \/
  (exists p, kfind k (m_res m) = Some p /\ r = Ok p /\ kfind k (m_res m') = None /\
     forall k', k' <> k -> kfind k' (m_res m') = kfind k' (m_res m)).
Proof. exact C12_pop_lemma. Qed.
Print Assumptions C12_pop.

(** obj_ids() and Values() taken from any map with a history, set on a fresh map with the values in any
    order, give the same map, if the object ids are distinct. *)
Theorem C12_restore : forall E w0 tr w m o m1 vals, mhist E (w0, map_new) tr (w, m) ->
  map_obj_ids w m = (Ok o, m1) -> NoDup (map snd o) -> Permutation vals (map_values m) ->
  exists m2, map_set_values vals w (map_set_obj_ids o map_new) = (Ok tt, m2) /\ m_res m2 = m_res m.
Proof. intros E w0 tr w m o m1 vals H. exact (C12_restore_lemma w m o m1 vals (mhist_asc _ _ _ _ _ H)). Qed.
Print Assumptions C12_restore.

(** A map with materials 0 and 1 under keys 7 and 3; material 0 changed while the map is open. *)
Fixpoint m_runs (E : env) (ops : list mop) (s : world * rmap) : list (mop * result unit) * (world * rmap) :=
  match ops with
  | [] => ([], s)
  | o :: ops => let '(res, s1) := mstep E o s in let '(tr, s2) := m_runs E ops s1 in ((o, res) :: tr, s2)
  end.
Definition exM : list mop := [MAssign 7 0; MAssign 3 1; MQuantity; MIndex 7; MOther (OExtract 0 4)].
Definition exMS := snd (m_runs exE exM (exW, map_new)).
Example C12_example_history : mhist exE (exW, map_new) (fst (m_runs exE exM (exW, map_new))) exMS.
Proof.
  set (st := fun n => snd (m_runs exE (firstn n exM) (exW, map_new))).
  change (fst (m_runs exE exM (exW, map_new))) with
    (((((@nil (mop * result unit) ++ [(MAssign 7 0, Ok tt)]) ++ [(MAssign 3 1, Ok tt)]) ++ [(MQuantity, Ok tt)]) ++ [(MIndex 7, Ok tt)]) ++ [(MOther (OExtract 0 4), Ok tt)]).
  apply mh_step with (s := st 4%nat); [apply mh_step with (s := st 3%nat); [apply mh_step with (s := st 2%nat);
    [apply mh_step with (s := st 1%nat); [apply mh_step with (s := st 0%nat); [apply mh_start| | |]| | |]| | |]| | |]| | |];
    try discriminate; try exact I; try (vm_compute; reflexivity). left. reflexivity.
Qed.
Example C12_example : let '(w, m) := exMS in
  (match fst (map_quantity w m) with Ok q => q == 10 | _ => False end) /\ map_values m = [Some 1%nat; Some 0%nat] /\
  (let '(o, _) := map_obj_ids w m in
   match o with
   | Ok o => NoDup (map snd o) /\ let '(r, m2) := map_set_values [Some 0%nat; Some 1%nat] w (map_set_obj_ids o map_new) in r = Ok tt /\ m_res m2 = m_res m
   | _ => False
   end) /\
  fst (map_pop 3 m) = Ok (Some 1%nat) /\ fst (map_pop 4 m) = Throw KeyError.
Proof.
  vm_compute. repeat split; try (repeat constructor; simpl; intuition discriminate).
Qed.

(** Without the restriction the claim is false: a resource obtained through Values() and changed afterwards
    leaves quantity() stale (14 reported, 10 there). *)
Theorem C12_stale_refuted :
  let '(_, (w, m)) := m_runs exE [MAssign 7 0; MAssign 3 1; MQuantity; MValues; MOther (OExtract 0 4)] (exW, map_new) in
  match fst (map_quantity w m) with Ok q => q == 14 | _ => False end /\ sum_qty w [1%nat; 0%nat] == 10.
Proof. vm_compute. repeat split. Qed.
Print Assumptions C12_stale_refuted.

(** Reading a key that is not there leaves a null pointer in the map, and the next quantity() is undefined. *)
Theorem C12_null_refuted :
  let '(_, (w, m)) := m_runs exE [MAssign 7 0; MIndex 5] (exW, map_new) in fst (map_quantity w m) = UB.
Proof. vm_compute. reflexivity. Qed.
Print Assumptions C12_null_refuted.
