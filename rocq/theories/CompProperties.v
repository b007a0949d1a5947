(** * C34: laws of composition arithmetic (src/comp_math.cc, src/cyc_arithmetic.cc). *)
From Verif Require Import Base CompModel CompSpec CompProofs.
Open Scope Q_scope.

(** KahanSum of any list is its sum (whatever order sorting produces). *)
Theorem C34_kahan_sum : forall l, kahan_sum l == qsum l.
Proof. exact kahan_sum_correct. Qed.
Print Assumptions C34_kahan_sum.
Example C34_kahan_sum_ex : kahan_sum [3; -1; 5#2] == 9#2.
Proof. vm_compute. reflexivity. Qed.

(** Add acts nuclide by nuclide, on the union of the nuclides. *)
Theorem C34_add : forall v1 v2, wf_comp v1 -> wf_comp v2 ->
  wf_comp (comp_add v1 v2) /\
  total (comp_add v1 v2) == total v1 + total v2 /\
  (forall n, amount n (comp_add v1 v2) == amount n v1 + amount n v2) /\
  (forall n, In n (zkeys (comp_add v1 v2)) <-> In n (zkeys v1) \/ In n (zkeys v2)).
Proof.
  exact (fun v1 v2 W1 W2 => conj (comp_add_wf v1 v2 W1)
    (conj (total_comp_add v1 v2 W1 W2)
      (conj (fun n => comp_add_amount v1 v2 n W2) (comp_add_keys v1 v2)))).
Qed.
Print Assumptions C34_add.

Theorem C34_sub : forall v1 v2, wf_comp v1 -> wf_comp v2 ->
  wf_comp (comp_sub v1 v2) /\
  total (comp_sub v1 v2) == total v1 - total v2 /\
  (forall n, amount n (comp_sub v1 v2) == amount n v1 - amount n v2) /\
  (forall n, In n (zkeys (comp_sub v1 v2)) <-> In n (zkeys v1) \/ In n (zkeys v2)).
Proof.
  exact (fun v1 v2 W1 W2 => conj (comp_sub_wf v1 v2 W1)
    (conj (total_comp_sub v1 v2 W1 W2)
      (conj (fun n => comp_sub_amount v1 v2 n W2) (comp_sub_keys v1 v2)))).
Qed.
Print Assumptions C34_sub.
Example C34_add_sub_ex :
  wf_comp [(10%Z, 1#2); (20%Z, 3)] /\ wf_comp [(20%Z, 1); (30%Z, 2)] /\
  comp_add [(10%Z, 1#2); (20%Z, 3)] [(20%Z, 1); (30%Z, 2)] = [(10%Z, 1#2); (20%Z, 4); (30%Z, 2)].
Proof. repeat split; repeat constructor. Qed.

(** Sub undoes Add. *)
Theorem C34_sub_undoes_add : forall v1 v2 n, wf_comp v2 ->
  amount n (comp_sub (comp_add v1 v2) v2) == amount n v1.
Proof. exact sub_add. Qed.
Print Assumptions C34_sub_undoes_add.

(** Normalize: entries sum to [x], every entry is scaled by the same factor, no nuclide appears or
    disappears; a vector summing to zero is left alone. *)
Theorem C34_normalize : forall v x,
  (~ total v == 0 ->
   total (normalize v x) == x /\
   (forall n, amount n (normalize v x) == amount n v * (x / total v))) /\
  (total v == 0 -> normalize v x = v) /\
  zkeys (normalize v x) = zkeys v.
Proof.
  exact (fun v x => conj (fun H => conj (normalize_total v x H) (fun n => normalize_amount v x n H))
    (conj (normalize_zero v x) (normalize_keys v x))).
Qed.
Print Assumptions C34_normalize.
Example C34_normalize_ex :
  ~ total [(1%Z, 1); (2%Z, 3)] == 0 /\ amount 2%Z (normalize [(1%Z, 1); (2%Z, 3)] 8) == 6.
Proof. split; [vm_compute; discriminate|vm_compute; reflexivity]. Qed.

(** ApplyThreshold keeps exactly the entries of magnitude above the threshold, with their values. *)
Theorem C34_apply_threshold : forall v t, wf_comp v ->
  (t < 0 -> apply_threshold v t = Throw ValueError) /\
  (0 <= t -> exists r, apply_threshold v t = Ok r /\ wf_comp r /\
     forall n x, zfind n r = Some x <-> zfind n v = Some x /\ t < absq x).
Proof. exact apply_threshold_full. Qed.
Print Assumptions C34_apply_threshold.
Example C34_apply_threshold_ex :
  apply_threshold [(1%Z, 1#10); (2%Z, -3); (5%Z, 1#2)] (1#2) = Ok [(2%Z, -3)].
Proof. reflexivity. Qed.

(** AlmostEq holds exactly for vectors over the same nuclides with pairwise close values; it is
    reflexive and symmetric. *)
Theorem C34_almost_eq : forall v1 v2 t, wf_comp v1 -> wf_comp v2 -> 0 <= t ->
  (almost_eq v1 v2 t = Ok true <->
   (forall n, In n (zkeys v1) <-> In n (zkeys v2)) /\
   (forall n a b, zfind n v1 = Some a -> zfind n v2 = Some b -> close t a b)).
Proof. exact almost_eq_spec. Qed.
Print Assumptions C34_almost_eq.
Theorem C34_almost_eq_refl : forall v t, wf_comp v -> 0 <= t -> almost_eq v v t = Ok true.
Proof. exact almost_eq_refl. Qed.
Print Assumptions C34_almost_eq_refl.
Theorem C34_almost_eq_sym : forall v1 v2 t, wf_comp v1 -> wf_comp v2 ->
  almost_eq v1 v2 t = almost_eq v2 v1 t.
Proof. exact almost_eq_sym. Qed.
Print Assumptions C34_almost_eq_sym.
Example C34_almost_eq_ex :
  almost_eq [(1%Z, 100); (2%Z, 5)] [(1%Z, 101); (2%Z, 5)] (1#10) = Ok true /\
  almost_eq [(1%Z, 100); (2%Z, 5)] [(1%Z, 101); (2%Z, 5)] (1#1000) = Ok false.
Proof. split; reflexivity. Qed.
