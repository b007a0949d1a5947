(** * C01-C04, C14, C15, C35: extraction, absorption, balances, packaging, mass/atom views.
    Vocabulary: ResourceSpec.v.  A call that is undefined behaviour in C++ returns [UB]. *)
From Verif Require Import Base CompModel CompSpec CompProofs PackageModel ResourceModel ResourceSpec
  ResourceProofs1 ResourceProofs2 ResourceProofs3 ResourceProofs4 ResourceProofs5 ResourceProofs6 ResourceProofs7.
Open Scope Q_scope.

(** ** The world used in the examples *)
Definition exE : env := mkEnv (1#1000000) "manual" 2629846 [("drum"%string, mkPackage "drum" 1 5 "first")]
  (fun n => Z.ltb 0 n) (fun n => if Z.ltb 0 n then inject_Z n else 1) (fun _ _ _ => 0) (fun _ => true)
  (fun v _ => filter (fun p => Z.ltb 0 (fst p)) v).
Lemma exE_ok : env_ok exE.
Proof.
  split.
  - intros n. simpl. destruct (Z.ltb_spec 0 n); [|lra]. change 0 with (inject_Z 0). now rewrite <- Zlt_Qlt.
  - intros v t. apply Forall_forall. intros x Hx. apply filter_In in Hx. tauto.
Qed.
(** Two compositions, two tracked materials of 10 and 4, a tracked product of 6. *)
Definition ex_ops : list op :=
  [ONewComp true [(2%Z, 1); (3%Z, 3)]; ONewComp true [(3%Z, 1); (5%Z, 1)];
   OCreateMat 1 10 0 unpackaged_name; OCreateMat 1 4 1 unpackaged_name; OCreateProd 1 6 "water" unpackaged_name].
Definition world_after (ops : list op) : world := match run exE ops world0 with Some w => w | None => world0 end.
Definition exW : world := world_after ex_ops.
Lemma exW_run : run exE ex_ops world0 = Some exW.
Proof. vm_compute. reflexivity. Qed.
Lemma exW_reachable : reachable exE exW.
Proof.
  exists ex_ops. split; [|exact exW_run].
  repeat (apply Forall_cons; [cbn; try exact I; unfold wf_comp; cbn; repeat (split || constructor); reflexivity|]). constructor.
Qed.

(** ** C01 *)

(** Extract(q) on any resource: refused without effect when more than the quantity is asked for,
    otherwise the new resource has exactly [q] of the same quality and the source keeps the rest and
    everything else about it. *)
Theorem C01_extract_conserves : forall E i q w res w',
  extract_res E i q w = (res, w') -> res <> UB ->
  exists r, nth_error (w_res w) i = Some r /\
  ((r_qty r < q /\ res = Throw ValueError /\ w' = w) \/
   (q <= r_qty r /\ extracted w w' i r q (r_qual r) res /\
    exists r', nth_error (w_res w') i = Some r' /\ looks_same (with_qty (r_qty r - q) r) r')).
Proof. exact C01_extract_lemma. Qed.
Print Assumptions C01_extract_conserves.

(** ExtractComp(q, c, threshold): refused without effect exactly when more than the quantity is asked
    for, or a different composition is asked for and the threshold is negative or some nuclide would
    be overdrawn by more than the threshold. *)
Theorem C01_extract_comp_conserves : forall E i q c t w res w', env_ok E -> reachable E w ->
  mat_extract_comp E i q c t w = (res, w') -> res <> UB ->
  exists r cp, nth_error (w_res w) i = Some r /\ r_qual r = QMat cp /\
  ((res = Throw ValueError /\ w' = w /\
    (r_qty r < q \/
     exists x0 x1, cp <> c /\ nth_error (w_comps w) cp = Some x0 /\ nth_error (w_comps w) c = Some x1 /\
       (t < 0 \/ exists n, r_qty r * frac n (comp_mass E x0) - q * frac n (comp_mass E x1) < - t))) \/
   (q <= r_qty r /\ extracted w w' i r q (QMat c) res /\
    (cp = c \/
     exists x0 x1, cp <> c /\ nth_error (w_comps w) cp = Some x0 /\ nth_error (w_comps w) c = Some x1 /\
       0 <= t /\ forall n, - t <= r_qty r * frac n (comp_mass E x0) - q * frac n (comp_mass E x1)))).
Proof. exact C01_extract_comp_lemma. Qed.
Print Assumptions C01_extract_comp_conserves.

Example C01_ex :
  let '(res, w1) := extract_res exE 0 3 exW in
  res = Ok 3%nat /\ qty_of w1 0 = Some 7 /\ qty_of w1 3 = Some 3 /\
  fst (extract_res exE 0 11 exW) = Throw ValueError /\
  fst (mat_extract_comp exE 0 4 1 (1#1000000) exW) = Throw ValueError.
Proof. vm_compute. repeat split. Qed.
Example C01_ex_comp :
  let '(res, w1) := mat_extract_comp exE 0 4 1 3 exW in
  res = Ok 3%nat /\ qty_of w1 0 = Some 6 /\ qty_of w1 3 = Some 4.
Proof. vm_compute. repeat split. Qed.

(** A Product made by CreateUntracked yields, when extracted from, a product with a tracker that is
    switched on but has no context: extracting from that one dereferences a null pointer. *)
Theorem C01_untracked_product_refuted : exists ops w i r q w',
  run exE ops world0 = Some w /\ nth_error (w_res w) i = Some r /\ 0 < q /\ q < r_qty r /\
  extract_res exE i q w = (UB, w').
Proof.
  pose (ops := [OCreateProdUntracked 10 "water"; OExtract 0 4]).
  exists ops, (world_after ops), 1%nat, (mkRes (QProd "water") 4 2 2 false true 0 0 1 unpackaged_name 0), 1,
    (snd (extract_res exE 1 1 (world_after ops))).
  vm_compute. repeat split.
Qed.
Print Assumptions C01_untracked_product_refuted.

(** ** C02 *)

(** Absorb: the quantities are added up, the absorbed resource is left with nothing and nothing else
    moves; or it is refused, and every resource still has its quantity: products of different quality
    (no effect at all), or two materials (only when one of the quantities is negative, below). *)
Theorem C02_absorb_conserves : forall E i j w res w', i <> j -> absorb E i j w = (res, w') -> res <> UB ->
  exists a b, nth_error (w_res w) i = Some a /\ nth_error (w_res w) j = Some b /\
  ((res = Ok tt /\ absorbed w w' i j a b) \/
   (res = Throw ValueError /\
    ((exists sa sb, r_qual a = QProd sa /\ r_qual b = QProd sb /\ sa <> sb /\ w' = w) \/
     (exists ca cb, r_qual a = QMat ca /\ r_qual b = QMat cb /\
        forall k r, nth_error (w_res w) k = Some r ->
          exists r', nth_error (w_res w') k = Some r' /\ r_qty r' = r_qty r)))).
Proof. exact C02_absorb_lemma. Qed.
Print Assumptions C02_absorb_conserves.

Theorem C02_mix_never_throws : forall E i j w e w' a b ca cb, env_ok E -> reachable E w ->
  nth_error (w_res w) i = Some a -> nth_error (w_res w) j = Some b ->
  r_qual a = QMat ca -> r_qual b = QMat cb -> 0 <= r_qty a -> 0 <= r_qty b ->
  absorb E i j w <> (Throw e, w').
Proof. exact C02_mix_never_throws_lemma. Qed.
Print Assumptions C02_mix_never_throws.

Theorem C02_product_quality_kept : forall E i j w w' a s, absorb E i j w = (Ok tt, w') ->
  nth_error (w_res w) i = Some a -> r_qual a = QProd s ->
  exists a', nth_error (w_res w') i = Some a' /\ r_qual a' = QProd s.
Proof. exact C02_product_quality_lemma. Qed.
Print Assumptions C02_product_quality_kept.

Example C02_ex :
  let '(res, w1) := absorb exE 0 1 exW in
  res = Ok tt /\ qty_of w1 0 = Some 14 /\ qty_of w1 1 = Some 0.
Proof. vm_compute. repeat split. Qed.
Example C02_ex_products :
  let w0 := world_after (ex_ops ++ [OCreateProd 2 5 "steel" unpackaged_name; OCreateProd 2 5 "water" unpackaged_name]) in
  absorb exE 2 3 w0 = (Throw ValueError, w0) /\
  fst (absorb exE 2 4 w0) = Ok tt /\ qty_of (snd (absorb exE 2 4 w0)) 2 = Some 11.
Proof. vm_compute. repeat split. Qed.

(** The restriction [i <> j] is needed: a resource absorbing itself destroys its whole quantity. *)
Theorem C02_self_absorb_refuted : forall E i w w', absorb E i i w = (Ok tt, w') -> qty_of w' i = Some 0.
Proof.
  intros E i w w' H. destruct (self_absorb_lemma _ _ _ _ H) as [r [Hr Hq]]. unfold qty_of. now rewrite Hr, <- Hq.
Qed.
Print Assumptions C02_self_absorb_refuted.
Example C02_self_absorb_ex :
  let '(res, w1) := absorb exE 0 0 exW in
  res = Ok tt /\ qty_of exW 0 = Some 10 /\ qty_of w1 0 = Some 0.
Proof. vm_compute. repeat split. Qed.

(** ** C03 *)

(** Mixing: the mass of every nuclide adds up.  Under "lazy" decay, Absorb first decays both materials
    ([w1], [w2] are the states after the two comp() calls it makes); the balance is against those. *)
Theorem C03_mix_balances : forall E i j w w', env_ok E -> reachable E w -> i <> j ->
  absorb E i j w = (Ok tt, w') ->
  (exists a ca, nth_error (w_res w) i = Some a /\ r_qual a = QMat ca) ->
  exists c0 c1 w1 w2 a b x0 x1,
    mat_comp E i w = (Ok c0, w1) /\ mat_comp E j w1 = (Ok c1, w2) /\
    nth_error (w_res w2) i = Some a /\ nth_error (w_res w2) j = Some b /\ r_qual a = QMat c0 /\ r_qual b = QMat c1 /\
    nth_error (w_comps w2) c0 = Some x0 /\ nth_error (w_comps w2) c1 = Some x1 /\
    (0 < total (comp_mass E x0) -> 0 < total (comp_mass E x1) -> 0 <= r_qty a -> 0 <= r_qty b ->
     exists a', nth_error (w_res w') i = Some a' /\
       forall n, nuc_mass E w' a' n == nuc_mass E w2 a n + nuc_mass E w2 b n).
Proof. exact C03_mix_lemma. Qed.
Print Assumptions C03_mix_balances.

(** The same when decay is not lazy: against the state before the call. *)
Theorem C03_mix_balances_not_lazy : forall E i j w w' a b ca cb x0 x1, env_ok E -> reachable E w -> i <> j ->
  e_decay E <> "lazy"%string ->
  nth_error (w_res w) i = Some a -> nth_error (w_res w) j = Some b -> r_qual a = QMat ca -> r_qual b = QMat cb ->
  nth_error (w_comps w) ca = Some x0 -> nth_error (w_comps w) cb = Some x1 ->
  0 < total (comp_mass E x0) -> 0 < total (comp_mass E x1) -> 0 <= r_qty a -> 0 <= r_qty b ->
  absorb E i j w = (Ok tt, w') ->
  exists a', nth_error (w_res w') i = Some a' /\ forall n, nuc_mass E w' a' n == nuc_mass E w a n + nuc_mass E w b n.
Proof. exact C03_mix_no_decay_lemma. Qed.
Print Assumptions C03_mix_balances_not_lazy.

(** Extraction: with threshold 0 every nuclide balances exactly; with threshold [t] the composition
    the source is left with differs from the exact difference by at most [t] per nuclide. *)
Theorem C03_extract_balances : forall E i q c t w w' k, env_ok E -> reachable E w ->
  mat_extract_comp E i q c t w = (Ok k, w') ->
  exists r cp x0 r',
    nth_error (w_res w) i = Some r /\ r_qual r = QMat cp /\ nth_error (w_comps w) cp = Some x0 /\
    nth_error (w_res w') i = Some r' /\
    forall x1, nth_error (w_comps w) c = Some x1 -> 0 < total (comp_mass E x0) -> 0 < total (comp_mass E x1) ->
     (t == 0 -> forall n, nuc_mass E w' r' n == nuc_mass E w r n - q * frac n (comp_mass E x1)) /\
     (cp <> c -> exists cn xn, r_qual r' = QMat cn /\ nth_error (w_comps w') cn = Some xn /\
        forall n, absq (nuc_mass E w r n - q * frac n (comp_mass E x1) - amount n (comp_mass E xn)) <= t).
Proof. exact C03_extract_lemma. Qed.
Print Assumptions C03_extract_balances.

Definition nuc_mass_at (w : world) (i : nat) (n : Z) : Q :=
  match nth_error (w_res w) i with Some r => nuc_mass exE w r n | None => 0 end.
Example C03_ex :
  let '(res, w1) := absorb exE 0 1 exW in
  res = Ok tt /\ nuc_mass_at exW 0 3 == (15#2) /\ nuc_mass_at exW 1 3 == 2 /\ nuc_mass_at w1 0 3 == (19#2).
Proof. vm_compute. repeat split. Qed.
(** A third composition (nuclide 3 only), taken out of the first material with threshold 0. *)
Example C03_ex_extract :
  let w0 := world_after (ex_ops ++ [ONewComp true [(3%Z, 2)]]) in
  let '(res, w1) := mat_extract_comp exE 0 4 2 0 w0 in
  res = Ok 3%nat /\ nuc_mass_at w0 0 3 == (15#2) /\ nuc_mass_at w1 0 3 == (7#2) /\ nuc_mass_at w1 0 2 == (5#2).
Proof. vm_compute. repeat split. Qed.

(** ** C04 *)

(** Over every history of API calls (exceptions included) that neither clones a resource nor makes one
    absorb itself, the total quantity in the world is what was created. *)
Theorem C04_history_conserves : forall E ops w, Forall plain_op ops -> run E ops world0 = Some w ->
  total_qty w == qsum (map op_supply ops).
Proof. exact C04_history_lemma. Qed.
Print Assumptions C04_history_conserves.

(** And from any point of a history to any later point. *)
Theorem C04_history_conserves_from : forall E ops w w', Forall plain_op ops -> run E ops w = Some w' ->
  total_qty w' == total_qty w + qsum (map op_supply ops).
Proof. exact run_total. Qed.
Print Assumptions C04_history_conserves_from.

Example C04_ex :
  let ops := ex_ops ++ [OExtract 0 3; OAbsorb 1 3; OExtract 2 9; OPackage 0 (mkPackage "drum" 1 5 "first") [];
    OAdvance; ODecay 1 (-1); OChangePackage 2 "drum"; OTransmute 4 1] in
  run exE ops world0 <> None /\ total_qty (world_after ops) == 20 /\ Forall plain_op ops.
Proof.
  split; [vm_compute; discriminate|]. split; [vm_compute; reflexivity|].
  repeat (apply Forall_cons; [cbn; try exact I; discriminate|]). constructor.
Qed.

(** ** C14 *)

(** Package(pkg): the new packages are distinct new resources of the same quality, each within the
    package's limits, and together with what is left in the source they are exactly what was there;
    what is left is too little for another package.  If the fill computation refuses, nothing changes. *)
Theorem C14_package_conserves : forall E i e0 name fmin fmax strategy p samples w res w' r,
  pkg_create e0 name fmin fmax strategy = Ok p -> 0 < e_eps E ->
  Forall (fun s => fmin <= s <= fmax) samples ->
  nth_error (w_res w) i = Some r -> 0 < r_qty r ->
  res_package E i p samples w = (res, w') -> res <> UB ->
  (exists e rest, res = Throw e /\ w' = w /\ get_fill_mass (e_eps E) p samples (r_qty r) = Some (Throw e, rest)) \/
  (exists js, res = Ok js /\
    NoDup js /\ Forall (fun j => (length (w_res w) <= j < length (w_res w'))%nat) js /\
    Forall (fun j => exists n, nth_error (w_res w') j = Some n /\ r_pkg n = name /\ r_qual n = r_qual r /\
              fmin - e_eps E <= r_qty n <= fmax /\ (fmin <= r_qty r -> fmin <= r_qty n)) js /\
    (exists r', nth_error (w_res w') i = Some r' /\ r_qual r' = r_qual r /\ r_pkg r' = r_pkg r /\
       sum_qty w' js + r_qty r' == r_qty r /\ 0 <= r_qty r' /\ r_qty r' < qmax (e_eps E) fmin) /\
    others_same [i] w w' /\ comps_kept w w' /\ total_qty w' == total_qty w).
Proof. exact C14_package_lemma. Qed.
Print Assumptions C14_package_conserves.

Example C14_ex : exists p, pkg_create true "drum" 4 4 "first" = Ok p /\
  let '(res, w') := res_package exE 0 p [] exW in
  res = Ok [3; 4]%nat /\ qty_of exW 0 = Some 10 /\ match qty_of w' 0 with Some q => q == 2 | None => False end.
Proof. exists (mkPackage "drum" 4 4 "first"). vm_compute. repeat split. Qed.

(** ** C15 *)

(** ChangePackage of a product: either nothing happens (same package, or untracked), or the package is
    the requested one, and the quantity is within its limits unless it is "unpackaged". *)
Theorem C15_product_limits : forall E i n w w' r s, nth_error (w_res w) i = Some r -> r_qual r = QProd s ->
  change_package E i n w = (Ok tt, w') ->
  exists r', nth_error (w_res w') i = Some r' /\ looks_same (with_pkg (r_pkg r') r) r' /\ others_same [i] w w' /\
   ((n = r_pkg r \/ r_ctx r = false) /\ w' = w \/
    n <> r_pkg r /\ r_ctx r = true /\ r_pkg r' = n /\ (n = unpackaged_name \/ within_limits_of E n (r_qty r))).
Proof. exact C15_product_lemma. Qed.
Print Assumptions C15_product_limits.

(** ChangePackage of a material checks the limits of the package it is LEAVING, not of the requested
    one.  What holds: quantity, quality and everything else is kept, and the package is the requested
    one.  Missing: the quantity is within the limits of the requested package (refuted below). *)
Theorem C15_material_limits_partial : forall E i n w w' r c, nth_error (w_res w) i = Some r -> r_qual r = QMat c ->
  change_package E i n w = (Ok tt, w') ->
  exists r', nth_error (w_res w') i = Some r' /\ looks_same (with_pkg (r_pkg r') r) r' /\ others_same [i] w w' /\
   (r_ctx r = false /\ w' = w \/
    r_ctx r = true /\ r_pkg r' = n /\
    (n = unpackaged_name \/
     r_pkg r = unpackaged_name /\ p_fill_min pkg_unpackaged <= r_qty r <= p_fill_max pkg_unpackaged \/
     within_limits_of E (r_pkg r) (r_qty r))).
Proof. exact C15_material_lemma. Qed.
Print Assumptions C15_material_limits_partial.

(** A material of 10 is put in a drum that holds at most 5; and in a package that does not exist. *)
Theorem C15_material_limits_refuted : 
  qty_of exW 0 = Some 10 /\ ~ within_limits_of exE "drum" 10 /\
  (let '(res, w') := change_package exE 0 "drum" exW in
   res = Ok tt /\ option_map r_pkg (nth_error (w_res w') 0) = Some "drum"%string) /\
  (let '(res, w') := change_package exE 0 "no such package" exW in
   res = Ok tt /\ option_map r_pkg (nth_error (w_res w') 0) = Some "no such package"%string).
Proof.
  split; [vm_compute; reflexivity|]. split.
  { intros [k [p [H [H1 H2]]]]. simpl in H. inversion H; subst. simpl in H2. lra. }
  split; vm_compute; split; reflexivity.
Qed.
Print Assumptions C15_material_limits_refuted.
Example C15_ex_product :
  let w1 := world_after (ex_ops ++ [OExtract 2 2]) in
  let '(res, w2) := change_package exE 2 "drum" w1 in
  res = Ok tt /\ option_map r_pkg (nth_error (w_res w2) 2) = Some "drum"%string /\
  change_package exE 2 "drum" exW = (Throw ValueError, exW).
Proof. vm_compute. repeat split. Qed.

(** ** C35 *)

(** A composition made from masses shows exactly those masses, and atoms = mass / atomic mass, at every
    call in every order of calls (the accessors cache); likewise one made from atoms. *)
Theorem C35_from_mass : forall E v w c w' ks, create_from_mass E v w = (Ok c, w') ->
  acceptable E v /\
  exists x, nth_error (w_comps w') c = Some x /\
    fst (lazy_calls E ks x) = map (fun k : bool => if k then v else map (fun p => (fst p, snd p / e_amass E (fst p))) v) ks.
Proof. exact C35_from_mass_lemma. Qed.
Print Assumptions C35_from_mass.
Theorem C35_from_atom : forall E v w c w' ks, create_from_atom E v w = (Ok c, w') ->
  acceptable E v /\
  exists x, nth_error (w_comps w') c = Some x /\
    fst (lazy_calls E ks x) = map (fun k : bool => if k then map (fun p => (fst p, snd p * e_amass E (fst p))) v else v) ks.
Proof. exact C35_from_atom_lemma. Qed.
Print Assumptions C35_from_atom.
(** The two conversions are inverse to each other. *)
Theorem C35_roundtrip : forall E v, (forall n, 0 < e_amass E n) ->
  same_map (map (fun p => (fst p, snd p * e_amass E (fst p))) (map (fun p => (fst p, snd p / e_amass E (fst p))) v)) v /\
  same_map (map (fun p => (fst p, snd p / e_amass E (fst p))) (map (fun p => (fst p, snd p * e_amass E (fst p))) v)) v.
Proof. exact C35_roundtrip_lemma. Qed.
Print Assumptions C35_roundtrip.
(** An invalid nuclide or a negative amount is refused, without effect. *)
Theorem C35_invalid_refused : forall E v w, ~ Forall (fun p => e_isnuc E (fst p) = true /\ 0 <= snd p) v ->
  create_from_mass E v w = (Throw ValueError, w) /\ create_from_atom E v w = (Throw ValueError, w).
Proof. exact C35_reject_lemma. Qed.
Print Assumptions C35_invalid_refused.

Example C35_ex :
  let '(res, w') := create_from_mass exE [(2%Z, 8); (4%Z, 6)] world0 in
  res = Ok 0%nat /\
  exists x a, nth_error (w_comps w') 0 = Some x /\
    fst (lazy_calls exE [false; true; false] x) = [a; [(2%Z, 8); (4%Z, 6)]; a] /\ same_map a [(2%Z, 4); (4%Z, 3#2)].
Proof.
  cbn [fst snd create_from_mass valid_nucs all_positive]. split; [reflexivity|].
  exists (mkComp 1 [] [(2%Z, 8); (4%Z, 6)] false 0 0), [(2%Z, 8#2); (4%Z, 6#4)].
  split; [reflexivity|]. split; [reflexivity|]. repeat constructor.
Qed.
Example C35_ex_refused : ~ Forall (fun p => e_isnuc exE (fst p) = true /\ 0 <= snd p) [(2%Z, -(1))].
Proof. intros H. inversion H as [|? ? [_ H1]]; subst. simpl in H1. lra. Qed.
