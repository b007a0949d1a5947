(** * C50: asking a material about its content (MatQuery, UraniumAssay, UraniumQty).
    Vocabulary: ResourceSpec.v ([frac n v] is the fraction of nuclide [n] in vector [v]) and CompSpec.v
    ([close t a b] is relative closeness).  In each theorem [mat_comp E i w = (Ok c, w1)] says that comp() of
    material [i] is composition [c] (after the decay that is due in "lazy" mode, which gives world [w1]);
    every query leaves exactly that world, whatever else it computes. *)
From Coq Require Import String List.
From Verif Require Import Base CompModel CompSpec GreedyModel PackageModel ResourceModel ResourceSpec
  ResourceProperties MatQueryModel MatQueryProofs.
Import ListNotations.
Open Scope Q_scope.

(** Asking again changes nothing more. *)
Theorem C50_queries_settle : forall E i w c w1, mat_comp E i w = (Ok c, w1) -> mat_comp E i w1 = (Ok c, w1).
Proof. exact mat_comp_again. Qed.
Print Assumptions C50_queries_settle.

(** One nuclide: fractions between 0 and 1, mass = fraction of the quantity, moles = mass in grams over the
    atomic mass. *)
Theorem C50_nuclide : forall E i n w c w1 r x, env_ok E -> reachable E w -> mat_comp E i w = (Ok c, w1) ->
  nth_error (w_res w1) i = Some r -> nth_error (w_comps w1) c = Some x ->
  (exists f, mq_mass_frac E i n w = (Ok f, w1) /\ f == frac n (comp_mass E x) /\ 0 <= f <= 1) /\
  (exists f, mq_atom_frac E i n w = (Ok f, w1) /\ f == frac n (comp_atom E x) /\ 0 <= f <= 1) /\
  (exists m, mq_mass E i n w = (Ok m, w1) /\ m == r_qty r * frac n (comp_mass E x)) /\
  (exists m, mq_moles E i n w = (Ok m, w1) /\ m * e_amass E n == 1000 * (r_qty r * frac n (comp_mass E x))).
Proof. exact C50_single_lemma. Qed.
Print Assumptions C50_nuclide.

(** Several nuclides: no set of nuclides holds more than everything, all nuclides together are everything,
    and the queries on a set are the sums of the queries on its members; except that the mass fraction of a
    set in a material emptied to 0 is not a number, although each member has a mass fraction. *)
Theorem C50_nuclide_sets : forall E i w c w1 r x, env_ok E -> reachable E w -> mat_comp E i w = (Ok c, w1) ->
  nth_error (w_res w1) i = Some r -> nth_error (w_comps w1) c = Some x ->
  (forall nucs, NoDup nucs -> qsum (map (fun n => frac n (comp_mass E x)) nucs) <= 1) /\
  (0 < total (comp_mass E x) -> qsum (map (fun n => frac n (comp_mass E x)) (zkeys (comp_mass E x))) == 1) /\
  (forall nucs, nucs <> [] ->
     (~ r_qty r == 0 -> exists f, mq_mass_frac_set E i nucs w = (Ok (Fin f), w1) /\
        f == qsum (map (fun n => frac n (comp_mass E x)) nucs)) /\
     (r_qty r == 0 -> mq_mass_frac_set E i nucs w = (Ok NaN, w1))) /\
  (forall nucs, exists f, mq_atom_frac_set E i nucs w = (Ok f, w1) /\
     f == qsum (map (fun n => frac n (comp_atom E x)) nucs)).
Proof. exact C50_sum_lemma. Qed.
Print Assumptions C50_nuclide_sets.

(** AlmostEq: a negative threshold is refused; otherwise true exactly if the two materials hold the same
    nuclides in fractions close to each other. *)
Theorem C50_almost_eq : forall E i j t w ci cj w1 w2 x y, env_ok E -> reachable E w ->
  mat_comp E i w = (Ok ci, w1) -> mat_comp E j w1 = (Ok cj, w2) ->
  nth_error (w_comps w1) ci = Some x -> nth_error (w_comps w2) cj = Some y ->
  (t < 0 -> mq_almost_eq E i j t w = (Throw ValueError, w2)) /\
  (0 <= t -> exists b, mq_almost_eq E i j t w = (Ok b, w2) /\
     (b = true <->
       (forall n, In n (zkeys (comp_mass E x)) <-> In n (zkeys (comp_mass E y))) /\
       (forall n, close t (frac n (comp_mass E x)) (frac n (comp_mass E y))))).
Proof. exact mq_almost_eq_lemma. Qed.
Print Assumptions C50_almost_eq.

(** Amount(c): the largest quantity of composition [c] of which the material holds every nuclide. *)
Theorem C50_amount : forall E i w c w1 r x d y, env_ok E -> reachable E w -> mat_comp E i w = (Ok c, w1) ->
  nth_error (w_res w1) i = Some r -> nth_error (w_comps w1) c = Some x -> nth_error (w_comps w1) d = Some y ->
  0 <= r_qty r ->
  exists a, mq_amount E i d w = (Ok a, w1) /\ 0 <= a <= r_qty r /\
    (forall n, a * frac n (comp_mass E y) <= r_qty r * frac n (comp_mass E x)) /\
    (0 < total (comp_mass E y) ->
       forall b, (forall n, b * frac n (comp_mass E y) <= r_qty r * frac n (comp_mass E x)) -> b <= a).
Proof. exact mq_amount_run. Qed.
Print Assumptions C50_amount.

(** ... and ExtractComp of that amount, with any valid threshold, is never refused. *)
Theorem C50_amount_extractable : forall E i w c w1 r d y a t res w2, env_ok E -> reachable E w ->
  mat_comp E i w = (Ok c, w1) -> nth_error (w_res w1) i = Some r -> nth_error (w_comps w1) d = Some y ->
  0 <= r_qty r -> 0 <= t -> mq_amount E i d w = (Ok a, w1) ->
  mat_extract_comp E i a d t w1 = (res, w2) -> res <> UB -> exists k, res = Ok k.
Proof. exact amount_extract_lemma. Qed.
Print Assumptions C50_amount_extractable.

(** Uranium: the uranium quantity is U-235 plus U-238, within the quantity; the assays are between 0 and 1,
    and assay times uranium is the U-235. *)
Theorem C50_uranium : forall E i w c w1 r x, env_ok E -> reachable E w -> mat_comp E i w = (Ok c, w1) ->
  nth_error (w_res w1) i = Some r -> nth_error (w_comps w1) c = Some x -> 0 <= r_qty r ->
  exists u a b m235 m238,
    uranium_qty E i w = (Ok u, w1) /\ uranium_assay_mass E i w = (Ok a, w1) /\ uranium_assay_atom E i w = (Ok b, w1) /\
    mq_mass E i U235 w = (Ok m235, w1) /\ mq_mass E i U238 w = (Ok m238, w1) /\
    u == m235 + m238 /\ 0 <= u <= r_qty r /\ 0 <= a <= 1 /\ 0 <= b <= 1 /\ a * u == m235.
Proof. exact C50_uranium_lemma. Qed.
Print Assumptions C50_uranium.

(** ** A reachable world that meets the hypotheses: 10 kg of a material one quarter nuclide 2 and three
    quarters nuclide 3, and a composition of equal parts of both. *)
Definition ex50_ops : list op :=
  [ONewComp true [(2%Z, 1); (3%Z, 3)]; ONewComp true [(2%Z, 1); (3%Z, 1)];
   OCreateMat 1 10 0 unpackaged_name;
   ONewComp true [(U235, 1); (U238, 3)]; OCreateMat 1 8 2 unpackaged_name].
Definition ex50_w : world := world_after ex50_ops.
Example C50_ex_reachable : reachable exE ex50_w.
Proof.
  exists ex50_ops. split; [|vm_compute; reflexivity].
  apply Forall_forall. intros o Ho. simpl in Ho.
  destruct Ho as [<-|[<-|[<-|[<-|[<-|[]]]]]]; try exact I; cbn; unfold wf_comp; cbn;
    repeat (first [split | constructor]); try reflexivity.
Qed.
Example C50_ex_comp : mat_comp exE 0 ex50_w = (Ok 0%nat, ex50_w).
Proof. vm_compute. reflexivity. Qed.
(** 5 kg of the even mixture can be made; and taking them out works. *)
Example C50_ex_amount : exists a, mq_amount exE 0 1 ex50_w = (Ok a, ex50_w) /\ a == 5 /\
  exists k w2, mat_extract_comp exE 0 a 1 0 ex50_w = (Ok k, w2).
Proof. eexists. split; [vm_compute; reflexivity|]. split; [reflexivity|]. eexists _, _. vm_compute. reflexivity. Qed.
Example C50_ex_uranium : exists u a, uranium_qty exE 1 ex50_w = (Ok u, ex50_w) /\ u == 8 /\
  uranium_assay_mass exE 1 ex50_w = (Ok a, ex50_w) /\ a == 1#4.
Proof. eexists _, _. split; [vm_compute; reflexivity|]. split; [reflexivity|]. split; [vm_compute; reflexivity|reflexivity]. Qed.
(** In "lazy" mode the first query decays the material and later ones do not. *)
Definition exLazy : env := mkEnv (1#1000000) "lazy" 2629846 [] (fun n => Z.ltb 0 n) (fun n => if Z.ltb 0 n then inject_Z n else 1)
  (fun _ _ _ => 1) (fun _ => true) (fun v _ => filter (fun p => Z.ltb 2 (fst p)) v).
Definition ex50_lazy : world :=
  match run exLazy [ONewComp true [(2%Z, 1); (3%Z, 3)]; OCreateMat 1 10 0 unpackaged_name; OAdvance] world0 with
  | Some w => w | None => world0 end.
Example C50_ex_lazy : exists w1 f, mat_comp exLazy 0 ex50_lazy = (Ok 1%nat, w1) /\ w1 <> ex50_lazy /\
  mq_mass_frac exLazy 0 3 ex50_lazy = (Ok f, w1) /\ f == 1.
Proof.
  eexists _, _. split; [vm_compute; reflexivity|]. split; [vm_compute; discriminate|]. split; [vm_compute; reflexivity|reflexivity].
Qed.
