(** * BufProperties: theorems about ResBuf (C08, C09, C10, C11). *)
From Coq Require Import String.
From Verif Require Import Base CompModel CompSpec PackageModel ResourceModel ResourceSpec ResourceProperties
  BufModel BufSpec BufProofs7.
Open Scope Q_scope.

(** ** Running a list of buffer operations, for the examples *)
Fixpoint b_runs (E : env) (T : elem) (ops : list bop) (s : world * buf) : list (bop * result (list nat)) * (world * buf) :=
  match ops with
  | [] => ([], s)
  | o :: ops => let '(res, s1) := bstep E T o s in let '(tr, s2) := b_runs E T ops s1 in ((o, res) :: tr, s2)
  end.
Definition is_ub {A} (r : result A) : bool := match r with UB => true | _ => false end.
Definition plain_bop (o : bop) : bool := match o with BPushV _ | BOther _ => false | _ => true end.
Lemma b_runs_hist E T ops : forall s0 tr0 s tr s', bhist E T s0 tr0 s -> b_runs E T ops s = (tr, s') ->
  forallb plain_bop ops = true -> existsb (fun p => is_ub (snd p)) tr = false -> bhist E T s0 (tr0 ++ tr) s'.
Proof.
  induction ops as [|o ops IH]; simpl; intros s0 tr0 s tr s' H R P U.
  - inversion R; subst. now rewrite app_nil_r.
  - apply andb_prop in P as [P1 P2]. destruct (bstep E T o s) as [res s1] eqn:B. destruct (b_runs E T ops s1) as [tr1 s2] eqn:R1.
    inversion R; subst. simpl in U. apply orb_false_elim in U as [U1 U2].
    replace (tr0 ++ (o, res) :: tr1) with ((tr0 ++ [(o, res)]) ++ tr1) by (rewrite <- app_assoc; reflexivity).
    eapply IH; eauto. econstructor; eauto.
    + intros ->. discriminate.
    + destruct o; try exact I; discriminate.
Qed.
Definition exB (bulk : bool) : buf := mkBuf 0 None bulk false [] [].
(** Materials 0 (10 kg) and 1 (4 kg) pushed into a buffer of capacity 20, then 3 kg taken. *)
Definition exH : list bop := [BCapacity (Some 20); BPush 0; BPush 1; BPush 1; BPopQty 3; BPopN 5].
Definition exS (bulk : bool) := snd (b_runs exE EMaterial exH (exW, exB bulk)).
Example exH_results : map snd (fst (b_runs exE EMaterial exH (exW, exB false))) =
  [Ok []; Ok []; Ok []; Throw KeyError; Ok [3%nat]; Throw ValueError].
Proof. vm_compute. reflexivity. Qed.
Lemma b_runs_in_use T ops bulk : forallb plain_bop ops = true ->
  existsb (fun p => is_ub (snd p)) (fst (b_runs exE T ops (exW, exB bulk))) = false ->
  forall s, s = snd (b_runs exE T ops (exW, exB bulk)) -> in_use exE T (fst s) (snd s).
Proof.
  intros P U s ->. destruct (b_runs exE T ops (exW, exB bulk)) as [tr [w b]] eqn:R. simpl in U.
  exists exW, bulk, false, (exB bulk), ([] ++ tr).
  split; [exact exE_ok|]. split; [exact exW_reachable|]. split; [destruct bulk; reflexivity|].
  eapply b_runs_hist; eauto. apply bh_start.
Qed.
Lemma exS_in_use bulk : in_use exE EMaterial (fst (exS bulk)) (snd (exS bulk)).
Proof. apply b_runs_in_use with (ops := exH) (bulk := bulk); [reflexivity| |reflexivity]. destruct bulk; vm_compute; reflexivity. Qed.

(** ** C08 *)

(** After any history, successful or not, quantity() is the sum of the quantities the contained objects
    have now, and no object is contained twice. *)
Theorem C08_accounted : forall E T w b, in_use E T w b -> accounted w b.
Proof. exact C08_accounted_lemma. Qed.
Print Assumptions C08_accounted.

(** A bulk buffer holds at most one object. *)
Theorem C08_bulk_is_one : forall E T w b, in_use E T w b -> b_bulk b = true -> (count b <= 1)%Z.
Proof. exact C08_bulk_lemma. Qed.
Print Assumptions C08_bulk_is_one.

(** space() is never negative, and is the capacity minus the quantity when that is positive. *)
Theorem C08_space : forall b, match space b, b_cap b with
  | None, None => True
  | Some s, Some c => 0 <= s /\ (quantity b <= c -> s == c - quantity b) /\ (c <= quantity b -> s == 0)
  | _, _ => False
  end.
Proof.
  intros b. unfold space, quantity. destruct (b_cap b) as [c|]; auto. unfold qmax. qcase; repeat split; intros; lra.
Qed.
Print Assumptions C08_space.

(** A successful push raises the quantity by what was pushed, and never beyond eps_rsrc over the larger of
    the capacity and the quantity before. *)
Theorem C08_push_bound : forall E T w b o is l w' b' c, in_use E T w b -> 0 <= e_eps E -> push_list o = Some is ->
  bstep E T o (w, b) = (Ok l, (w', b')) -> fair T o (w, b) (w', b') -> b_cap b = Some c ->
  quantity b' == quantity b + sum_qty w is /\ b_cap b' = b_cap b /\ quantity b' <= qmax c (quantity b) + e_eps E.
Proof. exact C08_push_capacity_lemma. Qed.
Print Assumptions C08_push_bound.

(** capacity(c) is refused, without effect, for a negative value or one below the content by more than eps_rsrc. *)
Theorem C08_set_capacity : forall E T w b c res w' b', bstep E T (BCapacity c) (w, b) = (res, (w', b')) ->
  w' = w /\
  ((exists x, c = Some x /\ (x < 0 \/ e_eps E < quantity b - x) /\ res = Throw ValueError /\ b' = b) \/
   (match c with Some x => 0 <= x /\ quantity b <= x + e_eps E | None => True end /\ res = Ok [] /\ b' = set_b_cap c b)).
Proof. exact C08_capacity_lemma. Qed.
Print Assumptions C08_set_capacity.

(** In a history in which no push is of eps_rsrc or less in total, and no contained quantity is negative,
    quantity() exceeds capacity() by at most eps_rsrc. *)
Theorem C08_capacity_history : forall E T w0 bulk keep b0 tr w b c,
  env_ok E -> reachable E w0 -> fresh_buf bulk keep b0 -> 0 <= e_eps E ->
  bhist_sizable E T (w0, b0) tr (w, b) -> b_cap b = Some c -> quantity b <= c + e_eps E.
Proof. exact C08_capacity_history_lemma. Qed.
Print Assumptions C08_capacity_history.

Example C08_example : let '(w, b) := exS false in let '(w2, b2) := exS true in
  quantity b == 11 /\ sum_qty w (b_rs b) == 11 /\ b_rs b = [0%nat; 1%nat] /\
  quantity b2 == 11 /\ b_rs b2 = [0%nat] /\ sum_qty w2 [0%nat] == 11 /\ quantity b <= 20 + e_eps exE.
Proof. vm_compute. repeat split; discriminate. Qed.
Definition exC (n : nat) := snd (b_runs exE EMaterial (firstn n [BCapacity (Some 12); BPush 0; BPush 1]) (exW, exB false)).
Example C08_capacity_example : bhist_sizable exE EMaterial (exW, exB false)
  ((([] ++ [(BCapacity (Some 12), Ok [])]) ++ [(BPush 0, Ok [])]) ++ [(BPush 1, Throw ValueError)]) (exC 3).
Proof.
  apply bs_step with (s := exC 2).
  1:apply bs_step with (s := exC 1).
  1:apply bs_step with (s := exC 0).
  1:apply bs_start.
  1,5,9:vm_compute; reflexivity.
  1,4,7:discriminate.
  1,3,5:exact I.
  - split; [intros i r []|]. discriminate.
  - split; [intros i r []|]. intros is X. inversion X; subst. vm_compute. reflexivity.
  - split.
    + assert (Rs : b_rs (snd (exC 2)) = [0%nat]) by (vm_compute; reflexivity). intros i r Hi X. rewrite Rs in Hi. destruct Hi as [<-|[]]. assert (Y : option_map (fun r => Qle_bool 0 (r_qty r)) (nth_error (w_res (fst (exC 2))) 0) = Some true) by (vm_compute; reflexivity).
      rewrite X in Y. inversion Y. now apply Qle_bool_iff.
    + intros is X. inversion X; subst. vm_compute. reflexivity.
Qed.

(** The general capacity claim is false: pushes of at most eps_rsrc are accepted by a full buffer without
    end.  Three of them into a buffer of capacity 0. *)
Definition crumbs : list op :=
  ONewComp true [(2%Z, 1)] :: repeat (OCreateMat 1 (1#1000000) 0 unpackaged_name) 3.
Theorem C08_capacity_refuted :
  let '(tr, (w, b)) := b_runs exE EMaterial [BCapacity (Some 0); BPush 0; BPush 1; BPush 2] (world_after crumbs, exB false) in
  Forall (fun p => snd p = Ok []) tr /\ b_cap b = Some 0 /\ quantity b == 3 * e_eps exE /\ ~ quantity b <= 0 + e_eps exE.
Proof. vm_compute. repeat split; auto. Qed.
Print Assumptions C08_capacity_refuted.

(** One object listed twice in one vector is accepted: a non-bulk buffer then contains it twice, and a
    bulk buffer claims 20 while its single object holds nothing. *)
Theorem C08_duplicate_refuted :
  (let '(tr, (w, b)) := b_runs exE EMaterial [BPushV [0%nat; 0%nat]] (exW, exB false) in
   map snd tr = [Ok []] /\ b_rs b = [0%nat; 0%nat]) /\
  (let '(tr, (w, b)) := b_runs exE EMaterial [BPushV [0%nat; 0%nat]] (exW, exB true) in
   map snd tr = [Ok []] /\ b_rs b = [0%nat] /\ quantity b == 20 /\ sum_qty w (b_rs b) == 0).
Proof. vm_compute. repeat split. Qed.
Print Assumptions C08_duplicate_refuted.

(** ** C09 *)

(** Over any history of a non-bulk buffer without PopBack and without pops by quantity: the objects pushed,
    in order, are the objects popped, in order, followed by the content. *)
Theorem C09_first_in_first_out : forall E T w0 keep b0 tr w b, env_ok E -> reachable E w0 -> fresh_buf false keep b0 ->
  bhist E T (w0, b0) tr (w, b) -> Forall (fun p => whole_front (fst p)) tr ->
  pushed tr = popped tr ++ b_rs b.
Proof. exact C09_fifo_lemma. Qed.
Print Assumptions C09_first_in_first_out.

Theorem C09_pop : forall E T w b res w' b', in_use E T w b -> bstep E T BPop (w, b) = (res, (w', b')) -> res <> UB ->
  w' = w /\ ((b_rs b = [] /\ res = Throw ValueError /\ b' = b) \/ exists i, res = Ok [i] /\ b_rs b = i :: b_rs b').
Proof. exact C09_pop_lemma. Qed.
Print Assumptions C09_pop.

Theorem C09_pop_back : forall E T w b res w' b', in_use E T w b -> bstep E T BPopBack (w, b) = (res, (w', b')) -> res <> UB ->
  w' = w /\ ((b_rs b = [] /\ res = Throw ValueError /\ b' = b) \/ exists i, res = Ok [i] /\ b_rs b = b_rs b' ++ [i]).
Proof. exact C09_pop_back_lemma. Qed.
Print Assumptions C09_pop_back.

Theorem C09_pop_n : forall E T w b n res w' b', in_use E T w b -> bstep E T (BPopN n) (w, b) = (res, (w', b')) -> res <> UB ->
  w' = w /\ (((n < 0 \/ count b < n)%Z /\ res = Throw ValueError /\ b' = b) \/
             exists outs, res = Ok outs /\ b_rs b = outs ++ b_rs b' /\ Z.of_nat (length outs) = n).
Proof. exact C09_pop_n_lemma. Qed.
Print Assumptions C09_pop_n.

(** PopVector(q) takes whole objects from the front, splitting only the last one; the rest of that one
    stays at the front. *)
Theorem C09_pop_vector : forall E T w b q res w' b', in_use E T w b ->
  bstep E T (BPopVector q) (w, b) = (res, (w', b')) -> res <> UB ->
  (quantity b < q /\ res = Throw ValueError /\ w' = w /\ b' = b) \/
  (q <= quantity b /\ exists outs, res = Ok outs /\ takes w w' (b_rs b) q outs (b_rs b')).
Proof. exact C09_pop_vector_lemma. Qed.
Print Assumptions C09_pop_vector.

Example C09_example :
  let '(tr, (w, b)) := b_runs exE EMaterial [BPush 1; BPush 0; BPop; BPush 1; BPopN 1] (exW, exB false) in
  pushed tr = [1; 0; 1]%nat /\ popped tr = [1; 0]%nat /\ b_rs b = [1%nat] /\
  fst (bstep exE EMaterial (BPopVector 12) (exS false)) = Throw ValueError /\
  (let '(res, (w2, b2)) := bstep exE EMaterial (BPopVector 8) (exS false) in
   res = Ok [0; 4]%nat /\ b_rs b2 = [1%nat] /\ sum_qty w2 [0%nat] == 7 /\ sum_qty w2 [4%nat] == 1 /\ sum_qty w2 [1%nat] == 3) /\
  fst (bstep exE EMaterial BPopBack (exS false)) = Ok [1%nat].
Proof. vm_compute. repeat split. Qed.

(** ** C10 *)
Theorem C10_pop_vector_exact : forall E T w b q res w' b', in_use E T w b -> 0 < q ->
  bstep E T (BPopVector q) (w, b) = (res, (w', b')) -> res <> UB ->
  (quantity b < q /\ res = Throw ValueError /\ w' = w /\ b' = b) \/
  (q <= quantity b /\ exists outs, res = Ok outs /\ NoDup outs /\ sum_qty w' outs == q /\ quantity b' == quantity b - q /\
     (forall i, In i outs -> ~ In i (b_rs b')) /\ total_qty w' == total_qty w).
Proof. exact C10_pop_vector_lemma. Qed.
Print Assumptions C10_pop_vector_exact.

(** Pop(q), 0 < q: refused without effect if the buffer holds less; otherwise the buffer loses exactly q, no
    quantity appears or disappears anywhere, and if the call returns, it returns one resource of exactly q
    that is no longer in the buffer.  It does return if the contents can be mixed. *)
Theorem C10_pop_exact : forall E T w b q res w' b', in_use E T w b -> 0 < q ->
  bstep E T (BPopQty q) (w, b) = (res, (w', b')) -> res <> UB ->
  (quantity b < q /\ res = Throw ValueError /\ w' = w /\ b' = b) \/
  (q <= quantity b /\ quantity b' == quantity b - q /\ total_qty w' == total_qty w /\
   (forall outs, res = Ok outs -> exists x, outs = [x] /\ sum_qty w' [x] == q /\ ~ In x (b_rs b') /\ exists r, nth_error (w_res w') x = Some r) /\
   (mixable w (b_rs b) -> exists x, res = Ok [x])).
Proof. exact C10_pop_lemma. Qed.
Print Assumptions C10_pop_exact.

(** Pop(q, eps): the smaller of q and the content, refused if q exceeds the content by more than eps. *)
Theorem C10_pop_within_eps : forall E T w b q e res w' b', in_use E T w b -> 0 < q -> 0 <= e ->
  bstep E T (BPopQtyEps q e) (w, b) = (res, (w', b')) -> res <> UB ->
  (quantity b + e < q /\ res = Throw ValueError /\ w' = w /\ b' = b) \/
  (q <= quantity b + e /\ total_qty w' == total_qty w /\
   quantity b' == quantity b - (if Qltb q (quantity b) then q else quantity b) /\
   (forall outs, res = Ok outs -> exists x, outs = [x] /\ sum_qty w' [x] == (if Qltb q (quantity b) then q else quantity b)) /\
   (mixable w (b_rs b) -> b_rs b <> [] -> exists x, res = Ok [x])).
Proof. exact C10_pop_eps_lemma. Qed.
Print Assumptions C10_pop_within_eps.

Example C10_example :
  (let '(res, (w2, b2)) := bstep exE EMaterial (BPopQty 8) (exS false) in
   res = Ok [0%nat] /\ sum_qty w2 [0%nat] == 8 /\ quantity b2 == 3) /\
  (let '(res, (w2, b2)) := bstep exE EMaterial (BPopQtyEps (11 + (1#2)) 1) (exS false) in
   res = Ok [0%nat] /\ sum_qty w2 [0%nat] == 11 /\ b_rs b2 = []) /\
  fst (bstep exE EMaterial (BPopQty 12) (exS false)) = Throw ValueError.
Proof. vm_compute. repeat split. Qed.

(** Pop(0) on a non-empty buffer throws (Squash of nothing), and popping across two product qualities
    throws after the resources have left the buffer. *)
Definition two_products : list op := [OCreateProd 1 6 "water" unpackaged_name; OCreateProd 1 4 "steam" unpackaged_name].
Theorem C10_pop_throws_refuted :
  fst (bstep exE EMaterial (BPopQty 0) (exS false)) = Throw PlainError /\
  (let '(tr, (w, b)) := b_runs exE EProduct [BPush 0; BPush 1; BPopQty 10] (world_after two_products, exB false) in
   map snd tr = [Ok []; Ok []; Throw ValueError] /\ b_rs b = [] /\ quantity b == 0).
Proof. vm_compute. repeat split. Qed.
Print Assumptions C10_pop_throws_refuted.

(** ** C11 *)

(** Pushing one resource: accepted and added, or refused for exactly the documented reason and nothing
    changed.  For a bulk buffer the resource has to be mixable with the content. *)
Theorem C11_push : forall E T w b i res w' b', in_use E T w b -> bstep E T (BPush i) (w, b) = (res, (w', b')) -> res <> UB ->
  (b_bulk b = true -> T <> EResource /\ mixable w (b_rs b ++ [i])) ->
  exists r, nth_error (w_res w) i = Some r /\
  ((res = Ok [] /\ casts T r = true /\ fits (e_eps E) (r_qty r) b /\ ~ In i (b_rs b) /\
    quantity b' == quantity b + r_qty r /\ b_rs b' = (if b_bulk b then firstn 1 (b_rs b ++ [i]) else b_rs b ++ [i])) \/
   (w' = w /\ b' = b /\
    (res = Throw CastError /\ casts T r = false \/ res = Throw ValueError /\ ~ fits (e_eps E) (r_qty r) b \/
     res = Throw KeyError /\ In i (b_rs b)))).
Proof. exact C11_push_lemma. Qed.
Print Assumptions C11_push.

(** Pushing a vector without repetitions: likewise, for the vector as a whole. *)
Theorem C11_push_vector : forall E T w b is res w' b', in_use E T w b -> bstep E T (BPushV is) (w, b) = (res, (w', b')) -> res <> UB ->
  NoDup is -> (b_bulk b = true -> T <> EResource /\ mixable w (b_rs b ++ is)) ->
  let ok_cast := forall i, In i is -> exists r, nth_error (w_res w) i = Some r /\ casts T r = true in
  let ok_room := fits (e_eps E) (sum_qty w is) b in
  let ok_new := forall i, In i is -> ~ In i (b_rs b) in
  (res = Ok [] /\ ok_cast /\ ok_room /\ ok_new /\ quantity b' == quantity b + sum_qty w is /\
    b_rs b' = (if b_bulk b then firstn 1 (b_rs b ++ is) else b_rs b ++ is)) \/
  (w' = w /\ b' = b /\
    (res = Throw CastError /\ ~ ok_cast \/ res = Throw ValueError /\ ~ ok_room \/ res = Throw KeyError /\ ~ ok_new)).
Proof. exact C11_push_vector_lemma. Qed.
Print Assumptions C11_push_vector.

Example C11_example :
  let s := snd (bstep exE EMaterial (BCapacity (Some 12)) (exW, exB false)) in
  (let '(res, (w, b)) := bstep exE EMaterial (BPushV [0%nat; 1%nat]) s in res = Throw ValueError /\ b_rs b = []) /\
  (let '(res, (w, b)) := bstep exE EMaterial (BPushV [0%nat; 2%nat]) s in res = Throw CastError /\ b_rs b = []) /\
  (let '(res, (w, b)) := bstep exE EMaterial (BPushV [1%nat; 0%nat]) (exW, exB false) in res = Ok [] /\ b_rs b = [1%nat; 0%nat] /\ quantity b == 14) /\
  fst (bstep exE EMaterial (BPushV [1%nat]) (exS false)) = Throw KeyError.
Proof. vm_compute. repeat split. Qed.

(** Where the claim fails: a vector listing an object twice is accepted (see C08_duplicate_refuted); a bulk
    product buffer given a vector of two qualities throws after it has taken the first element; a bulk buffer
    of plain Resource pointers refuses its second element with an undocumented exception. *)
Theorem C11_all_or_nothing_refuted :
  (let '(tr, (w, b)) := b_runs exE EProduct [BPushV [0%nat; 1%nat]] (world_after two_products, exB true) in
   map snd tr = [Throw ValueError] /\ b_rs b = [0%nat] /\ quantity b == 0 /\ sum_qty w (b_rs b) == 6) /\
  (let '(tr, (w, b)) := b_runs exE EResource [BPush 0; BPush 1] (exW, exB true) in
   map snd tr = [Ok []; Throw PlainError]).
Proof. vm_compute. repeat split. Qed.
Print Assumptions C11_all_or_nothing_refuted.
