(** * C41: the total inventory tracker. *)
From Verif Require Import Base CompModel PackageModel ResourceModel ResourceSpec ResourceProperties BufModel BufSpec BufProperties
  TrackerModel TrackerSpec TrackerProofs.
Local Open Scope Q_scope.

(** The running example: two buffers of capacity 20 in the world of the C08 examples, holding resource 0
    and resource 1, tracked with a limit of 18. *)
Definition exOne (i : nat) := snd (b_runs exE EMaterial [BCapacity (Some 20); BPush i] (exW, exB false)).
Definition exBufs : list buf := [snd (exOne 0); snd (exOne 1)].
Definition exT : tracker := mkTrk 18 [0%nat; 1%nat].
Lemma exOne_in_use i : (i = 0%nat \/ i = 1%nat) -> in_use exE EMaterial exW (snd (exOne i)).
Proof.
  intros [-> | ->].
  - replace exW with (fst (exOne 0)) at 1 by (vm_compute; reflexivity).
    apply (b_runs_in_use EMaterial [BCapacity (Some 20); BPush 0] false); vm_compute; reflexivity.
  - replace exW with (fst (exOne 1)) at 1 by (vm_compute; reflexivity).
    apply (b_runs_in_use EMaterial [BCapacity (Some 20); BPush 1] false); vm_compute; reflexivity.
Qed.
Example exBufs_tracked : tracks exBufs (t_bufs exT) exBufs /\ exBufs <> [] /\
  forall b, In b exBufs -> in_use exE EMaterial exW b.
Proof.
  split; [repeat constructor|]. split; [discriminate|].
  intros b [<-|[<-|[]]]; apply exOne_in_use; auto.
Qed.
Example exT_reached : trk_hist (e_eps exE) [(TInit [0%nat; 1%nat] 30, Ok tt); (TSet 5, Throw ValueError); (TSet 18, Ok tt)] (exBufs, exT).
Proof.
  apply (th_step _ [_; _] (exBufs, mkTrk 30 [0%nat; 1%nat])); [|vm_compute; reflexivity|discriminate].
  apply (th_step _ [_] (exBufs, mkTrk 30 [0%nat; 1%nat])); [|vm_compute; reflexivity|discriminate].
  apply (th_step _ [] (exBufs, trk_new)); [apply th_new|vm_compute; reflexivity|discriminate].
Qed.

(** quantity() is the mass of everything that is in the tracked buffers, whatever was done to them. *)
Theorem C41_quantity : forall E w bufs t bs,
  tracks bufs (t_bufs t) bs -> bs <> [] -> (forall b, In b bs -> in_use E EMaterial w b) ->
  exists q, trk_quantity bufs t = Ok q /\ q == content w bs /\ trk_empty bufs t = Ok (Qeqb q 0).
Proof. exact tracker_quantity. Qed.
Print Assumptions C41_quantity.
Example C41_quantity_case : exists q, trk_quantity exBufs exT = Ok q /\ q == content exW exBufs /\ q == 14.
Proof. eexists. split; [vm_compute; reflexivity|]. split; vm_compute; reflexivity. Qed.

(** capacity() is the smaller of the limit last set and the sum of the capacities of the buffers. *)
Theorem C41_capacity : forall eps tr bufs t bs,
  trk_hist eps tr (bufs, t) -> tracks bufs (t_bufs t) bs -> bs <> [] ->
  exists c, trk_capacity bufs t = Ok c /\ c <= limit_set tr /\ ole c (osum (map b_cap bs)) /\
  (c == limit_set tr \/ exists s, osum (map b_cap bs) = Some s /\ c == s).
Proof. exact tracker_capacity. Qed.
Print Assumptions C41_capacity.
Example C41_capacity_case : trk_capacity exBufs exT = Ok 18 /\ osum (map b_cap exBufs) = Some 40 /\
  trk_capacity [exB false; snd (exOne 1)] exT = Ok 18 /\ osum (map b_cap [exB false; snd (exOne 1)]) = None /\
  trk_capacity exBufs (mkTrk 50 [0%nat; 1%nat]) = Ok 40.
Proof. repeat split; vm_compute; reflexivity. Qed.

(** space() is what is left of the capacity, never negative, and no more than the buffers together can
    take when each is within its capacity. *)
Theorem C41_space : forall bufs t bs, tracks bufs (t_bufs t) bs -> bs <> [] ->
  exists s c q, trk_space bufs t = Ok s /\ trk_capacity bufs t = Ok c /\ trk_quantity bufs t = Ok q /\
  0 <= s /\ (q <= c -> s == c - q) /\ (c <= q -> s == 0) /\
  (Forall within_capacity bs -> ole s (osum (map space bs))).
Proof. exact tracker_space. Qed.
Print Assumptions C41_space.
Example C41_space_case : Forall within_capacity exBufs /\ trk_space exBufs exT = Ok 4 /\
  osum (map space exBufs) = Some 26 /\ trk_space exBufs (mkTrk 5 [0%nat; 1%nat]) = Ok 0.
Proof.
  split; [|split; [|split]; vm_compute; reflexivity].
  apply Forall_cons; [vm_compute; discriminate|]. apply Forall_cons; [vm_compute; discriminate|]. apply Forall_nil.
Qed.

(** Whoever pushes no more than the constrained space of a buffer keeps the total within the capacity. *)
Theorem C41_room : forall E w bufs t bs i b s r j w' b' res,
  tracks bufs (t_bufs t) bs -> NoDup (t_bufs t) -> In i (t_bufs t) -> nth_error bufs i = Some b ->
  in_use E EMaterial w b -> 0 <= e_eps E ->
  nth_error (w_res w) j = Some r -> 0 <= r_qty r -> casts EMaterial r = true -> ~ In j (b_rs b) ->
  (b_bulk b = true -> mixable w (b_rs b ++ [j])) ->
  trk_buf_space bufs i t = Ok s -> r_qty r <= s ->
  bstep E EMaterial (BPush j) (w, b) = (res, (w', b')) -> res <> UB ->
  res = Ok [] /\
  exists c q c' q', trk_capacity bufs t = Ok c /\ trk_quantity bufs t = Ok q /\
    trk_capacity (upd bufs i b') t = Ok c' /\ trk_quantity (upd bufs i b') t = Ok q' /\
    c' == c /\ q' == q + r_qty r /\ (q <= c -> q' <= c').
Proof. exact tracker_room. Qed.
Print Assumptions C41_room.
Example C41_room_case :
  trk_buf_space [snd (exOne 0); mkBuf 0 None false false [] []] 1 exT = Ok 8 /\
  (exists r, nth_error (w_res exW) 1 = Some r /\ casts EMaterial r = true /\ r_qty r == 4) /\
  exists q', fst (bstep exE EMaterial (BPush 1) (exW, mkBuf 0 None false false [] [])) = Ok [] /\
    trk_quantity [snd (exOne 0); snd (snd (bstep exE EMaterial (BPush 1) (exW, mkBuf 0 None false false [] [])))] exT = Ok q' /\
    q' == 14.
Proof.
  split; [vm_compute; reflexivity|]. split.
  - eexists. split; [vm_compute; reflexivity|]. split; vm_compute; reflexivity.
  - eexists. split; [vm_compute; reflexivity|]. split; vm_compute; reflexivity.
Qed.

(** set_capacity refuses exactly the limits below the stored quantity (by more than eps_rsrc). *)
Theorem C41_set_capacity : forall bufs eps cap t bs, tracks bufs (t_bufs t) bs -> bs <> [] ->
  exists q, trk_quantity bufs t = Ok q /\
  ((cap + eps < q /\ trk_set_capacity bufs eps cap t = (Throw ValueError, t)) \/
   (q <= cap + eps /\ trk_set_capacity bufs eps cap t = (Ok tt, mkTrk cap (t_bufs t)))).
Proof. exact set_capacity_ok. Qed.
Print Assumptions C41_set_capacity.
Example C41_set_capacity_case : trk_set_capacity exBufs (e_eps exE) 13 exT = (Throw ValueError, exT) /\
  trk_set_capacity exBufs (e_eps exE) 14 exT = (Ok tt, mkTrk 14 [0%nat; 1%nat]).
Proof. split; vm_compute; reflexivity. Qed.

(** A tracker that was never given buffers answers nothing. *)
Theorem C41_uninitialised : forall bufs t, t_bufs t = [] ->
  trk_quantity bufs t = Throw ValueError /\ trk_capacity bufs t = Throw ValueError /\
  trk_space bufs t = Throw ValueError /\ trk_empty bufs t = Throw ValueError /\
  (forall i, trk_has i t = Throw ValueError) /\
  (forall eps cap, trk_set_capacity bufs eps cap t = (Throw ValueError, t)).
Proof. exact uninit. Qed.
Print Assumptions C41_uninitialised.
Example C41_uninitialised_case : t_bufs trk_new = [].
Proof. reflexivity. Qed.

(** A refused Init has replaced the buffers; a later set_capacity may make the limit zero or negative,
    which Init refuses; and a buffer listed twice is counted twice. *)
Theorem C41_failed_init_refuted : exists t', trk_init [1%nat] 0 exT = (Throw ValueError, t') /\ t_bufs t' = [1%nat] /\
  trk_quantity exBufs exT <> trk_quantity exBufs t'.
Proof. eexists. split; [vm_compute; reflexivity|]. split; [reflexivity|]. vm_compute. discriminate. Qed.
Print Assumptions C41_failed_init_refuted.
Theorem C41_nonpositive_capacity_refuted : forall eps, 0 < eps -> forall t bs bufs,
  tracks bufs (t_bufs t) bs -> bs <> [] -> trk_quantity bufs t = Ok 0 ->
  trk_set_capacity bufs eps (- (eps / 2)) t = (Ok tt, mkTrk (- (eps / 2)) (t_bufs t)).
Proof. exact nonpositive_capacity. Qed.
Print Assumptions C41_nonpositive_capacity_refuted.
Example C41_nonpositive_capacity_case : trk_quantity [exB false] (mkTrk 18 [0%nat]) = Ok 0.
Proof. vm_compute. reflexivity. Qed.
Theorem C41_duplicate_refuted : fst (trk_init [0%nat; 0%nat] 18 trk_new) = Ok tt /\
  exists q, trk_quantity exBufs (snd (trk_init [0%nat; 0%nat] 18 trk_new)) = Ok q /\
  q == 2 * sum_qty exW (b_rs (snd (exOne 0))) /\ 0 < q.
Proof. split; [vm_compute; reflexivity|]. eexists. split; [vm_compute; reflexivity|]. split; vm_compute; reflexivity. Qed.
Print Assumptions C41_duplicate_refuted.
