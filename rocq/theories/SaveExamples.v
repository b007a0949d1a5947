(** * SaveExamples: an agent that is copied, saved and restored, and agents that are not (C59). *)
From Coq Require Import String.
From Verif Require Import Base CompModel CompSpec PackageModel ResourceModel ResourceSpec ResourceProperties BufModel BufSpec
  BufProofs7 BufProperties SaveModel SaveSpec.
Open Scope Q_scope.
Local Open Scope string_scope.

Opaque exS.
(** A storage facility: its size, the commodity, an alias of the size, a stock of materials as large as the size, a
    second inventory of products without a stated capacity, and a tracker of the stock. *)
Definition store : vars :=
  [("size", Var (mkInfo (TyPlain "double") None)); ("commod", Var (mkInfo (TyPlain "std::string") None));
   ("volume", AliasOf "size"); ("stock", Var (mkInfo (TyBuf EMaterial) (Some (CapVar "size"))));
   ("parts", Var (mkInfo (TyBuf EProduct) None)); ("total", Var (mkInfo TyTrk None))].
Lemma store_ok : class_ok store.
Proof.
  split.
  - simpl. repeat constructor; simpl; intuition congruence.
  - intros x H K. simpl in H, K. intuition congruence.
  - intros x i k T H Ei. simpl in H. repeat (destruct H as [H|H]; [first [discriminate H|injection H as <- <-; discriminate]|]). destruct H.
  - intros x i y H Ei. simpl in H.
    repeat (destruct H as [H|H]; [first [discriminate H|injection H as <- <-; simpl in Ei]|]); try discriminate; [|destruct H].
    injection Ei as <-. exists (mkInfo (TyPlain "double") None), "double". split; auto. simpl. auto.
Qed.

(** As the constructor makes it. *)
Definition store_new : object :=
  [("size", MVal (VNum 0)); ("commod", MVal (VText "")); ("stock", MBuf EMaterial (mkBuf 0 None false false [] []));
   ("parts", MBuf EProduct (mkBuf 0 None false false [] [])); ("total", MTrk 1000 ["stock"])].
(** After some steps: 7 and 4 kg in stock (the buffer of BufProperties), no parts. *)
Definition store_used : object :=
  [("size", MVal (VNum 20)); ("commod", MVal (VText "fuel")); ("stock", MBuf EMaterial (snd (exS false)));
   ("parts", MBuf EProduct (mkBuf 0 None false false [] [])); ("total", MTrk 500 ["stock"])].
Definition store_world : world := fst (exS false).

Ltac cases H := simpl in H; repeat (destruct H as [H|H]; [first [discriminate H|injection H as <- <-]|]); try destruct H.
Lemma store_vars x i : In (x, Var i) store ->
  (x = "size" /\ i_type i = TyPlain "double") \/ (x = "commod" /\ i_type i = TyPlain "std::string") \/
  (x = "stock" /\ i = mkInfo (TyBuf EMaterial) (Some (CapVar "size"))) \/ (x = "parts" /\ i = mkInfo (TyBuf EProduct) None) \/
  (x = "total" /\ i_type i = TyTrk).
Proof. intros H. simpl in H. repeat (destruct H as [H|H]; [first [discriminate H|injection H as <- <-; simpl; tauto]|]). destruct H. Qed.
Lemma store_buf x T : buf_var store x T -> (x = "stock" /\ T = EMaterial) \/ (x = "parts" /\ T = EProduct).
Proof.
  intros [i [H Ei]]. apply store_vars in H as [[-> Ht]|[[-> Ht]|[[-> ->]|[[-> ->]|[-> Ht]]]]]; try congruence; simpl in Ei; injection Ei as <-; auto.
Qed.
Lemma store_object v1 v2 b1 b2 q l :
  object_of store [("size", MVal v1); ("commod", MVal v2); ("stock", MBuf EMaterial b1); ("parts", MBuf EProduct b2); ("total", MTrk q l)].
Proof.
  split.
  - intros x [i [t [H Ei]]]. apply store_vars in H as [[-> Ht]|[[-> Ht]|[[-> ->]|[[-> ->]|[-> Ht]]]]]; try congruence; simpl in *; try discriminate; eauto.
  - intros x T H. apply store_buf in H as [[-> ->]|[-> ->]]; simpl; eauto.
  - intros x [i [H Ei]]. apply store_vars in H as [[-> Ht]|[[-> Ht]|[[-> ->]|[[-> ->]|[-> Ht]]]]]; try congruence; simpl in *; try discriminate; eauto.
Qed.
Lemma store_constructed : just_constructed store store_new.
Proof.
  split; [apply store_object| |].
  - intros x T b H F. apply store_buf in H as [[-> ->]|[-> ->]]; simpl in F; injection F as <-; simpl; repeat split; auto.
  - intros x q l [i [H Ei]] F. apply store_vars in H as [[-> Ht]|[[-> Ht]|[[-> ->]|[[-> ->]|[-> Ht]]]]]; try congruence; simpl in F; try discriminate.
    injection F as <- <-. split; [discriminate|]. intros y [<-|[]]. simpl. eauto.
Qed.
Lemma store_buffer : b_rs (snd (exS false)) = [0%nat; 1%nat] /\ b_cap (snd (exS false)) = Some 20 /\
  b_qty (snd (exS false)) == 11 /\ b_bulk (snd (exS false)) = false /\ b_keep (snd (exS false)) = false /\
  forallb (fun i => match nth_error (w_res store_world) i with
                    | Some r => casts EMaterial r && String.eqb (r_pkg r) unpackaged_name | None => false end) [0%nat; 1%nat] = true.
Proof. vm_compute. auto 10. Qed.
Lemma some_buf T b b' : Some (MBuf T b) = Some (MBuf T b') -> b' = b.
Proof. intros H. injection H as H. auto. Qed.
Lemma eps_pos : 0 <= e_eps exE.
Proof. vm_compute. discriminate. Qed.
Lemma store_settled : settled_agent exE store store_world store_used.
Proof.
  intros x T b H F. apply store_buf in H as [[-> ->]|[-> ->]]; unfold store_used in F; simpl find in F.
  - apply some_buf in F; subst b. destruct store_buffer as [R [C [Q [B [K H]]]]]. split.
    + apply exS_in_use.
    + intros q Eq. rewrite C in Eq. injection Eq as <-. rewrite Q. pose proof eps_pos. split; [discriminate|lra].
    + intros i Hi. rewrite R in Hi. rewrite forallb_forall in H. specialize (H i Hi).
      destruct (nth_error (w_res store_world) i) as [r|]; [|discriminate]. apply andb_prop in H as [H1 H2].
      apply String.eqb_eq in H2. eauto.
  - apply some_buf in F; subst b. split; [|discriminate|intros i []].
    exists store_world, false, false, (mkBuf 0 None false false [] []), [].
    split; [exact exE_ok|]. split; [|split; [reflexivity|apply bh_start]].
    destruct (in_use_BI _ _ _ _ (exS_in_use false)) as [_ [R _]]. exact R.
Qed.

(** Another simulation, with the 4 kg at position 0 and the 7 kg at position 1. *)
Definition next_world : world := world_after
  [ONewComp true [(2%Z, 1)]; OCreateMat 1 4 0 unpackaged_name; OCreateMat 1 7 0 unpackaged_name].
Definition saved_invs : invs := match snapshot_inv exE store (store_world, store_used) with (Ok i, _) => i | _ => [] end.
Lemma saved_invs_are : saved_invs = [("stock", [0%nat; 1%nat]); ("parts", [])].
Proof. vm_compute. reflexivity. Qed.
Definition next_invs : invs := [("stock", [1%nat; 0%nat])].
Definition reloadedb (w w2 : world) (i j : nat) : bool :=
  match nth_error (w_res w) i, nth_error (w_res w2) j with
  | Some r, Some r2 => Qeq_bool (r_qty r2) (r_qty r) && String.eqb (r_pkg r2) (r_pkg r) &&
      match r_qual r, r_qual r2 with QMat _, QMat _ | QProd _, QProd _ => true | _, _ => false end
  | _, _ => false
  end.
Lemma reloadedb_ok w w2 i j : reloadedb w w2 i j = true -> reloaded w w2 i j.
Proof.
  unfold reloadedb, reloaded. destruct (nth_error (w_res w) i) as [r|]; [|discriminate].
  destruct (nth_error (w_res w2) j) as [r2|]; [|discriminate]. intros H.
  apply andb_prop in H as [H H3]. apply andb_prop in H as [H1 H2]. apply Qeq_bool_iff in H1. apply String.eqb_eq in H2.
  exists r, r2. repeat (split; auto). destruct (r_qual r), (r_qual r2); auto; discriminate.
Qed.
Lemma next_reloaded : reloaded_invs store_world next_world saved_invs next_invs.
Proof.
  rewrite saved_invs_are. intros x. unfold inv_at, next_invs. cbn [find].
  destruct (String.eqb "stock" x).
  - split; [|apply NoDup_cons; [intros [X|[]]; discriminate X|apply NoDup_cons; [intros []|constructor]]].
    repeat constructor; apply reloadedb_ok; vm_compute; reflexivity.
  - destruct (String.eqb "parts" x); split; constructor.
Qed.
Lemma next_settings x T b b0 : buf_var store x T -> find x store_used = Some (MBuf T b) -> find x store_new = Some (MBuf T b0) ->
  b_bulk b0 = b_bulk b /\ b_keep b0 = b_keep b /\
  exists q, annotated_cap store store_used x q /\ 0 <= q /\ b_qty b <= q + e_eps exE.
Proof.
  intros H F F0. destruct store_buffer as [R [C [Q [B [K _]]]]].
  apply store_buf in H as [[-> ->]|[-> ->]]; unfold store_used, store_new in F, F0; simpl find in F, F0;
    apply some_buf in F; subst b; apply some_buf in F0; subst b0; pose proof eps_pos.
  - rewrite B, K. split; auto. split; auto. exists 20. split; [|rewrite Q; split; [discriminate|lra]].
    exists (mkInfo (TyBuf EMaterial) (Some (CapVar "size"))). split; [simpl; auto|]. reflexivity.
  - split; auto. split; auto. exists (inject_Z (10 ^ 300)). split; [|split; [vm_compute; discriminate|]].
    + exists (mkInfo (TyBuf EProduct) None). split; [simpl; auto 10|]. reflexivity.
    + assert (P : 0 <= inject_Z (10 ^ 300)) by (vm_compute; discriminate). revert P. generalize (inject_Z (10 ^ 300)).
      intros z P. simpl. lra.
Qed.

(** What came back: 7 and 4 kg, in this order, in a stock of capacity 20. *)
Definition back : result unit * (world * object) :=
  match snapshot store store_used with
  | Ok row => match init_from_db exE store [row] store_new with
              | Ok m => init_inv exE store next_invs (next_world, m)
              | _ => (UB, (next_world, [])) end
  | _ => (UB, (next_world, []))
  end.
Lemma back_is : fst back = Ok tt /\ find "size" (snd (snd back)) = Some (MVal (VNum 20)) /\
  find "total" (snd (snd back)) = Some (MTrk 1000 ["stock"]) /\
  match find "stock" (snd (snd back)) with
  | Some (MBuf EMaterial b) => b_rs b = [1%nat; 0%nat] /\ b_qty b == 11 /\ b_cap b = Some 20
  | _ => False end.
Proof. vm_compute. repeat split. Qed.

(** ** Agents that do not survive *)
Definition tank : vars := [("stock", Var (mkInfo (TyBuf EMaterial) (Some (CapNum 12))))].
Definition tank_new : object := [("stock", MBuf EMaterial (mkBuf 0 None false false [] []))].
Lemma tank_ok : class_ok tank.
Proof.
  split.
  - simpl. repeat constructor. simpl. tauto.
  - intros x H K. simpl in H, K. intuition congruence.
  - intros x i k T [H|[]] Ei. injection H as <- <-. discriminate.
  - intros x i y [H|[]] Ei. injection H as <- <-. discriminate.
Qed.
Lemma tank_buf x T : buf_var tank x T -> x = "stock" /\ T = EMaterial.
Proof. intros [i [[H|[]] Ei]]. injection H as <- <-. injection Ei as <-. auto. Qed.
Lemma tank_constructed : just_constructed tank tank_new.
Proof.
  split; [split| |].
  - intros x [i [t [[H|[]] Ei]]]. injection H as <- <-. discriminate.
  - intros x T H. apply tank_buf in H as [-> ->]. simpl. eauto.
  - intros x [i [[H|[]] Ei]]. injection H as <- <-. discriminate.
  - intros x T b H F. apply tank_buf in H as [-> ->]. simpl in F. apply some_buf in F; subst b. simpl. repeat split; auto.
  - intros x q l [i [[H|[]] Ei]]. injection H as <- <-. discriminate.
Qed.

(** Crumbs pushed into a full buffer (BufProperties). *)
Definition crumbs_state := snd (b_runs exE EMaterial [BCapacity (Some 0); BPush 0; BPush 1; BPush 2] (world_after crumbs, exB false)).
Definition crumbs_tank : object := [("stock", MBuf EMaterial (snd crumbs_state))].
Lemma crumbs_lost :
  b_rs (snd crumbs_state) = [0%nat; 1%nat; 2%nat] /\
  match snapshot_inv exE tank (fst crumbs_state, crumbs_tank) with
  | (r, (w, o)) => r = Throw ValueError /\ w = fst crumbs_state /\
      match find "stock" o with Some (MBuf _ b) => b_rs b = [] | _ => False end
  end.
Proof. vm_compute. repeat split. Qed.

Opaque crumbs_state.
Lemma crumbs_kind r w o s : snapshot_inv exE tank (fst crumbs_state, crumbs_tank) = (r, (w, o)) -> s = "stock" ->
  exists b, find s o = Some (MBuf EMaterial b).
Proof.
  intros H ->. assert (K : match find "stock" (snd (snd (snapshot_inv exE tank (fst crumbs_state, crumbs_tank)))) with
    Some (MBuf EMaterial _) => True | _ => False end) by (vm_compute; exact I).
  rewrite H in K. cbn [snd] in K. destruct (find "stock" o) as [[v|T b|q l]|]; try contradiction.
  destruct T; try contradiction. eauto.
Qed.

(** A tank enlarged to 15 after it was built, holding 10 and 4 kg. *)
Definition big_ops : list bop := [BCapacity (Some 15); BPush 0; BPush 1].
Definition big_state := snd (b_runs exE EMaterial big_ops (exW, exB false)).
Opaque big_state.
Definition big_tank : object := [("stock", MBuf EMaterial (snd big_state))].
Definition big_next : world := world_after
  [ONewComp true [(2%Z, 1)]; OCreateMat 1 10 0 unpackaged_name; OCreateMat 1 4 0 unpackaged_name].
Definition big_invs : invs := [("stock", [0%nat; 1%nat])].
Transparent big_state.
Lemma big_use : in_use exE EMaterial (fst big_state) (snd big_state).
Proof. apply b_runs_in_use with (ops := big_ops) (bulk := false); reflexivity. Qed.
Opaque big_state.
Lemma big_saved : exists o', snapshot tank big_tank = Ok [] /\
  snapshot_inv exE tank (fst big_state, big_tank) = (Ok big_invs, (fst big_state, o')).
Proof. eexists. split; [vm_compute; reflexivity|]. vm_compute. reflexivity. Qed.
Lemma big_lost :
  match init_from_db exE tank [[]] tank_new with
  | Ok m => match init_inv exE tank big_invs (big_next, m) with
            | (r, (_, o)) => r = Throw ValueError /\
                match find "stock" o with Some (MBuf _ b) => b_rs b = [] | _ => False end
            end
  | _ => False
  end.
Proof. vm_compute. repeat split. Qed.
Lemma big_buffer : b_rs (snd big_state) = [0%nat; 1%nat] /\ b_cap (snd big_state) = Some 15 /\ b_qty (snd big_state) == 14 /\
  b_bulk (snd big_state) = false /\ b_keep (snd big_state) = false /\
  forallb (fun i => match nth_error (w_res (fst big_state)) i with
                    | Some r => casts EMaterial r && String.eqb (r_pkg r) unpackaged_name | None => false end) [0%nat; 1%nat] = true.
Proof. vm_compute. auto 10. Qed.
Lemma big_settled : settled_agent exE tank (fst big_state) big_tank.
Proof.
  intros x T b H F. apply tank_buf in H as [-> ->]. unfold big_tank in F. simpl find in F. apply some_buf in F; subst b.
  destruct big_buffer as [R [C [Q [B [K H]]]]]. split.
  - apply big_use.
  - intros q Eq. rewrite C in Eq. injection Eq as <-. rewrite Q. pose proof eps_pos. split; [discriminate|lra].
  - intros i Hi. rewrite R in Hi. rewrite forallb_forall in H. specialize (H i Hi).
    destruct (nth_error (w_res (fst big_state)) i) as [r|]; [|discriminate]. apply andb_prop in H as [H1 H2].
    apply String.eqb_eq in H2. eauto.
Qed.
Lemma big_reloaded : reloaded_invs (fst big_state) big_next big_invs big_invs.
Proof.
  intros x. unfold inv_at, big_invs. cbn [find]. destruct (String.eqb "stock" x).
  - split; [|apply NoDup_cons; [intros [X|[]]; discriminate X|apply NoDup_cons; [intros []|constructor]]].
    repeat constructor; apply reloadedb_ok; vm_compute; reflexivity.
  - split; constructor.
Qed.

(** A tracker whose limit the user set, in an agent that is cloned; and one that the constructor did not initialise. *)
Definition idle_new : object :=
  [("size", MVal (VNum 0)); ("commod", MVal (VText "")); ("stock", MBuf EMaterial (mkBuf 0 None false false [] []));
   ("parts", MBuf EProduct (mkBuf 0 None false false [] [])); ("total", MTrk 1000 [])].
Lemma tracker_clone :
  match clone exE store store_new store_used with
  | Ok m => find "total" store_used = Some (MTrk 500 ["stock"]) /\ find "total" m = Some (MTrk 1000 ["stock"])
  | _ => False
  end /\ clone exE store idle_new store_used = Throw ValueError.
Proof. vm_compute. repeat split. Qed.
