From Coq Require Import String List ZArith Bool Arith Lia.
From Verif Require Import Base RecorderModel RecorderSpec.
Import ListNotations.
Local Open Scope nat_scope.

Section Proofs.
Context {V : Type}.
Variable bad : nat -> list (@RecorderModel.bcall V) -> @RecorderModel.bcall V -> bool.
Hypothesis Hok : no_failure bad.
Notation recorder := (@recorder V).
Notation datum := (@datum V).
Notation bcall := (@bcall V).

Lemma each_back_ok f bs : forall r, each_back bad f bs r =
  (Ok tt, mkRec (data r) (index r) (backs r) (dump r) (simid r) (inject r) (gen r) (calls r ++ flat_map f bs)).
Proof.
  induction bs as [|b bs IH]; intros r; simpl.
  - rewrite app_nil_r. now destruct r.
  - generalize (f b). intros cs. revert r. induction cs as [|c cs IHc]; intros r; simpl.
    + apply IH.
    + rewrite Hok. rewrite IHc. simpl. now rewrite <- app_assoc.
Qed.

Lemma received_app b l m : received b (l ++ m) = received b l ++ received b m (V := V). Proof. apply flat_map_app. Qed.
Lemma received_batch b (x : list datum) bs (f : nat -> list bcall) :
  (forall b', received b (f b') = if Nat.eqb b' b then x else []) ->
  received b (flat_map f bs) = concat (repeat x (count_occ Nat.eq_dec bs b)).
Proof.
  intros Hf. induction bs as [|b' bs IH]; [reflexivity|]. simpl. rewrite received_app, Hf, IH.
  destruct (Nat.eq_dec b' b) as [->|N]; [now rewrite Nat.eqb_refl|]. apply Nat.eqb_neq in N. now rewrite N.
Qed.

(** What is in the buffer. *)
Definition pending (r : recorder) : list datum := firstn (index r) (data r).
Record well (n : nat) (r : recorder) : Prop := {
  w_len : length (data r) = n;
  w_dump : dump r = n;
  w_idx : index r < n;
  w_id : Forall (fun d => if inject r then exists t, d_vals d = ("SimId"%string, simid r, []) :: t else True) (data r) }.

Definition dispatch (x : list datum) (fl : bool) (r : recorder) : recorder :=
  mkRec (data r) 0 (backs r) (dump r) (simid r) (inject r) (gen r)
    (calls r ++ flat_map (fun b => BNotify b x :: if fl then [BFlush b] else []) (backs r)).
Lemma dispatch_received b x fl r :
  received b (calls (dispatch x fl r)) = received b (calls r) ++ concat (repeat x (count_occ Nat.eq_dec (backs r) b)).
Proof.
  simpl. rewrite received_app. f_equal. apply received_batch. intros b'. simpl.
  destruct fl; simpl; apply app_nil_r.
Qed.
Lemma notify_ok r : notify_backends bad r = (Ok tt, dispatch (data r) false r).
Proof. unfold notify_backends. rewrite each_back_ok. simpl. reflexivity. Qed.
Lemma flush_ok r : index r <= length (data r) ->
  flush bad r = (Ok tt, if Nat.eqb (index r) 0 then r else dispatch (pending r) true r).
Proof.
  intros H. unfold flush. destruct (Nat.eqb_spec (index r) 0); [reflexivity|]. destruct (Nat.leb_spec (index r) (length (data r))); [|lia].
  rewrite each_back_ok. reflexivity.
Qed.

(** [l] was handed to every backend registered in [r]. *)
Definition handed (l : list datum) (r r1 : recorder) : Prop :=
  forall b, received b (calls r1) = received b (calls r) ++ concat (repeat l (count_occ Nat.eq_dec (backs r) b)).
Lemma concat_nils k : concat (repeat (@nil datum) k) = [].
Proof. induction k; simpl; auto. Qed.
Lemma handed_nil r r1 : calls r1 = calls r -> handed [] r r1.
Proof. intros E b. now rewrite E, concat_nils, app_nil_r. Qed.

Definition effect (n : nat) (r r1 : recorder) (news : list datum) (inj : bool) : Prop :=
  well n r1 /\ simid r1 = simid r /\ inject r1 = inj /\ exists l, pending r ++ news = l ++ pending r1 /\ handed l r r1.

Lemma flush_spec n r : well n r -> exists r1, flush bad r = (Ok tt, r1) /\ effect n r r1 [] (inject r) /\ pending r1 = [] /\ index r1 = 0 /\ backs r1 = backs r.
Proof.
  intros [A B C E]. rewrite flush_ok by lia. eexists. split; [reflexivity|].
  destruct (Nat.eqb_spec (index r) 0) as [Ez|Nz].
  - assert (P : pending r = []) by (unfold pending; now rewrite Ez). split; [|rewrite P; auto].
    split; [constructor; auto|]. split; [reflexivity|]. split; [reflexivity|]. exists []. rewrite P. split; [reflexivity|now apply handed_nil].
  - split; [|auto]. split; [constructor; simpl; auto; lia|]. split; [reflexivity|]. split; [reflexivity|].
    exists (pending r). split; [reflexivity|]. intros b. apply dispatch_received.
Qed.

(** Filling one datum. *)
Lemma upd_twice {A} (l : list A) i x y : upd (upd l i x) i y = upd l i y.
Proof. revert i. induction l as [|z l IH]; intros [|i]; simpl; auto. f_equal. apply IH. Qed.
Lemma add_vals_ok vs : forall (r : recorder) d i, nth_error (data r) i = Some d ->
  add_vals (gen r, i) vs r = (Ok tt, with_data (fun l => upd l i (mkDatum (d_title d) (d_vals d ++ vs))) r).
Proof.
  induction vs as [|[[f v] sh] vs IH]; intros r d i H; simpl.
  - rewrite app_nil_r. destruct r, d; unfold with_data; simpl in *. f_equal. f_equal. symmetry. now apply upd_same.
  - unfold add_val. simpl. rewrite Nat.eqb_refl, H.
    set (d1 := mkDatum (d_title d) (d_vals d ++ [(f, v, sh)])).
    set (r1 := with_data (fun l => upd l i d1) r).
    assert (H1 : nth_error (data r1) i = Some d1) by (simpl; apply nth_upd_same; apply nth_error_Some; congruence).
    change (gen r) with (gen r1). rewrite (IH r1 d1 i H1). unfold r1, d1, with_data. simpl. rewrite upd_twice, <- app_assoc. reflexivity.
Qed.
Lemma firstn_upd {A} (l : list A) i x : i < length l -> firstn (S i) (upd l i x) = firstn i l ++ [x].
Proof. revert i. induction l as [|y l IH]; intros [|i] H; simpl in *; try lia; [reflexivity|]. f_equal. apply IH. lia. Qed.
Lemma forall_upd {A} (P : A -> Prop) l i x : Forall P l -> P x -> Forall P (upd l i x).
Proof. intros H Hx. revert i. induction H as [|y l Hy H IH]; intros [|i]; simpl; constructor; auto. Qed.

Definition stamped (r : recorder) (vs : list (string * V * list Z)) := if inject r then ("SimId"%string, simid r, []) :: vs else vs.
Lemma put_spec n t vs r : well n r -> exists r1, put bad t vs r = (Ok tt, r1) /\
  effect n r r1 [mkDatum t (stamped r vs)] (inject r) /\ backs r1 = backs r.
Proof.
  intros [A B C E]. unfold put, new_datum.
  destruct (nth_error (data r) (index r)) as [d|] eqn:Hd; [|apply nth_error_None in Hd; lia].
  match goal with |- context [add_vals _ vs ?x] => set (r1 := x) end.
  assert (L : index r < length (data r)) by lia.
  assert (Hd1 : nth_error (data r1) (index r) = Some (mkDatum t (if inject r then firstn 1 (d_vals d) else []))) by (simpl; now apply nth_upd_same).
  assert (Ed : (if inject r then firstn 1 (d_vals d) else []) ++ vs = stamped r vs).
  { unfold stamped. destruct (inject r) eqn:Ei; [|reflexivity]. rewrite Forall_forall in E. destruct (E d) as (tl & Etl); [eapply nth_error_In; eauto|].
    rewrite Etl. reflexivity. }
  change (gen r) with (gen r1). rewrite (add_vals_ok vs r1 _ _ Hd1). cbn [d_title d_vals]. rewrite Ed.
  set (r2 := with_data (fun l => upd l (index r) (mkDatum t (stamped r vs))) r1).
  assert (E2 : data r2 = upd (data r) (index r) (mkDatum t (stamped r vs))) by (unfold r2, r1; simpl; apply upd_twice).
  assert (L2 : length (data r2) = n) by (rewrite E2, upd_length; exact A).
  assert (P2 : firstn (S (index r)) (data r2) = pending r ++ [mkDatum t (stamped r vs)]) by (rewrite E2; now apply firstn_upd).
  assert (I2 : index r2 = S (index r)) by reflexivity.
  assert (F2 : Forall (fun d => if inject r then exists t, d_vals d = ("SimId"%string, simid r, []) :: t else True) (data r2)).
  { rewrite E2. apply forall_upd; [exact E|]. unfold stamped. simpl. destruct (inject r); [eauto|exact I]. }
  unfold record. cbn [fst]. change (gen r1) with (gen r2). rewrite Nat.eqb_refl. destruct (Nat.leb_spec (length (data r2)) (index r2)).
  - rewrite notify_ok. eexists. split; [reflexivity|]. split; [|reflexivity]. split; [constructor; simpl; auto; lia|].
    split; [reflexivity|]. split; [reflexivity|]. exists (data r2). split.
    + change (pending (dispatch (data r2) false r2)) with (@nil datum). rewrite app_nil_r, <- P2. apply firstn_all2. lia.
    + intros b. exact (dispatch_received b (data r2) false r2).
  - eexists. split; [reflexivity|]. split; [|reflexivity]. split; [constructor; auto; lia|].
    split; [reflexivity|]. split; [reflexivity|]. exists []. split; [|now apply handed_nil]. unfold pending at 2. now rewrite I2, P2.
Qed.
Definition backs_after (o : @rop V) (l : list nat) : list nat := match o with OReg c => l ++ [c] | OClose => [] | _ => l end.
Lemma op_spec n o r : well n r -> exists r1, run_op bad o r = (Ok tt, r1) /\
  effect n r r1 (recorded (simid r) (inject r) [o]) (injecting (inject r) [o]) /\ backs r1 = backs_after o (backs r).
Proof.
  intros W. destruct o as [t vs| |c| |x]; simpl run_op.
  - exact (put_spec n t vs r W).
  - destruct (flush_spec n r W) as (r1 & A & B & _ & _ & C). exists r1. auto.
  - eexists. split; [reflexivity|]. split; [|reflexivity]. split; [destruct W; now constructor|]. split; [reflexivity|]. split; [reflexivity|].
    exists []. split; [apply app_nil_r|now apply handed_nil].
  - unfold close. destruct (flush_spec n r W) as (r1 & -> & (W1 & Si & Ij & l & P & H) & Pn & _ & _). eexists. split; [reflexivity|].
    split; [|reflexivity]. split; [destruct W1; now constructor|]. split; [exact Si|]. split; [exact Ij|]. exists l. split; [exact P|exact H].
  - unfold set_inject. destruct (eqb_spec x (inject r)) as [->|Nx].
    + exists r. split; [reflexivity|]. split; [|reflexivity]. split; [exact W|]. split; [reflexivity|]. split; [reflexivity|].
      exists []. split; [apply app_nil_r|now apply handed_nil].
    + destruct (flush_spec n r W) as (r1 & -> & ([A B C E] & Si & Ij & l & P & H) & Pn & Z & Bk). eexists. split; [reflexivity|].
      split; [|exact Bk]. split; [|split; [exact Si|split; [reflexivity|]]].
      * constructor; simpl; rewrite ?repeat_length; auto. unfold blank. simpl. apply Forall_forall. intros d Hd. apply repeat_spec in Hd. subst d.
        simpl. destruct x; [eauto|exact I].
      * exists l. split; [|exact H]. rewrite Pn in P. unfold pending at 2. simpl. rewrite Z. simpl. exact P.
Qed.
Lemma recorded_cons id inj o (ops : list (@rop V)) : recorded id inj (o :: ops) = recorded id inj [o] ++ recorded id (injecting inj [o]) ops.
Proof. destruct o; reflexivity. Qed.
Lemma injecting_cons inj o (ops : list (@rop V)) : injecting inj (o :: ops) = injecting (injecting inj [o]) ops.
Proof. destruct o; reflexivity. Qed.

(** [l] is what is delivered while [ops] runs. *)
Lemma run_ops_spec n ops : forall r, well n r -> exists r1 l, run_ops bad ops r = (Ok tt, r1) /\ well n r1 /\ simid r1 = simid r /\
  inject r1 = injecting (inject r) ops /\ pending r ++ recorded (simid r) (inject r) ops = l ++ pending r1 /\
  (forall b, registered_once b r -> stays_open ops -> ~ In (OReg b) ops -> registered_once b r1 /\ received b (calls r1) = received b (calls r) ++ l) /\
  (forall b, ~ In b (backs r) -> ~ In (OReg b) ops -> ~ In b (backs r1) /\ received b (calls r1) = received b (calls r)).
Proof.
  induction ops as [|o ops IH]; intros r W.
  - exists r, []. simpl. rewrite app_nil_r. split; [reflexivity|]. split; [exact W|]. split; [reflexivity|]. split; [reflexivity|].
    split; [reflexivity|]. split; intros; (split; [assumption|]); rewrite ?app_nil_r; reflexivity.
  - destruct (op_spec n o r W) as (r1 & H1 & (W1 & S1 & J1 & l1 & P1 & Hd) & Bk).
    destruct (IH r1 W1) as (r2 & l2 & H2 & W2 & S2 & J2 & P2 & R2 & Q2). exists r2, (l1 ++ l2).
    split; [simpl; now rewrite H1|]. split; [exact W2|]. split; [congruence|]. split; [rewrite injecting_cons; congruence|]. split; [|split].
    + rewrite recorded_cons, app_assoc, P1, <- !app_assoc. f_equal. rewrite <- P2, S1, J1. reflexivity.
    + intros b Ro Op Nr.
      assert (Ro1 : registered_once b r1).
      { unfold registered_once. rewrite Bk. destruct o as [t vs| |c| |x]; simpl; auto.
        - rewrite count_occ_app. unfold registered_once in Ro. rewrite Ro. simpl. destruct (Nat.eq_dec c b) as [->|]; [exfalso; apply Nr; now left|reflexivity].
        - exfalso. apply Op. now left. }
      destruct (R2 b Ro1) as [Ro2 E2]; [intros X; apply Op; now right|intros X; apply Nr; now right|].
      split; [exact Ro2|]. rewrite E2, (Hd b), Ro. simpl. now rewrite app_nil_r, <- app_assoc.
    + intros b Nb Nr.
      assert (Nb1 : ~ In b (backs r1)).
      { rewrite Bk. destruct o as [t vs| |c| |x]; simpl; auto. intros X. apply in_app_or in X. destruct X as [X|[->|[]]]; [auto|]. apply Nr. now left. }
      destruct (Q2 b Nb1) as [Nb2 E2]; [intros X; apply Nr; now right|]. split; [exact Nb2|]. rewrite E2, (Hd b).
      apply (count_occ_not_In Nat.eq_dec) in Nb. rewrite Nb. simpl. apply app_nil_r.
Qed.
Lemma well_new n id inj : 1 <= n -> well n (@new_recorder V n id inj).
Proof.
  intros H. constructor; simpl; rewrite ?repeat_length; auto; try lia. apply Forall_forall. intros d Hd. apply repeat_spec in Hd. subst d.
  simpl. destruct inj; [eauto|exact I].
Qed.
Lemma pending_short n r : well n r -> length (pending r) < n.
Proof. intros [A B C D]. unfold pending. rewrite firstn_length. lia. Qed.
Lemma run_ops_app ops1 ops2 r r1 : run_ops bad ops1 r = (Ok tt, r1) -> run_ops bad (ops1 ++ ops2) r = run_ops bad ops2 r1.
Proof.
  revert r. induction ops1 as [|o ops IH]; intros r H; simpl in *; [injection H as ->; reflexivity|].
  destruct (run_op bad o r) as [[u|e|] r']; auto; discriminate.
Qed.

(** ** The theorems *)
(** [b] is registered after [ops1]; [ops2] follows, then a flush or a close. *)
Lemma delivered n id inj ops1 b ops2 last : 1 <= n -> ~ In (OReg b) ops1 -> ~ In (OReg b) ops2 -> stays_open ops2 -> last = OFlush \/ last = OClose ->
  exists r old early, run_ops bad (ops1 ++ OReg b :: ops2 ++ [last]) (new_recorder n id inj) = (Ok tt, r) /\
    recorded id inj ops1 = early ++ old /\ length old < n /\
    received b (calls r) = old ++ recorded id (injecting inj ops1) ops2.
Proof.
  intros Hn N1 N2 Op Hl. destruct (run_ops_spec n ops1 _ (well_new n id inj Hn)) as (r1 & l1 & H1 & W1 & S1 & J1 & P1 & _ & Q1).
  destruct (Q1 b ltac:(simpl; tauto) N1) as [Nb E1]. simpl in E1, P1, S1, J1.
  assert (W1' : well n (register_backend b r1)) by (destruct W1; now constructor).
  assert (Ro : registered_once b (register_backend b r1)).
  { unfold registered_once. simpl. rewrite count_occ_app. apply (count_occ_not_In Nat.eq_dec) in Nb. rewrite Nb. simpl.
    destruct (Nat.eq_dec b b); [reflexivity|congruence]. }
  destruct (run_ops_spec n ops2 _ W1') as (r2 & l2 & H2 & W2 & S2 & J2 & P2 & R2 & _).
  destruct (R2 b Ro Op N2) as [Ro2 E2]. simpl in E2, P2, S2, J2.
  destruct (op_spec n last r2 W2) as (r3 & H3 & (W3 & S3 & J3 & l3 & P3 & Hd) & _).
  assert (Z : pending r3 = [] /\ recorded (simid r2) (inject r2) [last] = []).
  { destruct (flush_spec n r2 W2) as (r' & F & _ & Pn & _ & _). destruct Hl as [-> | ->]; simpl in H3 |- *.
    - rewrite F in H3. injection H3 as <-. auto.
    - unfold close in H3. rewrite F in H3. injection H3 as <-. split; [|reflexivity]. exact Pn. }
  destruct Z as [Z1 Z2]. rewrite Z1, Z2, !app_nil_r in P3.
  exists r3, (pending r1), l1. split.
  - rewrite (run_ops_app _ _ _ _ H1). simpl. rewrite (run_ops_app _ _ _ _ H2). simpl. now rewrite H3.
  - split; [exact P1|]. split; [now apply pending_short|]. rewrite (Hd b), Ro2, E2, E1. simpl. rewrite app_nil_r, <- P3.
    change (pending (register_backend b r1)) with (pending r1) in P2. rewrite <- P2, S1, J1. reflexivity.
Qed.
Lemma at_any_time n id inj b ops : 1 <= n -> ~ In (OReg b) ops -> stays_open ops ->
  exists r pend, run_ops bad (OReg b :: ops) (new_recorder n id inj) = (Ok tt, r) /\ length pend < n /\
    received b (calls r) ++ pend = recorded id inj ops.
Proof.
  intros Hn N Op. set (r0 := register_backend b (@new_recorder V n id inj)).
  assert (W : well n r0) by (destruct (well_new n id inj Hn); now constructor).
  assert (Ro : registered_once b r0). { unfold registered_once. simpl. destruct (Nat.eq_dec b b); [reflexivity|congruence]. }
  destruct (run_ops_spec n ops r0 W) as (r1 & l & H1 & W1 & _ & _ & P & R & _). destruct (R b Ro Op N) as [_ E].
  exists r1, (pending r1). split; [exact H1|]. split; [now apply pending_short|]. rewrite E. simpl. symmetry. exact P.
Qed.
Lemma after_close n id inj ops1 ops2 b : 1 <= n -> ~ In (OReg b) ops2 ->
  exists r1 r2, run_ops bad (ops1 ++ [OClose]) (new_recorder n id inj) = (Ok tt, r1) /\
    run_ops bad (ops1 ++ OClose :: ops2) (new_recorder n id inj) = (Ok tt, r2) /\
    received b (calls r2) = received b (calls r1).
Proof.
  intros Hn N. destruct (run_ops_spec n (ops1 ++ [OClose]) _ (well_new n id inj Hn)) as (r1 & _ & H1 & W1 & _).
  destruct (run_ops_spec n ops1 _ (well_new n id inj Hn)) as (r0 & _ & H0 & W0 & _).
  rewrite (run_ops_app _ _ _ _ H0) in H1. destruct (op_spec n OClose r0 W0) as (r1' & Hc & _ & Bk). simpl in Hc, H1. rewrite Hc in H1. injection H1 as ->.
  destruct (run_ops_spec n ops2 r1 W1) as (r2 & _ & H2 & _ & _ & _ & _ & _ & Q). exists r1, r2.
  rewrite !(run_ops_app _ _ _ _ H0). simpl. rewrite Hc. split; [reflexivity|]. split; [exact H2|]. apply Q; [rewrite Bk; simpl; tauto|exact N].
Qed.
End Proofs.

Lemma everything_delivered V (bad : nat -> list (@bcall V) -> @bcall V -> bool) : no_failure bad ->
  forall n id inj b ops last, 1 <= n -> ~ In (OReg b) ops -> stays_open ops -> last = OFlush \/ last = OClose ->
  exists r, run_ops bad (OReg b :: ops ++ [last]) (new_recorder n id inj) = (Ok tt, r) /\
    received b (calls r) = recorded id inj ops.
Proof.
  intros Hok n id inj b ops last Hn N Op Hl. destruct (delivered bad Hok n id inj [] b ops last Hn) as (r & old & early & A & B & _ & C); auto.
  simpl in B. symmetry in B. apply app_eq_nil in B. destruct B as [-> ->]. exists r. auto.
Qed.

Definition ok {V} (b : nat) (l : list (@bcall V)) (c : @bcall V) : bool := false.
Ltac calc := vm_compute; reflexivity.
Lemma set_dump_loses : exists r r1 r2 : @recorder nat,
  put ok "A" [("x"%string, 1, [])] (register_backend 4 (new_recorder 5 99 true)) = (Ok tt, r) /\
  set_dump_count 3 r = r1 /\ flush ok r1 = (Ok tt, r2) /\
  received 4 (calls r2) = [mkDatum "" [("SimId"%string, 99, [])]].
Proof.
  set (r := snd (put (@ok nat) "A" [("x"%string, 1, [])] (register_backend 4 (new_recorder 5 99 true)))).
  exists r, (set_dump_count 3 r), (snd (flush ok (set_dump_count 3 r))).
  split; [calc|]. split; [reflexivity|]. split; calc.
Qed.
Lemma reduced_dump_ub : exists r : @recorder nat,
  run_ops ok [OPut "A" []; OPut "B" []] (new_recorder 5 99 true) = (Ok tt, r) /\ fst (put ok "C" [] (set_dump_count 1 r)) = UB.
Proof. exists (snd (run_ops (@ok nat) [OPut "A" []; OPut "B" []] (new_recorder 5 99 true))). split; calc. Qed.
Lemma zero_dump_ub V bad (id : V) inj t l : fst (put bad t l (new_recorder 0 id inj)) = UB.
Proof. reflexivity. Qed.
Lemma unfinished_delivered : exists (h1 h2 : nat * nat) (r1 r2 r3 : @recorder nat),
  new_datum "A" (register_backend 4 (new_recorder 2 99 true)) = (Ok h1, r1) /\ new_datum "B" r1 = (Ok h2, r2) /\
  record ok h2 r2 = (Ok tt, r3) /\
  received 4 (calls r3) = [mkDatum "A" [("SimId"%string, 99, [])]; mkDatum "B" [("SimId"%string, 99, [])]].
Proof.
  set (r1 := snd (new_datum "A" (register_backend 4 (new_recorder 2 99 true)))). set (r2 := snd (new_datum "B" r1)).
  exists (1, 0), (1, 1), r1, r2, (snd (record ok (1, 1) r2)). split; [calc|]. split; [calc|]. split; calc.
Qed.
Lemma failing_loses : exists r : @recorder nat,
  run_ops (fun b _ _ => Nat.eqb b 4) [OReg 4; OReg 7; OPut "A" []; OFlush; OFlush; OPut "B" []; OClose] (new_recorder 5 99 true) = (Ok tt, r) /\
  received 7 (calls r) = [].
Proof.
  exists (snd (run_ops (fun b _ _ => Nat.eqb b 4) [OReg 4; OReg 7; OPut "A" []; OFlush; OFlush; OPut "B" []; OClose] (new_recorder 5 99 true))).
  split; calc.
Qed.
