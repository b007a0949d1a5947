(** Listeners: who is ticked, tocked and asked to decide. *)
From Coq Require Import String List ZArith Bool Arith Lia Sorted.
From Verif Require Import Base SimModel SimSpec SimProofs1 SimProofs2 SimProofs3 SimProofs4.
Import ListNotations.
Local Open Scope Z_scope.

(** A relation kept by the phases is kept by the run. *)
Section Rel.
Context (R : sim -> sim -> Prop) (Rrefl : forall s, R s s) (Rtrans : forall a b c, R a b -> R b c -> R a c).
Context (beh : hook -> sim -> prog) (cond : nat -> sim -> bool) (f : nat).
Context (Bd : forall p, keeps R (body beh cond p f)) (Rs : rests R).
Lemma keeps_simulate_body setup t0 d o s' : keeps R (exec beh cond f setup) ->
  simulate beh cond f setup t0 d = (o, s') -> o <> Undef -> R (sim0 t0 d) s'.
Proof.
  intros Ks H N.
  assert (Kp : forall p, keeps R (do_phase beh cond f p)).
  { intros p. apply keeps_bind; auto. apply (rs_phase _ Rs). }
  assert (Kst : keeps R (step beh cond f)).
  { apply keeps_bind; auto; [now apply keeps_gets|]. intros sn. apply keeps_bind; auto.
    - destruct sn; [|now apply keeps_ret]. apply keeps_bind; auto; [apply (rs_unsnap _ Rs)|]. intros _. apply (rs_snap _ Rs).
    - intros _. do 6 (apply keeps_bind; auto; intros _). apply (rs_time _ Rs). }
  assert (Kn : forall n, keeps R (steps beh cond n f)).
  { induction n as [|n IH]; simpl; [now apply keeps_ret|]. apply keeps_bind; auto; [now apply keeps_gets|].
    intros [|]; [|now apply keeps_ret]. apply keeps_bind; auto. intros _. apply keeps_bind; auto; [now apply keeps_gets|].
    intros [|]; [now apply keeps_ret|exact IH]. }
  refine (keeps_bind R Rtrans _ _ Ks (fun _ => _) _ _ _ H N).
  apply keeps_bind; auto; [now apply keeps_gets|]. intros n. apply keeps_bind; auto. intros _.
  apply keeps_bind; auto; [apply (rs_fin _ Rs)|]. intros _. apply (rs_snap _ Rs).
Qed.
End Rel.

(** ** Standing registrations *)
Lemma standing_app_gen l m : standing (l ++ m) = fold_left (fun acc x => match snd x with
    | EReg a => acc ++ [a]
    | EUnreg a => filter (fun b => negb (Nat.eqb b a)) acc
    | _ => acc end) m (standing l).
Proof. unfold standing. apply fold_left_app. Qed.
Lemma standing_no_unreg l m : unregs m = [] -> standing (l ++ m) = standing l ++ regs m.
Proof.
  induction m as [|x m IH] using rev_ind; intros H; [now rewrite !app_nil_r|].
  unfold unregs, regs in *. rewrite flat_map_app in *. apply app_eq_nil in H. destruct H as [H1 H2].
  simpl in H2. rewrite app_nil_r in H2. rewrite app_assoc, standing_snoc, (IH H1).
  simpl; destruct (snd x); try discriminate; rewrite ?app_nil_r, ?app_assoc; auto.
Qed.
Lemma standing_stays l m a : ~ In a (unregs m) -> In a (standing l) -> In a (standing (l ++ m)).
Proof.
  intros H I. induction m as [|x m IH] using rev_ind; [now rewrite app_nil_r|].
  unfold unregs in H. rewrite flat_map_app, in_app_iff in H. rewrite app_assoc, standing_snoc.
  assert (IH' := IH ltac:(tauto)). simpl in H. rewrite app_nil_r in H.
  destruct (snd x); auto.
  - rewrite in_app_iff. auto.
  - apply filter_In. split; [exact IH'|]. destruct (Nat.eqb_spec a a0); [|reflexivity]. subst. simpl in H. tauto.
Qed.
Lemma unregs_app a b : unregs (a ++ b) = unregs a ++ unregs b. Proof. apply flat_map_app. Qed.

Lemma calls_app l m : calls_listeners l ->
  (forall pre t e post a, m = pre ++ (t, e) :: post -> e = ETick a \/ e = ETock a \/ e = EDecide a -> In a (standing (l ++ pre))) ->
  calls_listeners (l ++ m).
Proof.
  intros H Hm pre t e post a E C. symmetry in E. destruct (split_app _ _ _ _ E) as [(q & El & E2)|(q & -> & E2)].
  - destruct q as [|y q]; simpl in E2.
    + rewrite app_nil_r in El. subst l. specialize (Hm [] t e post a (eq_sym E2) C). now rewrite app_nil_r in Hm.
    + injection E2 as <- E2. eapply H; eauto.
  - eapply Hm; eauto.
Qed.
Lemma calls_quiet l m : calls_listeners l -> Forall (fun x => match snd x with ETick _ | ETock _ | EDecide _ => False | _ => True end) m ->
  calls_listeners (l ++ m).
Proof.
  intros H F. apply calls_app; [exact H|]. intros pre t e post a -> C. apply Forall_app in F. destruct F as [_ F].
  inversion F as [|? ? X _]; subst. simpl in X. destruct C as [->|[->| ->]]; contradiction.
Qed.
Lemma calls_calm t l m : calls_listeners l -> calm t m -> calls_listeners (l ++ m).
Proof.
  intros H C. apply calls_quiet; [exact H|]. eapply Forall_impl; [|exact C]. intros [z e] [_ Hx]. simpl in *.
  destruct e; auto; discriminate.
Qed.
Lemma calls_one l t e a : calls_listeners l -> In a (standing l) -> (e = ETick a \/ e = ETock a \/ e = EDecide a) -> calls_listeners (l ++ [(t, e)]).
Proof.
  intros H I C. apply calls_app; [exact H|]. intros pre t' e' post b E C'. destruct pre as [|? [|? ?]]; try discriminate.
  injection E as <- <- _. rewrite app_nil_r. destruct C as [->|[->| ->]], C' as [C'|[C'|C']]; try discriminate; injection C' as <-; exact I.
Qed.

(** ** Sorted maps *)
Lemma next_some {V} k (m : zmap V) k' v : zsorted m -> next_key k m = Some (k', v) ->
  k < k' /\ zfind k' m = Some v /\ forall k'' v'', zfind k'' m = Some v'' -> k < k'' -> k' <= k''.
Proof.
  induction m as [|[q u] m IH]; simpl; intros So H; [discriminate|]. destruct So as [F So].
  destruct (Z.ltb_spec k q).
  - injection H as <- <-. rewrite Z.eqb_refl. split; [lia|]. split; [reflexivity|].
    intros k'' v'' Hf _. destruct (Z.eqb_spec k'' q); [lia|]. apply zfind_In in Hf.
    rewrite Forall_forall in F. specialize (F _ Hf). simpl in F. lia.
  - destruct (IH So H) as (A & B & C). split; [exact A|]. destruct (Z.eqb_spec k' q) as [->|Nq]; [lia|].
    split; [exact B|]. intros k'' v'' Hf Hk. destruct (Z.eqb_spec k'' q); [lia|]. eapply C; eauto.
Qed.
Lemma next_none {V} k (m : zmap V) : next_key k m = None -> forall k' v, zfind k' m = Some v -> k' <= k.
Proof.
  induction m as [|[q u] m IH]; simpl; intros H k' v Hf; [discriminate|]. destruct (Z.ltb_spec k q); [discriminate|].
  destruct (Z.eqb_spec k' q); [lia|eauto].
Qed.

Section P.
Context (beh : hook -> sim -> prog) (cond : nat -> sim -> bool) (fuel : nat).

Lemma in_py s a : inv s -> In a (py (ti s)) -> In a (standing (log s)).
Proof. intros I H. rewrite (i_py _ I) in H. now apply filter_In in H. Qed.
Lemma in_cpp s a : inv s -> In a (cpp (ti s)) -> In a (standing (log s)).
Proof. intros I H. rewrite (i_cpp _ I) in H. now apply filter_In in H. Qed.

(** Growth without unregistration. *)
Lemma cpp_grows s s' m : inv s -> inv s' -> hrel (w s) (w s') -> log s' = log s ++ m -> unregs m = [] ->
  exists l, cpp (ti s') = cpp (ti s) ++ l.
Proof.
  intros I I' Hh L U. rewrite (i_cpp _ I'), (i_cpp _ I), L, standing_no_unreg by exact U. rewrite filter_app.
  destruct (shim_hrel _ _ _ Hh (i_reg _ I)) as [_ ->]. eauto.
Qed.

(** ** The calls of one phase, as a relation for every outcome *)
Definition lis (s s' : sim) : Prop := inv s -> calls_listeners (log s) -> inv s' /\ calls_listeners (log s').
Lemma lis_refl s : lis s s. Proof. unfold lis; auto. Qed.
Lemma lis_trans a b c : lis a b -> lis b c -> lis a c.
Proof. intros H1 H2 I C. destruct (H1 I C). auto. Qed.
Lemma ext_lis s s' : ext s s' -> lis s s'.
Proof.
  intros E I C. split; [now apply (x_inv _ _ _ E)|]. destruct (ext_calm _ _ E) as (suf & -> & Cs). eapply calls_calm; eauto.
Qed.
Lemma keeps_lis {A} (m : M A) : keeps ext m -> keeps lis m.
Proof. intros H s o s' E N. apply ext_lis. eauto. Qed.
Lemma lis_atoms : atoms lis cond.
Proof. destruct (ext_atoms cond). constructor; intros; apply keeps_lis; auto. Qed.
Lemma emit_inv e s : neutral e = true -> inv s -> inv (emit e s).
Proof. intros N I. assert (E : exto (fun _ => true) s (emit e s)) by (apply ext_emit; auto). now apply (x_inv _ _ _ E). Qed.
Lemma emit_lis e s : neutral e = true -> (match e with ETick _ | ETock _ | EDecide _ => False | _ => True end) -> lis s (emit e s).
Proof.
  intros N H I C. split; [now apply emit_inv|]. simpl. apply calls_quiet; [exact C|]. constructor; [exact H|constructor].
Qed.

(** Which event and callback a loop is about. *)
Definition calls_of (ev : nat -> event) : Prop := ev = ETick \/ ev = ETock.
Lemma calls_of_one ev a : calls_of ev -> ev a = ETick a \/ ev a = ETock a \/ ev a = EDecide a.
Proof. intros [->| ->]; auto. Qed.
Lemma calls_of_neutral ev a : calls_of ev -> neutral (ev a) = true.
Proof. intros [->| ->]; reflexivity. Qed.

Lemma py_iter ev h a l s o s' : calls_of ev -> inv s -> calls_listeners (log s) -> py (ti s) = l -> In a l ->
  (deref a ;; modify (emit (ev a)) ;; s0 <- gets (fun s => s) ;; call beh cond fuel a (h a) ;; s1 <- gets (fun s => s) ;;
   if same_list (py (ti s1)) l && negb (existsb (reg_shim s1) (skipn (length (log s0)) (log s1))) then ret tt else undef) s = (o, s') ->
  o <> Undef -> inv s' /\ calls_listeners (log s') /\ (o = Normal tt -> py (ti s') = l).
Proof.
  intros Ev I C P Ia H N. apply deref_inv in H; [|exact N]. destruct H as (x & G & H).
  unfold bind at 1, modify in H. unfold bind at 1, gets in H.
  assert (I1 := emit_inv (ev a) s (calls_of_neutral _ _ Ev) I).
  assert (C1 : calls_listeners (log (emit (ev a) s))).
  { simpl. eapply calls_one; eauto using calls_of_one. apply in_py; [exact I|congruence]. }
  destruct (bind_inv _ _ _ _ _ H) as [([] & s1 & E1 & E2)|(No & o1 & E1 & N1 & U)].
  - assert (X : lis (emit (ev a) s) s1) by (eapply (keeps_call lis); eauto using lis_refl, lis_trans, lis_atoms; congruence).
    destruct (X I1 C1) as [I2 C2]. unfold bind, gets in E2. destruct (_ && _) eqn:B.
    + injection E2 as <- <-. split; [exact I2|]. split; [exact C2|]. intros _.
      apply andb_prop in B. destruct B as [B _]. unfold same_list in B. destruct (list_eq_dec _ _ _); [assumption|discriminate].
    + unfold undef in E2. congruence.
  - assert (X : lis (emit (ev a) s) s').
    { eapply (keeps_call lis); eauto using lis_refl, lis_trans, lis_atoms. intros E; apply N; now apply U. }
    destruct (X I1 C1) as [I2 C2]. split; [exact I2|]. split; [exact C2|]. intros E. exfalso. eapply No; eauto.
Qed.
Lemma py_any ev h : calls_of ev -> keeps lis (py_loop beh cond fuel ev h).
Proof.
  intros Ev s o s' H N I C. unfold py_loop, bind at 1, gets in H.
  set (l := py (ti s)) in *. assert (Py : py (ti s) = l) by reflexivity. clearbody l.
  assert (G : forall m s o s', inv s -> calls_listeners (log s) -> py (ti s) = l -> (forall x, In x m -> In x l) ->
    each (fun a => deref a ;; modify (emit (ev a)) ;; s0 <- gets (fun s => s) ;; call beh cond fuel a (h a) ;; s1 <- gets (fun s => s) ;;
      if same_list (py (ti s1)) l && negb (existsb (reg_shim s1) (skipn (length (log s0)) (log s1))) then ret tt else undef) m s = (o, s') ->
    o <> Undef -> inv s' /\ calls_listeners (log s')).
  { clear - Ev. induction m as [|x m IH]; intros s o s' I C P Sub H N.
    - simpl in H. injection H as <- <-. auto.
    - cbn [each] in H. destruct (bind_inv _ _ _ _ _ H) as [([] & s1 & E1 & E2)|(No & o1 & E1 & N1 & U)].
      + destruct (py_iter ev h x l s _ s1 Ev I C P (Sub x (or_introl eq_refl)) E1) as (I1 & C1 & P1); [congruence|].
        eapply IH; eauto. intros y Hy. apply Sub. now right.
      + destruct (py_iter ev h x l s _ s' Ev I C P (Sub x (or_introl eq_refl)) E1) as (I1 & C1 & P1); [intros E; apply N; now apply U|]. auto. }
  eapply (G l); eauto.
Qed.
Lemma cpp_any ev h : calls_of ev -> forall n i, keeps lis (cpp_loop beh cond fuel n i ev h).
Proof.
  intros Ev. induction n as [|n IH]; intros i s o s' H N I C.
  - simpl in H. injection H as <- <-. auto.
  - cbn [cpp_loop] in H. unfold bind at 1, gets in H. destruct (nth_error (cpp (ti s)) i) as [a|] eqn:Ea.
    + apply deref_inv in H; [|exact N]. destruct H as (x & G & H). unfold bind at 1, modify in H.
      assert (I1 := emit_inv (ev a) s (calls_of_neutral _ _ Ev) I).
      assert (C1 : calls_listeners (log (emit (ev a) s))).
      { simpl. eapply calls_one; eauto using calls_of_one. apply in_cpp; [exact I|]. eapply nth_error_In; eauto. }
      destruct (keeps_bind lis lis_trans _ _ (keeps_call lis lis_refl lis_trans beh cond lis_atoms fuel a (h a)) (fun _ => IH (S i)) _ _ _ H N I1 C1).
      auto.
    + injection H as <- <-. auto.
Qed.
Lemma decide_any : forall n cur s o s', inv s -> calls_listeners (log s) ->
  (forall k a, cur = Some (k, a) -> zfind k (tmap (ti s)) = Some a) ->
  decide_loop beh cond fuel n cur s = (o, s') -> o <> Undef -> inv s' /\ calls_listeners (log s').
Proof.
  induction n as [|n IH]; intros cur s o s' I C Hc H N.
  - simpl in H. injection H as <- <-. auto.
  - cbn [decide_loop] in H. destruct cur as [[k a]|]; [|injection H as <- <-; auto].
    specialize (Hc _ _ eq_refl). apply (i_tmap _ I) in Hc. destruct Hc as [-> Ia].
    apply deref_inv in H; [|exact N]. destruct H as (x & G & H). unfold bind at 1, modify in H. unfold bind at 1, gets in H.
    assert (I1 := emit_inv (EDecide a) s eq_refl I).
    assert (C1 : calls_listeners (log (emit (EDecide a) s))) by (simpl; eapply calls_one; eauto).
    destruct (bind_inv _ _ _ _ _ H) as [([] & s1 & E1 & E2)|(No & o1 & E1 & N1 & U)].
    + assert (X : lis (emit (EDecide a) s) s1) by (eapply (keeps_call lis); eauto using lis_refl, lis_trans, lis_atoms; congruence).
      destruct (X I1 C1) as [I2 C2]. unfold bind, gets in E2. destruct (existsb _ _); [unfold undef in E2; congruence|].
      eapply IH; eauto. intros k b E. eapply next_some; eauto. apply (i_tmaps _ I2).
    + assert (X : lis (emit (EDecide a) s) s').
      { eapply (keeps_call lis); eauto using lis_refl, lis_trans, lis_atoms. intros E; apply N; now apply U. }
      auto.
Qed.
Lemma body_lis p : keeps lis (body beh cond p fuel).
Proof.
  assert (Kc : forall a h, keeps lis (call beh cond fuel a h)) by (intros; apply keeps_call; auto using lis_refl, lis_atoms; apply lis_trans).
  assert (Kd : forall c, keeps lis (do_cmd beh cond fuel c)) by (intros; apply keeps_do_cmd; auto using lis_refl, lis_atoms; apply lis_trans).
  destruct p; simpl.
  - apply keeps_build; auto using lis_refl, lis_atoms; [apply lis_trans|].
    intros e He. apply keeps_modify. intros s. destruct e; try discriminate; now apply emit_lis.
  - apply keeps_bind; [apply lis_trans|apply py_any; now left|intros _; apply cpp_any; now left].
  - apply keeps_bind; [apply lis_trans|apply keeps_modify; intros s; now apply emit_lis|]. intros _.
    apply keeps_bind; [apply lis_trans|apply keeps_gets, lis_refl|]. intros prg. apply keeps_exec; auto using lis_refl, lis_atoms; apply lis_trans.
  - apply keeps_bind; [apply lis_trans|apply py_any; now right|intros _; apply cpp_any; now right].
  - intros s o s' H N I C. unfold do_decision, bind, gets in H. eapply decide_any; eauto.
    intros k a E. destruct (tmap (ti s)) as [|[k' a'] m]; [discriminate|]. injection E as -> ->. simpl. now rewrite Z.eqb_refl.
  - apply keeps_decom; auto using lis_refl, lis_atoms; [apply lis_trans|].
    intros e He. apply keeps_modify. intros s. destruct e; try discriminate; now apply emit_lis.
Qed.
Lemma timer_inv f s : inv s -> tmap (f (ti s)) = tmap (ti s) -> cpp (f (ti s)) = cpp (ti s) -> py (f (ti s)) = py (ti s) ->
  bq (f (ti s)) = bq (ti s) -> dq (f (ti s)) = dq (ti s) -> tm (ti s) <= tm (f (ti s)) -> inv (with_ti f s).
Proof.
  intros [] E2 E3 E4 E5 E6 E7. constructor; simpl; rewrite ?E2, ?E3, ?E4, ?E5, ?E6; auto.
  eapply Forall_impl; [|exact i_stamp]. simpl. intros; lia.
Qed.
Lemma lis_rests : rests lis.
Proof.
  constructor; intros; apply keeps_modify; intros s; try (now apply emit_lis);
    (intros I C; split; [apply timer_inv; auto; simpl; lia|exact C]).
Qed.
Lemma run_calls setup t0 d o s' : simulate beh cond fuel setup t0 d = (o, s') -> o <> Undef -> inv s' /\ calls_listeners (log s').
Proof.
  intros H N.
  assert (X : lis (sim0 t0 d) s').
  { eapply keeps_simulate_body; eauto using lis_refl, lis_trans, body_lis, lis_rests.
    apply keeps_lis, k_exec. }
  apply X; [apply inv_sim0|]. intros pre t e post a E. destruct pre; discriminate.
Qed.

(** ** A complete tick or tock phase without unregistration *)
Lemma py_full (proj : history -> list nat) ev h t s s' : calls_of ev ->
  (forall l m, proj (l ++ m) = proj l ++ proj m) -> (forall m, calm t m -> proj m = []) -> (forall a, proj [(t, ev a)] = [a]) ->
  at_t t s -> py_loop beh cond fuel ev h s = (Normal tt, s') ->
  at_t t s' /\ hrel (w s) (w s') /\ exists seg, log s' = log s ++ seg /\ proj seg = py (ti s).
Proof.
  intros Ev Pa Pc Po J H. unfold py_loop, bind at 1, gets in H. 
  apply (each_pieces (fun z => at_t t z /\ hrel (w s) (w z)) (fun a pc => proj pc = [a])) in H; [|split; [exact J|apply hrel_refl]|].
  - destruct H as ((J' & Hh) & pcs & L & F). split; [exact J'|]. split; [exact Hh|]. exists (concat pcs). split; [exact L|].
    clear - F Pa Pc. induction F as [|a pc l pcs E F IH]; simpl.
    + apply Pc. constructor.
    + now rewrite Pa, E, IH.
  - clear - Pa Pc Po Ev. intros a s1 s2 [J Hh] H.
    apply bind_normal in H. destruct H as (x & s3 & E3 & H). unfold deref in E3. destruct (get s1 a); [|discriminate].
    injection E3 as <- <-. unfold bind at 1, modify in H. unfold bind at 1, gets in H.
    apply bind_normal in H. destruct H as ([] & s4 & E4 & H).
    assert (J1 : at_t t (emit (ev a) s1)) by (apply at_emit; [exact J|now apply calls_of_neutral]).
    assert (X : ext (emit (ev a) s1) s4) by (eapply k_call; eauto; congruence).
    destruct (step_calm _ _ _ _ _ (k_call _ _ _ _ _) J1 E4) as (J4 & suf & L & C).
    unfold bind, gets in H. destruct (_ && _); [|discriminate]. unfold ret in H. injection H as <-.
    split; [split; [exact J4|eapply hrel_trans; [exact Hh|exact (x_heap _ _ _ X)]]|].
    exists ((t, ev a) :: suf). split.
    + rewrite L. simpl. rewrite (proj2 J), <- app_assoc. reflexivity.
    + change ((t, ev a) :: suf) with ([(t, ev a)] ++ suf). now rewrite Pa, Po, (Pc _ C).
Qed.
Lemma skipn_nth {A} (l : list A) : forall i a, nth_error l i = Some a -> skipn i l = a :: skipn (S i) l.
Proof. induction l as [|x l IH]; intros [|i] a H; simpl in *; try discriminate; [congruence|]. rewrite (IH _ _ H). reflexivity. Qed.
Lemma cpp_full (proj : history -> list nat) ev h t : calls_of ev ->
  (forall l m, proj (l ++ m) = proj l ++ proj m) -> (forall m, calm t m -> proj m = []) -> (forall a, proj [(t, ev a)] = [a]) ->
  forall n i s s', at_t t s -> cpp_loop beh cond fuel n i ev h s = (Normal tt, s') ->
  at_t t s' /\ hrel (w s) (w s') /\ exists seg, log s' = log s ++ seg /\ (unregs seg = [] -> proj seg = skipn i (cpp (ti s'))).
Proof.
  intros Ev Pa Pc Po. induction n as [|n IH]; intros i s s' J H; [discriminate|].
  cbn [cpp_loop] in H. unfold bind at 1, gets in H. destruct (nth_error (cpp (ti s)) i) as [a|] eqn:Ea.
  - apply bind_normal in H. destruct H as (x & s3 & E3 & H). unfold deref in E3. destruct (get s a); [|discriminate].
    injection E3 as <- <-. unfold bind at 1, modify in H.
    apply bind_normal in H. destruct H as ([] & s4 & E4 & H).
    assert (J1 : at_t t (emit (ev a) s)) by (apply at_emit; [exact J|now apply calls_of_neutral]).
    assert (X : ext (emit (ev a) s) s4) by (eapply k_call; eauto; congruence).
    destruct (step_calm _ _ _ _ _ (k_call _ _ _ _ _) J1 E4) as (J4 & suf & L & C).
    destruct (IH _ _ _ J4 H) as (J5 & H5 & seg & L5 & P5).
    assert (Hh : hrel (w s) (w s')) by (eapply hrel_trans; [exact (x_heap _ _ _ X)|exact H5]).
    split; [exact J5|]. split; [exact Hh|].
    exists ((t, ev a) :: suf ++ seg). assert (L' : log s' = log s ++ (t, ev a) :: suf ++ seg).
    { rewrite L5, L. simpl. rewrite (proj2 J), <- !app_assoc. reflexivity. }
    split; [exact L'|]. intros U.
    destruct (cpp_grows s s' _ (proj1 J) (proj1 J5) Hh L' U) as (g & Eg).
    change ((t, ev a) :: suf ++ seg) with ([(t, ev a)] ++ suf ++ seg) in U |- *. rewrite !unregs_app in U.
    apply app_eq_nil in U. destruct U as [_ U]. apply app_eq_nil in U. destruct U as [_ U].
    rewrite !Pa, Po, (Pc _ C), (P5 U). simpl. symmetry. apply skipn_nth. rewrite Eg, nth_error_app1; [exact Ea|].
    apply nth_error_Some. congruence.
  - unfold ret in H. injection H as <-. split; [exact J|]. split; [apply hrel_refl|]. exists []. split; [now rewrite app_nil_r|].
    intros _. rewrite skipn_all2; [apply Pc; constructor|]. now apply nth_error_None.
Qed.
Lemma tick_phase (proj : history -> list nat) ev h t s s' : calls_of ev ->
  (forall l m, proj (l ++ m) = proj l ++ proj m) -> (forall m, calm t m -> proj m = []) -> (forall a, proj [(t, ev a)] = [a]) ->
  at_t t s -> (py_loop beh cond fuel ev h ;; cpp_loop beh cond fuel fuel 0 ev h) s = (Normal tt, s') ->
  at_t t s' /\ hrel (w s) (w s') /\ exists seg, log s' = log s ++ seg /\
    (unregs seg = [] -> proj seg = filter (shim_of s') (standing (log s)) ++ filter (fun a => negb (shim_of s' a)) (standing (log s'))).
Proof.
  intros Ev Pa Pc Po J H. apply bind_normal in H. destruct H as ([] & s1 & E1 & E2).
  destruct (py_full proj _ _ _ _ _ Ev Pa Pc Po J E1) as (J1 & H1 & g1 & L1 & P1).
  destruct (cpp_full proj _ _ t Ev Pa Pc Po _ _ _ _ J1 E2) as (J2 & H2 & g2 & L2 & P2).
  assert (Hh : hrel (w s) (w s')) by (eapply hrel_trans; eauto).
  split; [exact J2|]. split; [exact Hh|]. exists (g1 ++ g2). split; [rewrite L2, L1, app_assoc; reflexivity|].
  intros U. rewrite unregs_app in U. apply app_eq_nil in U. destruct U as [U1 U2].
  rewrite Pa, P1, (P2 U2). simpl. rewrite (i_py _ (proj1 J)), (i_cpp _ (proj1 J2)).
  destruct (shim_hrel _ _ _ Hh (i_reg _ (proj1 J))) as [<- _]. reflexivity.
Qed.

(** ** A complete decision phase *)
Lemma decide_full t : forall n k a s s', at_t t s -> zfind k (tmap (ti s)) = Some a ->
  decide_loop beh cond fuel n (Some (k, a)) s = (Normal tt, s') ->
  at_t t s' /\ exists seg ds, log s' = log s ++ seg /\ decides seg = a :: ds /\ StronglySorted lt (a :: ds) /\
    forall b, In b (standing (log s)) -> (a <= b)%nat -> ~ In b (unregs seg) -> In b (a :: ds).
Proof.
  induction n as [|n IH]; intros k a s s' J Hk H; [discriminate|].
  cbn [decide_loop] in H. apply (i_tmap _ (proj1 J)) in Hk. destruct Hk as [-> Ia].
  apply bind_normal in H. destruct H as (x & s3 & E3 & H). unfold deref in E3. destruct (get s a); [|discriminate].
  injection E3 as <- <-. unfold bind at 1, modify in H. unfold bind at 1, gets in H.
  apply bind_normal in H. destruct H as ([] & s4 & E4 & H).
  assert (J1 : at_t t (emit (EDecide a) s)) by (apply at_emit; [exact J|reflexivity]).
  destruct (step_calm _ _ _ _ _ (k_call _ _ _ _ _) J1 E4) as (J4 & suf & L & C).
  assert (L' : log s4 = log s ++ (t, EDecide a) :: suf) by (rewrite L; simpl; rewrite (proj2 J), <- app_assoc; reflexivity).
  unfold bind, gets in H. destruct (existsb _ _); [discriminate|].
  destruct (next_key (Z.of_nat a) (tmap (ti s4))) as [[k' b]|] eqn:Nk.
  - destruct (next_some _ _ _ _ (i_tmaps _ (proj1 J4)) Nk) as (A & B & Mn).
    destruct (IH _ _ _ _ J4 B H) as (J5 & seg & ds & L5 & D5 & S5 & C5).
    apply (i_tmap _ (proj1 J4)) in B. destruct B as [-> Ib].
    split; [exact J5|]. exists ((t, EDecide a) :: suf ++ seg), (b :: ds).
    split; [rewrite L5, L', <- app_assoc; reflexivity|]. split; [|split].
    + simpl. unfold decides in *. rewrite flat_map_app, D5.
      assert (Z := calm_decides _ _ C). unfold decides in Z. now rewrite Z.
    + constructor; [exact S5|]. apply StronglySorted_inv in S5. destruct S5 as [_ F]. constructor; [lia|].
      eapply Forall_impl; [|exact F]. simpl. intros; lia.
    + intros c Ic Lc Nc. destruct (Nat.eq_dec c a) as [->|Na]; [now left|]. right.
      change ((t, EDecide a) :: suf ++ seg) with ([(t, EDecide a)] ++ suf ++ seg) in Nc. rewrite !unregs_app, !in_app_iff in Nc.
      assert (Ic4 : In c (standing (log s4))).
      { rewrite L'. apply standing_stays; [|exact Ic]. simpl. intros Hc. apply Nc. auto. }
      apply C5; [exact Ic4| |tauto].
      assert (Z.of_nat b <= Z.of_nat c); [|lia]. eapply (Mn (Z.of_nat c) c); [|lia].
      apply (i_tmap _ (proj1 J4)). auto.
  - destruct n; [discriminate|]. simpl in H. unfold ret in H. injection H as <-. split; [exact J4|].
    exists ((t, EDecide a) :: suf), []. split; [exact L'|]. split; [|split].
    + simpl. assert (Z := calm_decides _ _ C). now rewrite Z.
    + constructor; constructor.
    + intros c Ic Lc Nc. destruct (Nat.eq_dec c a) as [->|Na]; [now left|]. exfalso.
      assert (Ic4 : In c (standing (log s4))).
      { rewrite L'. apply standing_stays; [|exact Ic]. exact Nc. }
      assert (Z.of_nat c <= Z.of_nat a); [|lia]. eapply next_none; [exact Nk|].
      apply (i_tmap _ (proj1 J4)). auto.
Qed.
Lemma decision_phase t s s' : at_t t s -> do_decision beh cond fuel s = (Normal tt, s') ->
  exists seg, log s' = log s ++ seg /\ StronglySorted lt (decides seg) /\
    forall b, In b (standing (log s)) -> ~ In b (unregs seg) -> In b (decides seg).
Proof.
  intros J H. unfold do_decision, bind, gets in H. destruct (tmap (ti s)) as [|[k a] m] eqn:Et.
  - destruct fuel; [discriminate|]. simpl in H. unfold ret in H. injection H as <-. exists []. split; [now rewrite app_nil_r|].
    split; [constructor|]. intros b Ib. exfalso.
    assert (X : zfind (Z.of_nat b) (tmap (ti s)) = Some b) by (apply (i_tmap _ (proj1 J)); auto). rewrite Et in X. discriminate.
  - assert (Hk : zfind k (tmap (ti s)) = Some a) by (rewrite Et; simpl; now rewrite Z.eqb_refl).
    destruct (decide_full t _ _ _ _ _ J Hk H) as (J5 & seg & ds & L5 & D5 & S5 & C5).
    exists seg. split; [exact L5|]. rewrite D5. split; [exact S5|]. intros b Ib Nb. apply C5; auto.
    apply (i_tmap _ (proj1 J)) in Hk. destruct Hk as [-> Ia].
    assert (X : zfind (Z.of_nat b) (tmap (ti s)) = Some b) by (apply (i_tmap _ (proj1 J)); auto).
    assert (So := i_tmaps _ (proj1 J)). rewrite Et in X, So. simpl in X. destruct (Z.eqb_spec (Z.of_nat b) (Z.of_nat a)); [lia|].
    destruct So as [F _]. rewrite Forall_forall in F. apply zfind_In in X. specialize (F _ X). simpl in F. lia.
Qed.
End P.
