(** Build decisions: the orders made from a solution of the program (C53). *)
From Coq Require Import String QArith List Bool Arith ZArith Lia Lqa.
From Verif Require Import Base GreedySpec ProgModel ProgSpec SupplyModel SupplySpec SupplyProofs.
Import ListNotations.
Open Scope Q_scope.

(** ** Scalar products *)
Fixpoint dot (l : list Q) (sol : nat -> Q) (k : nat) : Q :=
  match l with [] => 0 | q :: t => q * sol k + dot t sol (S k) end.

Lemma row_dot l sol : forall k, row_val (combine (seq k (length l)) l) sol == dot l sol k.
Proof. unfold row_val. induction l as [|q t IH]; intros k; cbn; [lra|]. rewrite IH. lra. Qed.
Lemma obj_dot l sol : forall pre, qsum (map (fun i => nth i (pre ++ l) 0 * sol i) (seq (length pre) (length l))) == dot l sol (length pre).
Proof.
  induction l as [|q t IH]; intros pre; cbn; [lra|].
  rewrite app_nth2 by lia. rewrite Nat.sub_diag. cbn [nth].
  specialize (IH (pre ++ [q])). rewrite app_length in IH. cbn in IH.
  replace (length pre + 1)%nat with (S (length pre)) in IH by lia. rewrite <- app_assoc in IH. cbn in IH. rewrite IH. lra.
Qed.
Lemma dot_ext l sol sol' : forall k, (forall i, (k <= i < k + length l)%nat -> sol i == sol' i) -> dot l sol k == dot l sol' k.
Proof.
  induction l as [|q t IH]; intros k H; cbn; [lra|]. cbn in H.
  rewrite (IH (S k)); [|intros; apply H; lia]. rewrite (H k); [lra|lia].
Qed.
Lemma dot_plus l f g : forall k, dot l (fun i => f i + g i) k == dot l f k + dot l g k.
Proof. induction l as [|q t IH]; intros k; cbn; [lra|]. rewrite IH. lra. Qed.
Lemma dot_zero l : forall k, dot l (fun _ => 0) k == 0.
Proof. induction l as [|q t IH]; intros k; cbn; [lra|]. rewrite IH. lra. Qed.
Lemma dot_le l f g : (forall q, In q l -> 0 <= q) -> forall k, (forall i, (k <= i < k + length l)%nat -> f i <= g i) -> dot l f k <= dot l g k.
Proof.
  induction l as [|q t IH]; intros P k H; cbn; [lra|]. cbn in H.
  assert (dot t f (S k) <= dot t g (S k)). { apply IH; [intros; apply P; right; auto|intros; apply H; lia]. }
  assert (f k <= g k) by (apply H; lia). assert (0 <= q) by (apply P; left; auto).
  assert (q * f k <= q * g k). { rewrite !(Qmult_comm q). apply Qmult_le_compat_r; auto. } lra.
Qed.

(** ** Integers *)
Lemma to_int_z q z : q == inject_Z z -> forall n, to_int q = Some n -> n = z.
Proof.
  intros E n. unfold to_int. destruct (_ && _); [|discriminate]. intros H. injection H as <-.
  unfold Qeq in E. cbn in E. replace (Qnum q) with (z * Z.pos (Qden q))%Z by lia. apply Z.quot_mul. lia.
Qed.

(** ** The columns *)
Record swf (h : list op) (m : nat) (c : string) (s : setup) : Prop := mkSwf {
  s_obj : su_obj s = map (cost_of h c) (su_ip s);
  s_caps : su_caps s = combine (seq 0 (length (su_ip s))) (map (cap_of h c) (su_ip s));
  s_pb : forall p, In p (su_ip s) -> exists b, pb_get p (su_pb s) = Some b;
  s_off : forall p b, pb_get p (su_pb s) = Some b -> offers h m c b p
}.

Lemma combine_seq_snoc {A} (l : list A) x : combine (seq 0 (length (l ++ [x]))) (l ++ [x]) = combine (seq 0 (length l)) l ++ [(length l, x)].
Proof.
  rewrite app_length. cbn. rewrite Nat.add_1_r, seq_S. cbn.
  assert (G : forall (a b : list nat) (c d : list A), length a = length c -> combine (a ++ b) (c ++ d) = combine a c ++ combine b d).
  { induction a; destruct c; cbn; intros; try discriminate; auto. f_equal. auto. }
  rewrite G; [reflexivity|]. apply seq_length.
Qed.

Lemma entry_info h w p x c : inv h w -> nth_error (w_prod w) p = Some x -> sget c (cp_info x) <> None ->
  info h p c = Some (cp_entry c x).
Proof.
  intros I E N. destruct (i_prod _ _ I _ _ E) as [_ F]. unfold cp_entry. rewrite <- F. destruct (sget c (cp_info x)); congruence.
Qed.

Lemma setup_producer_wf h w m c b s p s' :
  inv h w -> manager_has h m b -> builder_has h b p -> swf h m c s -> setup_producer w c b s p = Ok s' ->
  swf h m c s' /\ (forall q, In q (su_ip s') <-> In q (su_ip s) \/ q = p /\ info h p c <> None).
Proof.
  intros I Hm Hb W. unfold setup_producer, produces, cost, capacity.
  destruct (nth_error (w_prod w) p) as [x|] eqn:E; [|discriminate].
  destruct (sget c (cp_info x)) eqn:G.
  - assert (Hi : info h p c = Some (cp_entry c x)). { apply entry_info with (w := w); auto. congruence. }
    intros H. injection H as <-. cbn [su_ip su_obj su_caps su_pb]. split.
    + destruct W. constructor; cbn [su_ip su_obj su_caps su_pb].
      * rewrite map_app, s_obj0. cbn. unfold cost_of at 3. rewrite Hi. reflexivity.
      * rewrite map_app, app_length, s_caps0. cbn [map].
        replace (length (su_ip s) + length [p])%nat with (length (map (cap_of h c) (su_ip s) ++ [cap_of h c p])) by (rewrite app_length, map_length; reflexivity).
        rewrite combine_seq_snoc. rewrite map_length. f_equal. rewrite s_obj0, map_length. unfold cap_of. rewrite Hi. reflexivity.
      * intros q Hq. cbn. destruct (Nat.eqb_spec q p); eauto. apply in_app_iff in Hq as [Hq|[Hq|[]]]; [auto|congruence].
      * intros q b'. cbn. destruct (Nat.eqb_spec q p) as [->|]; auto. intros H. injection H as <-.
        split; auto. split; auto. congruence.
    + intros q. rewrite in_app_iff. cbn. split; [intros [|[|[]]]; auto; right; subst; split; auto; congruence|intros [|[-> _]]; auto].
  - intros H. injection H as <-. split; auto. intros q. split; auto. intros [|[_ N]]; auto.
    destruct (i_prod _ _ I _ _ E) as [_ F]. rewrite F in G. congruence.
Qed.

Lemma setup_producers_wf h w m c b : forall ps s s',
  inv h w -> manager_has h m b -> (forall p, In p ps -> builder_has h b p) -> swf h m c s ->
  setup_producers w c b s ps = Ok s' ->
  swf h m c s' /\ (forall q, In q (su_ip s') <-> In q (su_ip s) \/ In q ps /\ info h q c <> None).
Proof.
  induction ps as [|p t IH]; intros s s' I Hm Hb W; cbn.
  - intros H. injection H as <-. split; auto. intros q. tauto.
  - destruct (setup_producer w c b s p) as [s1| |] eqn:E; try discriminate. intros H.
    destruct (setup_producer_wf h w m c b s p s1 I Hm (Hb p (or_introl eq_refl)) W E) as [W1 F1].
    destruct (IH s1 s' I Hm (fun q Hq => Hb q (or_intror Hq)) W1 H) as [W2 F2].
    split; auto. intros q. rewrite F2, F1. split.
    + intros [[|[-> ]]|[]]; auto.
    + intros [|[[<-|]]]; auto.
Qed.

Lemma setup_builders_wf h w m c : forall bs s s',
  inv h w -> (forall b, In b bs -> manager_has h m b) -> swf h m c s ->
  setup_builders w c s bs = Ok s' ->
  swf h m c s' /\ (forall q, In q (su_ip s') <-> In q (su_ip s) \/ exists b, In b bs /\ builder_has h b q /\ info h q c <> None).
Proof.
  induction bs as [|b t IH]; intros s s' I Hm W; cbn.
  - intros H. injection H as <-. split; auto. intros q. split; auto. intros [|(b & [] & _)]; auto.
  - destruct (nth_error (w_build w) b) as [ps|] eqn:E; [|discriminate].
    destruct (setup_producers w c b s ps) as [s1| |] eqn:P; try discriminate. intros H.
    destruct (proj1 (i_build _ _ I) _ _ E) as [_ A].
    destruct (setup_producers_wf h w m c b ps s s1 I (Hm b (or_introl eq_refl)) (fun p Hp => proj1 (A p) Hp) W P) as [W1 F1].
    destruct (IH s1 s' I (fun b' Hb' => Hm b' (or_intror Hb')) W1 H) as [W2 F2].
    split; auto. intros q. rewrite F2, F1. split.
    + intros [[|[Hq N]]|(b' & Hb' & R)]; auto.
      * right. exists b. split; auto. split; auto. now apply A.
      * right. exists b'. auto.
    + intros [|(b' & [<-|Hb'] & Hq & N)]; auto.
      * left. right. split; auto. now apply A.
      * right. eauto.
Qed.

Lemma swf_nil h m c : swf h m c (mkSetup [] [] [] []).
Proof. constructor; cbn; auto; [intros p []|discriminate]. Qed.

Lemma set_up_wf h w m c s : inv h w -> set_up w m c = Ok s ->
  swf h m c s /\ forall p, In p (su_ip s) <-> exists b, offers h m c b p.
Proof.
  intros I. unfold set_up. destruct (nth_error (w_bman w) m) as [bs|] eqn:E; [|discriminate]. intros H.
  destruct (proj1 (i_bman _ _ I) _ _ E) as [_ A].
  destruct (setup_builders_wf h w m c bs _ s I (fun b Hb => proj1 (A b) Hb) (swf_nil h m c) H) as [W F].
  split; auto. intros p. rewrite F. cbn. unfold offers. split.
  - intros [[]|(b & Hb & R)]. exists b. split; auto. now apply A.
  - intros (b & Hb & R). right. exists b. split; auto. now apply A.
Qed.

(** SetUp_ never fails. *)
Lemma setup_producers_ok w c b : forall ps s, (forall p, In p ps -> (p < length (w_prod w))%nat) -> exists s', setup_producers w c b s ps = Ok s'.
Proof.
  induction ps as [|p t IH]; intros s V; cbn; eauto.
  assert (exists s', setup_producer w c b s p = Ok s') as [s' ->].
  { unfold setup_producer, produces, cost, capacity. destruct (nth_error (w_prod w) p) eqn:E.
    - destruct (sget c (cp_info p0)); eauto.
    - apply nth_error_None in E. specialize (V p (or_introl eq_refl)). lia. }
  apply IH. intros; apply V; right; auto.
Qed.
Lemma setup_builders_ok h w c : inv h w -> forall bs s, (forall b, In b bs -> (b < length (w_build w))%nat) -> exists s', setup_builders w c s bs = Ok s'.
Proof.
  intros I. induction bs as [|b t IH]; intros s V; cbn; eauto.
  destruct (nth_error (w_build w) b) as [ps|] eqn:E.
  - destruct (proj1 (i_build _ _ I) _ _ E) as [_ A].
    destruct (setup_producers_ok w c b ps s) as [s' ->].
    { intros p Hp. apply A in Hp. apply (proj2 (i_build _ _ I)) in Hp. lia. }
    apply IH. intros; apply V; right; auto.
  - apply nth_error_None in E. specialize (V b (or_introl eq_refl)). lia.
Qed.
Lemma set_up_ok h w m c : inv h w -> (m < length (w_bman w))%nat -> exists s, set_up w m c = Ok s.
Proof.
  intros I L. unfold set_up. destruct (nth_error (w_bman w) m) as [bs|] eqn:E.
  - apply (setup_builders_ok h); auto. destruct (proj1 (i_bman _ _ I) _ _ E) as [_ A].
    intros b Hb. apply A in Hb. apply (proj2 (i_bman _ _ I)) in Hb. lia.
  - apply nth_error_None in E. lia.
Qed.

(** ** The orders *)
Lemma read_sound s sol h m c : swf h m c s -> forall is os, read_orders s sol is = Ok os ->
  forall o, In o os -> (1 <= bo_number o)%Z /\ offers h m c (bo_builder o) (bo_producer o).
Proof.
  intros W. induction is as [|i t IH]; cbn; intros os H; [injection H as <-; intros o []|].
  destruct (to_int (sol i)) as [n|]; [|discriminate].
  destruct (read_orders s sol t) as [os1| |]; try discriminate.
  destruct (Z.ltb_spec 0 n).
  - destruct (nth_error (su_ip s) i) as [p|]; [|discriminate].
    destruct (pb_get p (su_pb s)) as [b|] eqn:B; [|discriminate]. injection H as <-.
    intros o [<-|Ho]; [|eapply IH; eauto]. cbn. split; [lia|]. eapply s_off; eauto.
  - injection H as <-. eapply IH; eauto.
Qed.

Definition integral (sol : nat -> Q) (n : nat) : Prop := forall i, (i < n)%nat -> exists z, (0 <= z)%Z /\ sol i == inject_Z z.

Lemma read_sum s sol (f : nat -> Q) : forall t pre os, su_ip s = pre ++ t -> integral sol (length (su_ip s)) ->
  read_orders s sol (seq (length pre) (length t)) = Ok os ->
  qsum (map (fun e => inject_Z (fst e) * f (snd e)) (plan_of os)) == dot (map f t) sol (length pre).
Proof.
  induction t as [|p t IH]; intros pre os E I; cbn.
  - intros H. injection H as <-. cbn. lra.
  - destruct (to_int (sol (length pre))) as [n|] eqn:T; [|discriminate].
    destruct (read_orders s sol (seq (S (length pre)) (length t))) as [os1| |] eqn:R; try discriminate.
    assert (IH1 := IH (pre ++ [p]) os1). rewrite app_length in IH1. cbn in IH1.
    replace (length pre + 1)%nat with (S (length pre)) in IH1 by lia.
    rewrite <- app_assoc in IH1. specialize (IH1 E I R).
    destruct (I (length pre)) as (z & Hz & Ez). { rewrite E, app_length. cbn. lia. }
    assert (n = z) by (eapply to_int_z; eauto). subst n.
    replace (nth_error (su_ip s) (length pre)) with (Some p).
    2:{ rewrite E, nth_error_app2, Nat.sub_diag by lia. reflexivity. }
    destruct (Z.ltb_spec 0 z).
    + destruct (pb_get p (su_pb s)); [|discriminate]. intros H1. injection H1 as <-. cbn. rewrite IH1, Ez. lra.
    + intros H1. injection H1 as <-. rewrite IH1. assert (z = 0)%Z by lia. subst z. rewrite Ez. change (inject_Z 0) with 0. lra.
Qed.

(** ** The program *)
Lemma program_row h m c s sol : swf h m c s ->
  row_val (su_caps s) sol == dot (map (cap_of h c) (su_ip s)) sol 0.
Proof. intros W. rewrite (s_caps _ _ _ _ W). rewrite <- (map_length (cap_of h c) (su_ip s)). apply row_dot. Qed.
Lemma program_obj h m c s d sol : swf h m c s ->
  objective (program s d) sol == dot (map (cost_of h c) (su_ip s)) sol 0.
Proof. intros W. unfold objective. cbn. rewrite (s_obj _ _ _ _ W). apply (obj_dot _ sol []). Qed.

Lemma program_feasible h m c s d sol : swf h m c s ->
  (feasible (program s d) sol <-> integral sol (length (su_ip s)) /\ d <= dot (map (cap_of h c) (su_ip s)) sol 0).
Proof.
  intros W. assert (L : length (su_obj s) = length (su_ip s)). { rewrite (s_obj _ _ _ _ W), map_length. auto. }
  assert (R := program_row h m c s sol W). unfold feasible, program. cbn. rewrite L. split.
  - intros (A & B & C). split.
    + intros i Hi. destruct (C i) as [z Hz]. { apply in_seq. lia. } exists z. split; auto.
      destruct (A i Hi) as [A1 _]. rewrite Hz in A1. rewrite Zle_Qle. exact A1.
    + destruct (B _ (or_introl eq_refl)) as [B1 _]. cbn in B1. rewrite <- R. auto.
  - intros [A B]. split; [|split].
    + intros i Hi. destruct (A i Hi) as (z & Hz & Ez). split; [|exact I]. rewrite Ez. rewrite Zle_Qle in Hz. exact Hz.
    + intros r [<-|[]]. cbn. split; [rewrite R; auto|exact I].
    + intros i Hi. apply in_seq in Hi. destruct (A i) as (z & _ & Ez); [lia|]. eauto.
Qed.

(** ** A plan is a solution *)
Fixpoint index (p : nat) (l : list nat) : nat := match l with [] => O | x :: t => if Nat.eqb p x then O else S (index p t) end.
Definition single (k : nat) (z : Z) : nat -> Q := fun i => if Nat.eqb i k then inject_Z z else 0.
Fixpoint plan_sol (ip : list nat) (l : list (Z * nat)) : nat -> Q :=
  match l with [] => fun _ => 0 | (n, p) :: t => fun i => single (index p ip) n i + plan_sol ip t i end.

Lemma dot_single f p z : forall l k, In p l -> dot (map f l) (single (k + index p l) z) k == inject_Z z * f p.
Proof.
  induction l as [|x t IH]; intros k H; [destruct H|]. cbn [map dot index].
  destruct (Nat.eqb_spec p x) as [->|N].
  - rewrite Nat.add_0_r. unfold single at 1. rewrite Nat.eqb_refl.
    rewrite (dot_ext _ _ (fun _ => 0)); [rewrite dot_zero; lra|]. intros i Hi. unfold single. destruct (Nat.eqb_spec i k); [lia|lra].
  - destruct H as [->|H]; [congruence|]. specialize (IH (S k) H).
    replace (k + S (index p t))%nat with (S k + index p t)%nat by lia. rewrite IH.
    unfold single. destruct (Nat.eqb_spec k (S k + index p t)); [lia|lra].
Qed.
Lemma plan_dot f ip : forall l, (forall e, In e l -> In (snd e) ip) ->
  dot (map f ip) (plan_sol ip l) 0 == qsum (map (fun e => inject_Z (fst e) * f (snd e)) l).
Proof.
  induction l as [|[n p] t IH]; intros H; cbn [plan_sol map qsum].
  - apply dot_zero.
  - rewrite dot_plus, IH by (intros; apply H; right; auto).
    assert (D := dot_single f p n ip 0). cbn in D. rewrite D; [cbn; lra|]. apply (H (n, p)). left; auto.
Qed.
Lemma plan_integral ip n : forall l, (forall e, In e l -> (0 <= fst e)%Z) -> integral (plan_sol ip l) n.
Proof.
  induction l as [|[z p] t IH]; intros H i Hi.
  - exists 0%Z. split; [lia|]. reflexivity.
  - destruct (IH (fun e He => H e (or_intror He)) i Hi) as (y & Hy & Ey). assert (Hz := H _ (or_introl eq_refl)). cbn in Hz.
    cbn. unfold single. destruct (Nat.eqb i (index p ip)).
    + exists (z + y)%Z. split; [lia|]. rewrite inject_Z_plus, Ey. reflexivity.
    + exists y. split; auto. rewrite Ey. lra.
Qed.
