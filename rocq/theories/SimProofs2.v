(** The timer agrees with the log. *)
From Coq Require Import String List ZArith Bool Arith Lia.
From Verif Require Import Base SimModel SimSpec SimProofs1.
Import ListNotations.
Local Open Scope Z_scope.

Definition inner (e : event) : bool :=
  negb (marker e) && match own_phase e with None => true | Some _ => false end.
Definition is_kill (x : Z * event) : bool := match snd x with EKill => true | _ => false end.
(** Events that say nothing about the timer. *)
Definition neutral (e : event) : bool :=
  match e with EReg _ | EUnreg _ | ESchedB _ _ _ _ | ESchedD _ _ | EKill => false | _ => true end.

Definition odef {A} (o : option (list A)) : list A := match o with Some l => l | None => [] end.

Lemma standing_snoc l x : standing (l ++ [x]) = match snd x with
    | EReg a => standing l ++ [a] | EUnreg a => filter (fun b => negb (Nat.eqb b a)) (standing l) | _ => standing l end.
Proof. unfold standing. rewrite fold_left_app. reflexivity. Qed.
Lemma builds_snoc t l x : builds_for t (l ++ [x]) = builds_for t l ++ match snd x with
    | ESchedB p _ n t' => if Z.eqb t' t then [(n, p)] else [] | _ => [] end.
Proof. unfold builds_for. rewrite flat_map_app. simpl. now rewrite app_nil_r. Qed.
Lemma pending_snoc a l x : pending a (l ++ [x]) = match snd x with
    | ESchedD b t => if Nat.eqb b a then Some t else pending a l | _ => pending a l end.
Proof. unfold pending. rewrite fold_left_app. reflexivity. Qed.
Lemma decoms_snoc t l x : decoms_for t (l ++ [x]) = match snd x with
    | ESchedD a t' => filter (fun b => negb (Nat.eqb b a)) (decoms_for t l) ++ (if Z.eqb t' t then [a] else [])
    | _ => decoms_for t l end.
Proof. unfold decoms_for. rewrite fold_left_app. reflexivity. Qed.

Lemma neutral_one l x : neutral (snd x) = true ->
  standing (l ++ [x]) = standing l /\ (forall t, builds_for t (l ++ [x]) = builds_for t l) /\
  (forall t, decoms_for t (l ++ [x]) = decoms_for t l) /\ (forall a, pending a (l ++ [x]) = pending a l).
Proof.
  intros H. rewrite standing_snoc. repeat split; try intros t;
    rewrite ?builds_snoc, ?decoms_snoc, ?pending_snoc; destruct x as [z e]; simpl in *; destruct e; try discriminate;
    rewrite ?app_nil_r; reflexivity.
Qed.

(** decoms_for and pending say the same. *)
Lemma decoms_pending l : forall t a, In a (decoms_for t l) <-> pending a l = Some t.
Proof.
  induction l as [|x l IH] using rev_ind; intros t a; [simpl; split; [tauto|discriminate]|].
  rewrite decoms_snoc, pending_snoc. destruct x as [z e]; simpl. destruct e; auto.
  rewrite in_app_iff, filter_In, IH. destruct (Nat.eqb_spec a0 a) as [->|N].
  - rewrite Nat.eqb_refl. simpl. destruct (Z.eqb_spec t0 t); simpl.
    + subst. split; [reflexivity|]. auto.
    + split; [intros [[_ F]|[]]; discriminate|]. congruence.
  - assert (Nat.eqb a a0 = false) as -> by (apply Nat.eqb_neq; auto). simpl.
    destruct (Z.eqb_spec t0 t); simpl; split; try tauto.
Qed.
Lemma decoms_nodup t l : NoDup (decoms_for t l).
Proof.
  induction l as [|x l IH] using rev_ind; [constructor|].
  rewrite decoms_snoc. destruct x as [z e]; simpl. destruct e; auto.
  assert (NF : NoDup (filter (fun b => negb (Nat.eqb b a)) (decoms_for t l))) by now apply NoDup_filter.
  destruct (Z.eqb t0 t); [|now rewrite app_nil_r].
  apply NoDup_rev in NF. rewrite <- (rev_involutive (_ ++ [a])). apply NoDup_rev. rewrite rev_app_distr. simpl.
  constructor; auto. rewrite <- in_rev, filter_In. rewrite Nat.eqb_refl. simpl. intros [_ F]. discriminate.
Qed.

(** ** Queues *)
Lemma qpush_find {A} t (x : A) q t' :
  odef (zfind t' (qpush t x q)) = odef (zfind t' q) ++ (if Z.eqb t t' then [x] else []).
Proof.
  unfold qpush. destruct (Z.eqb_spec t t') as [<-|N].
  - rewrite zfind_zset_same. destruct (zfind t q); reflexivity.
  - rewrite zfind_zset_other by auto. now rewrite app_nil_r.
Qed.
Lemma qpush_sorted {A} t (x : A) q : zsorted q -> zsorted (qpush t x q).
Proof. apply zset_sorted. Qed.

Lemma remove_first_nodup m l : NoDup l -> remove_first m l = filter (fun b => negb (Nat.eqb b m)) l.
Proof.
  induction 1 as [|x l N _ IH]; simpl; [reflexivity|]. destruct (Nat.eqb_spec x m) as [->|D]; simpl; [|now rewrite IH].
  clear IH. induction l as [|y l IH]; simpl; [reflexivity|].
  destruct (Nat.eqb_spec y m) as [->|D]; simpl; [exfalso; apply N; simpl; auto|].
  f_equal. apply IH. intros I; apply N; simpl; auto.
Qed.
Lemma filter_absent m l : ~ In m l -> filter (fun b => negb (Nat.eqb b m)) l = l.
Proof.
  induction l as [|x l IH]; intros N; simpl; [reflexivity|].
  destruct (Nat.eqb_spec x m) as [->|D]; simpl; [exfalso; apply N; simpl; auto|]. f_equal. apply IH. intros I; apply N; simpl; auto.
Qed.
Lemma existsb_nat m l : existsb (Nat.eqb m) l = true <-> In m l.
Proof.
  rewrite existsb_exists. split; [intros (x & I & E); apply Nat.eqb_eq in E; now subst|].
  intros I. exists m. split; [auto|apply Nat.eqb_refl].
Qed.

Lemma drop_keys m q : zkeys (drop_decom m q) = zkeys q.
Proof. induction q as [|[t l] q IH]; simpl; [reflexivity|]. destruct (existsb _ _); simpl; [reflexivity|]. now rewrite IH. Qed.
Lemma sorted_keys {V W} (m : zmap V) (m' : zmap W) : zkeys m = zkeys m' -> zsorted m -> zsorted m'.
Proof.
  revert m'. induction m as [|[k v] m IH]; intros [|[k' v'] m'] E H; simpl in *; auto; try discriminate.
  injection E as -> E. destruct H as [F H]. split; [|eauto].
  rewrite Forall_forall in *. intros p Ip. assert (In (fst p) (zkeys m)) as J by (rewrite E; now apply in_map).
  apply in_map_iff in J. destruct J as (q & <- & Iq). auto.
Qed.
Lemma drop_find m q : zsorted q ->
  (forall t, NoDup (odef (zfind t q))) ->
  (forall t t', In m (odef (zfind t q)) -> In m (odef (zfind t' q)) -> t = t') ->
  forall t, odef (zfind t (drop_decom m q)) = filter (fun b => negb (Nat.eqb b m)) (odef (zfind t q)).
Proof.
  induction q as [|[k l] q IH]; intros Hs Hn Hu t; simpl; [reflexivity|].
  destruct Hs as [HF Hs].
  assert (Ek : zfind k ((k, l) :: q) = Some l) by (simpl; now rewrite Z.eqb_refl).
  assert (Nk : zfind k q = None).
  { apply zfind_None. intros I. apply in_map_iff in I. destruct I as ([k1 v1] & E & I). simpl in E. subst.
    rewrite Forall_forall in HF. apply HF in I. simpl in I. lia. }
  destruct (existsb (Nat.eqb m) l) eqn:E.
  - apply existsb_nat in E. simpl. destruct (Z.eqb_spec t k) as [->|D].
    + simpl. apply remove_first_nodup. specialize (Hn k). rewrite Ek in Hn. exact Hn.
    + symmetry. apply filter_absent. intros I. apply D. apply (Hu t k).
      * simpl. destruct (Z.eqb_spec t k); [contradiction|exact I].
      * rewrite Ek. exact E.
  - simpl. assert (NI : ~ In m l) by (rewrite <- existsb_nat; congruence).
    destruct (Z.eqb_spec t k) as [->|D]; [simpl; now rewrite filter_absent|].
    apply IH; auto.
    + intros t'. destruct (Z.eq_dec t' k) as [->|D']; [rewrite Nk; constructor|].
      specialize (Hn t'). simpl in Hn. destruct (Z.eqb_spec t' k); [contradiction|exact Hn].
    + intros t1 t2 I1 I2. apply Hu; simpl.
      * destruct (Z.eqb_spec t1 k); [subst; rewrite Nk in I1; destruct I1|exact I1].
      * destruct (Z.eqb_spec t2 k); [subst; rewrite Nk in I2; destruct I2|exact I2].
Qed.

(** ** The invariant *)
Definition ids_ok (x : world) : Prop :=
  nid x = Z.of_nat (length (heap x)) /\ forall a y, nth_error (heap x) a = Some y -> a_id y = Z.of_nat a.
Definition same_ident (x y : agent) : Prop :=
  a_id y = a_id x /\ a_kind y = a_kind x /\ a_shim y = a_shim x /\ a_proto y = a_proto x /\ a_spec y = a_spec x /\
  (a_alive y = true -> a_alive x = true).
Definition hrel (x y : world) : Prop :=
  (length (heap x) <= length (heap y))%nat /\
  (forall a u, nth_error (heap x) a = Some u -> exists v, nth_error (heap y) a = Some v /\ same_ident u v).
Record inv (s : sim) : Prop := {
  i_ids : ids_ok (w s);
  i_reg : Forall (fun a => (a < length (heap (w s)))%nat) (standing (log s));
  i_cpp : cpp (ti s) = filter (fun a => negb (shim_of s a)) (standing (log s));
  i_py : py (ti s) = filter (shim_of s) (standing (log s));
  i_tmaps : zsorted (tmap (ti s));
  i_tmap : forall k a, zfind k (tmap (ti s)) = Some a <-> k = Z.of_nat a /\ In a (standing (log s));
  i_bqs : zsorted (bq (ti s));
  i_bq : forall t, odef (zfind t (bq (ti s))) = builds_for t (log s);
  i_dqs : zsorted (dq (ti s));
  i_dq : forall t, odef (zfind t (dq (ti s))) = decoms_for t (log s);
  i_stamp : Forall (fun x => fst x <= tm (ti s)) (log s);
  i_future : Forall (fun x => match snd x with ESchedB _ _ _ t => fst x < t | ESchedD _ t => fst x <= t | _ => True end) (log s) }.

Record exto (ok : event -> bool) (s s' : sim) : Prop := {
  x_log : exists suf, log s' = log s ++ suf /\
    Forall (fun x => fst x = tm (ti s) /\ ok (snd x) = true) suf /\
    killf (ti s') = killf (ti s) || existsb is_kill suf;
  x_tm : tm (ti s') = tm (ti s);
  x_dur : dur (ti s') = dur (ti s);
  x_heap : hrel (w s) (w s');
  x_inv : inv s -> inv s' }.

Notation ext := (exto inner).

Lemma same_ident_refl x : same_ident x x. Proof. unfold same_ident. tauto. Qed.
Lemma same_ident_trans x y z : same_ident x y -> same_ident y z -> same_ident x z.
Proof. unfold same_ident. intuition congruence. Qed.
Lemma hrel_refl x : hrel x x.
Proof. split; [lia|]. intros a u H. exists u. split; [auto|apply same_ident_refl]. Qed.
Lemma hrel_trans x y z : hrel x y -> hrel y z -> hrel x z.
Proof.
  intros [A B] [C D]. split; [lia|]. intros a u H. destruct (B _ _ H) as (v & Hv & I). destruct (D _ _ Hv) as (v' & Hv' & I').
  exists v'. split; [auto|eapply same_ident_trans; eauto].
Qed.
Lemma ext_refl {ok} s : exto ok s s.
Proof.
  constructor; auto using hrel_refl. exists []. rewrite app_nil_r, orb_false_r. auto.
Qed.
Lemma ext_trans {ok} a b c : exto ok a b -> exto ok b c -> exto ok a c.
Proof.
  intros [(s1 & L1 & F1 & K1) T1 D1 H1 I1] [(s2 & L2 & F2 & K2) T2 D2 H2 I2]. constructor; try congruence.
  - exists (s1 ++ s2). rewrite L2, L1, app_assoc. split; [reflexivity|]. split.
    + apply Forall_app. split; [exact F1|]. rewrite T1 in F2. exact F2.
    + rewrite K2, K1, existsb_app, orb_assoc. reflexivity.
  - eapply hrel_trans; eauto.
  - auto.
Qed.

Lemma shim_hrel s s' l : hrel (w s) (w s') -> Forall (fun a => (a < length (heap (w s)))%nat) l ->
  filter (shim_of s') l = filter (shim_of s) l /\
  filter (fun a => negb (shim_of s' a)) l = filter (fun a => negb (shim_of s a)) l.
Proof.
  intros [_ H] F. assert (E : forall a, In a l -> shim_of s' a = shim_of s a).
  { intros a I. rewrite Forall_forall in F. specialize (F _ I).
    destruct (nth_error (heap (w s)) a) as [u|] eqn:Eu; [|apply nth_error_None in Eu; lia].
    destruct (H _ _ Eu) as (v & Ev & Id). unfold shim_of. rewrite Eu, Ev. apply Id. }
  split; apply filter_ext_in; intros a I; now rewrite (E _ I).
Qed.

(** A change of the world alone, possibly with one neutral event. *)
Lemma ext_world {ok} s s' suf :
  ti s' = ti s -> log s' = log s ++ suf ->
  Forall (fun x => fst x = tm (ti s) /\ ok (snd x) = true /\ neutral (snd x) = true) suf ->
  hrel (w s) (w s') -> (ids_ok (w s) -> ids_ok (w s')) -> exto ok s s'.
Proof.
  intros Et El F Hh Hi.
  assert (NE : forall l, Forall (fun x : Z * event => neutral (snd x) = true) l ->
    standing (log s ++ l) = standing (log s) /\ (forall t, builds_for t (log s ++ l) = builds_for t (log s)) /\
    (forall t, decoms_for t (log s ++ l) = decoms_for t (log s))).
  { intros l. induction l as [|x l IH] using rev_ind; intros Fl; [rewrite app_nil_r; auto|].
    apply Forall_app in Fl. destruct Fl as [Fl Fx]. inversion Fx as [|? ? Hx _]; subst.
    destruct (IH Fl) as (A & B & C). rewrite app_assoc. destruct (neutral_one (log s ++ l) x Hx) as (A' & B' & C' & _).
    rewrite A', A. split; [reflexivity|]. split; intros t; [rewrite B'; auto|rewrite C'; auto]. }
  destruct (NE suf) as (N1 & N2 & N3). { eapply Forall_impl; [|exact F]. simpl. tauto. }
  constructor; try congruence; auto.
  - exists suf. split; [exact El|]. split; [eapply Forall_impl; [|exact F]; simpl; tauto|].
    rewrite Et. assert (existsb is_kill suf = false) as ->.
    { clear - F. induction F as [|x l (_ & _ & Hx) _ IH]; simpl; [reflexivity|]. rewrite IH, orb_false_r.
      destruct x as [z e]; simpl in *. unfold is_kill. simpl. destruct e; try reflexivity. discriminate. }
    now rewrite orb_false_r.
  - intros I. destruct I. rewrite <- El in *. constructor; rewrite ?Et, ?N1; auto.
    + eapply Forall_impl; [|exact i_reg0]. intros a Ha. destruct Hh. simpl in *. lia.
    + rewrite i_cpp0. symmetry. eapply shim_hrel; eauto.
    + rewrite i_py0. symmetry. eapply shim_hrel; eauto.
    + intros t. rewrite N2. auto.
    + intros t. rewrite N3. auto.
    + rewrite El. apply Forall_app. split; auto. eapply Forall_impl; [|exact F]. simpl. intros x (-> & _). lia.
    + rewrite El. apply Forall_app. split; auto. eapply Forall_impl; [|exact F]. simpl. intros x (_ & _ & Hx).
      destruct (snd x); try exact I; discriminate.
Qed.
Lemma ext_emit {ok : event -> bool} e s : ok e = true -> neutral e = true -> exto ok s (emit e s).
Proof.
  intros H1 H2. apply (ext_world s (emit e s) [(tm (ti s), e)]); try reflexivity; auto using hrel_refl.
Qed.
Lemma ext_set_agent s a x y : get s a = Some x -> same_ident x y -> ext s (set_agent a y s).
Proof.
  intros G S0. unfold get in G. destruct (nth_error (heap (w s)) a) as [u|] eqn:E; [|discriminate].
  destruct (a_alive u) eqn:Al; [|discriminate]. injection G as ->.
  apply (ext_world s (set_agent a y s) []); try reflexivity; try (now rewrite app_nil_r); try constructor.
  - simpl. rewrite upd_length. lia.
  - intros b v Hb. simpl. destruct (Nat.eq_dec a b) as [<-|D].
    + rewrite nth_upd_same by (eapply nth_error_lt; eauto). exists y. split; [reflexivity|]. congruence.
    + rewrite nth_upd_other by auto. exists v. split; [auto|apply same_ident_refl].
  - simpl. rewrite upd_length. apply H.
  - intros b v Hb. simpl in Hb. destruct H as [_ H]. destruct (Nat.eq_dec a b) as [<-|D].
    + rewrite nth_upd_same in Hb by (eapply nth_error_lt; eauto). injection Hb as <-. rewrite <- (H _ _ E). apply S0.
    + rewrite nth_upd_other in Hb by auto. auto.
Qed.
Lemma ext_other_world s f :
  heap (f (w s)) = heap (w s) -> nid (f (w s)) = nid (w s) -> ext s (with_w f s).
Proof.
  intros E1 E2. apply (ext_world s (with_w f s) []); try reflexivity; simpl; try (now rewrite app_nil_r); try constructor; simpl; rewrite ?E1.
  - lia.
  - intros a u H. exists u. split; [auto|apply same_ident_refl].
  - rewrite E2. apply H.
  - apply H.
Qed.

Notation K := (keeps ext).
Lemma k_bind {A B} (m : M A) (k : A -> M B) : K m -> (forall a, K (k a)) -> K (bind m k).
Proof. apply keeps_bind. exact ext_trans. Qed.
Lemma k_ret {A} (a : A) : K (ret a). Proof. apply keeps_ret, ext_refl. Qed.
Lemma k_raise {A} e : K (@raise A e). Proof. apply keeps_raise, ext_refl. Qed.
Lemma k_gets {A} (f : sim -> A) : K (gets f). Proof. apply keeps_gets, ext_refl. Qed.
Lemma k_deref a : K (deref a). Proof. apply keeps_deref, ext_refl. Qed.
Lemma k_each {A} (f : A -> M unit) l : (forall x, K (f x)) -> K (each f l).
Proof. apply keeps_each; [exact ext_refl|exact ext_trans]. Qed.
Lemma k_emit e : inner e = true -> neutral e = true -> K (modify (emit e)).
Proof. intros. apply keeps_modify. intros s. now apply ext_emit. Qed.
Lemma k_modify_agent a f : (forall x, same_ident x (f x)) -> K (modify_agent a f).
Proof.
  intros Hf s o s' H N. unfold modify_agent, bind, deref in H. destruct (get s a) as [x|] eqn:G; [|congruence].
  unfold modify in H. injection H as <- <-. eapply ext_set_agent; eauto.
Qed.
Lemma k_with_w f : (forall x, heap (f x) = heap x /\ nid (f x) = nid x) -> K (modify (with_w f)).
Proof. intros H. apply keeps_modify. intros s. apply ext_other_world; apply H. Qed.

Lemma deref_inv {B} a (k : agent -> M B) s o s' : bind (deref a) k s = (o, s') -> o <> Undef ->
  exists x, get s a = Some x /\ k x s = (o, s').
Proof. unfold bind, deref. destruct (get s a) as [x|]; intros H N; [eauto|congruence]. Qed.
Lemma get_nth s a x : get s a = Some x -> nth_error (heap (w s)) a = Some x /\ a_alive x = true.
Proof. unfold get. destruct (nth_error (heap (w s)) a) as [u|]; [|discriminate]. destruct (a_alive u) eqn:E; [|discriminate]. intros [= <-]. auto. Qed.

Lemma inner_reg a : inner (EReg a) = true. Proof. reflexivity. Qed.

Lemma k_register a : K (register a).
Proof.
  intros s o s' H N. destruct (deref_inv _ _ _ _ _ H N) as (x & G & E). clear H.
  unfold modify in E. injection E as <- <-. destruct (get_nth _ _ _ G) as [En _].
  constructor; simpl; auto using hrel_refl.
  - exists [(tm (ti s), EReg a)]. split; [reflexivity|]. split; [repeat constructor|]. simpl. now rewrite orb_false_r.
  - intros I. destruct I. assert (La : (a < length (heap (w s)))%nat) by (eapply nth_error_lt; eauto).
    assert (Ea : a_id x = Z.of_nat a) by (apply (proj2 i_ids0); auto).
    assert (Sa : shim_of s a = a_shim x) by (unfold shim_of; now rewrite En).
    constructor; simpl; rewrite ?standing_snoc; simpl; auto.
    + apply Forall_app. auto.
    + rewrite filter_app. simpl. change (shim_of (emit _ _)) with (shim_of s).
      rewrite Sa. destruct (a_shim x); simpl; rewrite ?app_nil_r, i_cpp0; reflexivity.
    + rewrite filter_app. simpl. change (shim_of (emit _ _)) with (shim_of s).
      rewrite Sa. destruct (a_shim x); simpl; rewrite ?app_nil_r, i_py0; reflexivity.
    + now apply zset_sorted.
    + intros k b. rewrite in_app_iff. simpl. destruct (Z.eq_dec (a_id x) k) as [<-|D].
      * rewrite zfind_zset_same. split; [intros [= <-]; auto|]. intros [E _]. f_equal. apply Nat2Z.inj. lia.
      * rewrite zfind_zset_other by auto. rewrite i_tmap0. split; [tauto|]. intros [-> [I|[->|[]]]]; [auto|]. congruence.
    + intros t. rewrite builds_snoc. simpl. rewrite app_nil_r. apply i_bq0.
    + intros t. rewrite decoms_snoc. apply i_dq0.
    + apply Forall_app; split; [assumption|constructor; [simpl; lia|constructor]].
    + apply Forall_app; split; [assumption|constructor; [exact I|constructor]].
Qed.

Lemma k_unregister a : K (unregister a).
Proof.
  intros s o s' H N. destruct (deref_inv _ _ _ _ _ H N) as (x & G & E). clear H.
  unfold modify in E. injection E as <- <-. destruct (get_nth _ _ _ G) as [En _].
  constructor; simpl; auto using hrel_refl.
  - exists [(tm (ti s), EUnreg a)]. split; [reflexivity|]. split; [repeat constructor|]. simpl. now rewrite orb_false_r.
  - intros I. destruct I. assert (La : (a < length (heap (w s)))%nat) by (eapply nth_error_lt; eauto).
    assert (Ea : a_id x = Z.of_nat a) by (apply (proj2 i_ids0); auto).
    assert (Sa : shim_of s a = a_shim x) by (unfold shim_of; now rewrite En).
    assert (FF : forall (f : nat -> bool) l, filter f (pdel a l) = pdel a (filter f l)).
    { intros f l. unfold pdel. induction l as [|y l IH]; simpl; [reflexivity|].
      destruct (negb (Nat.eqb y a)) eqn:E1, (f y) eqn:E2; simpl; rewrite ?E1, ?E2, ?IH; reflexivity. }
    assert (AB : forall f l, f a = false -> pdel a (filter f l) = filter f l).
    { intros f l Hf. apply filter_absent. rewrite filter_In. intros [_ X]. congruence. }
    constructor; simpl; rewrite ?standing_snoc; simpl; auto.
    + rewrite Forall_forall in *. intros b Hb. apply filter_In in Hb. apply i_reg0. tauto.
    + change (shim_of (emit _ _)) with (shim_of s). change (filter _ (standing (log s))) with (pdel a (standing (log s))) at 1.
      rewrite FF, i_cpp0. destruct (a_shim x) eqn:Ex; [|reflexivity]. rewrite AB; [reflexivity|]. now rewrite Sa.
    + change (shim_of (emit _ _)) with (shim_of s). change (filter (fun b : nat => negb (Nat.eqb b a)) (standing (log s))) with (pdel a (standing (log s))).
      rewrite FF, i_py0. destruct (a_shim x) eqn:Ex; [reflexivity|]. rewrite AB; [reflexivity|]. now rewrite Sa.
    + now apply zerase_sorted.
    + intros k b. rewrite filter_In. destruct (Z.eq_dec (a_id x) k) as [<-|D].
      * rewrite zfind_zerase_same. split; [discriminate|]. intros (E & _ & X).
        assert (b = a) as -> by (apply Nat2Z.inj; lia). rewrite Nat.eqb_refl in X. discriminate.
      * rewrite zfind_zerase_other by auto. rewrite i_tmap0. split; [|tauto]. intros [-> I]. split; [auto|]. split; [auto|].
        destruct (Nat.eqb_spec b a) as [->|]; [congruence|reflexivity].
    + intros t. rewrite builds_snoc. simpl. rewrite app_nil_r. apply i_bq0.
    + intros t. rewrite decoms_snoc. apply i_dq0.
    + apply Forall_app; split; [assumption|constructor; [simpl; lia|constructor]].
    + apply Forall_app; split; [assumption|constructor; [exact I|constructor]].
Qed.

Lemma k_sched_build p n t : K (sched_build p n t).
Proof.
  unfold sched_build. apply k_bind; [apply k_gets|]. intros now. cbv zeta.
  generalize (if Z.eqb t (-1) then now + 1 else t). clear t. intros t.
  apply k_bind.
  - destruct p; [|apply k_ret]. apply k_bind; [apply k_deref|]. intros; apply k_ret.
  - intros pid s o s' H N. unfold bind, timer_sched_build in H. destruct (Z.leb_spec t (tm (ti s))).
    { injection H as <- <-. apply ext_refl. }
    unfold modify in H. injection H as <- <-.
    constructor; simpl; auto using hrel_refl.
    + exists [(tm (ti s), ESchedB p pid n t)]. split; [reflexivity|]. split; [repeat constructor|]. simpl. now rewrite orb_false_r.
    + intros I. destruct I. constructor; simpl; rewrite ?standing_snoc; simpl; auto.
      * now apply qpush_sorted.
      * intros t'. rewrite qpush_find, builds_snoc. simpl. now rewrite i_bq0.
      * intros t'. rewrite decoms_snoc. apply i_dq0.
      * apply Forall_app; split; [assumption|constructor; [simpl; lia|constructor]].
      * apply Forall_app; split; [assumption|constructor; [simpl; lia|constructor]].
Qed.

Lemma k_sched_decom a t : K (sched_decom a t).
Proof.
  unfold sched_decom. apply k_bind; [apply k_gets|]. intros now. cbv zeta.
  generalize (if Z.eqb t (-1) then now else t). clear t. intros t.
  intros s o s' H N. unfold bind, timer_sched_decom in H. destruct (Z.ltb_spec t (tm (ti s))).
  { injection H as <- <-. apply ext_refl. }
  unfold deref in H.
  match type of H with context [get ?s1 a] => set (s1' := s1) in *; destruct (get s1' a) as [x|] eqn:G end; [|congruence].
  unfold modify in H. injection H as <- <-.
  constructor; simpl; auto using hrel_refl.
  - exists [(tm (ti s), ESchedD a t)]. split; [reflexivity|]. split; [repeat constructor|]. simpl. now rewrite orb_false_r.
  - intros I. destruct I. constructor; simpl; rewrite ?standing_snoc; simpl; auto.
    + intros t'. rewrite builds_snoc. simpl. rewrite app_nil_r. apply i_bq0.
    + apply qpush_sorted. eapply sorted_keys; [symmetry; apply drop_keys|auto].
    + intros t'. rewrite qpush_find, decoms_snoc. simpl. f_equal. rewrite drop_find; auto.
      * now rewrite i_dq0.
      * intros t0. rewrite i_dq0. apply decoms_nodup.
      * intros t1 t2. rewrite !i_dq0, !decoms_pending. congruence.
    + apply Forall_app; split; [assumption|constructor; [simpl; lia|constructor]].
    + apply Forall_app; split; [assumption|constructor; [simpl; lia|constructor]].
Qed.

Lemma k_kill : K kill_sim.
Proof.
  apply keeps_modify. intros s. constructor; simpl; auto using hrel_refl.
  - exists [(tm (ti s), EKill)]. split; [reflexivity|]. split; [repeat constructor|]. simpl. now rewrite orb_true_r.
  - intros I. destruct I. constructor; simpl; rewrite ?standing_snoc; simpl; auto.
    + intros t. rewrite builds_snoc. simpl. rewrite app_nil_r. apply i_bq0.
    + intros t. rewrite decoms_snoc. apply i_dq0.
    + apply Forall_app; split; [assumption|constructor; [simpl; lia|constructor]].
    + apply Forall_app; split; [assumption|constructor; [exact I|constructor]].
Qed.
Lemma k_snap : K want_snapshot.
Proof.
  apply keeps_modify. intros s. constructor; simpl; auto using hrel_refl.
  - exists []. rewrite app_nil_r, orb_false_r. auto.
  - intros I. destruct I. constructor; auto.
Qed.
Lemma k_construct k sh pr sp l : K (construct k sh pr sp l).
Proof.
  intros s o s' H N. unfold construct in H. injection H as <- <-.
  apply (ext_world s _ [(tm (ti s), ENew (length (heap (w s))))]); try reflexivity.
  - repeat constructor.
  - split; simpl; [rewrite app_length; lia|]. intros a u H. exists u. split; [now apply nth_app_old|apply same_ident_refl].
  - intros [A B]. split; simpl.
    + rewrite app_length, Nat2Z.inj_add, A. simpl. lia.
    + intros a y Hy. destruct (Nat.lt_ge_cases a (length (heap (w s)))) as [L|L].
      * rewrite nth_error_app1 in Hy by auto. auto.
      * assert (a = length (heap (w s))) as ->.
        { apply nth_error_lt in Hy. rewrite app_length in Hy. simpl in Hy. lia. }
        rewrite nth_app_new in Hy. injection Hy as <-. exact A.
Qed.
Lemma k_destroy a : K (destroy a).
Proof.
  apply k_bind; [apply k_deref|]. intros x. apply k_bind.
  - destruct (a_parent x); [|apply k_ret]. apply k_modify_agent. intros y. unfold same_ident; simpl; tauto.
  - intros _. apply k_bind.
    + apply k_each. intros c. apply k_modify_agent. intros y. unfold same_ident; simpl; tauto.
    + intros _. apply k_bind; [|intros _; now apply k_emit]. apply k_modify_agent. intros y. unfold same_ident; simpl.
      repeat split; auto. discriminate.
Qed.
Lemma k_del_agent a : K (del_agent a).
Proof.
  apply k_bind; [apply k_gets|]. intros [|]; [|apply k_ret]. apply k_bind; [apply k_with_w; auto|]. intros _. apply k_destroy.
Qed.
Lemma k_count x d : K (count_agent x d). Proof. apply k_with_w; auto. Qed.
Lemma k_traders f : K (set_traders f). Proof. apply k_with_w; auto. Qed.
Lemma k_add_prototype n a o : K (add_prototype n a o).
Proof.
  apply k_bind; [apply k_gets|]. intros kn. destruct (_ && _); [apply k_raise|].
  apply k_bind; [apply k_deref|]. intros x. apply keeps_modify. intros s.
  eapply ext_trans; [apply ext_other_world|apply ext_emit]; reflexivity.
Qed.
Lemma k_create want n : K (create_agent want n).
Proof.
  apply k_bind; [apply k_gets|]. intros [p|]; [|apply k_raise].
  apply k_bind; [apply k_deref|]. intros x. apply k_bind; [apply k_construct|]. intros a.
  destruct want as [k|]; [destruct (kind_eqb k (a_kind x))|].
  - apply k_bind; [now apply k_emit|]. intros. apply k_ret.
  - apply k_bind; [apply k_del_agent|]. intros. apply k_raise.
  - apply k_bind; [now apply k_emit|]. intros. apply k_ret.
Qed.
Lemma k_lifetime a n : K (set_lifetime a n).
Proof.
  intros s o s' H N. destruct (deref_inv _ _ _ _ _ H N) as (x & G & E). clear H.
  destruct (Z.eqb (a_enter x) (-1)); [|injection E as <- <-; apply ext_refl].
  unfold modify in E. injection E as <- <-. eapply ext_set_agent; eauto. unfold same_ident; simpl; tauto.
Qed.
Lemma k_force a n : K (lifetime_force a n).
Proof.
  intros s o s' H N. destruct (deref_inv _ _ _ _ _ H N) as (x & G & E). clear H.
  destruct (Z.eqb (a_enter x) (-1)).
  - unfold modify in E. injection E as <- <-. eapply ext_set_agent; eauto. unfold same_ident; simpl; tauto.
  - unfold bind, gets in E. destruct (Z.leb _ _).
    + eapply k_lifetime; eauto.
    + unfold modify in E. injection E as <- <-. eapply ext_set_agent; eauto. unfold same_ident; simpl; tauto.
Qed.
Lemma k_connect a p : K (connect a p).
Proof.
  destruct p as [p|]; simpl; [|apply k_ret]. destruct (Nat.eqb p a); [apply k_raise|].
  apply k_bind; [apply k_deref|]. intros y. apply k_bind; [|intros _]; apply k_modify_agent; intros z; unfold same_ident; simpl; tauto.
Qed.
Lemma k_enter a : K (enter_notify a).
Proof.
  apply k_bind; [apply k_deref|]. intros x. destruct (a_kind x).
  - apply k_bind; [apply k_count|]. intros _. apply k_bind; [apply k_traders|]. intros _. apply k_register.
  - apply k_register. - apply k_register. - apply k_count.
Qed.
Lemma k_front a p : K (build_front a p).
Proof.
  apply k_bind; [now apply k_emit|]. intros _. apply k_bind; [apply k_deref|]. intros _.
  apply k_bind; [apply k_connect|]. intros _. apply k_bind; [apply k_gets|]. intros now.
  apply k_bind; [|intros _; apply k_enter]. apply k_modify_agent. intros z; unfold same_ident; simpl; tauto.
Qed.
Lemma k_back a : K (build_back a).
Proof. apply k_bind; [apply k_deref|]. intros x. now apply k_emit. Qed.
Lemma k_base_decom a : K (base_decom a).
Proof.
  apply k_bind; [apply k_deref|]. intros x. apply k_bind; [apply k_gets|]. intros now.
  apply k_bind; [now apply k_emit|]. intros _. apply k_bind; [apply k_count|]. intros _. apply k_del_agent.
Qed.
Lemma k_kind_decom cond a : K (kind_decom cond a).
Proof.
  apply k_bind; [apply k_deref|]. intros x. destruct (a_kind x).
  - apply k_bind; [apply k_gets|]. intros [|]; [|apply k_raise].
    apply k_bind; [apply k_traders|]. intros _. apply k_bind; [apply k_unregister|]. intros _. apply k_base_decom.
  - apply k_bind; [apply k_unregister|]. intros _. apply k_base_decom.
  - apply k_bind; [apply k_unregister|]. intros _. apply k_base_decom.
  - apply k_base_decom.
Qed.

Lemma ext_atoms cond : atoms ext cond.
Proof.
  constructor; auto using k_register, k_unregister, k_sched_build, k_sched_decom, k_kill, k_snap, k_construct, k_create,
    k_add_prototype, k_lifetime, k_force, k_front, k_back, k_kind_decom.
Qed.

Lemma k_exec beh cond f p : K (exec beh cond f p).
Proof. apply keeps_exec; [exact ext_refl|exact ext_trans|apply ext_atoms]. Qed.
Lemma k_call beh cond f a h : K (call beh cond f a h).
Proof. apply keeps_call; [exact ext_refl|exact ext_trans|apply ext_atoms]. Qed.
Lemma k_do_cmd beh cond f c : K (do_cmd beh cond f c).
Proof. apply k_exec. Qed.

Lemma inv_sim0 t0 d : inv (sim0 t0 d).
Proof.
  constructor; simpl; auto; try (constructor; fail).
  - split; simpl; [reflexivity|]. intros a y. destruct a; discriminate.
  - intros k a. split; [discriminate|intros [_ []]].
Qed.
