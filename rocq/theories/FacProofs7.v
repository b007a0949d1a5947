(** A step, and any number of steps. *)
From Coq Require Import String QArith Qpower List Bool Arith ZArith Lia Lqa Sorted Permutation.
From Verif Require Import Base CompModel PackageModel ResourceModel BufModel GreedyModel GreedySpec ExchangeModel ExchangeSpec
  TradeModel TradeSpec TradeProofs DreModel DreSpec ExchangeProofs1 ExchangeProofs7 DreProofs4 DreProofs5
  FacModel FacSpec FacProofs1 FacProofs2 FacProofs3 FacProofs4 FacProofs5 FacProofs6.
Import ListNotations.
Open Scope Q_scope.

Lemma settings_refl f : same_settings f f.
Proof. apply alike_refl. Qed.
Lemma settings_sym f g : same_settings f g -> same_settings g f.
Proof. destruct f, g; cbn; try contradiction; intuition congruence. Qed.
Lemma transactions_app a b : transactions (a ++ b) = transactions a ++ transactions b.
Proof. unfold transactions. apply flat_map_app. Qed.
Lemma no_transactions ev l : map callee ev = l -> ~ In WTrade l -> transactions ev = [].
Proof.
  intros <-. induction ev as [|c ev IH]; auto. intros N. change (transactions (c :: ev)) with (transactions ([c] ++ ev)).
  rewrite transactions_app, IH by (intros I; apply N; now right). destruct c; auto. exfalso. apply N. left. reflexivity.
Qed.

Definition as_delivery (m : market) (tr : trade) : delivery := mkDl (bidder_of m tr) (requester_of m tr) (commod_of m tr) (td_amt tr).
Lemma total_traded m P ts : total P (map (as_delivery m) ts) == traded (fun tr => P (as_delivery m tr)) ts.
Proof.
  unfold total, traded. rewrite filter_map, map_map. apply qsum_map_ext. intros. reflexivity.
Qed.

Section Step.
Variable E : env.
Variable eps tol : Q.
Variable recipes : string -> option nat.
Variable place : nat -> nat.
Variable mgr : nat -> Z.
Variable fd : Q -> Q -> Q.
Variable wt : option weights.
Variable ancestors : nat -> list nat.
Hypothesis FD : fd_ok fd tol.
Hypothesis TE : tol <= eps.
Hypothesis EE : e_eps E <= eps.
Notation Exchange := (fac_exchange E eps recipes place mgr fd wt ancestors).
Notation Step := (fac_step E eps recipes place mgr fd wt ancestors).
Notation Run := (fac_run E eps recipes place mgr fd wt ancestors).

Lemma exchange_day w fs id : ready recipes w fs -> (forall t f, nth_error fs t = Some f -> fresh f) ->
  (forall t f, nth_error fs t = Some f -> has_room (e_eps E) f (demand eps f + tol)) ->
  exists l ev w' fs', Exchange (w, fs) id = (Ok tt, (ev, ((w', fs'), (id + Z.of_nat (length l))%Z))) /\
    fair_day eps tol fs l /\ kept fs l fs' /\ recorded mgr id l ev /\ ready recipes w' fs'.
Proof.
  intros (RC & RD) FR RM. pose proof (tol0 fd tol FD) as T0. assert (EPS : 0 <= eps) by lra.
  destruct (market_made E eps recipes place mgr ancestors EPS w fs RC) as (m & evc & w1 & owners & bowners & CO & K & MP);
    [intros; eapply RD; eauto|].
  unfold fac_exchange, execute_exchange. cbn [fst snd]. unfold Coll in CO. rewrite CO.
  pose proof (requests_fair E eps recipes) as FQ. pose proof (bids_fair recipes place) as FB.
  destruct (collection _ _ _ _ _ _ _ _ _ _ _ _ FQ FB CO) as
    (l0 & table & er & eb & ea & before & s2 & _ & EV & CR & CB & CA & _ & _ & _ & _ & _ & _ & _ & BBR & XR & REG & _).
  assert (PF : forall b, In b (all_bids m) -> pref_for m b = stated_pref m b).
  { eapply nobody_adjusts; [exact FQ|exact FB|exact CO| |]; intros ? ? ? ? ? H; unfold leave_t in H; congruence. }
  assert (NT : transactions evc = []).
  { rewrite EV, !transactions_app. rewrite (no_transactions er _ CR), (no_transactions ea _ CA).
    - rewrite app_nil_r. cbn. clear - CB. induction CB as [|t c l0 eb (ps & ->) F IH]; cbn; auto.
    - intros I. apply in_flat_map in I. destruct I as (t & _ & [X|I]); [discriminate|]. apply in_map_iff in I. destruct I as (? & ? & _). discriminate.
    - intros I. apply in_map_iff in I. destruct I as (? & ? & _). discriminate. }
  destruct (m_solved eps fs w1 m owners bowners EPS MP XR REG PF fd mgr tol wt FD TE) as (ts & SE).
  assert (OA : forall t f, nth_error fs t = Some f -> 0 <= offered_amount f).
  { intros t f N. destruct (RD t f N) as (S0 & _). destruct f; cbn in *; lra. }
  assert (REAL := trade_real eps fs w1 m owners bowners EPS MP XR REG fd mgr tol wt FD TE ts SE).
  assert (SUP := trade_supply eps fs w1 m owners bowners EPS MP XR REG fd mgr tol wt FD TE ts SE).
  assert (DEM := trade_demand eps fs w1 m owners bowners EPS MP XR REG fd mgr tol wt FD TE ts SE).
  assert (COM := trade_commod eps fs w1 m owners bowners EPS MP XR REG fd mgr tol wt FD TE ts SE).
  assert (LEFT := trade_left eps fs w1 m owners bowners EPS MP XR REG PF fd mgr tol wt FD TE ts SE).
  assert (DAY : fair_day eps tol fs (map (as_delivery m) ts)).
  { split.
    - intros d I. apply in_map_iff in I. destruct I as (tr & <- & I). destruct (REAL tr I) as (f & g & A1 & A2 & A3 & A4 & A5 & A6 & _).
      exists f, g. cbn. auto 8.
    - intros t f N _. unfold sent. rewrite total_traded. cbn. apply SUP; eauto.
    - intros t f N. unfold received. rewrite total_traded. cbn. apply DEM; auto.
    - intros t f c N ND NN. unfold received_of. rewrite total_traded. cbn. apply COM; auto.
    - intros t s f g c N1 OC N2 WC WA. unfold sent, received_of, received. rewrite !total_traded. cbn.
      exact (LEFT t f s g c BBR N1 OC N2 WC WA). }
  assert (RC1 : forall n c, recipes n = Some c -> (c < length (w_comps w1))%nat).
  { intros n c R. apply RC in R. pose proof (kp_comps _ _ K). lia. }
  assert (IO1 : forall t f, nth_error fs t = Some f -> in_order w1 f).
  { intros t f N. eapply in_order_keeps; eauto. eapply RD; eauto. }
  destruct (x_bbr m) as [|b0 bs] eqn:XB.
  - assert (ts = []) by (unfold solve_exchange in SE; rewrite XB in SE; congruence). subst ts. cbn [map] in DAY.
    exists [], evc, w1, fs. cbn [length Z.of_nat]. rewrite Z.add_0_r. split; auto. split; auto. split; [|split].
    + split; auto. intros t f f' N1 N2. assert (f' = f) by congruence. subst f'. split; [apply settings_refl|].
      unfold received, total. cbn. ring.
    + split; rewrite NT; cbn; auto.
    + split; auto. intros t f N. split; [eapply RD; eauto|eapply IO1; eauto].
  - rewrite SE.
    destruct (executed E eps recipes m mgr fs w1 ts RC1 (fun t f N => proj1 (RD t f N)) FR IO1 REAL) with (time := w_time w) (id := id)
      as (rows & sa & sb & rq & sp & s3 & EX & HS & HR & PR & ID & KA & SS & PM); auto.
    { intros t f N NN. eapply Qle_trans; [exact (SUP t f N NN)|]. clear - TE. lra. }
    { intros t f N b c IB CAP. eapply Qle_trans; [|apply (RM t f N b c IB CAP)]. specialize (DEM t f N). clear - DEM. lra. }
    rewrite EX. destruct s3 as [w3 fs3].
    exists (map (as_delivery m) ts), (evc ++ map VTrade (sp ++ map (ERecord trade) rows ++ rq)), w3, fs3.
    rewrite map_length. split; auto. split; auto.
    destruct SS as [SK SL SF]. cbn [fst snd] in *.
    assert (TX : transactions (evc ++ map VTrade (sp ++ map (ERecord trade) rows ++ rq)) = rows).
    { rewrite !map_app, !transactions_app, NT. cbn.
      assert (Z1 : transactions (map VTrade sp) = []).
      { clear - HS. induction sp as [|e l IH]; cbn; auto. destruct (HS e (or_introl eq_refl)) as (p & x & ->). cbn. apply IH. intros; apply HS; now right. }
      assert (Z2 : transactions (map VTrade rq) = []).
      { clear - HR. induction rq as [|e l IH]; cbn; auto. destruct (HR e (or_introl eq_refl)) as (p & x & ->). cbn. apply IH. intros; apply HR; now right. }
      rewrite Z1, Z2, app_nil_r. cbn [app]. clear. unfold transactions. induction rows as [|r l IH]; cbn; [reflexivity|]. f_equal. exact IH. }
    split; [|split].
    + split; auto. intros t f f' N1 N2. destruct (SF t f N1) as (f1 & N3 & S1 & _ & _ & H1). assert (f' = f1) by congruence. subst f'.
      split; auto. rewrite H1 by auto. unfold received. rewrite total_traded. cbn. rewrite amount_traded; [reflexivity|exact PM].
    + split; rewrite TX; auto.
      * rewrite map_map. cbn. exact PR.
      * rewrite map_length. exact ID.
    + split.
      * intros n c R. apply RC1 in R. pose proof (kp_comps _ _ KA). pose proof (kp_comps _ _ SK). lia.
      * intros t f' N'. assert (LT : (t < length fs)%nat) by (rewrite <- SL; apply nth_error_Some; congruence).
        destruct (nth_error fs t) as [f|] eqn:N; [|apply nth_error_None in N; lia].
        destruct (SF t f N) as (f1 & N3 & S1 & O1 & _). assert (f' = f1) by congruence. subst f'. split; auto.
        destruct (RD t f N) as (S0 & _). clear - S0 S1. destruct f, f1; cbn in *; try contradiction.
        -- congruence.
        -- destruct S1 as (<- & <- & _). auto.
        -- destruct S1 as (_ & _ & <- & _ & <- & _). auto.
Qed.

(** *** A step *)
Lemma nth_map {A B} (f : A -> B) l t : nth_error (map f l) t = option_map f (nth_error l t).
Proof. apply nth_error_map. Qed.
Lemma alike_day fs gs l : length fs = length gs ->
  (forall t f g, nth_error fs t = Some f -> nth_error gs t = Some g -> same_settings f g) -> fair_day eps tol fs l -> fair_day eps tol gs l.
Proof.
  intros LN SM [D1 D2 D3 D4 D5].
  assert (WH : forall t g, nth_error gs t = Some g -> exists f, nth_error fs t = Some f /\
     wanted_commods f = wanted_commods g /\ wanted_amount f = wanted_amount g /\ offered_commod f = offered_commod g /\
     offered_amount f = offered_amount g).
  { intros t g N. destruct (nth_error fs t) as [f|] eqn:NF.
    - exists f. split; auto. specialize (SM t f g NF N). clear - SM. destruct f, g; cbn in *; try contradiction; [subst; auto| |]; intuition congruence.
    - exfalso. apply nth_error_None in NF. assert (t < length gs)%nat by (apply nth_error_Some; congruence). lia. }
  assert (HW : forall t f, nth_error fs t = Some f -> exists g, nth_error gs t = Some g).
  { intros t f N. destruct (nth_error gs t) as [g|] eqn:NG; eauto. exfalso. apply nth_error_None in NG.
    assert (t < length fs)%nat by (apply nth_error_Some; congruence). lia. }
  split.
  - intros d I. destruct (D1 d I) as (f & g & A1 & A2 & A3 & A4 & A5 & A6).
    destruct (HW _ _ A1) as (f' & NF). destruct (HW _ _ A3) as (g' & NG).
    destruct (WH _ _ NF) as (f2 & B1 & _ & _ & B2 & _). destruct (WH _ _ NG) as (g2 & C1 & C2 & C3 & _).
    exists f', g'. assert (f2 = f) by congruence. assert (g2 = g) by congruence. subst. rewrite <- B2, <- C2, <- C3. auto 8.
  - intros t g N OC. destruct (WH t g N) as (f & NF & _ & _ & B1 & B2). rewrite <- B2. apply D2; auto. congruence.
  - intros t g N. destruct (WH t g N) as (f & NF & B1 & B2 & _). unfold demand. rewrite <- B1, <- B2. apply (D3 t f NF).
  - intros t g c N ND NN. destruct (WH t g N) as (f & NF & B1 & B2 & _). rewrite <- B2. apply D4; auto; congruence.
  - intros t s f g c N1 OC N2 WC WA. destruct (WH t f N1) as (f1 & NF & _ & _ & B1 & B2). destruct (WH s g N2) as (g1 & NG & C1 & C2 & _).
    unfold demand. rewrite <- B2, <- C1, <- C2. apply (D5 t s f1 g1 c); auto; congruence.
Qed.

Lemma tick_settings f : same_settings f (tick f) /\ inventory (tick f) = inventory f.
Proof. destruct f; cbn; auto. repeat split; auto. Qed.
Lemma tock_later f f1 : same_settings f f1 -> same_settings (later 1 f) (tock f1) /\ inventory (tock f1) = inventory f1.
Proof.
  destruct f, f1; cbn; try contradiction; auto. intros (A1 & A2 & A3 & A4 & A5 & A6 & A7 & A8). repeat split; auto; congruence.
Qed.
Lemma inv_held f g : inventory f = inventory g -> held f = held g.
Proof. unfold held. intros ->. reflexivity. Qed.

Lemma step_day w fs id : ready recipes w fs -> (forall t f, nth_error fs t = Some f -> steady f) ->
  (forall t f, nth_error fs t = Some f -> has_room (e_eps E) f (demand eps f + tol)) ->
  exists l ev w' fs', Step (w, fs) id = (Ok tt, (ev, ((w', fs'), (id + Z.of_nat (length l))%Z))) /\
    fair_day eps tol fs l /\ kept (map (later 1) fs) l fs' /\ recorded mgr id l ev /\
    ready recipes w' fs' /\ (forall t f, nth_error fs' t = Some f -> steady f).
Proof.
  intros (RC & RD) ST RM. unfold fac_step. cbn [fst snd].
  destruct (exchange_day w (map tick fs) id) as (l & ev & w' & fs' & EX & DAY & (KL & KP) & RE & RC' & RD').
  - split; auto. intros t f N. rewrite nth_map in N. destruct (nth_error fs t) as [f0|] eqn:N0; [|discriminate].
    cbn in N. injection N as <-. destruct (RD t f0 N0) as (A & B). destruct (tick_settings f0) as (_ & IV). split.
    + destruct f0; exact A.
    + intros b IB. rewrite IV in IB. auto.
  - intros t f N. rewrite nth_map in N. destruct (nth_error fs t) as [f0|] eqn:N0; [|discriminate].
    cbn in N. injection N as <-. destruct f0; cbn; auto.
  - intros t f N. rewrite nth_map in N. destruct (nth_error fs t) as [f0|] eqn:N0; [|discriminate].
    cbn in N. injection N as <-. intros b c IB CB. destruct (tick_settings f0) as (_ & IV). rewrite IV in IB.
    specialize (RM t f0 N0 b c IB CB). destruct f0; exact RM.
  - rewrite EX. rewrite map_length in KL.
    exists l, ev, (set_time (w_time w' + 1)%Z w'), (map tock fs'). split; auto.
    assert (BK : forall t g, nth_error (map tock fs') t = Some g -> exists f f1, nth_error fs t = Some f /\ nth_error fs' t = Some f1 /\
              g = tock f1 /\ same_settings f f1 /\ held f1 == held f + received t l).
    { intros t g N. rewrite nth_map in N. destruct (nth_error fs' t) as [f1|] eqn:N1; [|discriminate]. cbn in N. injection N as <-.
      destruct (nth_error fs t) as [f|] eqn:N0.
      - exists f, f1. split; auto. split; auto. split; auto. destruct (KP t (tick f) f1) as (S1 & H1); auto.
        { rewrite nth_map, N0. reflexivity. }
        destruct (tick_settings f) as (S2 & IV). split; [eapply settings_trans; eauto|]. now rewrite (inv_held _ _ IV) in H1.
      - exfalso. apply nth_error_None in N0. assert (t < length fs')%nat by (apply nth_error_Some; congruence). lia. }
    split; [|split; [|split; [auto|split]]].
    + eapply alike_day; [| |exact DAY]; [now rewrite map_length|].
      intros t f g N1 N2. rewrite nth_map, N2 in N1. cbn in N1. injection N1 as <-. apply settings_sym. apply tick_settings.
    + split; [now rewrite !map_length|]. intros t f0 g N1 N2. destruct (BK t g N2) as (f & f1 & NF & NF1 & -> & S1 & H1).
      rewrite nth_map, NF in N1. cbn in N1. injection N1 as <-. destruct (tock_later f f1 S1) as (S2 & IV). split; auto.
      rewrite (inv_held _ _ IV), H1. destruct f; reflexivity.
    + split; [intros n c R; cbn; eapply RC'; eauto|]. intros t g N. destruct (BK t g N) as (f & f1 & NF & NF1 & -> & S1 & H1).
      destruct (RD' t f1 NF1) as (A & B). split.
      * specialize (ST t f NF). destruct f1 as [s|s|k]; cbn in *; auto. destruct A as (A1 & A2). split; auto.
        destruct f; try contradiction. cbn in *. destruct S1 as (_ & _ & _ & _ & _ & _ & <- & _). now apply Qmult_lt_0_compat.
      * destruct (tock_later f f1 S1) as (_ & IV). intros b IB. rewrite IV in IB. destruct (B b IB) as (B1 & B2 & B3). auto.
    + intros t g N. destruct (BK t g N) as (f & f1 & NF & NF1 & -> & S1 & _). specialize (ST t f NF).
      destruct f, f1; cbn in *; try contradiction; auto. destruct S1 as (_ & _ & _ & _ & _ & _ & <- & _). auto.
Qed.

(** *** Any number of steps *)
Lemma later_settings n : forall f g, same_settings f g -> same_settings (later n f) (later n g).
Proof. intros f g. destruct f, g; cbn; try contradiction; auto. intuition congruence. Qed.
Lemma later_next n f g : same_settings (later 1 f) g -> same_settings (later (S n) f) (later n g).
Proof. destruct f, g; cbn; try contradiction; auto. intuition congruence. Qed.
Lemma demand_settings f g : same_settings f g -> demand eps f = demand eps g.
Proof.
  intros S. unfold demand. assert (wanted_commods f = wanted_commods g /\ wanted_amount f = wanted_amount g) as (-> & ->); auto.
  destruct f, g; cbn in *; try contradiction; auto; intuition congruence.
Qed.
Lemma needs_next n f g : same_settings (later 1 f) g -> needs eps tol (S n) f == demand eps f + tol + needs eps tol n g.
Proof.
  intros S. unfold needs. cbn [seq map qsum]. rewrite <- seq_shift, map_map.
  assert (D : demand eps (later 0 f) = demand eps f) by (apply demand_settings; destruct f; cbn; auto; repeat split; auto).
  rewrite D. apply Qplus_comp; [reflexivity|]. apply qsum_map_ext. intros i _. rewrite (demand_settings _ _ (later_next i f g S)). reflexivity.
Qed.
Lemma demand_nonneg f : 0 <= eps -> 0 <= demand eps f.
Proof.
  intros EP. unfold demand. destruct (Qltb_spec eps (wanted_amount f)); [|lra]. apply Qmult_le_0_compat; [|lra].
  change 0 with (inject_Z 0). rewrite <- Zle_Qle. lia.
Qed.
Lemma needs_nonneg n f : 0 <= eps -> 0 <= tol -> 0 <= needs eps tol n f.
Proof.
  intros EP TP. apply qsum_nonneg. apply Forall_forall. intros x I. apply in_map_iff in I. destruct I as (i & <- & _).
  pose proof (demand_nonneg (later i f) EP). lra.
Qed.
Lemma received_app t a b : received t (a ++ b) == received t a + received t b.
Proof. unfold received, total. rewrite filter_app, map_app. apply qsum_app. Qed.

Lemma run_days n : forall w fs id, ready recipes w fs -> (forall t f, nth_error fs t = Some f -> steady f) ->
  (forall t f, nth_error fs t = Some f -> has_room (e_eps E) f (needs eps tol n f)) ->
  exists ls evs w' fs', Run n (w, fs) id = (Ok tt, (evs, ((w', fs'), (id + Z.of_nat (length (concat ls)))%Z))) /\
    length ls = n /\ (forall i l, nth_error ls i = Some l -> fair_day eps tol (map (later i) fs) l) /\
    kept (map (later n) fs) (concat ls) fs' /\ recorded mgr id (concat ls) (concat evs).
Proof.
  pose proof (tol0 fd tol FD) as T0. assert (EPS : 0 <= eps) by lra.
  induction n as [|n IH]; intros w fs id RD ST RM.
  - exists [], [], w, fs. cbn. rewrite Z.add_0_r. split; auto. split; auto. split; [intros [|i] l X; discriminate|]. split.
    + split; [now rewrite map_length|]. intros t f f' N1 N2. rewrite nth_map, N2 in N1. cbn in N1. injection N1 as <-.
      split; [destruct f'; cbn; auto; repeat split; auto|]. unfold received, total. cbn.
      assert (HL : held (later 0 f') = held f') by (destruct f'; reflexivity). rewrite HL. ring.
    + split; cbn; auto.
  - destruct (step_day w fs id RD ST) as (l & ev & w1 & fs1 & SP & DAY & (KL & KP) & (R1 & R2) & RD1 & ST1).
    { intros t f N b c IB CB. specialize (RM t f N b c IB CB). rewrite (needs_next n f (later 1 f) (settings_refl _)) in RM.
      pose proof (needs_nonneg n (later 1 f) EPS T0). lra. }
    rewrite map_length in KL.
    assert (BK : forall t g, nth_error fs1 t = Some g -> exists f, nth_error fs t = Some f /\ same_settings (later 1 f) g /\ held g == held f + received t l).
    { intros t g N. destruct (nth_error fs t) as [f|] eqn:NF.
      - exists f. split; auto. destruct (KP t (later 1 f) g) as (A & B); auto; [rewrite nth_map, NF; reflexivity|].
        split; auto. assert (HL : held (later 1 f) = held f) by (destruct f; reflexivity). now rewrite HL in B.
      - exfalso. apply nth_error_None in NF. assert (t < length fs1)%nat by (apply nth_error_Some; congruence). lia. }
    destruct (IH w1 fs1 (id + Z.of_nat (length l))%Z RD1 ST1) as (ls & evs & w' & fs' & RN & LL & DAYS & (KL2 & KP2) & (R3 & R4)).
    { intros t g N b c IB CB. destruct (BK t g N) as (f & NF & SF & HF). specialize (RM t f NF).
      assert (INV : exists b0, inventory f = Some b0 /\ b_cap b0 = b_cap b).
      { clear - SF IB. destruct f, g; cbn in *; try contradiction; try discriminate; injection IB as <-; eexists; split; eauto; intuition congruence. }
      destruct INV as (b0 & I0 & C0). rewrite CB in C0. specialize (RM b0 c I0 C0). rewrite (needs_next n f g SF) in RM.
      assert (HB : quantity b == quantity b0 + received t l) by (unfold held in HF; now rewrite IB, I0 in HF).
      pose proof (dy_received _ _ _ _ DAY t f NF). lra. }
    rewrite map_length in KL2. cbn [fac_run]. rewrite SP, RN.
    exists (l :: ls), (ev :: evs), w', fs'. cbn [concat]. rewrite !app_length, Nat2Z.inj_add, Z.add_assoc. split; auto. split; [cbn; congruence|].
    split; [|split].
    + intros [|i] l' N'; cbn in N'.
      * injection N' as <-. eapply alike_day; [| |exact DAY]; [now rewrite map_length|].
        intros t f g N1 N2. rewrite nth_map, N1 in N2. cbn in N2. injection N2 as <-. destruct f; cbn; auto. repeat split; auto.
      * eapply alike_day; [| |exact (DAYS i l' N')]; [rewrite !map_length; auto|].
        intros t f g N1 N2. rewrite nth_map in N1, N2. destruct (nth_error fs1 t) as [g1|] eqn:NG; [|discriminate].
        destruct (BK t g1 NG) as (f1 & NF & SF & _). rewrite NF in N2. cbn in N1, N2. injection N1 as <-. injection N2 as <-.
        apply settings_sym. now apply later_next.
    + split; [rewrite map_length; congruence|]. intros t f0 f' N1 N2. rewrite nth_map in N1.
      destruct (nth_error fs t) as [f|] eqn:NF; [|discriminate]. cbn [option_map] in N1. injection N1 as <-.
      destruct (nth_error fs1 t) as [g|] eqn:NG.
      2:{ exfalso. apply nth_error_None in NG. assert (t < length fs')%nat by (apply nth_error_Some; congruence). lia. }
      destruct (BK t g NG) as (f1 & NF1 & SF & HF). assert (f1 = f) by congruence. subst f1.
      destruct (KP2 t (later n g) f') as (A & B); auto; [rewrite nth_map, NG; reflexivity|].
      split; [eapply settings_trans; [eapply later_next; exact SF|exact A]|].
      assert (HG : held (later n g) = held g) by (destruct g; reflexivity).
      assert (HL : held (later (S n) f) = held f) by (destruct f; reflexivity).
      rewrite B, HG, HL, HF, received_app. ring.
    + split.
      * rewrite transactions_app, !map_app. now apply Permutation_app.
      * rewrite transactions_app, map_app, R2, R4, app_length, numbered_app. reflexivity.
Qed.
End Step.

(** The capacity of a KFacility after [n] steps. *)
Lemma times_power k n : forall c, times k n c == c * k ^ Z.of_nat n.
Proof.
  induction n as [|n IH]; intros c.
  - cbn. ring.
  - cbn [times]. rewrite IH, Nat2Z.inj_succ, <- Z.add_1_r.
    destruct (Qeq_dec k 0) as [Z|NZ].
    + rewrite Z. assert (H : 0 ^ (Z.of_nat n + 1) == 0) by (apply Qpower_0; lia). rewrite H. ring.
    + rewrite Qpower_plus by auto. assert (H : k ^ 1 == k) by (cbn; ring). rewrite H. ring.
Qed.

(** Nothing is lost: all that was delivered is in the inventories. *)
Lemma received_all n l : (forall d, In d l -> (dl_to d < n)%nat) ->
  qsum (map (fun t => received t l) (seq 0 n)) == qsum (map dl_amt l).
Proof.
  induction l as [|d l IH]; intros H.
  - cbn. induction (seq 0 n) as [|x s IHs]; cbn; [reflexivity|]. rewrite IHs. unfold received, total. cbn. ring.
  - assert (X : qsum (map (fun t => received t (d :: l)) (seq 0 n)) ==
            qsum (map (fun t => (if Nat.eqb (dl_to d) t then dl_amt d else 0) + received t l) (seq 0 n))).
    { apply qsum_map_ext. intros t _. unfold received, total. cbn. destruct (Nat.eqb (dl_to d) t); cbn; ring. }
    rewrite X, qsum_map_plus, IH by (intros; apply H; now right). cbn. apply Qplus_comp; [|reflexivity].
    assert (L : (dl_to d < n)%nat) by (apply H; now left). clear - L.
    assert (G : forall a k, qsum (map (fun t => if Nat.eqb (dl_to d) t then dl_amt d else 0) (seq a k)) ==
              if andb (Nat.leb a (dl_to d)) (Nat.ltb (dl_to d) (a + k)) then dl_amt d else 0).
    { intros a k. revert a. induction k as [|k IH]; intros a; cbn [seq map qsum].
      - destruct (Nat.leb_spec a (dl_to d)), (Nat.ltb_spec (dl_to d) (a + 0)); cbn; try reflexivity; lia.
      - rewrite IH. destruct (Nat.eqb_spec (dl_to d) a), (Nat.leb_spec (S a) (dl_to d)), (Nat.ltb_spec (dl_to d) (S a + k)),
          (Nat.leb_spec a (dl_to d)), (Nat.ltb_spec (dl_to d) (a + S k)); cbn; try lia; ring. }
    rewrite G. destruct (Nat.leb_spec 0 (dl_to d)), (Nat.ltb_spec (dl_to d) (0 + n)); cbn; try lia; reflexivity.
Qed.
Lemma nothing_lost fs l fs' : kept fs l fs' -> (forall d, In d l -> (dl_to d < length fs)%nat) ->
  qsum (map held fs') == qsum (map held fs) + qsum (map dl_amt l).
Proof.
  intros (LN & KP) H. rewrite <- (received_all (length fs) l H).
  assert (G : forall a b k, length b = length a ->
     (forall t f f', nth_error a t = Some f -> nth_error b t = Some f' -> held f' == held f + received (k + t) l) ->
     qsum (map held b) == qsum (map held a) + qsum (map (fun t => received t l) (seq k (length a)))).
  { clear. induction a as [|f a IH]; intros [|f' b] k LN KP; cbn in *; try discriminate; [reflexivity|].
    rewrite (IH b (S k)); [|congruence|].
    - pose proof (KP 0%nat f f' eq_refl eq_refl) as H0. rewrite Nat.add_0_r in H0. rewrite H0. ring.
    - intros t g g' N1 N2. specialize (KP (S t) g g' N1 N2). now rewrite Nat.add_succ_r in KP. }
  apply G; auto. intros t f f' N1 N2. apply (KP t f f' N1 N2).
Qed.

Lemma all_there eps tol fs ls fs' n : (forall i l, nth_error ls i = Some l -> fair_day eps tol (map (later i) fs) l) ->
  kept (map (later n) fs) (concat ls) fs' -> qsum (map held fs') == qsum (map held fs) + qsum (map dl_amt (concat ls)).
Proof.
  intros D K. rewrite (nothing_lost _ _ _ K).
  - apply Qplus_comp; [|reflexivity]. rewrite map_map. apply qsum_map_ext. intros f _. destruct f; reflexivity.
  - intros d I. apply in_concat in I. destruct I as (l & I1 & I2). apply In_nth_error in I1. destruct I1 as (i & N).
    destruct (dy_real _ _ _ _ (D i l N) d I2) as (_ & g & _ & _ & NG & _).
    assert (L : (dl_to d < length (map (later i) fs))%nat) by (apply nth_error_Some; congruence). rewrite map_length in *. auto.
Qed.
