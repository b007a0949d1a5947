(** One exchange among the facilities, from beginning to end. *)
From Coq Require Import String QArith List Bool Arith ZArith Lia Lqa Sorted Permutation.
From Verif Require Import Base CompModel PackageModel ResourceModel BufModel GreedyModel GreedySpec ExchangeModel ExchangeSpec
  TradeModel TradeSpec TradeProofs DreModel DreSpec ExchangeProofs1 ExchangeProofs7 DreProofs4 DreProofs5
  FacModel FacSpec FacProofs1 FacProofs2 FacProofs3 FacProofs4 FacProofs5.
Import ListNotations.
Open Scope Q_scope.

Section Exec.
Variable E : env.
Variable eps : Q.
Variable recipes : string -> option nat.
Variable m : market.
Variable mgr : nat -> Z.
Variable fs : list fac.
Variable w1 : world.
Variable ts : list trade.
Notation bidder := (bidder_of m).
Notation requester := (requester_of m).
Notation ask := (fac_trades E eps recipes mgr m).
Notation accept := (fac_accept E m).

Hypothesis RC : forall n c, recipes n = Some c -> (c < length (w_comps w1))%nat.
Hypothesis SU : forall t f, nth_error fs t = Some f -> set_up recipes f.
Hypothesis FR : forall t f, nth_error fs t = Some f -> fresh f.
Hypothesis IO : forall t f, nth_error fs t = Some f -> in_order w1 f.
Hypothesis REAL : forall tr, In tr ts -> exists f g,
  nth_error fs (bidder tr) = Some f /\ offered_commod f = Some (commod_of m tr) /\
  nth_error fs (requester tr) = Some g /\ In (commod_of m tr) (wanted_commods g) /\
  eps < wanted_amount g /\ eps < td_amt tr /\ target_ok w1 (rq_target (req_at m (td_req tr))).
Hypothesis SUP : forall t f, nth_error fs t = Some f -> 0 <= offered_amount f ->
  traded (fun tr => Nat.eqb (bidder tr) t) ts <= offered_amount f + eps.
Hypothesis ROOM : forall t f, nth_error fs t = Some f ->
  has_room (e_eps E) f (traded (fun tr => Nat.eqb (requester tr) t) ts).
Hypothesis EPS : 0 <= eps.
Hypothesis EE : e_eps E <= eps.

(** *** Asking *)
Record askst (todo : list nat) (s : state) : Prop := mkAs {
  as_keeps : keeps w1 (fst s);
  as_len : length (snd s) = length fs;
  as_todo : forall t, In t todo -> nth_error (snd s) t = nth_error fs t;
  as_like : forall t f, nth_error fs t = Some f -> exists f1, nth_error (snd s) t = Some f1 /\ alike f f1 }.

Lemma ask_one p rest s : askst (p :: rest) s -> ~ In p rest -> (exists tr, In tr ts /\ bidder tr = p) ->
  exists rs s1, ask p (of_bidder bidder p ts) s = (Ok rs, s1) /\ askst rest s1 /\
    handed (fst s) (of_bidder bidder p ts) (fun _ _ => True) rs (fst s1).
Proof.
  intros [K LN TD LK] NI (tr0 & I0 & B0). destruct s as [w fs1]. cbn [fst snd] in *.
  destruct (REAL tr0 I0) as (f & g & NF & OC & _). rewrite B0 in NF.
  pose proof (TD p (or_introl eq_refl)) as N1. rewrite NF in N1.
  destruct (trades_forward E eps recipes m mgr w fs1 p f (of_bidder bidder p ts)) as
    (r & w2 & fs2 & TF & L2 & OT & (f1 & NF1 & AL) & K2 & OK & _); eauto.
  { congruence. }
  { intros n c R. apply RC in R. pose proof (kp_comps _ _ K). lia. }
  { intros tr I. apply filter_In in I. destruct (REAL tr (proj1 I)) as (? & ? & _ & _ & _ & _ & _ & _ & T). eapply target_keeps; eauto. }
  destruct OK as (rs & -> & HD).
  { apply SUP; auto. pose proof (SU _ _ NF) as S0. destruct f; cbn in S0, OC |- *; try discriminate; lra. }
  exists rs, (w2, fs2). split; auto. split.
  - split; cbn [fst snd].
    + eapply keeps_trans; eauto.
    + congruence.
    + intros t I. rewrite OT; [apply TD; now right|]. intros ->. contradiction.
    + intros t f0 N0. destruct (Nat.eq_dec t p) as [->|D].
      * exists f1. split; auto. congruence.
      * rewrite OT by auto. apply LK; auto.
  - destruct HD as [H1 H2 H3 H4]. split; auto. intros r I. destruct (H4 r I) as (A & x & c & B1 & B2 & B3 & _). eauto 8.
Qed.

Lemma asked_inv l s rss s' : asked bidder ask ts l s rss s' -> forall rest, NoDup (l ++ rest) ->
  (forall p, In p l -> exists tr, In tr ts /\ bidder tr = p) -> askst (l ++ rest) s ->
  askst rest s' /\ Forall2 (fun p rs => map fst rs = of_bidder bidder p ts) l rss /\
  handed (fst s) (flat_map (fun p => of_bidder bidder p ts) l) (fun _ _ => True) (concat rss) (fst s').
Proof.
  induction 1 as [s|p ps s rs s1 rss s2 A1 A2 IH]; intros rest ND BD AS.
  - cbn. split; auto. split; [constructor|apply handed_nil].
  - cbn [app] in *. inversion ND as [|? ? NI ND']; subst.
    destruct (ask_one p (ps ++ rest) s AS NI) as (rs' & s1' & A' & AS' & HD); [apply BD; now left|].
    rewrite A1 in A'. injection A' as <- <-.
    destruct (IH rest ND') as (B1 & B2 & B3); auto; [intros; apply BD; now right|].
    split; auto. split; [constructor; auto; apply HD|]. cbn. eapply handed_app; eauto.
Qed.

(** *** Storing *)
Section Send.
Variable w2 : world.
Variable rs : list (trade * nat).
Hypothesis K12 : keeps w1 w2.
Hypothesis HD : handed w1 (map fst rs) (fun _ _ => True) rs w2.
Hypothesis PERM : Permutation (map fst rs) ts.

Definition amount (q : nat) : Q := qsum (map (fun r => td_amt (fst r)) (of_requester requester q rs)).
Lemma amount_traded q : amount q == traded (fun tr => Nat.eqb (requester tr) q) ts.
Proof.
  unfold amount, traded, of_requester.
  assert (X : map (fun r => td_amt (fst r)) (filter (fun r => Nat.eqb (requester (fst r)) q) rs) =
              map td_amt (filter (fun tr => Nat.eqb (requester tr) q) (map fst rs))).
  { clear. induction rs as [|r l IH]; cbn; auto. destruct (Nat.eqb (requester (fst r)) q); cbn; congruence. }
  rewrite X. apply Base.qsum_perm. apply Permutation_map. now apply Permutation_filter.
Qed.

Record sendst (todo : list nat) (s : state) : Prop := mkSe {
  se_keeps : keeps w2 (fst s);
  se_len : length (snd s) = length fs;
  se_fac : forall t f, nth_error fs t = Some f -> exists f1, nth_error (snd s) t = Some f1 /\ same_settings f f1 /\
    in_order (fst s) f1 /\ (In t todo -> inventory f1 = inventory f) /\
    (~ In t todo -> held f1 == held f + amount t) }.

Lemma in_order_keeps w w' f : in_order w f -> keeps w w' -> in_order w' f.
Proof.
  intros H K b I. destruct (H b I) as (A & B & C). split; auto. split; auto. intros i J. apply C in J.
  pose proof (kp_len _ _ K). lia.
Qed.
Lemma settings_trans f g h : same_settings f g -> same_settings g h -> same_settings f h.
Proof. destruct f, g, h; cbn; try contradiction; intuition congruence. Qed.

Lemma accept_one q rest s : sendst (q :: rest) s -> ~ In q rest -> (exists tr, In tr ts /\ requester tr = q) ->
  exists s1, accept q (of_requester requester q rs) s = (Ok tt, s1) /\ sendst rest s1.
Proof.
  intros [K LN FA] NI (tr0 & I0 & B0). destruct s as [w fs1]. cbn [fst snd] in *.
  destruct (REAL tr0 I0) as (f0 & g & _ & _ & NG & IC & _). rewrite B0 in NG.
  destruct (FA q g NG) as (f1 & N1 & ST & OR & INV & _). specialize (INV (or_introl eq_refl)).
  assert (PUSH : forall b, inventory f1 = Some b -> exists w3 b3, push_all E (of_requester requester q rs) (w, b) = (Ok tt, (w3, b3)) /\
      keeps w w3 /\ tidy w3 b3 /\ b_cap b3 = b_cap b /\ quantity b3 == quantity b + amount q).
  { intros b IB. destruct (push_all_forward E (of_requester requester q rs) w b (length (w_res w1))) as
      (r & w3 & b3 & PA & K3 & _ & TD & CP & OK & _).
    - destruct (OR b IB) as (O1 & O2 & O3). split; auto.
    - intros i I. left. rewrite INV in IB. destruct (IO q g NG b IB) as (_ & _ & O3). auto.
    - pose proof (hd_nodup _ _ _ _ _ HD) as ND. clear - ND. unfold of_requester. induction rs as [|r l IH]; cbn in *; auto.
      inversion ND as [|? ? NI ND']; subst. destruct (Nat.eqb (requester (fst r)) q); cbn; auto. constructor; auto.
      intros I. apply NI. apply in_map_iff in I. destruct I as (y & <- & I). apply filter_In in I. now apply in_map.
    - intros r I. apply filter_In in I. destruct I as (I & _). destruct (hd_new _ _ _ _ _ HD r I) as (LE & x & c & N & Q & U & _).
      split; auto. split.
      + assert (IT : In (fst r) ts) by (eapply Permutation_in; [exact PERM|]; now apply in_map).
        destruct (REAL _ IT) as (? & ? & _ & _ & _ & _ & _ & BG & _). lra.
      + destruct (kp_res _ _ K _ _ N) as (x' & N' & Q' & U' & _). exists x', c. repeat split; auto; congruence.
    - destruct OK as (-> & Q3 & _).
      { intros c CB. fold (amount q). rewrite amount_traded. rewrite INV in IB. apply (ROOM q g NG b c IB CB). }
      exists w3, b3. split; [auto|]. split; [auto|]. split; [auto|]. split; auto. }
  assert (LQ : (q < length fs1)%nat) by (apply nth_error_Some; congruence).
  assert (FIN : forall w3 f3, keeps w w3 -> same_settings f1 f3 -> in_order w3 f3 -> held f3 == held f1 + amount q ->
            sendst rest (w3, upd fs1 q f3)).
  { intros w3 f3 K3 S3 O3 H3. split; cbn [fst snd].
    - eapply keeps_trans; eauto.
    - now rewrite upd_length.
    - intros t f NF. destruct (Nat.eq_dec t q) as [->|D].
      + rewrite nth_upd_same by auto. exists f3. assert (f = g) by congruence. subst f. split; auto.
        split; [eapply settings_trans; eauto|]. split; auto. split; [contradiction|]. intros _. rewrite H3.
        unfold held. rewrite INV. reflexivity.
      + rewrite nth_upd_other by auto. destruct (FA t f NF) as (f4 & N4 & S4 & O4 & I4 & J4). exists f4. split; auto. split; auto.
        split; [eapply in_order_keeps; eauto|]. split; [intros; apply I4; now right|]. intros NI'. apply J4. intros [X|X]; congruence. }
  unfold fac_accept. rewrite N1. destruct f1 as [s|s|k].
  - exfalso. destruct g; cbn in ST, IC; try contradiction.
  - destruct (PUSH (sk_inv s) eq_refl) as (w3 & b3 & PA & K3 & [T1 T2 T3] & CP & QQ). rewrite PA.
    exists (w3, upd fs1 q (FSink (set_sk_inv b3 s))). split; auto. apply FIN; auto.
    + cbn. auto.
    + intros b IB. cbn in IB. injection IB as <-. auto.
  - destruct (PUSH (k_inv k) eq_refl) as (w3 & b3 & PA & K3 & [T1 T2 T3] & CP & QQ). rewrite PA.
    exists (w3, upd fs1 q (FK (set_k_inv b3 k))). split; auto. apply FIN; auto.
    + cbn. repeat split; auto.
    + intros b IB. cbn in IB. injection IB as <-. auto.
Qed.
Lemma delivered_inv l s s' : delivered requester accept rs l s s' -> forall rest, NoDup (l ++ rest) ->
  (forall q, In q l -> exists tr, In tr ts /\ requester tr = q) -> sendst (l ++ rest) s -> sendst rest s'.
Proof.
  induction 1 as [s|q qs s s1 s2 A1 A2 IH]; intros rest ND BD SS; auto.
  cbn [app] in *. inversion ND as [|? ? NI ND']; subst.
  destruct (accept_one q (qs ++ rest) s SS NI) as (s1' & A' & SS'); [apply BD; now left|].
  rewrite A1 in A'. injection A' as <-. apply IH; auto. intros; apply BD; now right.
Qed.
End Send.

(** *** The execution *)
Variable time : Z.
Variable id : Z.

Lemma forall2_answers l rss : Forall2 (fun p rs => map fst rs = of_bidder bidder p ts) l rss ->
  map (fun x => (fst x, fst (snd x))) (answers l rss) = flat_map (fun p => map (pair p) (of_bidder bidder p ts)) l.
Proof.
  induction 1 as [|p rs l rss H F IH]; cbn; auto. unfold answers in *. cbn. rewrite map_app, IH. f_equal.
  rewrite map_map. cbn. rewrite <- H, map_map. reflexivity.
Qed.
Lemma answers_in l rss (x : nat * (trade * nat)) : In x (answers l rss) -> In (snd x) (concat rss).
Proof.
  revert rss. induction l as [|p l IH]; intros [|rs rss] I; unfold answers in I; cbn in I; try contradiction.
  apply in_app_or in I. cbn. apply in_or_app. destruct I as [I|I]; [left|right; now apply IH].
  apply in_map_iff in I. destruct I as (r & <- & J). exact J.
Qed.

Lemma executed : exists rows (sa : state) (sb : list (trade * nat)) reqs sups s2,
  execute trade bidder requester (commod_of m) state ask accept qty_of sid_of mgr time (e_eps E) ts (w1, fs) id =
    (Ok tt, (sups ++ map (ERecord trade) rows ++ reqs, (s2, (id + Z.of_nat (length ts))%Z))) /\
  (forall e, In e sups -> exists p l, e = EAsk trade p l) /\ (forall e, In e reqs -> exists p l, e = EAccept trade p l) /\
  Permutation (map (fun r => (tx_sender r, tx_receiver r, tx_commod r)) rows)
    (map (fun tr => (mgr (bidder tr), mgr (requester tr), commod_of m tr)) ts) /\
  map tx_id rows = numbered id (length ts) /\
  keeps w1 (fst sa) /\ sendst (fst sa) sb [] s2 /\ Permutation (map fst sb) ts.
Proof.
  destruct (execute trade bidder requester (commod_of m) state ask accept qty_of sid_of mgr time (e_eps E) ts (w1, fs) id) as [r out] eqn:EX.
  pose proof EX as EX0. eapply execute_front in EX0. destruct EX0 as (sups & reqs & LS & LR & CASES).
  assert (NS : NoDup sups) by (eapply once_nodup; eauto).
  assert (NR : NoDup reqs) by (eapply once_nodup; eauto).
  assert (AS0 : askst sups (w1, fs)).
  { split; cbn; auto; [apply keeps_refl|]. intros t f N. exists f. split; auto. apply alike_refl. }
  assert (BD : forall p, In p sups -> exists tr, In tr ts /\ bidder tr = p) by (intros p I; now apply LS).
  assert (BR : forall p, In p reqs -> exists tr, In tr ts /\ requester tr = p) by (intros p I; now apply LR).
  destruct CASES as [(bf & p & af & rss & sa & SP & A & BAD & _)|(rss & s1 & rows & ev2 & s2 & c1 & A & PR & ID & BY & SD & OUT)].
  - exfalso. destruct (asked_inv bf (w1, fs) rss sa A (p :: af)) as (AS & _).
    { congruence. } { intros q I. apply BD. rewrite SP. apply in_or_app; auto. } { congruence. }
    destruct (ask_one p af sa AS) as (rs & s1 & A1 & _).
    { rewrite SP in NS. apply NoDup_remove_2 in NS. intros I. apply NS. apply in_or_app; auto. }
    { apply BD. rewrite SP. apply in_or_app. right. now left. }
    rewrite A1 in BAD. cbn in BAD. now apply (BAD rs).
  - destruct (asked_inv sups (w1, fs) rss s1 A []) as (AS & F2 & HD); try (rewrite app_nil_r); auto.
    cbn [fst] in HD.
    assert (PT : Permutation (flat_map (fun p => of_bidder bidder p ts) sups) ts).
    { apply partition_perm; auto. intros t I. apply (proj2 LS). eauto. }
    pose proof (hd_trades _ _ _ _ _ HD) as MF.
    assert (PM : Permutation (map fst (concat rss)) ts) by (rewrite MF; exact PT).
    assert (HD' : handed w1 (map fst (concat rss)) (fun _ _ => True) (concat rss) (fst s1)) by (rewrite MF; exact HD).
    assert (K12 : keeps w1 (fst s1)) by apply AS.
    assert (SS0 : sendst (fst s1) (concat rss) (reqs ++ []) s1).
    { rewrite app_nil_r. split; [apply keeps_refl|apply AS|]. intros t f N. destruct (as_like _ _ AS t f N) as (f1 & N1 & ST & IV).
      exists f1. split; auto. split; auto. split; [|split; auto].
      - intros b IB. rewrite <- IV in IB. eapply in_order_keeps; eauto.
      - intros NI. unfold held. rewrite IV. assert (Z : amount (concat rss) t == 0); [|rewrite Z; ring].
        rewrite (amount_traded (concat rss) PM). unfold traded. rewrite filter_none; [reflexivity|].
        intros tr I. apply Nat.eqb_neq. intros X. apply NI. apply (proj2 LR). eauto. }
    assert (BIG : forall x, In x (concat rss) -> e_eps E < qty_of s1 (snd x)).
    { intros x I. unfold qty_of. destruct (hd_new _ _ _ _ _ HD x I) as (_ & y & c & N & Q & _). rewrite N, Q.
      assert (IT : In (fst x) ts) by (eapply Permutation_in; [exact PM|]; now apply in_map).
      destruct (REAL _ IT) as (? & ? & _ & _ & _ & _ & _ & BG & _). lra. }
    assert (PRR : Permutation (map (fun r => (tx_sender r, tx_receiver r, tx_commod r)) rows)
                (map (fun t => (mgr (bidder t), mgr (requester t), commod_of m t)) ts)).
    { rewrite (TradeProofs.filter_all (sizable qty_of (e_eps E) s1)) in PR.
      2:{ intros x Hx. apply answers_in in Hx. apply BIG in Hx. unfold sizable.
          destruct (Qltb_spec (e_eps E) (qty_of s1 (snd (snd x)))); auto; contradiction. }
      apply (Permutation_map (fun d => match d with (a, b, _, c, _) => (a, b, c) end)) in PR.
      rewrite !map_map in PR. eapply perm_trans; [exact PR|]. clear PR.
      assert (MM := map_map (fun x : nat * (trade * nat) => (fst x, fst (snd x)))
        (fun y => (mgr (fst y), mgr (requester (snd y)), commod_of m (snd y))) (answers sups rss)).
      unfold row_for. cbn [fst snd] in *. rewrite <- MM. clear MM. rewrite (forall2_answers _ _ F2).
      eapply perm_trans; [|apply Permutation_map; exact PT].
      clear. induction sups as [|p l IH]; cbn; [constructor|]. rewrite !map_app. apply Permutation_app; [|exact IH].
      rewrite map_map. cbn. unfold of_bidder.
      erewrite map_ext_in; [apply Permutation_refl|]. intros t Ht. apply filter_In in Ht. destruct Ht as [_ Ht].
      apply Nat.eqb_eq in Ht. rewrite Ht. reflexivity. }
    assert (LL : length rows = length ts) by (apply Permutation_length in PRR; rewrite !map_length in PRR; exact PRR).
    rewrite LL in *.
    assert (OKR : r = Ok tt).
    { destruct r as [[]|e|]; auto; exfalso;
      (eapply send_fail in SD; [|exact BY|discriminate]; destruct SD as (bf & q & af & sa & SP & DL & BAD & _));
      pose proof (delivered_inv (fst s1) (concat rss) HD' PM bf s1 sa DL (q :: af)) as SS;
      rewrite SP in *; rewrite app_nil_r in SS0;
      (assert (SSq : sendst (fst s1) (concat rss) (q :: af) sa) by (apply SS; auto; intros; apply BR; apply in_or_app; auto));
      (destruct (accept_one (fst s1) (concat rss) HD' PM q af sa SSq) as (s3 & A3 & _);
        [apply NoDup_remove_2 in NR; intros I; apply NR; apply in_or_app; auto
        |apply BR; apply in_or_app; right; now left|]); rewrite A3 in BAD; now apply BAD. }
    subst r out. eapply send_ok in SD; [|exact BY]. destruct SD as (DL & ->).
    exists rows, s1, (concat rss), (map (fun q => EAccept trade q (of_requester requester q (concat rss))) reqs),
      (map (fun p => EAsk trade p (of_bidder bidder p ts)) sups), s2.
    split; [reflexivity|]. split; [intros e I; apply in_map_iff in I; destruct I as (p & <- & _); eauto|].
    split; [intros e I; apply in_map_iff in I; destruct I as (p & <- & _); eauto|].
    split; auto. split; auto. split; auto.
    assert (SF : sendst (fst s1) (concat rss) [] s2) by (apply (delivered_inv (fst s1) (concat rss) HD' PM reqs s1 s2 DL []); auto; rewrite app_nil_r; auto).
    split; auto.
Qed.
End Exec.
