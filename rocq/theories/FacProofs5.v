(** Suppliers hand over what was agreed; consumers store it. *)
From Coq Require Import String QArith List Bool Arith ZArith Lia Lqa Sorted Permutation.
From Verif Require Import Base CompModel PackageModel ResourceModel BufModel GreedyModel GreedySpec ExchangeModel ExchangeSpec
  TradeModel TradeSpec TradeProofs DreModel DreSpec FacModel FacSpec FacProofs1 FacProofs2.
Import ListNotations.
Open Scope Q_scope.

(** The resources handed over: new ones, one for each trade, of the agreed quantity. *)
Record handed (w : world) (ts : list trade) (comp_of : trade -> nat -> Prop) (rs : list (trade * nat)) (w1 : world) : Prop := mkHd {
  hd_keeps : keeps w w1;
  hd_trades : map fst rs = ts;
  hd_nodup : NoDup (map snd rs);
  hd_new : forall r, In r rs -> (length (w_res w) <= snd r)%nat /\ exists x c,
    nth_error (w_res w1) (snd r) = Some x /\ r_qty x = td_amt (fst r) /\ r_qual x = QMat c /\ comp_of (fst r) c }.

Lemma handed_nil w P : handed w [] P [] w.
Proof. split; auto; [apply keeps_refl|constructor|]. intros r []. Qed.
Lemma handed_keeps w ts P rs w1 w2 : handed w ts P rs w1 -> keeps w1 w2 -> handed w ts P rs w2.
Proof.
  intros [K T N H] K2. split; auto; [eapply keeps_trans; eauto|].
  intros r I. destruct (H r I) as (L & x & c & N1 & Q & U & C). split; auto.
  destruct (kp_res _ _ K2 _ _ N1) as (x' & N2 & Q2 & U2 & _). exists x', c. repeat split; auto; congruence.
Qed.
Lemma handed_app w ts ts' (P : trade -> nat -> Prop) rs rs' w1 w2 : handed w ts P rs w1 -> handed w1 ts' P rs' w2 ->
  handed w (ts ++ ts') P (rs ++ rs') w2.
Proof.
  intros H1 H2. pose proof (handed_keeps _ _ _ _ _ _ H1 (hd_keeps _ _ _ _ _ H2)) as [A1 A2 A3 A4].
  destruct H1 as [K1 T1 N1 H1]. destruct H2 as [K2 T2 N2 H2]. split; auto.
  - rewrite map_app. congruence.
  - rewrite map_app. clear - N1 N2 H1 H2. induction rs as [|r rs IH]; cbn in *; auto.
    inversion N1 as [|? ? NI N1']; subst. constructor; auto. rewrite in_app_iff. intros [I|I]; auto.
    apply in_map_iff in I. destruct I as (r' & EQ & I). apply H2 in I. destruct I as (L & _).
    destruct (H1 r (or_introl eq_refl)) as (_ & x & c & N & _).
    assert (snd r < length (w_res w1))%nat by (apply nth_error_Some; congruence). lia.
  - intros r I. apply in_app_or in I. destruct I as [I|I]; auto.
    destruct (H2 r I) as (L & x & c & Hx). split; [pose proof (kp_len _ _ K1); lia|eauto].
Qed.

Section Deliver.
Variable E : env.
Variable eps : Q.
Variable recipes : string -> option nat.
Variable m : market.
Variable mgr : nat -> Z.

(** What a supplier makes the material of: its recipe, or what was asked for. *)
Definition makes (recipe : option string) (w : world) (tr : trade) (c : nat) : Prop :=
  match recipe with
  | Some n => recipes n = Some c
  | None => exists x, nth_error (w_res w) (rs_id (rq_target (req_at m (td_req tr)))) = Some x /\ r_qual x = QMat c
  end.

Lemma supply_forward agent recipe ts : forall cur w,
  (forall n, recipe = Some n -> exists c, recipes n = Some c /\ (c < length (w_comps w))%nat) ->
  (forall tr, In tr ts -> target_ok w (rq_target (req_at m (td_req tr)))) ->
  exists rs cur1 w1, supply E recipes agent m recipe ts cur w = (Ok rs, (cur1, w1)) /\
    handed w ts (makes recipe w1) rs w1 /\ cur1 == cur - qsum (map td_amt ts).
Proof.
  induction ts as [|tr ts IH]; intros cur w RC TK.
  - exists [], cur, w. split; auto. split; [apply handed_nil|]. cbn. ring.
  - cbn [supply].
    assert (MO : exists c, made_of E recipes m recipe tr w = (Ok c, w) /\ (c < length (w_comps w))%nat /\ makes recipe w tr c).
    { unfold made_of, makes. destruct recipe as [n|].
      - destruct (RC n eq_refl) as (c & R & L). exists c. unfold get_recipe. rewrite R. auto.
      - destruct (TK tr (or_introl eq_refl)) as (x & c & N & Q & L & X). exists c. rewrite (comp_of_target E _ _ _ _ N Q X). eauto. }
    destruct MO as (c & MO & LC & MK).
    destruct (tracked_made E agent (td_amt tr) c unpackaged_name w LC) as (w1 & TM & MD & LE).
    unfold bind. rewrite MO, TM. cbv beta iota.
    destruct MD as [K ID LN CO (x & X1 & X2 & X3 & X4)].
    destruct (IH (cur - td_amt tr) w1) as (rs & cur1 & w2 & SP & HD & CU).
    { intros n R. destruct (RC n R) as (c' & R' & L). exists c'. split; auto. lia. }
    { intros tr' I. eapply target_keeps; eauto. apply TK. now right. }
    rewrite SP. exists ((tr, length (w_res w)) :: rs), cur1, w2. split; auto. split.
    + apply (handed_app w [tr] ts _ [(tr, length (w_res w))] rs w1 w2); auto.
      split; auto; [repeat constructor; auto|].
      intros r [<-|[]]. cbn. split; [lia|]. exists x, c. repeat split; auto.
      unfold makes in *. destruct recipe as [n|]; auto. destruct MK as (y & N & Q).
      destruct (kp_res _ _ (keeps_trans _ _ _ K (hd_keeps _ _ _ _ _ HD)) _ _ N) as (y' & N' & _ & Q' & _). exists y'. split; auto; congruence.
    + rewrite CU. cbn. ring.
Qed.

Definition fresh (f : fac) : Prop := match f with FK k => k_cur k = k_out_cap k | _ => True end.
(** Two facilities differ at most in what is left to give today. *)
Definition alike (f g : fac) : Prop := same_settings f g /\ inventory f = inventory g.
Lemma alike_refl f : alike f f.
Proof. destruct f; split; cbn; auto. repeat split; auto. Qed.
Lemma alike_trans f g h : alike f g -> alike g h -> alike f h.
Proof.
  intros (A & B) (C & D). split; [|congruence].
  destruct f, g, h; cbn in *; try contradiction; intuition congruence.
Qed.

(** What a supplier makes material of. *)
Definition product (f : fac) (w : world) (tr : trade) (c : nat) : Prop :=
  match f with
  | FSource s => makes (recipe_of s) w tr c
  | FK k => recipes (k_recipe k) = Some c
  | FSink _ => False
  end.

Lemma trades_forward w fs t f ts :
  nth_error fs t = Some f -> set_up recipes f -> fresh f -> offered_commod f <> None ->
  (forall n c, recipes n = Some c -> (c < length (w_comps w))%nat) ->
  (forall tr, In tr ts -> target_ok w (rq_target (req_at m (td_req tr)))) ->
  exists r w1 fs1, fac_trades E eps recipes mgr m t ts (w, fs) = (r, (w1, fs1)) /\
    length fs1 = length fs /\ (forall t', t' <> t -> nth_error fs1 t' = nth_error fs t') /\
    (exists f1, nth_error fs1 t = Some f1 /\ alike f f1) /\ keeps w w1 /\
    (qsum (map td_amt ts) <= offered_amount f + eps -> exists rs, r = Ok rs /\ handed w ts (product f w1) rs w1) /\
    (offered_amount f + eps < qsum (map td_amt ts) -> r = Throw ValueError).
Proof.
  intros N SU FR OC RC TK. unfold fac_trades. rewrite N.
  assert (CK : forall (P : trade -> nat -> Prop) cap cur1 rs w1, handed w ts P rs w1 -> cur1 == cap - qsum (map td_amt ts) ->
    (qsum (map td_amt ts) <= cap + eps -> exists rs', check eps (Ok rs) cur1 = Ok rs' /\ handed w ts P rs' w1) /\
    (cap + eps < qsum (map td_amt ts) -> check eps (Ok rs) cur1 = Throw ValueError)).
  { intros P cap cur1 rs w1 H C. unfold check, is_negative. split; intros L.
    - exists rs. destruct (Qltb_spec cur1 (- eps)); auto. lra.
    - destruct (Qltb_spec cur1 (- eps)); auto. lra. }
  destruct f as [s|s|k].
  - destruct SU as (CP & RE).
    destruct (supply_forward (mgr t) (recipe_of s) ts (so_cap s) w) as (rs & cur1 & w1 & SP & HD & CU); auto.
    { intros n. unfold recipe_of, is_empty. destruct RE as [->|(c & R)]; [discriminate|].
      destruct (String.eqb (so_recipe s) ""); [discriminate|]. intros H. injection H as <-. eauto. }
    rewrite SP. destruct (CK _ (so_cap s) cur1 rs w1 HD CU) as (C1 & C2).
    exists (check eps (Ok rs) cur1), w1, fs. repeat split; auto.
    + exists (FSource s). split; auto. apply alike_refl.
    + apply HD.
    + apply HD.
    + apply HD.
    + apply HD.
  - cbn in OC. congruence.
  - destruct SU as (CP & c & R). cbn in FR.
    destruct (supply_forward (mgr t) (Some (k_recipe k)) ts (k_cur k) w) as (rs & cur1 & w1 & SP & HD & CU); auto.
    { intros n H. injection H as <-. eauto. }
    rewrite SP. rewrite FR in CU. destruct (CK _ (k_out_cap k) cur1 rs w1 HD CU) as (C1 & C2).
    assert (LT : (t < length fs)%nat) by (apply nth_error_Some; congruence).
    exists (check eps (Ok rs) cur1), w1, (upd fs t (FK (set_k_cur cur1 k))).
    split; auto. split; [apply upd_length|]. split; [intros; apply nth_upd_other; congruence|].
    split; [|split; [apply HD|split; auto]].
    rewrite nth_upd_same by auto. eexists. split; [reflexivity|]. repeat split; auto.
Qed.

(** *** Storing *)
Lemma push_all_forward rs : forall w b w0,
  tidy w b -> (forall i, In i (b_present b) -> (i < w0)%nat \/ ~ In i (map snd rs)) -> NoDup (map snd rs) ->
  (forall r, In r rs -> (w0 <= snd r)%nat /\ 0 <= td_amt (fst r) /\ exists x c,
     nth_error (w_res w) (snd r) = Some x /\ r_qty x = td_amt (fst r) /\ r_qual x = QMat c) ->
  let total := qsum (map (fun r => td_amt (fst r)) rs) in
  exists r w1 b1, push_all E rs (w, b) = (r, (w1, b1)) /\ keeps w w1 /\
    length (w_comps w1) = length (w_comps w) /\ tidy w1 b1 /\ b_cap b1 = b_cap b /\
    ((forall c, b_cap b = Some c -> quantity b + total <= c + e_eps E) ->
       r = Ok tt /\ quantity b1 == quantity b + total /\ b_rs b1 = b_rs b ++ map snd rs) /\
    ((forall r, In r rs -> e_eps E < td_amt (fst r)) ->
     forall c, b_cap b = Some c -> quantity b <= c + e_eps E -> c + e_eps E < quantity b + total -> r = Throw ValueError).
Proof.
  induction rs as [|[tr i] rs IH]; intros w b w0 TD PR ND NW total; subst total.
  - exists (Ok tt), w, b. cbn [push_all map qsum]. split; [reflexivity|]. split; [apply keeps_refl|]. split; [auto|]. split; [auto|].
    split; [auto|]. split.
    + intros _. split; auto. split; [lra|]. now rewrite app_nil_r.
    + intros _ c _ L G. exfalso. lra.
  - cbn [push_all map qsum fst snd] in *. inversion ND as [|? ? NI ND']; subst.
    destruct (NW (tr, i) (or_introl eq_refl)) as (LE & NN & x & c & N & Q & U). cbn [fst snd] in *.
    assert (NP : ~ In i (b_present b)).
    { intros I. destruct (PR i I) as [L|L]; [lia|]. apply L. now left. }
    pose proof (push_one E w b i x c N U TD NP) as PO. unfold bbind.
    assert (NR : 0 <= qsum (map (fun r => td_amt (fst r)) rs)).
    { apply qsum_nonneg. apply Forall_forall. intros y I. apply in_map_iff in I. destruct I as (r & <- & I).
      apply (NW r (or_intror I)). }
    destruct (too_big (e_eps E) (r_qty x) b) eqn:TB.
    + rewrite PO. exists (Throw ValueError), w, b. split; auto. split; [apply keeps_refl|]. split; auto. split; auto. split; auto.
      split; [|auto]. intros RM. exfalso. unfold too_big, space in TB. unfold quantity in *. destruct (b_cap b) as [cp|]; [|discriminate].
      specialize (RM cp eq_refl). destruct (Qltb_spec (e_eps E) (r_qty x - qmax 0 (cp - b_qty b))); [|discriminate].
      rewrite Q in *. unfold qmax in *. destruct (Qltb_spec 0 (cp - b_qty b)); lra.
    + destruct PO as (w1 & b1 & PO & K & L1 & L2 & T1 & Q1 & C1 & R1 & P1). rewrite PO.
      destruct (IH w1 b1 w0) as (r & w2 & b2 & PA & K2 & LC & T2 & C2 & OK & BAD); auto.
      { intros j I. destruct (P1 j I) as [->|I']; [now right|]. destruct (PR j I') as [L|L]; auto. right. intros X. apply L. now right. }
      { intros r' I. destruct (NW r' (or_intror I)) as (LE' & NN' & x' & c' & N' & Q' & U'). split; auto. split; auto.
        destruct (kp_res _ _ K _ _ N') as (x'' & N'' & Q'' & U'' & _). exists x'', c'. repeat split; auto; congruence. }
      rewrite PA. exists r, w2, b2. split; auto. split; [eapply keeps_trans; eauto|]. split; [congruence|]. split; auto.
      split; [congruence|]. unfold quantity in *. rewrite Q in Q1. rewrite C1 in *. split.
      * intros RM. destruct OK as (-> & Q2 & R2).
        { intros cp CP. specialize (RM cp CP). lra. }
        split; auto. split; [lra|]. rewrite R2, R1, <- app_assoc. reflexivity.
      * intros BIG cp CP LE' GT. apply (BAD (fun r' I => BIG r' (or_intror I)) cp CP); [|lra].
        specialize (BIG (tr, i) (or_introl eq_refl)). cbn [fst] in BIG.
        unfold too_big, space in TB. rewrite CP in TB.
        destruct (Qltb_spec (e_eps E) (r_qty x - qmax 0 (cp - b_qty b))) as [|TB']; [discriminate|].
        rewrite Q in TB'. unfold qmax in TB'. destruct (Qltb_spec 0 (cp - b_qty b)); lra.
Qed.
End Deliver.
