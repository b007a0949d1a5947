(** The supplier's and the consumer's answers, for any trades they are given. *)
From Coq Require Import String QArith List Bool Arith ZArith Lia Lqa.
From Verif Require Import Base CompModel PackageModel ResourceModel BufModel ExchangeModel TradeModel DreModel
  FacModel FacSpec FacProofs1 FacProofs2 FacProofs5 FacProofs6.
Import ListNotations.
Open Scope Q_scope.

Lemma supplier_answers E eps recipes mgr m w fs t f ts :
  nth_error fs t = Some f -> set_up recipes f -> full_capacity f -> offered_commod f <> None ->
  (forall n c, recipes n = Some c -> (c < length (w_comps w))%nat) ->
  (forall tr, In tr ts -> a_request w (rq_target (req_at m (td_req tr)))) ->
  exists r w1 fs1, fac_trades E eps recipes mgr m t ts (w, fs) = (r, (w1, fs1)) /\
    (qsum (map td_amt ts) <= offered_amount f + eps -> exists rs, r = Ok rs /\ map fst rs = ts /\ NoDup (map snd rs) /\
       forall tr i, In (tr, i) rs -> (length (w_res w) <= i)%nat /\ exists c, is_material w1 i (td_amt tr) c /\
         match product_recipe f with
         | Some n => recipes n = Some c
         | None => exists q, is_material w1 (rs_id (rq_target (req_at m (td_req tr)))) q c
         end) /\
    (offered_amount f + eps < qsum (map td_amt ts) -> r = Throw ValueError).
Proof.
  intros N SU FR OC RC TG.
  destruct (trades_forward E eps recipes m mgr w fs t f ts N SU FR OC RC TG) as (r & w1 & fs1 & EQ & _ & _ & _ & _ & OK & NO).
  exists r, w1, fs1. split; auto. split; auto. intros LE. destruct (OK LE) as (rs & -> & [K M ND NEW]). exists rs. split; auto. split; auto. split; auto.
  intros tr i I. destruct (NEW _ I) as (L & x & c & NX & Q & U & P). cbn [fst snd] in *. split; auto. exists c. split; [exists x; auto|].
  destruct f as [s|s|k]; cbn in *.
  - unfold makes, recipe_of, is_empty in P. destruct (so_recipe s) as [|a b]; cbn in *; auto.
    destruct P as (y & NY & UY). exists (r_qty y), y. auto.
  - contradiction.
  - auto.
Qed.

Lemma consumer_takes E m w fs t f b rs :
  nth_error fs t = Some f -> inventory f = Some b -> in_order w f -> NoDup (map snd rs) ->
  (forall tr i, In (tr, i) rs -> ~ In i (b_present b) /\ e_eps E < td_amt tr /\ 0 <= td_amt tr /\ exists c, is_material w i (td_amt tr) c) ->
  exists r w1 fs1 f1, fac_accept E m t rs (w, fs) = (r, (w1, fs1)) /\
    nth_error fs1 t = Some f1 /\ same_settings f f1 /\ (forall t', t' <> t -> nth_error fs1 t' = nth_error fs t') /\
    (has_room (e_eps E) f (qsum (map (fun r => td_amt (fst r)) rs)) ->
       r = Ok tt /\ held f1 == held f + qsum (map (fun r => td_amt (fst r)) rs)) /\
    (has_room (e_eps E) f 0 -> ~ has_room (e_eps E) f (qsum (map (fun r => td_amt (fst r)) rs)) -> r = Throw ValueError).
Proof.
  intros N IB OR ND IN. destruct (OR b IB) as (O1 & O2 & O3).
  assert (T : tidy w b) by (split; auto).
  destruct (push_all_forward E rs w b 0%nat T) as (r & w1 & b1 & PA & K & _ & TD & CP & OK & NO); auto.
  { intros i I. right. intros J. apply in_map_iff in J. destruct J as ((tr, j) & EJ & J). cbn in EJ. subst j.
    destruct (IN tr i J) as (A & _). auto. }
  { intros (tr, i) I. destruct (IN tr i I) as (_ & _ & A & c & x & X1 & X2 & X3). cbn. split; [lia|]. split; auto. exists x, c. auto. }
  assert (L : (t < length fs)%nat) by (apply nth_error_Some; congruence).
  assert (FIN : forall f1, inventory f1 = Some b1 -> same_settings f f1 ->
    exists r' w1' fs1 f1', (r, (w1, upd fs t f1)) = (r', (w1', fs1)) /\ nth_error fs1 t = Some f1' /\ same_settings f f1' /\
      (forall t', t' <> t -> nth_error fs1 t' = nth_error fs t') /\
    (has_room (e_eps E) f (qsum (map (fun r => td_amt (fst r)) rs)) ->
       r' = Ok tt /\ held f1' == held f + qsum (map (fun r => td_amt (fst r)) rs)) /\
    (has_room (e_eps E) f 0 -> ~ has_room (e_eps E) f (qsum (map (fun r => td_amt (fst r)) rs)) -> r' = Throw ValueError)).
  { intros f1 I1 S1. exists r, w1, (upd fs t f1), f1. split; auto. split; [now apply nth_upd_same|]. split; auto.
    split; [intros; apply nth_upd_other; auto|]. split.
    - intros RM. destruct OK as (-> & QQ & _); [intros c CB; exact (RM b c IB CB)|]. split; auto. unfold held. now rewrite I1, IB.
    - intros R0 NR. destruct (b_cap b) as [c|] eqn:CB.
      + apply (NO) with (c := c); auto.
        * intros (tr, i) I. destruct (IN tr i I) as (_ & A & _). exact A.
        * specialize (R0 b c IB CB). lra.
        * apply Qnot_le_lt. intros LE. apply NR. intros b' c' IB' CB'. assert (b' = b) by congruence. subst b'.
          assert (c' = c) by congruence. subst c'. exact LE.
      + exfalso. apply NR. intros b' c' IB' CB'. congruence. }
  unfold fac_accept. rewrite N. destruct f as [s|s|k]; cbn in IB; [discriminate| |]; injection IB as IB; rewrite IB, PA; apply FIN; cbn; rewrite ?IB; auto.
  repeat split; auto.
Qed.
