(** The order of the calls in an exchange. *)
From Coq Require Import String QArith List Bool Arith ZArith Lia Sorted.
From Verif Require Import Base GreedyModel ExchangeModel ExchangeSpec TradeModel DreModel DreSpec.
Import ListNotations.
Open Scope Q_scope.

Section Order.
Variable mgr : nat -> Z.
Notation tins := (tins mgr). Notation tlt := (tlt mgr). Notation turn := (turn mgr).

Lemma tlt_turn a b : tlt a b = true <-> turn a b.
Proof.
  unfold DreModel.tlt, DreSpec.turn. destruct (Z.eqb_spec (mgr a) (mgr b)) as [E|N].
  - rewrite Nat.ltb_lt. lia.
  - rewrite Z.ltb_lt. lia.
Qed.
Lemma turn_total a b : tlt a b = false -> tlt b a = false -> a = b.
Proof.
  unfold DreModel.tlt. destruct (Z.eqb_spec (mgr a) (mgr b)) as [E|N]; destruct (Z.eqb_spec (mgr b) (mgr a)); try lia;
  rewrite ?Nat.ltb_ge, ?Z.ltb_ge; lia.
Qed.
Lemma turn_trans a b c : turn a b -> turn b c -> turn a c.
Proof. unfold DreSpec.turn. lia. Qed.
Lemma tins_in x y l : In y (tins x l) <-> y = x \/ In y l.
Proof.
  induction l as [|z l IH]; simpl; [intuition|].
  destruct (tlt x z) eqn:E1; simpl; [intuition|].
  destruct (tlt z x) eqn:E2; simpl.
  - rewrite IH. intuition.
  - rewrite (turn_total x z E1 E2). intuition.
Qed.
Lemma tins_sorted x l : StronglySorted turn l -> StronglySorted turn (tins x l).
Proof.
  induction 1 as [|z l S IH F]; simpl; [repeat constructor|].
  destruct (tlt x z) eqn:E1.
  - apply tlt_turn in E1. constructor; [now constructor|]. constructor; auto.
    eapply Forall_impl; [|exact F]. intros y. now apply turn_trans.
  - destruct (tlt z x) eqn:E2; [|now constructor].
    apply tlt_turn in E2. constructor; auto. apply Forall_forall. intros y I. apply tins_in in I as [->|I]; auto.
    rewrite Forall_forall in F. auto.
Qed.
Lemma init_in_turn traders : in_turn mgr traders (init_traders mgr traders).
Proof.
  unfold init_traders, in_turn.
  assert (G : forall l acc, StronglySorted turn acc ->
    StronglySorted turn (fold_left (fun acc t => tins t acc) l acc) /\
    forall t, In t (fold_left (fun acc t => tins t acc) l acc) <-> In t l \/ In t acc).
  { induction l as [|x l IH]; intros acc S; simpl; [intuition|].
    destruct (IH (tins x acc) (tins_sorted x acc S)) as [A B]. split; auto.
    intros t. rewrite B, tins_in. intuition. }
  destruct (G traders [] ltac:(constructor)) as [A B]. split; auto. intros t. rewrite B. simpl. intuition.
Qed.
End Order.

Section Calls.
Variable S : Type.
Implicit Types (f : nat -> market -> S -> result market * (list call * S)).

Lemma for_each_callees f (g : nat -> who) :
  (forall t m s r ev s1, f t m s = (r, (ev, s1)) -> map callee ev = [g t]) ->
  forall l m s r ev s1, for_each S f l m s = (r, (ev, s1)) ->
    exists rest, map callee ev ++ rest = map g l /\ ((exists m', r = Ok m') -> rest = []).
Proof.
  intros H. induction l as [|t l IH]; intros m s r ev s1 E; simpl in E.
  - injection E as <- <- <-. exists []. auto.
  - destruct (f t m s) as [[m1|e|] [ev1 sa]] eqn:F.
    + destruct (for_each S f l m1 sa) as [r2 [ev2 s2]] eqn:G. injection E as <- <- <-.
      destruct (IH _ _ _ _ _ G) as [rest [A B]]. exists rest.
      rewrite map_app, (H _ _ _ _ _ _ F). cbn. rewrite A. auto.
    + injection E as <- <- <-. exists (map g l). rewrite (H _ _ _ _ _ _ F). split; auto. intros [m' K]; discriminate.
    + injection E as <- <- <-. exists (map g l). rewrite (H _ _ _ _ _ _ F). split; auto. intros [m' K]; discriminate.
Qed.
Lemma for_each_forall f (P : call -> Prop) :
  (forall t m s r ev s1, f t m s = (r, (ev, s1)) -> Forall P ev) ->
  forall l m s r ev s1, for_each S f l m s = (r, (ev, s1)) -> Forall P ev.
Proof.
  intros H. induction l as [|t l IH]; intros m s r ev s1 E; simpl in E.
  - injection E as <- <- <-. constructor.
  - destruct (f t m s) as [[m1|e|] [ev1 sa]] eqn:F.
    + destruct (for_each S f l m1 sa) as [r2 [ev2 s2]] eqn:G. injection E as <- <- <-.
      apply Forall_app. split; eauto.
    + injection E as <- <- <-. eauto.
    + injection E as <- <- <-. eauto.
Qed.
(** An invariant of what was done so far. *)
Lemma for_each_ok f (P : list nat -> market -> list call -> Prop) :
  (forall t dn m s ev m1 ev1 s1, P dn m ev -> f t m s = (Ok m1, (ev1, s1)) -> P (dn ++ [t]) m1 (ev ++ ev1)) ->
  forall l dn m s ev m1 ev1 s1, P dn m ev -> for_each S f l m s = (Ok m1, (ev1, s1)) -> P (dn ++ l) m1 (ev ++ ev1).
Proof.
  intros H. induction l as [|t l IH]; intros dn m s ev m1 ev1 s1 I E; simpl in E.
  - injection E as <- <- <-. now rewrite !app_nil_r.
  - destruct (f t m s) as [[ma|e|] [eva sa]] eqn:F; [|discriminate|discriminate].
    destruct (for_each S f l ma sa) as [r2 [ev2 s2]] eqn:G. injection E as -> <- <-.
    replace (dn ++ t :: l) with ((dn ++ [t]) ++ l) by (now rewrite <- app_assoc).
    rewrite app_assoc. eapply IH; eauto.
Qed.

Variable mgr : nat -> Z.
Variable ancestors : nat -> list nat.
Variable get_requests get_bids : nat -> market -> S -> result (list xop * list nat) * S.
Variable adjust_trader adjust_agent : nat -> prefmap -> S -> result prefmap * S.

Lemma add_requests_callee t m s r ev s1 : add_requests S get_requests t m s = (r, (ev, s1)) ->
  map callee ev = [WRequests t].
Proof.
  unfold add_requests. destruct (get_requests t m s) as [[[ops ps]|e|] sa].
  - destruct (construct m ops); [destruct (forallb _ _)|]; intros E; injection E as <- <- <-; reflexivity.
  - intros E; injection E as <- <- <-; reflexivity.
  - intros E; injection E as <- <- <-; reflexivity.
Qed.
Lemma add_bids_callee t m s r ev s1 : add_bids S get_bids t m s = (r, (ev, s1)) ->
  map callee ev = [WBids t].
Proof.
  unfold add_bids. destruct (get_bids t m s) as [[[ops ps]|e|] sa].
  - destruct (construct m ops); [destruct (forallb _ _)|]; intros E; injection E as <- <- <-; reflexivity.
  - intros E; injection E as <- <- <-; reflexivity.
  - intros E; injection E as <- <- <-; reflexivity.
Qed.
Lemma adjust_up_calls l : forall p s r ev s1, adjust_up S adjust_agent l p s = (r, (ev, s1)) ->
  Forall (fun c => about_prefs (callee c)) ev /\
  forall p', r = Ok p' -> map callee ev = map WParent l /\ handed_on (map adjust_agent l) p s p' s1.
Proof.
  induction l as [|a l IH]; intros p s r ev s1 E; simpl in E.
  - injection E as <- <- <-. split; auto. intros p' K. injection K as <-. split; auto. constructor.
  - destruct (adjust_agent a p s) as [[p1|e|] sa] eqn:F.
    + destruct (adjust_up S adjust_agent l p1 sa) as [r2 [ev2 s2]] eqn:G. injection E as <- <- <-.
      destruct (IH _ _ _ _ _ G) as [A B]. split; [constructor; [exact I|exact A]|].
      intros p' K. destruct (B p' K) as [B1 B2]. simpl. rewrite B1. split; auto. econstructor; eauto.
    + injection E as <- <- <-. split; [repeat constructor|discriminate].
    + injection E as <- <- <-. split; [repeat constructor|discriminate].
Qed.
Lemma adjust_prefs_calls t m s r ev s1 :
  adjust_prefs S ancestors adjust_trader adjust_agent t m s = (r, (ev, s1)) ->
  Forall (fun c => about_prefs (callee c)) ev /\
  forall m', r = Ok m' -> map callee ev = WPrefs t :: map WParent (ancestors t) /\
    exists p', m' = set_xprefs m (nupd t (fun _ => p') (x_prefs m)) /\
      handed_on (adjust_trader t :: map adjust_agent (ancestors t)) (prefs_of m t) s p' s1.
Proof.
  unfold adjust_prefs. fold (prefs_of m t). destruct (adjust_trader t (prefs_of m t) s) as [[p1|e|] sa] eqn:F.
  - destruct (adjust_up S adjust_agent (ancestors t) p1 sa) as [r2 [ev2 s2]] eqn:G.
    destruct (adjust_up_calls _ _ _ _ _ _ G) as [A B].
    destruct r2 as [p2|e|]; intros E; injection E as <- <- <-; (split; [constructor; [exact I|exact A]|]);
      intros m' K; try discriminate. injection K as <-.
    destruct (B p2 eq_refl) as [B1 B2]. split; [simpl; now rewrite B1|].
    exists p2. split; auto. econstructor; eauto.
  - intros E; injection E as <- <- <-. split; [repeat constructor|discriminate].
  - intros E; injection E as <- <- <-. split; [repeat constructor|discriminate].
Qed.
Notation Adjust := (adjust_prefs S ancestors adjust_trader adjust_agent).
Lemma adjust_callees l : forall m s m' ev s1, for_each S Adjust l m s = (Ok m', (ev, s1)) ->
  map callee ev = flat_map (fun t => WPrefs t :: map WParent (ancestors t)) l.
Proof.
  induction l as [|t l IH]; intros m s m' ev s1 E; simpl in E.
  - injection E as <- <- <-. reflexivity.
  - destruct (Adjust t m s) as [[m1|e|] [ev1 sa]] eqn:F; [|discriminate|discriminate].
    destruct (for_each S Adjust l m1 sa) as [r2 [ev2 s2]] eqn:G. injection E as -> <- <-.
    rewrite map_app. destruct (adjust_prefs_calls _ _ _ _ _ _ F) as [_ K]. destruct (K m1 eq_refl) as [K1 _].
    rewrite K1, (IH _ _ _ _ _ G). reflexivity.
Qed.

Notation Collect := (collect S mgr ancestors get_requests get_bids adjust_trader adjust_agent).
(** The calls made while collecting, whatever the outcome. *)
Lemma collect_calls traders s r ev s1 : Collect traders s = (r, (ev, s1)) ->
  exists l adj later, in_turn mgr traders l /\ Forall about_prefs adj /\
    map WRequests l ++ map WBids l ++ adj = map callee ev ++ later /\ ((exists m, r = Ok m) -> later = []).
Proof.
  unfold collect, add_all_requests, add_all_bids, adjust_everyone. intros E.
  exists (init_traders mgr traders). set (l := init_traders mgr traders) in *.
  destruct (for_each S (add_requests S get_requests) l market0 s) as [r1 [ev1 sa]] eqn:E1.
  destruct (for_each_callees _ WRequests add_requests_callee _ _ _ _ _ _ E1) as [rest1 [A1 B1]].
  destruct r1 as [m1|e|].
  - rewrite (B1 (ex_intro _ m1 eq_refl)), app_nil_r in A1.
    destruct (for_each S (add_bids S get_bids) l m1 sa) as [r2 [ev2 sb]] eqn:E2.
    destruct (for_each_callees _ WBids add_bids_callee _ _ _ _ _ _ E2) as [rest2 [A2 B2]].
    destruct r2 as [m2|e|].
    + rewrite (B2 (ex_intro _ m2 eq_refl)), app_nil_r in A2.
      destruct (for_each S Adjust (x_requesters m2) m2 sb) as [r3 [ev3 sc]] eqn:E3. injection E as <- <- <-.
      exists (map callee ev3), []. split; [apply init_in_turn|]. split.
      * apply Forall_map. eapply for_each_forall; [|exact E3]. intros; eapply adjust_prefs_calls; eauto.
      * split; auto. rewrite !map_app, A1, A2, app_nil_r. reflexivity.
    + injection E as <- <- <-. exists [], rest2. split; [apply init_in_turn|]. split; [constructor|].
      split; [|intros [? K]; discriminate]. rewrite map_app, A1, <- A2, app_nil_r, app_assoc. reflexivity.
    + injection E as <- <- <-. exists [], rest2. split; [apply init_in_turn|]. split; [constructor|].
      split; [|intros [? K]; discriminate]. rewrite map_app, A1, <- A2, app_nil_r, app_assoc. reflexivity.
  - injection E as <- <- <-. exists [], (rest1 ++ map WBids l). split; [apply init_in_turn|]. split; [constructor|].
    split; [|intros [? K]; discriminate]. now rewrite <- A1, app_nil_r, app_assoc.
  - injection E as <- <- <-. exists [], (rest1 ++ map WBids l). split; [apply init_in_turn|]. split; [constructor|].
    split; [|intros [? K]; discriminate]. now rewrite <- A1, app_nil_r, app_assoc.
Qed.
End Calls.
