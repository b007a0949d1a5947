(** Proofs about trade execution. *)
From Coq Require Import String QArith List Bool Arith ZArith Lia Sorted Permutation.
From Verif Require Import Base GreedyModel GreedyProofs1 ExchangeModel ExchangeProofs1 ExchangeProofs6
  TradeModel TradeSpec.
Import ListNotations.
Open Scope Q_scope.

Section P.
Context {T : Type} (bidder requester : T -> nat) (commod : T -> string) {S : Type}.
Context (ask : nat -> list T -> S -> result (list (T * nat)) * S).
Context (accept : nat -> list (T * nat) -> S -> result unit * S).
Context (qty_of : S -> nat -> Q) (sid_of : S -> nat -> Z) (agent : nat -> Z) (time : Z) (eps : Q).

Notation G1 := (group_one T bidder requester).
Notation G := (group_trades T bidder requester).

Lemma filter_snoc {A} (f : A -> bool) l x : filter f (l ++ [x]) = filter f l ++ (if f x then [x] else []).
Proof. rewrite filter_app. simpl. reflexivity. Qed.

Lemma group_gen ts : forall pre c,
  StronglySorted lt (x_suppliers T c) -> StronglySorted lt (x_reqs T c) ->
  (forall x, In x (x_suppliers T c) <-> exists t, In t pre /\ bidder t = x) ->
  (forall x, In x (x_reqs T c) <-> exists t, In t pre /\ requester t = x) ->
  (forall p, orempty (nfind p (x_by_sup T c)) = of_bidder bidder p pre) ->
  x_by_req T c = [] -> x_all T c = [] ->
  let c' := fold_left G1 ts c in
  lists_once bidder (pre ++ ts) (x_suppliers T c') /\ lists_once requester (pre ++ ts) (x_reqs T c') /\
  (forall p, orempty (nfind p (x_by_sup T c')) = of_bidder bidder p (pre ++ ts)) /\
  x_by_req T c' = [] /\ x_all T c' = [].
Proof.
  induction ts as [|t ts IH]; intros pre c Hs Hr Is Ir Hb Hq Ha; simpl.
  - rewrite app_nil_r. split; [split; assumption|]. split; [split; assumption|]. auto.
  - replace (pre ++ t :: ts) with ((pre ++ [t]) ++ ts) by (rewrite <- app_assoc; reflexivity).
    apply IH; simpl; auto.
    + now apply sins_sorted.
    + now apply sins_sorted.
    + intros x. rewrite sins_in, Is. split.
      * intros [->|(t' & Ht & E)]; [exists t|exists t']; (split; [apply in_or_app; simpl; auto|auto]).
      * intros (t' & Ht & E). apply in_app_or in Ht. destruct Ht as [Ht|[<-|[]]]; [right; eauto|left; auto].
    + intros x. rewrite sins_in, Ir. split.
      * intros [->|(t' & Ht & E)]; [exists t|exists t']; (split; [apply in_or_app; simpl; auto|auto]).
      * intros (t' & Ht & E). apply in_app_or in Ht. destruct Ht as [Ht|[<-|[]]]; [right; eauto|left; auto].
    + intros p. unfold of_bidder. rewrite filter_snoc.
      destruct (Nat.eq_dec (bidder t) p) as [<-|N].
      * rewrite nfind_nupd_same, Nat.eqb_refl. specialize (Hb (bidder t)). unfold of_bidder in Hb.
        destruct (nfind (bidder t) (x_by_sup T c)); simpl in *; now rewrite <- Hb.
      * rewrite nfind_nupd_other by congruence. rewrite (proj2 (Nat.eqb_neq _ _) N), app_nil_r. apply Hb.
Qed.

Lemma group_ok ts :
  lists_once bidder ts (x_suppliers T (G ts)) /\ lists_once requester ts (x_reqs T (G ts)) /\
  (forall p, orempty (nfind p (x_by_sup T (G ts))) = of_bidder bidder p ts) /\
  x_by_req T (G ts) = [] /\ x_all T (G ts) = [].
Proof.
  apply (group_gen ts [] (xctx0 T)); simpl; auto; try constructor.
  - intros []. - intros (t & [] & _). - intros []. - intros (t & [] & _).
Qed.

(** responses *)
Definition flat (m : list ((nat * nat) * list (T * nat))) : list ((nat * nat) * (T * nat)) :=
  flat_map (fun x => map (pair (fst x)) (snd x)) m.
Lemma flat_push k r m : Permutation (flat (mupd keyb k (opush r) m)) (flat m ++ [(k, r)]).
Proof.
  induction m as [|[k' l] m IH]; simpl; [constructor; constructor|].
  destruct (keyb k k') eqn:E; simpl.
  - apply keyb_ok in E. subst k'. rewrite map_app. simpl. rewrite <- !app_assoc. apply Permutation_app_head.
    simpl. apply Permutation_cons_append.
  - rewrite <- app_assoc. apply Permutation_app_head. exact IH.
Qed.
Definition keyed (x : nat * (T * nat)) : (nat * nat) * (T * nat) := ((fst x, requester (fst (snd x))), snd x).

Lemma store_ok p rs : forall pre c (done : list (T * nat)),
  (forall q, orempty (nfind q (x_by_req T c)) = of_requester requester q done) ->
  Permutation (flat (x_all T c)) (map keyed pre) ->
  let c' := fold_left (store_one T requester p) rs c in
  x_suppliers T c' = x_suppliers T c /\ x_reqs T c' = x_reqs T c /\ x_by_sup T c' = x_by_sup T c /\
  (forall q, orempty (nfind q (x_by_req T c')) = of_requester requester q (done ++ rs)) /\
  Permutation (flat (x_all T c')) (map keyed (pre ++ map (pair p) rs)).
Proof.
  induction rs as [|r rs IH]; intros pre c done Hq Ha; simpl.
  - rewrite !app_nil_r. auto.
  - destruct (IH (pre ++ [(p, r)]) (store_one T requester p c r) (done ++ [r])) as (A & B & C & D & E).
    + intros q. simpl. unfold of_requester. rewrite filter_snoc.
      destruct (Nat.eq_dec (requester (fst r)) q) as [<-|N].
      * rewrite nfind_nupd_same, Nat.eqb_refl. specialize (Hq (requester (fst r))). unfold of_requester in Hq.
        destruct (nfind (requester (fst r)) (x_by_req T c)); simpl in *; now rewrite <- Hq.
      * rewrite nfind_nupd_other by congruence. rewrite (proj2 (Nat.eqb_neq _ _) N), app_nil_r. apply Hq.
    + simpl. rewrite flat_push, map_app. simpl. apply Permutation_app_tail. exact Ha.
    + rewrite <- !app_assoc in D, E. simpl in *. auto.
Qed.

Notation GR := (get_responses T requester S ask).

Lemma responses_ok ts sups : forall pre done c s c1 ev s1,
  (forall p, orempty (nfind p (x_by_sup T c)) = of_bidder bidder p ts) ->
  (forall q, orempty (nfind q (x_by_req T c)) = of_requester requester q done) ->
  Permutation (flat (x_all T c)) (map keyed pre) ->
  GR sups c s = (Ok c1, (ev, s1)) ->
  exists rss, asked bidder ask ts sups s rss s1 /\
    ev = map (fun p => EAsk T p (of_bidder bidder p ts)) sups /\
    x_reqs T c1 = x_reqs T c /\
    (forall q, orempty (nfind q (x_by_req T c1)) = of_requester requester q (done ++ concat rss)) /\
    Permutation (flat (x_all T c1)) (map keyed (pre ++ answers sups rss)).
Proof.
  induction sups as [|p sups IH]; intros pre done c s c1 ev s1 Hb Hq Ha H; simpl in H.
  - assert (c1 = c /\ ev = [] /\ s1 = s) as (-> & -> & ->) by (repeat split; congruence).
    exists []. simpl. rewrite !app_nil_r. repeat split; auto. constructor.
  - rewrite Hb in H. destruct (ask p (of_bidder bidder p ts) s) as [[rs|e|] sa] eqn:Ea; try discriminate.
    destruct (GR sups (fold_left (store_one T requester p) rs c) sa) as [r [ev' s']] eqn:Er.
    assert (r = Ok c1 /\ ev = EAsk T p (of_bidder bidder p ts) :: ev' /\ s' = s1) as (-> & -> & ->) by (repeat split; congruence).
    destruct (store_ok p rs pre c done Hq Ha) as (A & B & C & D & E).
    destruct (IH _ _ _ _ _ _ _ (fun p0 => eq_trans (f_equal (fun z => orempty (nfind p0 z)) C) (Hb p0)) D E Er)
      as (rss & R1 & R2 & R3 & R4 & R5).
    exists (rs :: rss). split; [econstructor; eauto|]. split; [simpl; congruence|]. split; [congruence|].
    unfold answers in *. simpl. rewrite !app_assoc in *. auto.
Qed.

Lemma responses_fail ts sups : forall c s r ev s1,
  (forall p, orempty (nfind p (x_by_sup T c)) = of_bidder bidder p ts) ->
  GR sups c s = (r, (ev, s1)) -> (forall c1, r <> Ok c1) ->
  exists before p after rss sa, sups = before ++ p :: after /\ asked bidder ask ts before s rss sa /\
    (forall x, fst (ask p (of_bidder bidder p ts) sa) <> Ok x) /\ snd (ask p (of_bidder bidder p ts) sa) = s1 /\
    ev = map (fun p => EAsk T p (of_bidder bidder p ts)) (before ++ [p]).
Proof.
  induction sups as [|p sups IH]; intros c s r ev s1 Hb H N; simpl in H.
  - exfalso. apply (N c). congruence.
  - rewrite Hb in H. destruct (ask p (of_bidder bidder p ts) s) as [[rs|e|] sa] eqn:Ea.
    + destruct (GR sups (fold_left (store_one T requester p) rs c) sa) as [r' [ev' s']] eqn:Er.
      assert (r' = r /\ ev = EAsk T p (of_bidder bidder p ts) :: ev' /\ s' = s1) as (-> & -> & ->) by (repeat split; congruence).
      assert (C : x_by_sup T (fold_left (store_one T requester p) rs c) = x_by_sup T c).
      { clear. revert c. induction rs as [|x rs IH]; intros c; simpl; [reflexivity|]. rewrite IH. reflexivity. }
      destruct (IH _ _ _ _ _ (fun p0 => eq_trans (f_equal (fun z => orempty (nfind p0 z)) C) (Hb p0)) Er N)
        as (bf & p' & af & rss & sb & E1 & E2 & E3 & E4 & E5).
      exists (p :: bf), p', af, (rs :: rss), sb. split; [simpl; congruence|].
      split; [econstructor; eauto|]. split; [auto|]. split; [auto|]. simpl. congruence.
    + exists [], p, sups, [], s. split; [reflexivity|]. split; [constructor|].
      rewrite Ea. simpl. split; [congruence|]. split; congruence.
    + exists [], p, sups, [], s. split; [reflexivity|]. split; [constructor|].
      rewrite Ea. simpl. split; [congruence|]. split; congruence.
Qed.

(** rows *)
Notation RL := (record_list T commod S qty_of sid_of agent time eps).
Notation RA := (record_all T commod S qty_of sid_of agent time eps).
Definition kdata (s : S) (x : (nat * nat) * (T * nat)) :=
  (agent (fst (fst x)), agent (snd (fst x)), sid_of s (snd (snd x)), commod (fst (snd x)), time).
Definition kbig (s : S) (x : (nat * nat) * (T * nat)) := Qltb eps (qty_of s (snd (snd x))).

Lemma numbered_app id a b : numbered id (a + b) = numbered id a ++ numbered (id + Z.of_nat a) b.
Proof.
  unfold numbered. rewrite seq_app, map_app. f_equal. simpl.
  replace (seq a b) with (map (fun i => a + i)%nat (seq 0 b)).
  - rewrite map_map. apply map_ext. intros i. lia.
  - clear. revert a. induction b as [|b IH]; intros a; simpl; [reflexivity|].
    f_equal; [lia|]. rewrite <- (IH (Datatypes.S a)), <- seq_shift, map_map. apply map_ext. intros; lia.
Qed.

Lemma record_list_ok k rs s : forall id rows id',
  RL k rs s id = (rows, id') ->
  map row_data rows = map (kdata s) (filter (kbig s) (map (pair k) rs)) /\
  map tx_id rows = numbered id (length rows) /\ id' = (id + Z.of_nat (length rows))%Z.
Proof.
  induction rs as [|[t x] rs IH]; intros id rows id' H; simpl in H.
  - assert (rows = [] /\ id' = id) as (-> & ->) by (split; congruence). simpl. split; [reflexivity|]. split; [reflexivity|lia].
  - simpl. unfold kbig at 1. simpl. destruct (Qltb eps (qty_of s x)).
    + destruct (RL k rs s (id + 1)) as [rw i'] eqn:E.
      destruct (IH _ _ _ E) as (A & B & C).
      match type of H with (?r0 :: _, _) = _ => assert (rows = r0 :: rw /\ id' = i') as (-> & ->) by (split; congruence) end.
      simpl. split; [rewrite A; reflexivity|].
      change (Datatypes.S (length rw)) with (1 + length rw)%nat. rewrite numbered_app. simpl.
      split; [unfold numbered at 1; simpl; rewrite Z.add_0_r, B; reflexivity|lia].
    + apply IH; assumption.
Qed.

Lemma record_all_ok l s : forall id rows id',
  RA l s id = (rows, id') ->
  map row_data rows = map (kdata s) (filter (kbig s) (flat l)) /\
  map tx_id rows = numbered id (length rows) /\ id' = (id + Z.of_nat (length rows))%Z.
Proof.
  induction l as [|[k rs] l IH]; intros id rows id' H; simpl in H.
  - assert (rows = [] /\ id' = id) as (-> & ->) by (split; congruence). simpl. split; [reflexivity|]. split; [reflexivity|lia].
  - destruct (RL k rs s id) as [r1 i1] eqn:E1. destruct (RA l s i1) as [r2 i2] eqn:E2.
    assert (rows = r1 ++ r2 /\ id' = i2) as (-> & ->) by (split; congruence).
    destruct (record_list_ok _ _ _ _ _ _ E1) as (A & B & C). destruct (IH _ _ _ E2) as (A2 & B2 & C2).
    simpl. rewrite map_app, filter_app, !map_app, A, A2. split; [reflexivity|].
    rewrite app_length, numbered_app, B, B2, <- C. split; [reflexivity|lia].
Qed.

Lemma Permutation_filter {A} (f : A -> bool) l l' : Permutation l l' -> Permutation (filter f l) (filter f l').
Proof.
  induction 1; simpl; try (destruct (f x)); try (destruct (f y)); auto using perm_swap; eauto using perm_trans.
Qed.

Lemma flat_perm m m' : Permutation m m' -> Permutation (flat m) (flat m').
Proof. intros P. unfold flat. now apply Permutation_flat_map. Qed.

Lemma filter_map {A B} (f : B -> bool) (g : A -> B) l : filter f (map g l) = map g (filter (fun x => f (g x)) l).
Proof. induction l; simpl; [reflexivity|]. destruct (f (g a)); simpl; congruence. Qed.

(** deliveries *)
Notation SD := (send T S accept).
Lemma send_ok rs qs : forall c s ev s1,
  (forall q, orempty (nfind q (x_by_req T c)) = of_requester requester q rs) ->
  SD qs c s = (Ok tt, (ev, s1)) ->
  delivered requester accept rs qs s s1 /\ ev = map (fun q => EAccept T q (of_requester requester q rs)) qs.
Proof.
  induction qs as [|q qs IH]; intros c s ev s1 Hq H; simpl in H.
  - assert (ev = [] /\ s1 = s) as (-> & ->) by (split; congruence). split; [constructor|reflexivity].
  - rewrite Hq in H. destruct (accept q (of_requester requester q rs) s) as [[[]|e|] sa] eqn:Ea; try discriminate.
    destruct (SD qs c sa) as [r [ev' s']] eqn:Er.
    assert (r = Ok tt /\ ev = EAccept T q (of_requester requester q rs) :: ev' /\ s' = s1) as (-> & -> & ->) by (repeat split; congruence).
    destruct (IH _ _ _ _ Hq Er) as (A & ->). split; [econstructor; eauto|reflexivity].
Qed.
Lemma send_fail rs qs : forall c s r ev s1,
  (forall q, orempty (nfind q (x_by_req T c)) = of_requester requester q rs) ->
  SD qs c s = (r, (ev, s1)) -> r <> Ok tt ->
  exists before q after sa, qs = before ++ q :: after /\ delivered requester accept rs before s sa /\
    fst (accept q (of_requester requester q rs) sa) <> Ok tt /\
    ev = map (fun q => EAccept T q (of_requester requester q rs)) (before ++ [q]).
Proof.
  induction qs as [|q qs IH]; intros c s r ev s1 Hq H N; simpl in H.
  - exfalso. apply N. congruence.
  - rewrite Hq in H. destruct (accept q (of_requester requester q rs) s) as [[[]|e|] sa] eqn:Ea.
    + destruct (SD qs c sa) as [r' [ev' s']] eqn:Er.
      assert (r' = r /\ ev = EAccept T q (of_requester requester q rs) :: ev' /\ s' = s1) as (-> & -> & ->) by (repeat split; congruence).
      destruct (IH _ _ _ _ _ Hq Er N) as (bf & p' & af & sb & E1 & E2 & E3 & E4).
      exists (q :: bf), p', af, sb. split; [simpl; congruence|].
      split; [econstructor; eauto|]. split; [auto|]. simpl. congruence.
    + exists [], q, qs, s. split; [reflexivity|]. split; [constructor|].
      rewrite Ea. simpl. split; [congruence|]. congruence.
    + exists [], q, qs, s. split; [reflexivity|]. split; [constructor|].
      rewrite Ea. simpl. split; [congruence|]. congruence.
Qed.

Notation EX := (execute T bidder requester commod S ask accept qty_of sid_of agent time eps).

(** Everything up to the delivery. *)
Lemma execute_front ts s id r out :
  EX ts s id = (r, out) ->
  exists sups reqs, lists_once bidder ts sups /\ lists_once requester ts reqs /\
  ((exists before p after rss sa, sups = before ++ p :: after /\ asked bidder ask ts before s rss sa /\
      (forall x, fst (ask p (of_bidder bidder p ts) sa) <> Ok x) /\ r <> Ok tt /\
      out = (map (fun p => EAsk T p (of_bidder bidder p ts)) (before ++ [p]), (snd (ask p (of_bidder bidder p ts) sa), id))) \/
   (exists rss s1 rows ev2 s2 c1,
      asked bidder ask ts sups s rss s1 /\
      Permutation (map row_data rows)
        (map (row_for requester commod sid_of agent time s1) (filter (sizable qty_of eps s1) (answers sups rss))) /\
      map tx_id rows = numbered id (length rows) /\
      (forall q, orempty (nfind q (x_by_req T c1)) = of_requester requester q (concat rss)) /\
      SD reqs c1 s1 = (r, (ev2, s2)) /\
      out = (map (fun p => EAsk T p (of_bidder bidder p ts)) sups ++ map (ERecord T) rows ++ ev2,
             (s2, (id + Z.of_nat (length rows))%Z)))).
Proof.
  intros H. unfold execute in H. destruct (group_ok ts) as (Hs & Hr & Hb & Hq & Ha).
  exists (x_suppliers T (G ts)), (x_reqs T (G ts)). split; [exact Hs|]. split; [exact Hr|].
  destruct (GR (x_suppliers T (G ts)) (G ts) s) as [[c1|e|] [ev s1]] eqn:E.
  - right. destruct (responses_ok ts _ [] [] _ _ _ _ _ Hb (fun q => f_equal (fun z => orempty (nfind q z)) Hq) ltac:(rewrite Ha; constructor) E)
      as (rss & A1 & A2 & A3 & A4 & A5).
    destruct (RA (all_sorted T c1) s1 id) as [rows id1] eqn:Er.
    rewrite A3 in H. destruct (SD (x_reqs T (G ts)) c1 s1) as [r' [ev2 s2]] eqn:Ed.
    destruct (record_all_ok _ _ _ _ _ Er) as (B1 & B2 & B3).
    exists rss, s1, rows, ev2, s2, c1. split; [exact A1|]. split.
    { rewrite B1.
      assert (P : Permutation (flat (all_sorted T c1)) (map keyed (answers (x_suppliers T (G ts)) rss))).
      { rewrite <- A5. apply flat_perm. apply sort_perm. }
      apply (Permutation_filter (kbig s1)) in P. rewrite filter_map in P.
      apply (Permutation_map (kdata s1)) in P. rewrite map_map in P. exact P. }
    split; [exact B2|]. split; [exact A4|].
    split; [congruence|]. rewrite A2 in H. rewrite B3 in H. congruence.
  - left. destruct (responses_fail ts _ _ _ _ _ _ Hb E) as (bf & p & af & rss & sa & E1 & E2 & E3 & E4 & E5); [congruence|].
    exists bf, p, af, rss, sa. split; [exact E1|]. split; [exact E2|]. split; [exact E3|]. split; [congruence|]. rewrite <- E5. congruence.
  - left. destruct (responses_fail ts _ _ _ _ _ _ Hb E) as (bf & p & af & rss & sa & E1 & E2 & E3 & E4 & E5); [congruence|].
    exists bf, p, af, rss, sa. split; [exact E1|]. split; [exact E2|]. split; [exact E3|]. split; [congruence|]. rewrite <- E5. congruence.
Qed.

Lemma execution ts s id ev s2 id2 :
  EX ts s id = (Ok tt, (ev, (s2, id2))) ->
  exists sups reqs rss s1 rows,
    lists_once bidder ts sups /\ lists_once requester ts reqs /\
    asked bidder ask ts sups s rss s1 /\
    delivered requester accept (concat rss) reqs s1 s2 /\
    ev = map (fun p => EAsk T p (of_bidder bidder p ts)) sups ++ map (ERecord T) rows ++
         map (fun q => EAccept T q (of_requester requester q (concat rss))) reqs /\
    Permutation (map row_data rows)
      (map (row_for requester commod sid_of agent time s1) (filter (sizable qty_of eps s1) (answers sups rss))) /\
    map tx_id rows = numbered id (length rows) /\ id2 = (id + Z.of_nat (length rows))%Z.
Proof.
  intros H. destruct (execute_front _ _ _ _ _ H) as (sups & reqs & Hs & Hr & [F|F]).
  - destruct F as (? & ? & ? & ? & ? & _ & _ & _ & N & _). congruence.
  - destruct F as (rss & s1 & rows & ev2 & s2' & c1 & A1 & A2 & A3 & A4 & A5 & A6).
    assert (s2' = s2) by congruence. subst s2'.
    destruct (send_ok _ _ _ _ _ _ A4 A5) as (D & ->).
    exists sups, reqs, rss, s1, rows. split; [exact Hs|]. split; [exact Hr|]. split; [exact A1|].
    split; [exact D|]. split; [congruence|]. split; [exact A2|]. split; [exact A3|]. congruence.
Qed.

Lemma execution_stops ts s id r ev s2 id2 :
  EX ts s id = (r, (ev, (s2, id2))) -> r <> Ok tt ->
  exists sups reqs, lists_once bidder ts sups /\ lists_once requester ts reqs /\
  ((exists before p after, sups = before ++ p :: after /\ id2 = id /\
      ev = map (fun p => EAsk T p (of_bidder bidder p ts)) (before ++ [p])) \/
   (exists rss s1 rows before q after, reqs = before ++ q :: after /\
      asked bidder ask ts sups s rss s1 /\
      Permutation (map row_data rows)
        (map (row_for requester commod sid_of agent time s1) (filter (sizable qty_of eps s1) (answers sups rss))) /\
      ev = map (fun p => EAsk T p (of_bidder bidder p ts)) sups ++ map (ERecord T) rows ++
           map (fun q => EAccept T q (of_requester requester q (concat rss))) (before ++ [q]))).
Proof.
  intros H N. destruct (execute_front _ _ _ _ _ H) as (sups & reqs & Hs & Hr & [F|F]);
    exists sups, reqs; (split; [exact Hs|]); (split; [exact Hr|]).
  - left. destruct F as (bf & p & af & rss & sa & E1 & E2 & E3 & E4 & E5).
    exists bf, p, af. split; [exact E1|]. split; congruence.
  - right. destruct F as (rss & s1 & rows & ev2 & s2' & c1 & A1 & A2 & A3 & A4 & A5 & A6).
    destruct (send_fail _ _ _ _ _ _ _ A4 A5 N) as (bf & q & af & sb & E1 & E2 & E3 & E4).
    exists rss, s1, rows, bf, q, af. split; [exact E1|]. split; [exact A1|]. split; [exact A2|]. congruence.
Qed.

(** each trade once *)
Lemma once_nodup {A} (f : A -> nat) ts l : lists_once f ts l -> NoDup l.
Proof.
  intros [H _]. induction H as [|a l SS IH F]; constructor; auto.
  intros I. rewrite Forall_forall in F. specialize (F _ I). lia.
Qed.
Lemma filter_none {A} (f : A -> bool) l : (forall x, In x l -> f x = false) -> filter f l = [].
Proof. induction l as [|a l IH]; intros H; simpl; [reflexivity|]. rewrite (H a) by (simpl; auto). apply IH. intros; apply H; simpl; auto. Qed.
Lemma partition_perm {A} (f : A -> nat) l : forall ts, NoDup l -> (forall t, In t ts -> In (f t) l) ->
  Permutation (flat_map (fun p => filter (fun t => Nat.eqb (f t) p) ts) l) ts.
Proof.
  intros ts ND. induction ts as [|t ts IH]; intros H.
  - simpl. clear. induction l; simpl; auto.
  - assert (I : In (f t) l) by (apply H; simpl; auto).
    destruct (in_split _ _ I) as (l1 & l2 & El).
    assert (IH' := IH (fun x Hx => H x (or_intror Hx))).
    rewrite El in *. rewrite flat_map_app in *. simpl in *.
    rewrite Nat.eqb_refl.
    assert (Q : forall l', ~ In (f t) l' ->
       flat_map (fun p => if Nat.eqb (f t) p then t :: filter (fun x => Nat.eqb (f x) p) ts else filter (fun x => Nat.eqb (f x) p) ts) l'
       = flat_map (fun p => filter (fun x => Nat.eqb (f x) p) ts) l').
    { clear. induction l' as [|p l' IH]; intros N; simpl; [reflexivity|].
      rewrite (proj2 (Nat.eqb_neq (f t) p)) by (intros E0; apply N; simpl; auto).
      rewrite IH; [reflexivity|]. intros I; apply N; simpl; auto. }
    apply NoDup_remove_2 in ND. rewrite !Q by (intros Z; apply ND; apply in_or_app; auto).
    simpl. rewrite <- Permutation_middle. constructor. exact IH'.
Qed.

Lemma asked_map ts sups s rss s1 : asked bidder ask ts sups s rss s1 ->
  (forall p s0 rs s0', ask p (of_bidder bidder p ts) s0 = (Ok rs, s0') -> map fst rs = of_bidder bidder p ts) ->
  map (fun x => (fst x, fst (snd x))) (answers sups rss) = flat_map (fun p => map (pair p) (of_bidder bidder p ts)) sups /\
  map fst (concat rss) = flat_map (fun p => of_bidder bidder p ts) sups.
Proof.
  intros H F. induction H as [|p ps s0 rs s1 rss s2 E _ IH]; [split; reflexivity|].
  destruct IH as [I1 I2]. unfold answers in *. simpl. rewrite !map_app, I1, I2, map_map. simpl.
  split; [|now rewrite (F _ _ _ _ E)]. f_equal. rewrite <- (F _ _ _ _ E), map_map. reflexivity.
Qed.
Lemma asked_len ts sups s rss s1 : asked bidder ask ts sups s rss s1 -> length rss = length sups.
Proof. induction 1; simpl; congruence. Qed.

Lemma filter_all {A} (f : A -> bool) l : (forall x, In x l -> f x = true) -> filter f l = l.
Proof. induction l as [|a l IH]; intros H; simpl; [reflexivity|]. rewrite (H a) by (simpl; auto). f_equal. apply IH. intros; apply H; simpl; auto. Qed.

Lemma asked_in ts sups s rss s1 : asked bidder ask ts sups s rss s1 -> forall x, In x (answers sups rss) ->
  exists p s0 rs s0', ask p (of_bidder bidder p ts) s0 = (Ok rs, s0') /\ In (snd x) rs.
Proof.
  induction 1 as [|p ps s0 rs s1 rss s2 E _ IH]; intros x Hx; [destruct Hx|].
  unfold answers in Hx. simpl in Hx. apply in_app_or in Hx. destruct Hx as [Hx|Hx]; [|exact (IH _ Hx)].
  apply in_map_iff in Hx. destruct Hx as (r & <- & Hr). exists p, s0, rs, s1. simpl. auto.
Qed.
Lemma faithful ts s id ev s2 id2 :
  (forall p s0 rs s0', ask p (of_bidder bidder p ts) s0 = (Ok rs, s0') -> map fst rs = of_bidder bidder p ts) ->
  (forall sups rss s1, lists_once bidder ts sups -> asked bidder ask ts sups s rss s1 ->
     forall r, In r (concat rss) -> eps < qty_of s1 (snd r)) ->
  EX ts s id = (Ok tt, (ev, (s2, id2))) ->
  exists asks rows accepts,
    ev = asks ++ map (ERecord T) rows ++ map (fun x => EAccept T (fst x) (snd x)) accepts /\
    Permutation (map (fun r => (tx_sender r, tx_receiver r, tx_commod r)) rows)
                (map (fun t => (agent (bidder t), agent (requester t), commod t)) ts) /\
    map tx_id rows = numbered id (length ts) /\
    Permutation (flat_map (fun x => map fst (snd x)) accepts) ts /\
    (forall q rs r, In (q, rs) accepts -> In r rs -> requester (fst r) = q) /\
    exists sups rss s1, lists_once bidder ts sups /\ asked bidder ask ts sups s rss s1 /\
      asks = map (fun p => EAsk T p (of_bidder bidder p ts)) sups /\
      (forall q rs r, In (q, rs) accepts -> In r rs -> In r (concat rss)).
Proof.
  intros F Big H. destruct (execution _ _ _ _ _ _ H) as (sups & reqs & rss & s1 & rows & Hs & Hr & A & D & E & P & N & I).
  exists (map (fun p => EAsk T p (of_bidder bidder p ts)) sups), rows, (map (fun q => (q, of_requester requester q (concat rss))) reqs).
  destruct (asked_map _ _ _ _ _ A F) as [M1 M2].
  assert (PT : Permutation (flat_map (fun p => of_bidder bidder p ts) sups) ts).
  { apply partition_perm; [eapply once_nodup; eauto|]. intros t Ht. apply (proj2 Hs). eauto. }
  assert (PR : Permutation (map (fun r => (tx_sender r, tx_receiver r, tx_commod r)) rows)
                (map (fun t => (agent (bidder t), agent (requester t), commod t)) ts)).
  { rewrite (filter_all (sizable qty_of eps s1)) in P.
    2:{ intros x Hx.
        assert (Ix : In (snd x) (concat rss)).
        { revert Hx. clear. revert rss. induction sups as [|p sups IH]; intros [|rs rss] Hx; unfold answers in Hx; simpl in Hx; try contradiction.
          apply in_app_or in Hx as [Hx|Hx]; simpl; apply in_or_app; [left|right; now apply IH].
          apply in_map_iff in Hx as [r [<- Hr]]. exact Hr. }
        specialize (Big _ _ _ Hs A _ Ix).
        unfold sizable. destruct (Qltb_spec eps (qty_of s1 (snd (snd x)))); [reflexivity|]. exfalso; auto. }
    apply (Permutation_map (fun d => match d with (a, b, _, c, _) => (a, b, c) end)) in P.
    rewrite !map_map in P. eapply perm_trans; [exact P|]. clear P.
    assert (MM := map_map (fun x : nat * (T * nat) => (fst x, fst (snd x)))
      (fun y => (agent (fst y), agent (requester (snd y)), commod (snd y))) (answers sups rss)).
    unfold row_for. cbn [fst snd] in *. rewrite <- MM. clear MM.
    rewrite M1. eapply perm_trans; [|apply Permutation_map; exact PT].
    clear. induction sups as [|p sups IH]; simpl; [constructor|].
    rewrite !map_app. apply Permutation_app; [|exact IH].
    rewrite map_map. simpl. unfold of_bidder.
    erewrite map_ext_in; [apply Permutation_refl|]. intros t Ht. apply filter_In in Ht. destruct Ht as [_ Ht].
    apply Nat.eqb_eq in Ht. rewrite Ht. reflexivity. }
  split; [rewrite E, map_map; reflexivity|]. split; [exact PR|]. split.
  { rewrite N. f_equal. apply Permutation_length in PR. rewrite !map_length in PR. exact PR. }
  split; [|split].
  - eapply perm_trans; [|exact PT]. rewrite <- M2.
    rewrite flat_map_concat_map, map_map, <- flat_map_concat_map. simpl.
    assert (Q : flat_map (fun q => map fst (of_requester requester q (concat rss))) reqs
                = map fst (flat_map (fun q => of_requester requester q (concat rss)) reqs)).
    { clear. induction reqs; simpl; [reflexivity|]. rewrite map_app. congruence. }
    rewrite Q. apply Permutation_map. unfold of_requester.
    apply (partition_perm (fun r => requester (fst r))); [eapply once_nodup; eauto|].
    intros r Ir. apply (proj2 Hr). exists (fst r). split; [|reflexivity].
    eapply Permutation_in; [exact PT|]. rewrite <- M2. now apply in_map.
  - intros q rs r I1 I2. apply in_map_iff in I1. destruct I1 as (q' & [= -> <-] & _).
    unfold of_requester in I2. apply filter_In in I2. now apply Nat.eqb_eq.
  - exists sups, rss, s1. split; [exact Hs|]. split; [exact A|]. split; [reflexivity|].
    intros q rs r I1 I2. apply in_map_iff in I1. destruct I1 as (q' & [= -> <-] & _).
    unfold of_requester in I2. apply filter_In in I2. apply I2.
Qed.
End P.
