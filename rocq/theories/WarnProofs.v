(** * WarnProofs *)
From Verif Require Import Base WarnModel WarnSpec.
Open Scope string_scope.
Open Scope list_scope.
Open Scope nat_scope.

Definition top : Z := (2 ^ 32)%Z.

Lemma of_kind_app k a b : of_kind k (a ++ b) = of_kind k a ++ of_kind k b.
Proof. unfold of_kind. now rewrite filter_app, map_app. Qed.

Lemma of_kind_lines k j ls : of_kind k (map (fun l => (j, l)) ls) = if kind_eq_dec j k then ls else [].
Proof.
  unfold of_kind. induction ls as [|l r IH]; cbn; [destruct (kind_eq_dec j k); reflexivity|].
  destruct (kind_eq_dec j k) as [E|N]; cbn; [|exact IH]. now rewrite IH.
Qed.

Lemma warn_all_snoc ws k m w : warn_all (ws ++ [(k, m)]) w =
  let (w1, out) := warn_all ws w in
  let '(w2, lines, _) := warn k m w1 in (w2, out ++ map (fun l => (k, l)) lines).
Proof.
  revert w. induction ws as [|[j n] r IH]; intro w; cbn.
  - destruct (warn k m w) as [[w2 lines] res]. now rewrite app_nil_r.
  - destruct (warn j n w) as [[w1 lines] res]. rewrite IH. destruct (warn_all r w1) as [w2 out].
    destruct (warn k m w2) as [[w3 lines'] res']. now rewrite app_assoc.
Qed.

Lemma seen_snoc k l msgs m : seen k l (msgs ++ [m]) = seen k l msgs ++
  (if Nat.ltb (length msgs) l then [String.append (prefix k) (String.append ": " m)]
   else if Nat.eqb (length msgs) 0 then []
   else if Nat.eqb (length msgs) l then [String.append "Further " (String.append (prefix k) "s will be suppressed.")] else []).
Proof.
  unfold seen. rewrite firstn_app, app_length. cbn [length]. destruct (Nat.ltb_spec (length msgs) l) as [L|L].
  - rewrite (firstn_all2 msgs) by lia. replace (l - length msgs) with (S (l - length msgs - 1)) by lia. cbn [firstn].
    rewrite firstn_nil. destruct (Nat.ltb_spec l (length msgs + 1)); [lia|]. destruct (Nat.ltb_spec l (length msgs)); [lia|].
    rewrite !andb_false_r, !app_nil_r, map_app. reflexivity.
  - replace (l - length msgs) with 0 by lia. cbn [firstn]. rewrite app_nil_r, <- app_assoc. f_equal.
    destruct (Nat.ltb_spec 0 l) as [P|P]; cbn [andb].
    + destruct (Nat.ltb_spec l (length msgs + 1)); [|lia]. destruct (Nat.eqb_spec (length msgs) 0); [lia|].
      destruct (Nat.ltb_spec l (length msgs)); destruct (Nat.eqb_spec (length msgs) l); try lia; reflexivity.
    + destruct (Nat.eqb_spec (length msgs) 0); [reflexivity|]. destruct (Nat.eqb_spec (length msgs) l); [lia|reflexivity].
Qed.

Lemma warn_inv l ws : let (w, out) := warn_all ws (fresh l false) in
  limit w = l /\ as_error w = false /\ forall k, count w k = (Z.of_nat (length (of_kind k ws)) mod top)%Z.
Proof.
  induction ws as [|[k m] r IH] using rev_ind; [cbn; auto|].
  rewrite warn_all_snoc. destruct (warn_all r (fresh l false)) as [w out]. destruct IH as (A & B & C).
  unfold warn. rewrite B. cbn. split; [exact A|]. split; [reflexivity|]. intro j.
  rewrite of_kind_app, app_length. unfold kind_eqb. destruct (kind_eq_dec j k) as [->|N].
  - rewrite C. unfold of_kind at 2. cbn. destruct (kind_eq_dec k k) as [_|N]; [|contradiction]. cbn.
    rewrite Nat2Z.inj_add. change (Z.of_nat 1) with 1%Z. unfold top. change 4294967296%Z with (2 ^ 32)%Z.
    apply Z.add_mod_idemp_l. discriminate.
  - rewrite C. unfold of_kind at 3. cbn. destruct (kind_eq_dec k j) as [E|_]; [congruence|]. cbn. now rewrite Nat.add_0_r.
Qed.

Lemma warn_seen l ws : (0 <= l)%Z -> forall k, (Z.of_nat (length (of_kind k ws)) <= top)%Z ->
  of_kind k (snd (warn_all ws (fresh l false))) = seen k (Z.to_nat l) (of_kind k ws).
Proof.
  intro L. induction ws as [|[j m] r IH] using rev_ind; intros k T.
  { unfold seen. cbn. rewrite firstn_nil. destruct (Nat.ltb_spec (Z.to_nat l) 0); [lia|]. now rewrite andb_false_r. }
  rewrite warn_all_snoc. pose proof (warn_inv l r) as V. specialize (IH k).
  destruct (warn_all r (fresh l false)) as [w out] eqn:E. destruct V as (A & B & C). cbn [snd] in IH.
  rewrite of_kind_app, app_length in T.
  destruct (warn j m w) as [[w2 lines] res] eqn:W. cbn [snd]. rewrite !of_kind_app, of_kind_lines, IH by lia.
  unfold of_kind at 3. cbn [filter fst]. unfold of_kind at 2 in T. cbn [filter fst] in T.
  destruct (kind_eq_dec j k) as [->|N]; [|cbn; now rewrite !app_nil_r]. cbn [map snd].
  rewrite seen_snoc. f_equal. unfold warn in W. rewrite B in W. injection W as _ <- _. rewrite A, C.
  cbn [map length] in T. rewrite Z.mod_small by lia. set (n := length (of_kind k r)) in *.
  destruct (Z.ltb_spec (Z.of_nat n) l), (Nat.ltb_spec n (Z.to_nat l)); try lia; try reflexivity.
  destruct (Z.eqb_spec (Z.of_nat n) 0), (Nat.eqb_spec n 0); try lia; try reflexivity.
  destruct (Z.eqb_spec (Z.of_nat n) l), (Nat.eqb_spec n (Z.to_nat l)); try lia; reflexivity.
Qed.

Lemma settings_last h : (forall b, ~ In (SetNoMem b) h) ->
  report (settings h) = last_set says_report 0 h /\
  no_agent (settings h) = last_set says_no_agent false h /\ no_mem (settings h) = last_set says_no_mem false h.
Proof.
  enough (G : forall s, (forall b, ~ In (SetNoMem b) h) ->
    report (fold_left set h s) = fold_left (fun acc x => match says_report x with Some v => v | None => acc end) h (report s) /\
    no_agent (fold_left set h s) = fold_left (fun acc x => match says_no_agent x with Some v => v | None => acc end) h (no_agent s) /\
    no_mem (fold_left set h s) = fold_left (fun acc x => match says_no_mem x with Some v => v | None => acc end) h (no_mem s))
    by apply (G start).
  induction h as [|x r IH]; intros s N; cbn; [auto|].
  destruct (IH (set s x)) as (A & B & C); [intros b K; apply (N b); now right|]. rewrite A, B, C.
  destruct x; cbn; auto. exfalso. apply (N b). now left.
Qed.
