(** The SQLite backend: what other readers and the backend itself answer. *)
From Coq Require Import String Ascii QArith List Bool Arith ZArith Lia.
From Verif Require Import Base SqlModel SqlSpec SqlProofs SqlProofs2 SqlProofs3.
Import ListNotations.
Open Scope list_scope.

Lemma no_nul_app a b : no_nul (a ++ b)%string -> no_nul b.
Proof. induction a as [|x a IH]; cbn; [auto|]. intros [_ H]. auto. Qed.
Lemma clean_back {X} ser deser (v v' : sval X) : clean ser deser v -> comes_back ser deser v v' -> v' = v.
Proof.
  intros [_ C] B. destruct B; auto; try (now destruct C).
  apply no_nul_app in C. destruct C as [C _]. now destruct C.
Qed.

Section Proofs.
Variable X : Type.
Variable plain : string -> bool.
Variable trouble : nat -> option bool.
Variable ser : nat -> X -> string.
Variable deser : nat -> string -> option X.
Variable conv : affinity -> cell -> cell.
Variable as_int : cell -> Z.
Variable as_dbl : cell -> dbl.
Variable as_text : cell -> string.
Notation vals := (dt_vals X).
Notation Went := (went X plain trouble ser conv).
Notation QueryB := (query X deser as_int as_dbl as_text).

Theorem values h b t n d l : Went h b -> titles_apart h -> steady h t -> of_title t (kept h) = d :: l ->
  (forall d, In d (of_title t (kept h)) -> Forall (fun p => clean ser deser (snd p)) (vals d)) ->
  exists types, map Some types = map snd (shape d) /\
    QueryB t (open_back (k_disk (b_conn b)) n) =
      Ok (mkQR X (map fst (vals d)) types (map (fun d => map snd (vals d)) (of_title t (kept h)))).
Proof.
  intros W A S E C.
  assert (F : forall d, In d (of_title t (kept h)) -> Forall (fun p => sound ser deser (snd p)) (vals d)).
  { intros x I. eapply Forall_impl; [|apply C, I]. intros p [P _]. exact P. }
  pose proof (content X plain trouble ser deser conv as_int as_dbl as_text h b t W A S F) as Q.
  destruct (of_title t (kept h)) as [|d0 l0] eqn:E0; [discriminate|]. injection E as -> ->.
  destruct Q as (types & rows & Q1 & Q2 & Q3). exists types. split; [exact Q2|]. unfold query, open_back. cbn [b_conn now k_txn k_disk].
  rewrite Q1. do 2 f_equal. revert C Q3. generalize (d :: l). clear.
  intros ds C Q3. induction Q3 as [|x row ds rows R Q IH]; cbn; [reflexivity|]. f_equal; [|apply IH; intros y I; apply C; now right].
  specialize (C x (or_introl eq_refl)). clear - C R.
  revert row R. induction (vals x) as [|[f v] vs IH]; cbn in *; intros row R; inversion R as [|a b c e B R']; subst; [reflexivity|].
  apply Forall_cons_iff in C. destruct C as [C1 C2]. f_equal; [eapply clean_back; eauto|auto].
Qed.
Theorem view l h b n t : Went (Recorded l (Ok tt) :: h) b ->
  QueryB t b = QueryB t (open_back (k_disk (b_conn b)) n) /\ tables b = tables (open_back (k_disk (b_conn b)) n).
Proof.
  intros W. inversion W as [|h0 b0 l0 r0 b1 W0 N R|]; subst.
  assert (T : k_txn (b_conn b) = None) by (eapply (notify_txn X plain trouble ser conv); eauto).
  unfold query, tables, now, open_back. cbn. rewrite T. auto.
Qed.
End Proofs.
