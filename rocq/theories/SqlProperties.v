(** C55: what is recorded in a SQLite file is what is read from it. *)
From Coq Require Import String Ascii QArith List Bool Arith ZArith Lia.
From Verif Require Import Base SqlModel SqlSpec SqlProofs SqlProofs2 SqlProofs3 SqlProofs4 SqlProofs5 SqlExamples.
Import ListNotations.
Open Scope list_scope.

(** A file written by any number of programs one after the other, each ending in any way, with statements failing at any
    point: for a title whose data all list the same fields with the same supported types, the program that opens the file
    next finds exactly the data of that title that were kept, in order, with the fields and types they had. *)
Theorem C55_content X plain trouble ser deser conv as_int as_dbl as_text h b t n :
  went X plain trouble ser conv h b -> titles_apart h -> steady h t ->
  (forall d, In d (of_title t (kept h)) -> Forall (fun p => sound ser deser (snd p)) (dt_vals X d)) ->
  match of_title t (kept h) with
  | [] => query X deser as_int as_dbl as_text t (open_back (k_disk (b_conn b)) n) = Throw ValueError
  | d :: _ => exists types rows,
      query X deser as_int as_dbl as_text t (open_back (k_disk (b_conn b)) n) = Ok (mkQR X (map fst (dt_vals X d)) types rows) /\
      map Some types = map snd (shape d) /\
      Forall2 (fun d row => Forall2 (comes_back ser deser) (map snd (dt_vals X d)) row) (of_title t (kept h)) rows
  end.
Proof. exact (content X plain trouble ser deser conv as_int as_dbl as_text h b t). Qed.
Print Assumptions C55_content.
Example C55_content_case : went1 h3 b3 /\ titles_apart h3 /\ (forall t, steady h3 t) /\ of_title "Agents" (kept h3) = [d1; d2] /\
  (exists ty, ask1 "Agents" (open_back (k_disk (b_conn b3)) 0) =
     Ok (mkQR unit ["Id"; "Kind"; "Share"]%string ty [[SInt 1; SStr "Region"; SDbl (Fin (1 # 2))]; [SInt 2; SStr "Inst"; SDbl (Inf true)]])) /\
  ask1 "Nothing" b3 = Throw ValueError.
Proof.
  split; [exact h3_went|]. split; [exact h3_apart|]. split; [exact h3_steady|]. split; [reflexivity|].
  split; [|vm_compute; reflexivity]. exists [INT; STRING; DOUBLE]. vm_compute. reflexivity.
Qed.

(** Values other than NaN, and texts without NUL characters, come back as they were. *)
Theorem C55_values X plain trouble ser deser conv as_int as_dbl as_text h b t n d l :
  went X plain trouble ser conv h b -> titles_apart h -> steady h t -> of_title t (kept h) = d :: l ->
  (forall d, In d (of_title t (kept h)) -> Forall (fun p => clean ser deser (snd p)) (dt_vals X d)) ->
  exists types, map Some types = map snd (shape d) /\
    query X deser as_int as_dbl as_text t (open_back (k_disk (b_conn b)) n) =
      Ok (mkQR X (map fst (dt_vals X d)) types (map (fun d => map snd (dt_vals X d)) (of_title t (kept h)))).
Proof. exact (values X plain trouble ser deser conv as_int as_dbl as_text h b t n d l). Qed.
Print Assumptions C55_values.
Example C55_values_case : went1 h3 b3 /\ of_title "Log" (kept h3) = [d3] /\
  (forall d, In d (kept h3) -> Forall (fun p => clean ser1 deser1 (snd p)) (dt_vals unit d)) /\
  ask1 "Log" b3 = Ok (mkQR unit ["What"; "Done"]%string [OBJ 3; BOOL] [[SObj 3 tt; SBool true]]).
Proof. split; [exact h3_went|]. split; [reflexivity|]. split; [exact h3_clean|]. vm_compute. reflexivity. Qed.

(** The tables of the file are the titles of the data that were kept, each once. *)
Theorem C55_tables X plain trouble ser conv h b n : went X plain trouble ser conv h b -> titles_apart h ->
  NoDup (tables (open_back (k_disk (b_conn b)) n)) /\
  forall t, In t (tables (open_back (k_disk (b_conn b)) n)) <-> exists d, In d (kept h) /\ dt_title X d = t.
Proof. exact (tables_kept X plain trouble ser conv h b). Qed.
Print Assumptions C55_tables.
Example C55_tables_case : went1 h3 b3 /\ titles_apart h3 /\ tables (open_back (k_disk (b_conn b3)) 0) = ["Agents"; "Log"]%string.
Proof. split; [exact h3_went|]. split; [exact h3_apart|]. vm_compute. reflexivity. Qed.

(** After an accepted delivery the backend itself answers as a program would that opens the file. *)
Theorem C55_view X plain trouble ser deser conv as_int as_dbl as_text l h b n t :
  went X plain trouble ser conv (Recorded l (Ok tt) :: h) b ->
  query X deser as_int as_dbl as_text t b = query X deser as_int as_dbl as_text t (open_back (k_disk (b_conn b)) n) /\
  tables b = tables (open_back (k_disk (b_conn b)) n).
Proof. exact (view X plain trouble ser deser conv as_int as_dbl as_text l h b n t). Qed.
Print Assumptions C55_view.
Example C55_view_case : went1 [Recorded [d1; d3] (Ok tt)] b1 /\ tables b1 = ["Agents"; "Log"]%string.
Proof. split; [apply went_step; [apply went_new| |discriminate]; vm_compute; reflexivity|]. vm_compute. reflexivity. Qed.

(** If no statement fails, data in good order are all accepted: every title has fields of the same names and types
    throughout, no two titles and no two fields of a datum differ only in case, all names can be written in SQL. *)
Theorem C55_accepted X plain trouble ser conv h b : (forall n, trouble n = None) ->
  went X plain trouble ser conv h b -> titles_apart h -> (forall t, steady h t) ->
  (forall d, delivered h d -> dt_vals X d <> [] /\ plain (dt_title X d) = true /\ (forall p, In p (dt_vals X d) -> plain (fst p) = true) /\
     distinct_names (map fst (dt_vals X d)) = true) ->
  forall l r, In (Recorded l r) h -> r = Ok tt.
Proof. intros C. exact (accepted X plain trouble ser conv C h b). Qed.
Print Assumptions C55_accepted.
Example C55_accepted_case : (forall n, calmly n = None) /\ went1 h3 b3 /\ titles_apart h3 /\ (forall t, steady h3 t) /\
  (forall d, delivered h3 d -> dt_vals unit d <> [] /\ anyname (dt_title unit d) = true /\ (forall p, In p (dt_vals unit d) -> anyname (fst p) = true) /\
     distinct_names (map fst (dt_vals unit d)) = true).
Proof.
  split; [reflexivity|]. split; [exact h3_went|]. split; [exact h3_apart|]. split; [exact h3_steady|].
  intros d D. apply h3_delivered in D. destruct D as [->|[->| ->]]; (split; [discriminate|split; [reflexivity|split; [reflexivity|vm_compute; reflexivity]]]).
Qed.

(** A delivery that fails otherwise than with ValueError leaves its transaction open: every later delivery to the same
    backend fails, and nothing of it is kept, until the file is opened anew. *)
Theorem C55_stuck X plain trouble ser conv evs l e h b : (forall n, trouble n = None) ->
  went X plain trouble ser conv (evs ++ Recorded l (Throw e) :: h) b -> e <> ValueError -> ~ In Reopened evs ->
  forall ev, In ev evs -> exists l', ev = Recorded l' (Throw IOError).
Proof. intros C W N R. exact (proj1 (stuck X plain trouble ser conv C evs l e h b W N R)). Qed.
Print Assumptions C55_stuck.
Example C55_stuck_case : went1 ([Recorded [d3] (Throw IOError); Recorded [d2] (Throw IOError)] ++ [Recorded [d5] (Throw CastError); Recorded [d1] (Ok tt)])
    (run1 (run1 (run1 (run1 start [d1]) [d5]) [d2]) [d3]).
Proof.
  cbn [app]. apply went_step; [apply went_step; [apply went_step; [apply went_step; [apply went_new| |discriminate]| |discriminate]| |discriminate]| |discriminate];
  vm_compute; reflexivity.
Qed.

(** Not so: one value of the wrong type costs only its own delivery. *)
Theorem C55_later_refuted : ~ (forall h b l, went1 h b -> (forall d, In d l -> In d [d1; d2; d3]) -> fst (note1 l b) = Ok tt).
Proof.
  intros H. assert (W : went1 [Recorded [d5] (Throw CastError); Recorded [d1] (Ok tt)] (run1 (run1 start [d1]) [d5])).
  { apply went_step; [apply went_step; [apply went_new| |discriminate]| |discriminate]; vm_compute; reflexivity. }
  specialize (H _ _ [d2] W). assert (A : forall d, In d [d2] -> In d [d1; d2; d3]) by (intros d [<-|[]]; cbn; auto).
  specialize (H A). vm_compute in H. discriminate.
Qed.
Print Assumptions C55_later_refuted.

(** Not so: a refused delivery leaves nothing. With ValueError the data before the bad one are kept. *)
Theorem C55_all_or_nothing_refuted : ~ (forall h b l, went1 h b -> fst (note1 l b) <> Ok tt -> k_disk (b_conn (run1 b l)) = k_disk (b_conn b)).
Proof.
  intros H. specialize (H [] start [d1; d4] (went_new _ _ _ _ _ 0)).
  assert (A : fst (note1 [d1; d4] start) <> Ok tt) by (vm_compute; discriminate). specialize (H A).
  apply (f_equal (fun w => length (d_tabs w))) in H. vm_compute in H. discriminate.
Qed.
Print Assumptions C55_all_or_nothing_refuted.

(** Not so: a title that was refused once can be recorded later with supported values. The name is remembered although
    the table was not made, and the later datum also blocks the backend. *)
Theorem C55_again_refuted : ~ (forall h b d, went1 h b -> In d [d1; d2; d3] -> fst (note1 [d4] b) = Throw ValueError ->
  fst (note1 [d] (run1 b [d4])) = Ok tt).
Proof.
  intros H. specialize (H [] start d3 (went_new _ _ _ _ _ 0)). assert (A : In d3 [d1; d2; d3]) by (cbn; auto).
  specialize (H A eq_refl). vm_compute in H. discriminate.
Qed.
Print Assumptions C55_again_refuted.

(** Not so: every double and every text comes back as it was. *)
Theorem C55_exact_refuted : ~ (forall v, fst (note1 [mkDatum unit "T" [("v"%string, v)]] start) = Ok tt ->
  exists ty, ask1 "T" (run1 start [mkDatum unit "T" [("v"%string, v)]]) = Ok (mkQR unit ["v"%string] ty [[v]])).
Proof.
  intros H. destruct (H (SDbl NaN) eq_refl) as [ty E]. vm_compute in E. discriminate.
Qed.
Print Assumptions C55_exact_refuted.
Example C55_cut : exists ty, ask1 "T" (run1 start [mkDatum unit "T" [("v"%string, SStr (String "a" (String zero "b")))]]) =
  Ok (mkQR unit ["v"%string] ty [[SStr "a"]]).
Proof. exists [STRING]. vm_compute. reflexivity. Qed.
