(** The loop of the flat format ends when every line of parents does. *)
From Coq Require Import String Ascii List ZArith Bool Arith Lia Permutation.
From Verif Require Import Base SpecModel SimModel LoaderModel LoaderSpec LoaderProofs LoaderProofs2 LoaderProofs3 LoaderProofs4 LoaderProofs5.
From Verif Require PpModel.
Import PpModel(xml(..), Name, QPath, find_path).
Import ListNotations.
Local Open Scope string_scope.

Section Ends.
Variable beh : hook -> sim -> prog.
Variable cond : nat -> sim -> bool.
Variable fuel : nat.
Variable table : list (string * (string * string)).
Variable rank : string -> nat.
Hypothesis Hends : forall proto par s, fst (build_agent beh cond fuel proto par s) <> NoFuel.

Notation place := (place beh cond fuel).
Definition good (rem : list string) (seen : list (string * nat)) : Prop :=
  forall x, In x rem -> exists proto parent, find_last x table = Some (proto, parent) /\
    (parent = "" \/ In parent (map fst seen) \/ (In parent rem /\ (rank parent < rank x)%nat)).
Definition blocked (l : list string) (seen : list (string * nat)) : Prop :=
  forall x proto parent, In x l -> find_last x table = Some (proto, parent) -> parent <> "" /\ ~ In parent (map fst seen).
Lemma good_not_blocked rem seen : rem <> [] -> good rem seen -> ~ blocked rem seen.
Proof.
  intros Ne G B. assert (X : forall r x, (rank x < r)%nat -> In x rem -> False).
  { induction r as [|r IH]; intros x L Hx; [lia|]. destruct (G x Hx) as (proto & parent & F & [H|[H|[H Lr]]]).
    - apply (B x proto parent Hx F) in H. exact H.
    - apply (B x proto parent Hx F) in H. exact H.
    - apply (IH parent); [lia|exact H]. }
  destruct rem as [|x rem]; [congruence|]. apply (X (S (rank x)) x); [lia|simpl; auto].
Qed.
Lemma good_built pre name post seen a : good (pre ++ name :: post) seen -> good (pre ++ post) (seen ++ [(name, a)]).
Proof.
  intros G x Hx. assert (Hx' : In x (pre ++ name :: post)) by (apply in_or_app; apply in_app_or in Hx; simpl; tauto).
  destruct (G x Hx') as (proto & parent & F & H). exists proto, parent. split; [exact F|].
  rewrite map_app. simpl. destruct H as [H|[H|[H L]]]; auto.
  - right. left. apply in_or_app. auto.
  - apply in_app_or in H. destruct H as [H|[<-|H]].
    + right. right. split; [apply in_or_app; auto|exact L].
    + right. left. apply in_or_app. simpl. auto.
    + right. right. split; [apply in_or_app; auto|exact L].
Qed.

Definition ends_at (k b : nat) : Prop := forall n pre post seen s,
  (List.length pre + List.length post = k)%nat -> good (pre ++ post) seen -> (b <= n)%nat ->
  fst (place n table pre post seen s) <> NoFuel.

Lemma bind_ends {A B} (m : M A) (f : A -> M B) s : fst (m s) <> NoFuel -> (forall a s1, fst (f a s1) <> NoFuel) ->
  fst (bind m f s) <> NoFuel.
Proof. intros H1 H2. unfold bind. destruct (m s) as [[a|e| |] s1]; simpl in *; auto; discriminate. Qed.

Lemma built_ends k b n pre name post seen a s : ends_at k b -> (List.length pre + List.length (name :: post) = S k)%nat ->
  good (pre ++ name :: post) seen -> (b <= n)%nat ->
  fst (match post with [] => place n table [] pre (seen ++ [(name, a)]) | _ => place n table pre post (seen ++ [(name, a)]) end s) <> NoFuel.
Proof.
  intros K L G B. apply (good_built _ _ _ _ a) in G. simpl in L. destruct post as [|y post].
  - apply K; [simpl in *; lia|rewrite app_nil_r in G; exact G|exact B].
  - apply K; [simpl in *; lia|exact G|exact B].
Qed.

Lemma second_pass k b : ends_at k b -> forall post pre n seen s,
  (List.length pre + List.length post = S k)%nat -> good (pre ++ post) seen -> blocked pre seen -> (b + List.length post <= n)%nat ->
  post <> [] -> fst (place n table pre post seen s) <> NoFuel.
Proof.
  intros K. induction post as [|name post IH]; intros pre n seen s L G B N Ne; [congruence|].
  destruct n as [|n]; [simpl in N; lia|]. cbn [LoaderModel.place]. simpl in N.
  destruct (G name) as (proto & parent & F & _); [apply in_or_app; simpl; auto|]. rewrite F.
  destruct (String.eqb_spec parent "") as [Ep|Ep].
  { apply bind_ends; [apply Hends|]. intros a s1. apply (built_ends k b); auto. lia. }
  destruct (find_last parent seen) as [p|] eqn:Fp.
  { apply bind_ends; [apply Hends|]. intros a s1. apply (built_ends k b); auto. lia. }
  assert (B' : blocked (pre ++ [name]) seen).
  { intros x pr pa Hx Fx. apply in_app_or in Hx. destruct Hx as [Hx|[<-|[]]]; [eapply B; eauto|].
    rewrite F in Fx. injection Fx as <- <-. split; [exact Ep|]. apply find_last_none, Fp. }
  destruct post as [|y post].
  - exfalso. apply (good_not_blocked (pre ++ [name]) seen); auto. destruct pre; discriminate.
  - apply IH; [rewrite app_length; simpl in *; lia|rewrite <- app_assoc; exact G|exact B'|simpl in *; lia|discriminate].
Qed.
Lemma first_pass k b : ends_at k b -> forall post pre n seen s,
  (List.length pre + List.length post = S k)%nat -> good (pre ++ post) seen -> (b + S k + List.length post <= n)%nat ->
  fst (place n table pre post seen s) <> NoFuel.
Proof.
  intros K. induction post as [|name post IH]; intros pre n seen s L G N.
  { destruct n as [|n]; [lia|]. cbn [LoaderModel.place]. destruct pre; discriminate. }
  destruct n as [|n]; [simpl in N; lia|]. cbn [LoaderModel.place]. simpl in N.
  destruct (G name) as (proto & parent & F & _); [apply in_or_app; simpl; auto|]. rewrite F.
  destruct (String.eqb_spec parent "") as [Ep|Ep].
  { apply bind_ends; [apply Hends|]. intros a s1. apply (built_ends k b); auto. lia. }
  destruct (find_last parent seen) as [p|] eqn:Fp.
  { apply bind_ends; [apply Hends|]. intros a s1. apply (built_ends k b); auto. lia. }
  destruct post as [|y post].
  - apply (second_pass k b); auto.
    + rewrite app_length. simpl in *. lia.
    + intros x pr pa [].
    + rewrite app_length. simpl in *. lia.
    + destruct pre; discriminate.
  - apply IH; [rewrite app_length; simpl in *; lia|rewrite <- app_assoc; exact G|simpl in *; lia].
Qed.
Lemma place_ends k : ends_at k ((k + 1) * (k + 1)).
Proof.
  induction k as [|k IH]; intros n pre post seen s L G N.
  - destruct pre, post; simpl in L; try lia. destruct n as [|n]; [simpl in N; lia|]. simpl. discriminate.
  - apply (first_pass k _ IH); auto. nia.
Qed.
End Ends.

Lemma rows_good ms rank :
  (forall n m q, last_said ms n m -> me_parent m = Some q -> In q (map me_name ms) /\ (rank q < rank n)%nat) ->
  good (map row_of ms) rank (fold_left (fun acc e => sset_ins (fst e) acc) (map row_of ms) []) [].
Proof.
  intros R x Hx. apply names_in in Hx. destruct Hx as [[]|Hx]. 
  destruct (find_last x (map row_of ms)) as [v|] eqn:F; [|apply find_last_none in F; contradiction].
  destruct (last_row _ _ _ F) as (m & Ls & ->). exists (me_proto m), (or_else (me_parent m) ""). split; [reflexivity|].
  destruct (me_parent m) as [q|] eqn:Eq; [|left; reflexivity]. right. right.
  destruct (R _ _ _ Ls Eq) as [Hq Hr]. split; [|exact Hr]. apply names_in. right. rewrite map_map. exact Hq.
Qed.

Lemma sset_length y l : (List.length (sset_ins y l) <= S (List.length l))%nat.
Proof. induction l; simpl; [lia|]. destruct (String.compare _ _); simpl; lia. Qed.
Lemma names_length {A} (t : list (string * A)) : forall acc,
  (List.length (fold_left (fun acc e => sset_ins (fst e) acc) t acc) <= List.length acc + List.length t)%nat.
Proof.
  induction t as [|e t IH]; intros acc; simpl; [lia|]. specialize (IH (sset_ins (fst e) acc)).
  pose proof (sset_length (fst e) acc). lia.
Qed.

Lemma lift_ends {A} (r : result A) s : fst (lift r s) <> NoFuel. Proof. destruct r; discriminate. Qed.
Lemma bind_ends_in {A B} (m : M A) (f : A -> M B) s : fst (m s) <> NoFuel ->
  (forall a s1, m s = (Normal a, s1) -> fst (f a s1) <> NoFuel) -> fst (bind m f s) <> NoFuel.
Proof. intros H1 H2. unfold bind. destruct (m s) as [[a|e| |] s1]; simpl in *; auto; discriminate. Qed.
Lemma collect_ends {A B} (f : A -> M B) l : (forall x s, fst (f x s) <> NoFuel) -> forall s, fst (collect f l s) <> NoFuel.
Proof.
  intro H. induction l as [|x l IH]; intro s; [discriminate|]. cbn [collect].
  apply bind_ends; [apply H|]. intros. apply bind_ends; [apply IH|]. discriminate.
Qed.
Lemma load_proto_ends make read specs qe s : fst (load_proto make read specs qe s) <> NoFuel.
Proof.
  unfold load_proto. repeat (apply bind_ends; [apply lift_ends|intros]).
  apply bind_ends; [discriminate|intros]. repeat (apply bind_ends; [apply lift_ends|intros]).
  apply bind_ends. { unfold modify_agent. apply bind_ends; [|discriminate]. unfold deref. destruct (get _ _); discriminate. }
  intros. apply bind_ends; [|discriminate]. unfold add_prototype. apply bind_ends; [discriminate|].
  intros b s9. destruct (_ && _); [discriminate|]. apply bind_ends; [|discriminate].
  unfold deref. destruct (get _ _); discriminate.
Qed.

Lemma flat_ends beh cond make read fuel n x f s0 :
  says_flat x f -> rooted (fl_members f) ->
  (forall proto par s, fst (build_agent beh cond fuel proto par s) <> NoFuel) ->
  ((List.length (fl_members f) + 1) * (List.length (fl_members f) + 1) <= n)%nat ->
  fst (load_flat_file beh cond make read fuel n x s0) <> NoFuel.
Proof.
  intros (Ha & Hf & Hm) (rank & R) He N. unfold load_flat_file. apply bind_ends; [apply lift_ends|]. intros specs s1.
  unfold load_flat_agents. apply bind_ends.
  { rewrite over_collect. apply collect_ends. intros. apply load_proto_ends. }
  intros ps s2. apply bind_ends_in.
  { rewrite over_collect. apply collect_ends. intros y s. unfold read_agent. repeat (apply bind_ends; [apply lift_ends|intros]). discriminate. }
  intros table s3 E. rewrite over_collect, find1 in E. destruct (members_read _ _ _ _ _ Hm E) as [-> ->].
  apply bind_ends; [|discriminate].
  eapply (place_ends beh cond fuel (map row_of (fl_members f)) rank He); [reflexivity|apply rows_good, R|].
  assert (L := names_length (map row_of (fl_members f)) []). rewrite map_length in L. simpl in L |- *. nia.
Qed.
