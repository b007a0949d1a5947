(** Proofs for C43, part 1: dictionaries, code keys, evaluation. *)
From Coq Require Import String List ZArith QArith Ascii Bool Lia DecimalString DecimalNat Decimal.
From Verif Require Import Base QueryModel QuerySpec QueryProofs MemBackModel MemBackSpec.
Import ListNotations.
Local Open Scope list_scope.

(** ** Dictionaries *)
Lemma sfind_sset {A} s t (v : A) l : sfind s (sset t v l) = if String.eqb s t then Some v else sfind s l.
Proof.
  induction l as [|[k w] l IH]; cbn; [reflexivity|]. destruct (String.eqb_spec t k) as [->|N]; cbn.
  - now destruct (String.eqb_spec s k).
  - destruct (String.eqb_spec s k) as [->|M]; [|exact IH]. destruct (String.eqb_spec k t); [congruence|reflexivity].
Qed.
Lemma sfind_sdel {A} s t (l : list (string * A)) : sfind s (sdel t l) = if String.eqb s t then None else sfind s l.
Proof.
  unfold sdel. induction l as [|[k w] l IH]; cbn; [now destruct (String.eqb s t)|]. destruct (String.eqb_spec t k) as [->|N]; cbn.
  - rewrite IH. now destruct (String.eqb_spec s k).
  - rewrite IH. destruct (String.eqb_spec s k) as [->|M]; [|reflexivity]. destruct (String.eqb_spec k t); [congruence|reflexivity].
Qed.
Lemma sfind_In {A} s (l : list (string * A)) v : sfind s l = Some v -> In s (map fst l).
Proof. induction l as [|[k w] l IH]; cbn; [discriminate|]. destruct (String.eqb_spec s k) as [->|N]; [now left|right; auto]. Qed.
Lemma smem_In s l : smem s l = true <-> In s l.
Proof. unfold smem. rewrite existsb_exists. split; [intros [x [I E]]; apply String.eqb_eq in E; now subst|]. intros I. exists s. split; [assumption|apply String.eqb_refl]. Qed.

(** ** Names *)
Definition op_char (c : ascii) : Prop := In c ["<"; ">"; "="; "!"]%char.
Definition op_free (f : string) : Prop := f <> EmptyString /\ forall c, In c (list_ascii_of_string f) -> ~ op_char c.
Lemma plain_op_free f : plain_name f -> op_free f.
Proof. intros [N [C _]]. split; assumption. Qed.
Lemma digits_op_free u : forall c, In c (list_ascii_of_string (NilEmpty.string_of_uint u)) -> ~ op_char c.
Proof. induction u; cbn; intros c H; [destruct H|..]; (destruct H as [<-|H]; [intros K; cbv in K; intuition discriminate|now apply IHu]). Qed.
Lemma val_name_op_free i : op_free (val_name i).
Proof.
  split; [discriminate|]. unfold val_name. intros c H. cbn [String.append list_ascii_of_string] in H.
  destruct H as [<-|[<-|[<-|H]]]; try (intros K; cbv in K; intuition discriminate). now apply digits_op_free in H.
Qed.
Lemma builtins_op_free : op_free "__builtins__".
Proof. split; [discriminate|]. intros c H K. cbv in H. repeat (destruct H as [<-|H]; [cbv in K; intuition discriminate|]). destruct H. Qed.
Lemma val_name_inj i j : val_name i = val_name j -> i = j.
Proof.
  unfold val_name. cbn [String.append]. intros H. injection H as H. apply (f_equal NilEmpty.uint_of_string) in H. rewrite !NilEmpty.usu in H. injection H as H.
  now apply Unsigned.to_uint_inj.
Qed.
Lemma val_name_not_builtins i : val_name i <> "__builtins__"%string.
Proof. discriminate. Qed.

(** ** Keys of code *)
Definition op_ok (op : string) : Prop := op <> EmptyString /\ forall c, In c (list_ascii_of_string op) -> op_char c.
Lemma known_op_ok op : known_op op = true -> op_ok op.
Proof.
  unfold known_op. rewrite smem_In. intros H. cbn [In] in H.
  repeat (destruct H as [<-|H]; [split; [discriminate|]; intros c K; cbv in K; unfold op_char; cbn [In]; tauto|]). destruct H.
Qed.
Definition key_of (c : code) : string := fold_right (fun p s => String.append (fst p) (String.append (snd p) s)) EmptyString c.
Lemma append_assoc a b c : String.append (String.append a b) c = String.append a (String.append b c).
Proof. induction a as [|x a IH]; cbn; [reflexivity|now rewrite IH]. Qed.
Lemma append_nil a : String.append a EmptyString = a.
Proof. induction a as [|x a IH]; cbn; [reflexivity|now rewrite IH]. Qed.
(** The first part of a text that consists of characters of one class, when the other class follows. *)
Lemma span_eq (P : ascii -> Prop) : forall a1 b1 a2 b2,
  (forall c, In c (list_ascii_of_string a1) -> P c) -> (forall c, In c (list_ascii_of_string a2) -> P c) ->
  (forall c s, b1 = String c s -> ~ P c) -> (forall c s, b2 = String c s -> ~ P c) ->
  String.append a1 b1 = String.append a2 b2 -> a1 = a2 /\ b1 = b2.
Proof.
  induction a1 as [|x a1 IH]; intros b1 a2 b2 H1 H2 N1 N2 E; destruct a2 as [|y a2]; cbn in E.
  - auto.
  - exfalso. apply (N1 y _ E). apply H2. now left.
  - exfalso. symmetry in E. apply (N2 x _ E). apply H1. now left.
  - injection E as -> E. destruct (IH b1 a2 b2) as [-> ->]; auto; intros c C; [apply H1|apply H2]; now right.
Qed.
Lemma app_starts a b c s : a <> EmptyString -> String.append a b = String c s -> In c (list_ascii_of_string a).
Proof. intros N E. destruct a as [|x a]; [congruence|]. cbn in E. injection E as -> _. now left. Qed.
Definition code_ok (c : code) : Prop := Forall (fun p => op_free (fst p) /\ op_ok (snd p)) c.
Lemma key_starts c a s : code_ok c -> key_of c = String a s -> ~ op_char a.
Proof.
  intros K E. destruct K as [|[f o] c [[FN F] _] K]; [discriminate|]. cbn in E. apply F. now apply app_starts in E.
Qed.
Lemma key_inj : forall c1 c2, code_ok c1 -> code_ok c2 -> key_of c1 = key_of c2 -> c1 = c2.
Proof.
  induction c1 as [|[f1 o1] c1 IH]; intros c2 K1 K2 E.
  - destruct c2 as [|[f2 o2] c2]; [reflexivity|]. inversion K2 as [|? ? [[N _] _] _]; subst. cbn in *. destruct f2; [congruence|discriminate].
  - inversion K1 as [|? ? [[N1 F1] [M1 O1]] K1']; subst. destruct c2 as [|[f2 o2] c2]; [cbn in *; destruct f1; [congruence|discriminate]|].
    inversion K2 as [|? ? [[N2 F2] [M2 O2]] K2']; subst. cbn in *.
    apply (span_eq (fun c => ~ op_char c)) in E as [-> E].
    + apply (span_eq op_char) in E as [-> E]; auto.
      * now rewrite (IH _ K1' K2' E).
      * intros c s X. now apply (key_starts c1) in X.
      * intros c s X. now apply (key_starts c2) in X.
    + exact F1.
    + exact F2.
    + intros c s X Y. apply Y. apply O1. now apply app_starts in X.
    + intros c s X Y. apply Y. apply O2. now apply app_starts in X.
Qed.

(** ** The context *)
Definition to_code (cs : list mcond) : code := map (fun c => (mc_field c, mc_op c)) cs.
(** Every name in the context is free of operator characters, when the columns are. *)
Lemma build_key df : forall cs i key ctx key' ctx', build_ctx df cs i key ctx = Ok (key', ctx') ->
  key' = String.append key (key_of (to_code cs)).
Proof.
  induction cs as [|c cs IH]; intros i key ctx key' ctx'; cbn [build_ctx to_code map].
  - intros [= <- <-]. symmetry. apply append_nil.
  - destruct (sfind (mc_field c) ctx); [|destruct (df_column df (mc_field c)); [|discriminate]]; intros H; apply IH in H as ->; cbn [key_of fold_right fst snd];
      fold (key_of (map (fun c => (mc_field c, mc_op c)) cs)); fold (to_code cs); now rewrite !append_assoc.
Qed.
Lemma df_column_in df f col : df_column df f = Some col -> In f (fr_fields df).
Proof. unfold df_column. pose proof (field_index_spec (fr_fields df) f) as S. destruct (field_index _ _) as [i|]; [|discriminate]. intros _. eapply nth_error_In. apply S. Qed.
Lemma build_fields df : Forall plain_name (fr_fields df) -> forall cs i key ctx r,
  (forall f x, sfind f ctx = Some x -> op_free f) -> build_ctx df cs i key ctx = Ok r -> Forall (fun c => op_free (mc_field c)) cs.
Proof.
  intros P. induction cs as [|c cs IH]; intros i key ctx r O H; [constructor|]. cbn [build_ctx] in H.
  destruct (sfind (mc_field c) ctx) as [x|] eqn:S.
  - constructor; [now apply O in S|]. eapply IH; [|exact H]. intros f y. rewrite sfind_sset. destruct (String.eqb_spec f (val_name i)) as [->|]; [intros _; apply val_name_op_free|apply O].
  - destruct (df_column df (mc_field c)) as [col|] eqn:C; [|discriminate].
    assert (op_free (mc_field c)) as G by (apply plain_op_free; rewrite Forall_forall in P; apply P; now apply df_column_in in C).
    constructor; [assumption|]. eapply IH; [|exact H]. intros f y. rewrite !sfind_sset. destruct (String.eqb_spec f (val_name i)) as [->|]; [intros _; apply val_name_op_free|].
    destruct (String.eqb_spec f (mc_field c)) as [->|]; [auto|apply O].
Qed.
(** On columns of the frame the context is as intended. *)
Definition ctx_good (df : frame) (i : nat) (vals : nat -> option anyval) (ctx : list (string * ctxval)) : Prop :=
  (forall f x, plain_name f -> sfind f ctx = Some x -> exists col, x = CColumn col /\ df_column df f = Some col) /\
  (forall j, sfind (val_name j) ctx = match vals j with Some v => Some (CValue v) | None => None end) /\
  (forall j, (i <= j)%nat -> vals j = None).
Lemma build_good df : forall cs i key ctx vals, Forall (fun c => plain_name (mc_field c) /\ exists col, df_column df (mc_field c) = Some col) cs ->
  ctx_good df i vals ctx -> exists ctx', build_ctx df cs i key ctx = Ok (String.append key (key_of (to_code cs)), ctx') /\
    (forall k c, nth_error cs k = Some c -> sfind (val_name (i + k)) ctx' = Some (CValue (mc_val c))) /\
    (forall j v, vals j = Some v -> sfind (val_name j) ctx' = Some (CValue v)) /\
    (forall f x, plain_name f -> sfind f ctx = Some x -> sfind f ctx' = Some x) /\
    (forall c, In c cs -> exists col, sfind (mc_field c) ctx' = Some (CColumn col) /\ df_column df (mc_field c) = Some col).
Proof.
  induction cs as [|c cs IH]; intros i key ctx vals F [G1 [G2 G3]].
  - exists ctx. cbn [build_ctx to_code map key_of fold_right]. rewrite append_nil. split; [reflexivity|]. split; [intros [|k] c; discriminate|]. split; [intros j v V; rewrite G2, V; reflexivity|]. split; [auto|intros c []].
  - inversion F as [|? ? [PN [col COL]] F']; subst. cbn [build_ctx].
    assert (exists ctx1, (match sfind (mc_field c) ctx with Some _ => Ok ctx | None => match df_column df (mc_field c) with Some col => Ok (sset (mc_field c) (CColumn col) ctx) | None => Throw KeyError end end) = Ok ctx1 /\
      sfind (mc_field c) ctx1 = Some (CColumn col) /\ (forall f, f <> mc_field c -> sfind f ctx1 = sfind f ctx) /\ (forall x, sfind (mc_field c) ctx = Some x -> x = CColumn col)) as [ctx1 [E [C1 [C2 C3]]]].
    { destruct (sfind (mc_field c) ctx) as [x|] eqn:S.
      - destruct (G1 _ _ PN S) as [col' [-> D]]. rewrite COL in D. injection D as <-. exists ctx. repeat split; auto. intros x [= <-]. reflexivity.
      - rewrite COL. exists (sset (mc_field c) (CColumn col) ctx). split; [reflexivity|]. rewrite sfind_sset, String.eqb_refl. split; [reflexivity|]. split; [|discriminate].
        intros f N. rewrite sfind_sset. destruct (String.eqb_spec f (mc_field c)); [congruence|reflexivity]. }
    rewrite E. assert (forall j, val_name j <> mc_field c) as VN by (intros j X; destruct PN as [_ [_ [_ PN]]]; now apply (PN j)).
    set (ctx2 := sset (val_name i) (CValue (mc_val c)) ctx1).
    assert (forall f, f <> val_name i -> sfind f ctx2 = sfind f ctx1) as C4.
    { intros f N. unfold ctx2. rewrite sfind_sset. destruct (String.eqb_spec f (val_name i)); [congruence|reflexivity]. }
    set (vals2 := fun j => if (j =? i)%nat then Some (mc_val c) else vals j).
    destruct (IH (S i) (String.append key (String.append (mc_field c) (mc_op c))) ctx2 vals2 F') as [ctx' [H1 [H2 [H3 [H4 H5]]]]].
    { split; [|split].
      - intros f x PF S. rewrite C4 in S by (intros X; destruct PF as [_ [_ [_ PF]]]; now apply (PF i)).
        destruct (String.eqb_spec f (mc_field c)) as [->|N]; [rewrite C1 in S; injection S as <-; eauto|]. rewrite C2 in S by assumption. eauto.
      - intros j. unfold vals2. destruct (Nat.eqb_spec j i) as [->|N]; [unfold ctx2; now rewrite sfind_sset, String.eqb_refl|].
        rewrite C4 by (intros X; now apply val_name_inj in X). rewrite C2 by apply VN. apply G2.
      - intros j J. unfold vals2. destruct (Nat.eqb_spec j i); [lia|]. apply G3. lia. }
    exists ctx'. split; [rewrite H1; do 2 f_equal; cbn [to_code map key_of fold_right fst snd]; now rewrite !append_assoc|]. split; [|split; [|split]].
    + intros [|k] d D; cbn in D.
      * injection D as <-. rewrite Nat.add_0_r. apply H3. unfold vals2. now rewrite Nat.eqb_refl.
      * rewrite <- (H2 k d D). do 2 f_equal. lia.
    + intros j v V. apply H3. unfold vals2. destruct (Nat.eqb_spec j i) as [->|]; [rewrite G3 in V by lia; discriminate|assumption].
    + intros f x PF S. apply H4; [assumption|]. rewrite C4 by (intros X; destruct PF as [_ [_ [_ PF]]]; now apply (PF i)).
      destruct (String.eqb_spec f (mc_field c)) as [->|N]; [rewrite (C3 _ S); exact C1|now rewrite C2].
    + intros d [<-|D]; [|now apply H5]. exists col. split; [|assumption]. apply H4; [assumption|]. rewrite C4 by (intros X; now apply (VN i)). exact C1.
Qed.
Lemma ctx0_good df : ctx_good df 0 (fun _ => None) [("__builtins__"%string, CNothing)].
Proof.
  split; [|split; [|reflexivity]].
  - intros f x [_ [_ [N _]]] S. cbn in S. destruct (String.eqb_spec f "__builtins__"); [congruence|discriminate].
  - intros j. cbn [sfind]. destruct (String.eqb_spec (val_name j) "__builtins__") as [E|]; [now apply val_name_not_builtins in E|reflexivity].
Qed.

(** ** Evaluation *)
Definition row_ok (cmp : py_holds) (fields : list string) (cs : list mcond) (row : list anyval) : bool :=
  forallb (fun c => match field_index fields (mc_field c) with
                    | Some i => match nth_error row i with Some v => cmp (mc_op c) v (mc_val c) | None => false end
                    | None => false end) cs.
Lemma row_ok_spec cmp fields cs row : row_ok cmp fields cs row = true <-> meets cmp fields cs row.
Proof.
  unfold row_ok, meets. rewrite forallb_forall. split; intros H c C; specialize (H c C).
  - destruct (field_index fields (mc_field c)) as [i|] eqn:E; [|discriminate]. destruct (nth_error row i) as [v|] eqn:V; [|discriminate]. exists v. split; [apply column_index; eauto|assumption].
  - destruct H as [v [K V]]. apply column_index in K as [i [-> ->]]. exact V.
Qed.
Lemma all_some_map {A B} (f : A -> option B) l col : all_some (map f l) = Some col -> map f l = map Some col.
Proof.
  revert col. induction l as [|a l IH]; intros col; cbn; [intros [= <-]; reflexivity|]. destruct (f a) as [b|]; [|discriminate]. destruct (all_some (map f l)) as [r|]; [|discriminate].
  intros [= <-]. cbn. now rewrite (IH r eq_refl).
Qed.
Lemma all_some_total {A B} (f : A -> option B) l : Forall (fun a => f a <> None) l -> exists col, all_some (map f l) = Some col.
Proof. induction 1 as [|a l N H [col IH]]; cbn; [eauto|]. destruct (f a); [|congruence]. rewrite IH. eauto. Qed.
Lemma column_mask cmp fields c j : field_index fields (mc_field c) = Some j -> forall rows col,
  map (fun r => nth_error r j) rows = map Some col ->
  map (fun x => cmp (mc_op c) x (mc_val c)) col = map (row_ok cmp fields [c]) rows.
Proof.
  intros J. induction rows as [|r rows IH]; intros [|v col] D; try discriminate; [reflexivity|]. cbn in D. injection D as D1 D2. cbn [map].
  rewrite (IH _ D2). f_equal. unfold row_ok. cbn [forallb]. rewrite J, D1. now rewrite andb_true_r.
Qed.
Lemma mask_both {A} (f g h : A -> bool) rows : (forall r, h r = f r && g r) -> map (fun p => fst p && snd p) (combine (map f rows) (map g rows)) = map h rows.
Proof. intros E. induction rows as [|r rows IH]; cbn; [reflexivity|]. now rewrite IH, E. Qed.
Lemma eval_one_good cmp df c i ctx col : sfind (val_name i) ctx = Some (CValue (mc_val c)) -> sfind (mc_field c) ctx = Some (CColumn col) ->
  df_column df (mc_field c) = Some col -> eval_one cmp (mc_field c, mc_op c) i ctx = Ok (MRows (map (row_ok cmp (fr_fields df) [c]) (fr_rows df))).
Proof.
  intros V S D. unfold eval_one. cbn [fst snd]. rewrite S, V. do 2 f_equal. unfold df_column in D.
  destruct (field_index (fr_fields df) (mc_field c)) as [j|] eqn:J; [|discriminate]. apply all_some_map in D. now apply (column_mask cmp (fr_fields df) c j J).
Qed.
Lemma eval_good cmp df : forall cs i ctx, cs <> [] ->
  (forall k c, nth_error cs k = Some c -> sfind (val_name (i + k)) ctx = Some (CValue (mc_val c))) ->
  (forall c, In c cs -> exists col, sfind (mc_field c) ctx = Some (CColumn col) /\ df_column df (mc_field c) = Some col) ->
  eval_code cmp (to_code cs) i ctx = Ok (MRows (map (row_ok cmp (fr_fields df) cs) (fr_rows df))).
Proof.
  induction cs as [|c cs IH]; intros i ctx NE V F; [congruence|].
  destruct (F c (or_introl eq_refl)) as [col [S D]]. pose proof (V 0%nat c eq_refl) as V0. rewrite Nat.add_0_r in V0.
  pose proof (eval_one_good cmp df c i ctx col V0 S D) as E1. destruct cs as [|c2 cs].
  - exact E1.
  - change (to_code (c :: c2 :: cs)) with ((mc_field c, mc_op c) :: to_code (c2 :: cs)).
    assert (eval_code cmp (to_code (c2 :: cs)) (Datatypes.S i) ctx = Ok (MRows (map (row_ok cmp (fr_fields df) (c2 :: cs)) (fr_rows df)))) as E2.
    { apply IH; [discriminate| |].
      - intros k d KD. rewrite <- (V (Datatypes.S k) d KD). do 2 f_equal. lia.
      - intros d KD. apply F. now right. }
    cbn [eval_code to_code map] in *. rewrite E1, E2. cbn [mask_and]. do 2 f_equal. apply mask_both. intros r. unfold row_ok. cbn [forallb]. now rewrite andb_true_r.
Qed.
Lemma masked_filter df p : masked df (MRows (map p (fr_rows df))) = Ok (mkFrame (fr_fields df) (filter p (fr_rows df))).
Proof.
  unfold masked. do 2 f_equal. induction (fr_rows df) as [|r rows IH]; cbn; [reflexivity|]. destruct (p r); cbn; [now f_equal|assumption].
Qed.

(** ** Applying conditions *)
Definition codes_ok (m : memback) : Prop := forall k c, sfind k (mb_codes m) = Some c -> code_ok c /\ key_of c = k.
Lemma known_ops cs : (forall c, In c cs -> In (mc_op c) ["=="; "!="; "<"; "<="; ">"; ">="]%string) -> forallb (fun c => known_op (mc_op c)) cs = true.
Proof. intros H. apply forallb_forall. intros c C. unfold known_op. apply smem_In. now apply H. Qed.
Definition regular (df : frame) : Prop := Forall (fun r => List.length r = List.length (fr_fields df)) (fr_rows df).
Lemma regular_column df f : regular df -> In f (fr_fields df) -> exists col, df_column df f = Some col.
Proof.
  intros R I. unfold df_column. pose proof (field_index_spec (fr_fields df) f) as S. destruct (field_index _ _) as [i|]; [|contradiction].
  apply all_some_total. eapply Forall_impl; [|exact R]. intros r L. cbn in L. destruct S as [S _]. apply nth_error_Some. rewrite L. apply nth_error_Some. congruence.
Qed.
Lemma apply_good cmp m df cs : codes_ok m -> regular df -> Forall plain_name (fr_fields df) -> sensible (fr_fields df) cs ->
  exists m', apply_conds cmp m df cs = (Ok (mkFrame (fr_fields df) (filter (row_ok cmp (fr_fields df) cs) (fr_rows df))), m').
Proof.
  intros CO R P [NE S]. unfold apply_conds.
  destruct (build_good df cs 0 EmptyString [("__builtins__"%string, CNothing)] (fun _ => None)) as [ctx [E [V [_ [_ F]]]]].
  { apply Forall_forall. intros c C. destruct (S c C) as [S1 _]. split; [rewrite Forall_forall in P; now apply P|now apply regular_column]. }
  { apply ctx0_good. }
  rewrite E. cbn [String.append].
  assert (code_ok (to_code cs)) as CK.
  { apply Forall_map, Forall_forall. intros c C. cbn. destruct (S c C) as [S1 S2]. split; [apply plain_op_free; rewrite Forall_forall in P; now apply P|].
    apply known_op_ok. unfold known_op. now apply smem_In. }
  destruct (sfind (key_of (to_code cs)) (mb_codes m)) as [c|] eqn:K.
  - destruct (CO _ _ K) as [C1 C2]. apply key_inj in C2; [subst c|assumption|assumption]. rewrite (eval_good cmp df cs 0 ctx NE V F). rewrite masked_filter. eauto.
  - unfold compile_conds. destruct cs as [|c0 cs0]; [congruence|]. rewrite known_ops by (intros c C; now apply S).
    fold (to_code (c0 :: cs0)). destruct (if (_ =? _)%nat then _ else _) as [codes lru].
    rewrite (eval_good cmp df (c0 :: cs0) 0 ctx NE V F). rewrite masked_filter. eauto.
Qed.
(** Whatever is asked, the cached code stays right, and nothing else changes. *)
Lemma apply_codes cmp m df cs r m' : codes_ok m -> Forall plain_name (fr_fields df) -> apply_conds cmp m df cs = (r, m') ->
  codes_ok m' /\ mb_cache m' = mb_cache m /\ mb_store_all m' = mb_store_all m /\ mb_registry m' = mb_registry m.
Proof.
  intros CO P. unfold apply_conds. destruct (build_ctx df cs 0 EmptyString [("__builtins__"%string, CNothing)]) as [[key ctx]|e|] eqn:B; [|intros [= <- <-]; auto|intros [= <- <-]; auto].
  assert (Forall (fun c => op_free (mc_field c)) cs) as OF.
  { eapply build_fields; [exact P| |exact B]. intros f x X. cbn in X. destruct (String.eqb_spec f "__builtins__") as [->|]; [apply builtins_op_free|discriminate]. }
  pose proof (build_key _ _ _ _ _ _ _ B) as KEY. cbn in KEY.
  destruct (sfind key (mb_codes m)) as [c|] eqn:K.
  - destruct (eval_code _ _ _ _); intros [= <- <-]; auto.
  - destruct (compile_conds cs) as [c|e|] eqn:C; [|intros [= <- <-]; auto|intros [= <- <-]; auto].
    assert (c = to_code cs /\ code_ok c) as [-> CK].
    { unfold compile_conds in C. destruct cs as [|c0 cs0]; [discriminate|]. destruct (forallb _ (c0 :: cs0)) eqn:A; [|discriminate]. injection C as <-. split; [reflexivity|].
      change (code_ok (to_code (c0 :: cs0))). apply Forall_map, Forall_forall. intros d D. cbn [fst snd]. rewrite Forall_forall in OF. split; [now apply OF|]. rewrite forallb_forall in A. now apply known_op_ok, A. }
    assert (forall k d, sfind k (sset key (to_code cs) (mb_codes m)) = Some d -> code_ok d /\ key_of d = k) as CO1.
    { intros k d. rewrite sfind_sset. destruct (String.eqb_spec k key) as [->|]; [intros [= <-]; now rewrite KEY|apply CO]. }
    destruct (List.length (mb_lru m) =? max_codes)%nat; [destruct (mb_lru m) as [|k0 lru]|];
      (destruct (eval_code _ _ _ _); intros [= <- <-]; cbn; (split; [|auto])); try exact CO1;
      intros k d D; cbn in D; rewrite sfind_sdel in D; (destruct (String.eqb k k0); [discriminate|now apply CO1]).
Qed.
