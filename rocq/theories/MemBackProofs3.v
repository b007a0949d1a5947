(** * MemBackProofs3: the cache of compiled conditions, and columns matched by name. *)
From Coq Require Import String List ZArith QArith Ascii Bool Arith Lia.
From Verif Require Import Base QueryModel QuerySpec QueryProofs MemBackModel MemBackSpec MemBackProofs1 MemBackProofs2.
Import ListNotations.

(** ** Compiled conditions *)
Definition codes_fine (m : memback) : Prop := map fst (mb_codes m) = mb_lru m /\ NoDup (mb_lru m) /\ (length (mb_lru m) <= 256)%nat.

Lemma sfind_none {A} s (l : list (string * A)) : sfind s l = None -> ~ In s (map fst l).
Proof.
  induction l as [|[k v] l IH]; cbn; [auto|]. destruct (String.eqb_spec s k) as [->|N]; [discriminate|].
  intros H [E|I]; [congruence|]. now apply IH.
Qed.
Lemma sset_new {A} s (v : A) l : ~ In s (map fst l) -> sset s v l = l ++ [(s, v)].
Proof.
  induction l as [|[k w] l IH]; cbn; intros N; [auto|]. destruct (String.eqb_spec s k) as [->|_]; [elim N; auto|].
  now rewrite IH by auto.
Qed.
Lemma sdel_keys {A} s (l : list (string * A)) : ~ In s (map fst l) -> sdel s l = l.
Proof.
  unfold sdel. induction l as [|[k w] l IH]; cbn; intros N; [auto|]. destruct (String.eqb_spec s k) as [->|_]; [elim N; auto|].
  cbn. now rewrite IH by auto.
Qed.
Lemma nodup_snoc {A} (l : list A) x : NoDup l -> ~ In x l -> NoDup (l ++ [x]).
Proof.
  induction 1 as [|y l N D IH]; cbn; intros H; [repeat constructor; auto|].
  constructor; [|apply IH; auto]. rewrite in_app_iff. intros [I|[E|[]]]; [auto|subst; auto].
Qed.

Lemma apply_fine cmp m df cs r m' : codes_fine m -> apply_conds cmp m df cs = (r, m') -> codes_fine m'.
Proof.
  intros CF. unfold apply_conds.
  destruct (build_ctx df cs 0 "" [("__builtins__"%string, CNothing)]) as [[key ctx]|e|]; [|intros [= _ <-]; auto|intros [= _ <-]; auto].
  destruct (sfind key (mb_codes m)) as [c|] eqn:F.
  - destruct (eval_code cmp c 0 ctx); intros [= _ <-]; auto.
  - destruct (compile_conds cs) as [c|e|]; [|intros [= _ <-]; auto|intros [= _ <-]; auto].
    destruct CF as [K [ND L]]. assert (NI := sfind_none _ _ F). rewrite (sset_new _ _ _ NI).
    assert (G : forall codes lru, (if (length (mb_lru m) =? max_codes)%nat
       then match mb_lru m with [] => (mb_codes m ++ [(key, c)], []) | k :: r0 => (sdel k (mb_codes m ++ [(key, c)]), r0) end
       else (mb_codes m ++ [(key, c)], mb_lru m)) = (codes, lru) ->
       codes_fine (mkMB (mb_store_all m) (mb_registry m) (mb_cache m) codes (lru ++ [key]))).
    { intros codes lru. rewrite K in NI. destruct (Nat.eqb_spec (length (mb_lru m)) max_codes) as [E|E].
      - destruct (mb_codes m) as [|[k0 c0] codes0] eqn:EC; cbn [map fst] in K; rewrite <- K in *; [discriminate E|].
        apply NoDup_cons_iff in ND as [N1 N2]. cbn [In] in NI.
        cbn [app]. unfold sdel at 1. cbn [filter fst]. rewrite String.eqb_refl. cbn [negb]. fold (@sdel code k0 (codes0 ++ [(key, c)])).
        rewrite (sdel_keys k0 (codes0 ++ [(key, c)])).
        2:{ rewrite map_app, in_app_iff. cbn. intuition. }
        intros [= <- <-]. split; [cbn [mb_codes mb_lru]; now rewrite map_app|]. cbn [mb_lru]. split; [apply nodup_snoc; auto|].
        rewrite app_length. cbn [length] in L |- *. lia.
      - intros [= <- <-]. split; [cbn [mb_codes mb_lru]; now rewrite map_app, K|]. cbn [mb_lru]. split; [apply nodup_snoc; auto|].
        rewrite app_length. cbn [length]. unfold max_codes in E. lia. }
    destruct (if (length (mb_lru m) =? max_codes)%nat then _ else _) as [codes lru]. specialize (G codes lru eq_refl).
    destruct (eval_code cmp c 0 ctx); intros [= _ <-]; auto.
Qed.

Lemma query_fine cmp fb m t conds : codes_fine m -> codes_fine (snd (mb_query cmp fb m t conds)).
Proof.
  intros CF. unfold mb_query. destruct (mb_cache m) as [cache|] eqn:EC; [|exact CF].
  assert (S : forall m0 df cs, codes_fine m0 -> codes_fine (snd (match apply_conds cmp m0 df cs with
     | (Ok f, m) => (Ok (Some f), m) | (Throw e, m) => (Throw e, m) | (UB, m) => (UB, m) end))).
  { intros m0 df cs C0. destruct (apply_conds cmp m0 df cs) as [r m'] eqn:E. apply apply_fine in E; auto. destruct r; auto. }
  destruct (sfind t cache) as [df|].
  - destruct conds; [apply S|]; auto.
  - destruct fb as [fb|]; [|exact CF].
    destruct (if mb_store_all m then true else smem t (mb_registry m)).
    + destruct (fb t None) as [tb|e|]; auto. destruct conds; [apply S|]; exact CF.
    + destruct (fb t conds); auto.
Qed.
Lemma reach_fine cmp v0 h m : reaches cmp v0 h m -> codes_fine m.
Proof.
  induction 1 as [m N|h m e m' _ IH S].
  - unfold mb_new, mb_set_registry in N. cbn in N. destruct v0; injection N as <-; repeat split; cbn; try constructor; lia.
  - destruct e as [data|v|t conds]; cbn in S.
    + unfold mb_notify in S. destruct (mb_cache m); [|discriminate]. destruct (_ && _); [injection S as <-; auto|].
      destruct data; [injection S as <-; auto|]. destruct (store_groups _ _); try discriminate. injection S as <-. exact IH.
    + unfold mb_set_registry in S. destruct (mb_cache m); [|discriminate]. destruct v; injection S as <-; exact IH.
    + injection S as <-. now apply query_fine.
Qed.
Lemma codes_bounded cmp v0 h m : reaches cmp v0 h m -> (length (mb_codes m) <= 256)%nat.
Proof. intros R. destruct (reach_fine _ _ _ _ R) as [K [_ L]]. rewrite <- K, map_length in L. exact L. Qed.

(** ** Columns by name *)
Lemma column_index fields row f v : column fields row f v <-> exists i, field_index fields f = Some i /\ nth_error row i = Some v.
Proof.
  assert (S := field_index_spec fields f). split.
  - intros [i [E [F R]]]. destruct (field_index fields f) as [j|].
    + destruct S as [E' F']. assert (i = j).
      { destruct (Nat.lt_trichotomy i j) as [L|[->|L]]; auto; [elim (F' i L E)|elim (F j L E')]. }
      subst j. eauto.
    + elim S. eapply nth_error_In; eauto.
  - intros [i [E R]]. rewrite E in S. destruct S. exists i. auto.
Qed.
Lemma reorder_cons from f to row : reorder from (f :: to) row =
  match reorder from to row, field_index from f with
  | Some acc, Some i => match nth_error row i with Some v => Some (v :: acc) | None => None end | _, _ => None end.
Proof. reflexivity. Qed.
Lemma reorder_nth from row : forall to out, reorder from to row = Some out ->
  length out = length to /\ forall k f, nth_error to k = Some f ->
    exists i, field_index from f = Some i /\ nth_error out k = nth_error row i.
Proof.
  induction to as [|f to IH]; intros out.
  - intros [= <-]. split; auto. intros [|k] f; discriminate.
  - rewrite reorder_cons. destruct (reorder from to row) as [acc|]; [|discriminate].
    destruct (field_index from f) as [i|] eqn:E; [|discriminate].
    destruct (nth_error row i) as [v|] eqn:R; [|discriminate]. intros [= <-].
    destruct (IH acc eq_refl) as [L H]. split; [cbn; congruence|]. intros [|k] f' N; cbn in N.
    + injection N as <-. exists i. cbn. auto.
    + destruct (H k f' N) as [i' [A B]]. exists i'. auto.
Qed.
Lemma reorder_column from to row out : NoDup to -> length from = length to -> reorder from to row = Some out ->
  forall f v, column from row f v <-> column to out f v.
Proof.
  intros ND L R f v. destruct (reorder_nth from row to out R) as [_ H]. rewrite !column_index.
  assert (INC : incl to from).
  { intros g I. apply In_nth_error in I as [k K]. destruct (H k g K) as [i [F _]].
    assert (S := field_index_spec from g). rewrite F in S. destruct S. eapply nth_error_In; eauto. }
  assert (INC' : incl from to) by (apply NoDup_length_incl; auto; lia).
  assert (ST := field_index_spec to f). assert (SF := field_index_spec from f). split.
  - intros [i [E V]]. destruct (field_index to f) as [k|] eqn:K.
    + exists k. split; auto. destruct ST as [ST _]. destruct (H k f ST) as [i' [E' ->]]. congruence.
    + elim ST. apply INC'. rewrite E in SF. destruct SF. eapply nth_error_In; eauto.
  - intros [k [E V]]. rewrite E in ST. destruct ST as [ST _]. destruct (H k f ST) as [i [E' V']]. exists i. rewrite <- V'. auto.
Qed.
Lemma listeqb_eq a : forall b, listeqb a b = true -> a = b.
Proof.
  induction a as [|x a IH]; intros [|y b]; cbn; try discriminate; auto.
  intros H. apply andb_true_iff in H as [E H]. apply String.eqb_eq in E. subst. f_equal. auto.
Qed.
Lemma concat_columns old new df : NoDup (fr_fields old) -> pd_concat old new = Ok df ->
  exists rows, df = mkFrame (fr_fields old) (fr_rows old ++ rows) /\
    Forall2 (fun r row => forall f v, column (fr_fields new) r f v <-> column (fr_fields old) row f v) (fr_rows new) rows.
Proof.
  intros ND. unfold pd_concat. destruct (listeqb (fr_fields old) (fr_fields new)) eqn:LE.
  - apply listeqb_eq in LE. intros [= <-]. exists (fr_rows new). split; auto. rewrite <- LE.
    induction (fr_rows new); constructor; auto. reflexivity.
  - destruct (Nat.eqb_spec (length (fr_fields old)) (length (fr_fields new))) as [L|]; [|discriminate].
    destruct (all_some (map (reorder (fr_fields new) (fr_fields old)) (fr_rows new))) as [rows|] eqn:A; [|discriminate].
    intros [= <-]. exists rows. split; auto. apply all_some_map in A. revert rows A.
    induction (fr_rows new) as [|r l IH]; intros [|x rows] A; try discriminate; constructor.
    + injection A as A _. intros f v. apply (reorder_column _ _ _ _ ND (eq_sym L) A).
    + injection A as _ A. auto.
Qed.

Lemma store_find t : forall groups cache cache', NoDup (map fst groups) -> store_groups groups cache = Ok cache' ->
  match sfind t groups with
  | None => sfind t cache' = sfind t cache
  | Some g => exists res df, group_frame g = Ok res /\ sfind t cache' = Some df /\
      (match sfind t cache with Some old => pd_concat old res | None => Ok res end) = Ok df
  end.
Proof.
  induction groups as [|[n g] groups IH]; intros cache cache' ND; cbn [store_groups sfind].
  - now intros [= <-].
  - cbn [map fst] in ND. apply NoDup_cons_iff in ND as [N1 N2].
    destruct (group_frame g) as [res|e|] eqn:GF; try discriminate.
    destruct (match sfind n cache with Some old => pd_concat old res | None => Ok res end) as [df|e|] eqn:C; try discriminate.
    intros S. specialize (IH _ _ N2 S). destruct (String.eqb_spec t n) as [->|N].
    + destruct (sfind n groups) as [g'|] eqn:F.
      * elim N1. eapply sfind_In; eauto.
      * exists res, df. split; auto. split; auto. rewrite IH, sfind_sset, String.eqb_refl. auto.
    + rewrite sfind_sset in IH. apply String.eqb_neq in N. rewrite N in IH. exact IH.
Qed.

Lemma notify_columns cmp m m' data t old fs : mb_notify m data = Ok m' ->
  mb_query cmp None m t None = (Ok (Some old), m) -> NoDup (fr_fields old) ->
  (forall d, In d data -> md_title d = t -> md_fields d = fs) ->
  (if mb_store_all m then true else smem t (mb_registry m)) = true ->
  exists rows, mb_query cmp None m' t None = (Ok (Some (mkFrame (fr_fields old) (fr_rows old ++ rows))), m') /\
    Forall2 (fun d row => forall f v, column (md_fields d) (md_vals d) f v <-> column (fr_fields old) row f v)
      (filter (fun d => String.eqb t (md_title d)) data) rows.
Proof.
  intros N Q ND SAME K. unfold mb_query in Q. unfold mb_notify in N.
  destruct (mb_cache m) as [cache|] eqn:EC; [|discriminate].
  destruct (sfind t cache) as [df|] eqn:F; [|discriminate]. injection Q as <-.
  assert (NOOP : m' = m -> of_title t data = [] -> exists rows,
     mb_query cmp None m' t None = (Ok (Some (mkFrame (fr_fields df) (fr_rows df ++ rows))), m') /\
     Forall2 (fun d row => forall f v, column (md_fields d) (md_vals d) f v <-> column (fr_fields df) row f v)
      (filter (fun d => String.eqb t (md_title d)) data) rows).
  { intros -> E. exists []. split.
    - unfold mb_query. rewrite EC, F, app_nil_r. now destruct df.
    - unfold of_title in E. rewrite E. constructor. }
  destruct (negb (mb_store_all m) && match mb_registry m with [] => true | _ :: _ => false end) eqn:SK.
  { apply andb_true_iff in SK as [S1 S2]. destruct (mb_store_all m); [discriminate|].
    destruct (mb_registry m); [discriminate K|discriminate S2]. }
  destruct data as [|d0 data0] eqn:ED; [injection N as <-; apply NOOP; reflexivity|]. rewrite <- ED in *. clear ED d0 data0 SK.
  match type of N with context [group ?k data []] => set (keep := k) in N end.
  destruct (store_groups (group keep data []) cache) as [cache'|e|] eqn:SG; try discriminate. injection N as <-.
  assert (ST := store_find t _ _ _ (group_keys keep data [] (NoDup_nil _)) SG).
  rewrite group_find in ST. change (keep t = true) in K. rewrite K in ST. cbn [sfind] in ST.
  destruct (of_title t data) as [|d l] eqn:OT; cbn [opt_app app] in ST.
  - exists []. split.
    + unfold mb_query, with_cache. cbn [mb_cache]. rewrite ST, F, app_nil_r. now destruct df.
    + unfold of_title in OT. rewrite OT. constructor.
  - destruct ST as [res [df' [GF [F' C]]]]. rewrite F in C.
    destruct (concat_columns _ _ _ ND C) as [rows [-> FA]]. exists rows. split.
    + unfold mb_query, with_cache. cbn [mb_cache]. rewrite F'. reflexivity.
    + fold (of_title t data). rewrite OT. unfold group_frame in GF. destruct (_ && _); [|discriminate]. injection GF as <-.
      cbn [fr_rows fr_fields] in FA.
      assert (FS : forall x, In x (d :: l) -> md_fields x = fs).
      { intros x I. rewrite <- OT in I. apply filter_In in I as [I T]. apply String.eqb_eq in T. auto. }
      rewrite (FS d (or_introl eq_refl)) in FA. change (md_vals d :: map md_vals l) with (map md_vals (d :: l)) in FA.
      revert FS FA. generalize (d :: l). clear.
      intros l2. revert rows. induction l2 as [|x l2 IH]; intros rows FS FA; cbn [map] in FA; inversion FA; subst; constructor.
      * rewrite (FS x (or_introl eq_refl)). auto.
      * apply IH; auto. intros; apply FS; right; auto.
Qed.

Lemma reach_registry cmp v0 h m : reaches cmp v0 h m ->
  mb_store_all m = is_all (in_force v0 h) /\ mb_registry m = names (in_force v0 h).
Proof.
  induction 1 as [m N|h m e m' _ IH S].
  - unfold mb_new, mb_set_registry in N. cbn in N. destruct v0; injection N as <-; auto.
  - rewrite in_force_snoc. destruct e as [data|v|t conds]; cbn in S.
    + unfold mb_notify in S. destruct (mb_cache m); [|discriminate]. destruct (_ && _); [injection S as <-; auto|].
      destruct data; [injection S as <-; auto|]. destruct (store_groups _ _); try discriminate. injection S as <-. exact IH.
    + unfold mb_set_registry in S. destruct (mb_cache m); [|discriminate]. destruct v; injection S as <-; auto.
    + injection S as <-. unfold mb_query. destruct (mb_cache m) as [cache|]; [|exact IH].
      destruct (sfind t cache) as [df|]; [|exact IH]. destruct conds as [cs|]; [|exact IH].
      assert (A : mb_store_all (snd (apply_conds cmp m df cs)) = mb_store_all m /\ mb_registry (snd (apply_conds cmp m df cs)) = mb_registry m).
      { unfold apply_conds. destruct (build_ctx df cs 0 "" [("__builtins__"%string, CNothing)]) as [[key ctx]|e|]; auto.
        destruct (sfind key (mb_codes m)) as [c|]; [destruct (eval_code cmp c 0 ctx); auto|].
        destruct (compile_conds cs) as [c|e|]; auto.
        destruct (if (_ =? _)%nat then _ else _) as [codes lru]. destruct (eval_code cmp c 0 ctx); auto. }
      destruct (apply_conds cmp m df cs) as [r m']. cbn [snd] in A. destruct A as [A1 A2], IH as [I1 I2].
      destruct r; cbn [snd]; rewrite A1, A2; auto.
Qed.
Lemma record_columns cmp v0 h m m' data t old fs : reaches cmp v0 h m -> happens cmp m (Recorded data) = Ok m' ->
  mb_query cmp None m t None = (Ok (Some old), m) -> NoDup (fr_fields old) ->
  (forall d, In d data -> md_title d = t -> md_fields d = fs) -> covers (in_force v0 h) t ->
  exists rows, mb_query cmp None m' t None = (Ok (Some (mkFrame (fr_fields old) (fr_rows old ++ rows))), m') /\
    Forall2 (fun d row => forall f v, column (md_fields d) (md_vals d) f v <-> column (fr_fields old) row f v)
      (filter (fun d => String.eqb t (md_title d)) data) rows.
Proof.
  intros R H Q ND SAME C. destruct (reach_registry _ _ _ _ R) as [E1 E2].
  apply (notify_columns cmp m m' data t old fs H Q ND SAME). rewrite E1, E2.
  destruct (in_force v0 h) as [| |l]; cbn in *; [auto|contradiction|]. now apply smem_In.
Qed.
