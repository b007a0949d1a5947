(** Proofs for C43, part 2: histories. *)
From Coq Require Import String List ZArith QArith Ascii Bool Lia.
From Verif Require Import Base QueryModel QuerySpec QueryProofs MemBackModel MemBackSpec MemBackProofs1.
Import ListNotations.
Local Open Scope list_scope.

(** ** Grouping *)
Definition of_title (t : string) (data : list mdatum) : list mdatum := filter (fun d => String.eqb t (md_title d)) data.
Definition opt_app (o : option (list mdatum)) (l : list mdatum) : option (list mdatum) :=
  match l with [] => o | _ => Some (match o with Some g => g | None => [] end ++ l) end.
Lemma group_find keep t : forall data groups, sfind t (group keep data groups) = if keep t then opt_app (sfind t groups) (of_title t data) else sfind t groups.
Proof.
  induction data as [|d data IH]; intros groups; cbn [group of_title filter]; [now destruct (keep t)|].
  destruct (keep (md_title d)) eqn:K; rewrite IH.
  - destruct (keep t) eqn:T.
    + rewrite sfind_sset. destruct (String.eqb_spec t (md_title d)) as [->|N]; [|reflexivity]. fold (of_title (md_title d) data).
      destruct (of_title (md_title d) data) as [|x l] eqn:E; cbn [opt_app]; [reflexivity|]. now rewrite <- app_assoc.
    + rewrite sfind_sset. destruct (String.eqb_spec t (md_title d)) as [->|N]; [congruence|reflexivity].
  - destruct (keep t) eqn:T; [|reflexivity]. destruct (String.eqb_spec t (md_title d)) as [->|N]; [congruence|reflexivity].
Qed.
Lemma sset_keys {A} s (v : A) l : NoDup (map fst l) -> NoDup (map fst (sset s v l)) /\ (forall x, In x (map fst (sset s v l)) -> x = s \/ In x (map fst l)).
Proof.
  induction l as [|[k w] l IH]; cbn; intros H; [split; [constructor; [auto|constructor]|intros x [<-|[]]; auto]|]. inversion H as [|? ? N D]; subst.
  destruct (String.eqb_spec s k) as [->|M]; cbn; [split; [assumption|tauto]|]. destruct (IH D) as [I1 I2]. split.
  - constructor; [|assumption]. intros X. apply I2 in X as [->|X]; [congruence|contradiction].
  - intros x [<-|X]; [auto|]. apply I2 in X as [->|X]; auto.
Qed.
Lemma group_keys keep : forall data groups, NoDup (map fst groups) -> NoDup (map fst (group keep data groups)).
Proof. induction data as [|d data IH]; intros groups H; cbn; [assumption|]. destruct (keep (md_title d)); [|now apply IH]. apply IH. now apply sset_keys. Qed.
Lemma sfind_pair {A} k (v : A) l : NoDup (map fst l) -> In (k, v) l -> sfind k l = Some v.
Proof.
  induction l as [|[k' w] l IH]; cbn; intros N I; [destruct I|]. inversion N as [|? ? N1 N2]; subst. destruct I as [[= -> ->]|I]; [now rewrite String.eqb_refl|].
  destruct (String.eqb_spec k k') as [->|]; [|now apply IH]. exfalso. apply N1. now apply (in_map fst) in I.
Qed.

(** ** Storing *)
Lemma nodupb_spec l : NoDup l -> nodupb l = true.
Proof. induction 1 as [|x l N D IH]; cbn; [reflexivity|]. rewrite IH, andb_true_r. destruct (smem x l) eqn:E; [apply smem_In in E; contradiction|reflexivity]. Qed.
Lemma listeqb_refl l : listeqb l l = true.
Proof. induction l as [|x l IH]; cbn; [reflexivity|now rewrite String.eqb_refl]. Qed.
Definition typed_datum (schema : string -> list string) (t : string) (d : mdatum) : Prop :=
  md_fields d = schema t /\ List.length (md_vals d) = List.length (schema t).
Lemma group_frame_ok schema t g : NoDup (schema t) -> g <> [] -> Forall (typed_datum schema t) g -> group_frame g = Ok (mkFrame (schema t) (map md_vals g)).
Proof.
  intros N NE F. destruct g as [|d g]; [congruence|]. unfold group_frame. inversion F as [|? ? [D1 D2] F']; subst. rewrite D1, nodupb_spec by assumption. cbn [andb].
  replace (forallb _ (d :: g)) with true; [reflexivity|]. symmetry. apply forallb_forall. intros e E. rewrite Forall_forall in F. destruct (F e E) as [_ E2]. now apply Nat.eqb_eq.
Qed.
Definition good_frame (schema : string -> list string) (t : string) (df : frame) : Prop := fr_fields df = schema t /\ regular df.
Definition stored (schema : string -> list string) (t : string) (o : option frame) (g : option (list mdatum)) : option frame :=
  match g with
  | None => o
  | Some g => Some (mkFrame (schema t) (match o with Some df => fr_rows df | None => [] end ++ map md_vals g))
  end.
Lemma store_ok schema : (forall t, NoDup (schema t)) -> forall groups cache, NoDup (map fst groups) ->
  (forall t g, sfind t groups = Some g -> g <> [] /\ Forall (typed_datum schema t) g) ->
  (forall t df, sfind t cache = Some df -> good_frame schema t df) ->
  exists cache', store_groups groups cache = Ok cache' /\ forall t, sfind t cache' = stored schema t (sfind t cache) (sfind t groups).
Proof.
  intros ND. induction groups as [|[name g] groups IH]; intros cache N G C; [exists cache; split; reflexivity|].
  inversion N as [|? ? N1 N2]; subst. destruct (G name g) as [NE F]; [cbn; now rewrite String.eqb_refl|]. cbn [store_groups].
  rewrite (group_frame_ok schema name g (ND name) NE F).
  set (new := mkFrame (schema name) (match sfind name cache with Some df => fr_rows df | None => [] end ++ map md_vals g)).
  assert (match sfind name cache with Some old => pd_concat old (mkFrame (schema name) (map md_vals g)) | None => Ok (mkFrame (schema name) (map md_vals g)) end = Ok new) as ->.
  { unfold new. destruct (sfind name cache) as [df|] eqn:S; [|reflexivity]. destruct (C _ _ S) as [F1 _]. unfold pd_concat. cbn [fr_fields fr_rows]. rewrite F1, listeqb_refl. reflexivity. }
  destruct (IH (sset name new cache) N2) as [cache' [E R]].
  - intros t g' T. apply G. cbn. destruct (String.eqb_spec t name) as [->|]; [|assumption]. apply sfind_In in T. contradiction.
  - intros t df. rewrite sfind_sset. destruct (String.eqb_spec t name) as [->|]; [|apply C]. intros [= <-]. split; [reflexivity|]. unfold regular, new. cbn. apply Forall_app. split.
    + destruct (sfind name cache) as [df|] eqn:S; [|constructor]. destruct (C _ _ S) as [F1 F2]. unfold regular in F2. now rewrite F1 in F2.
    + apply Forall_map. eapply Forall_impl; [|exact F]. now intros d [_ ?].
  - exists cache'. split; [exact E|]. intros t. rewrite R, sfind_sset. cbn [sfind]. destruct (String.eqb_spec t name) as [->|]; [|reflexivity].
    destruct (sfind name groups) eqn:S; [apply sfind_In in S; contradiction|]. reflexivity.
Qed.

(** ** The invariant *)
Definition names (v : reg_val) : list string := match v with RSet l => l | _ => [] end.
Definition is_all (v : reg_val) : bool := match v with RAll => true | _ => false end.
Record good (schema : string -> list string) (v : reg_val) (rows : string -> list (list anyval)) (m : memback) (cache : list (string * frame)) : Prop := {
  g_all : mb_store_all m = is_all v;
  g_reg : mb_registry m = names v;
  g_cache : mb_cache m = Some cache;
  g_codes : codes_ok m;
  g_some : forall t df, sfind t cache = Some df -> good_frame schema t df /\ coversb v t = true /\ fr_rows df = rows t;
  g_none : forall t, sfind t cache = None -> rows t = [];
  g_full : forall t, rows t = [] -> sfind t cache = None
}.
Lemma covers_keep v t : (if is_all v then true else smem t (names v)) = coversb v t.
Proof. destruct v; reflexivity. Qed.
Lemma rows_for_title t data : rows_for t data = map md_vals (of_title t data).
Proof. reflexivity. Qed.

Lemma step_record schema cmp v rows m cache data : plain schema -> good schema v rows m cache ->
  (forall d, In d data -> md_fields d = schema (md_title d) /\ List.length (md_vals d) = List.length (md_fields d)) ->
  exists m' cache', happens cmp m (Recorded data) = Ok m' /\ good schema v (fun t => if coversb v t then rows t ++ rows_for t data else rows t) m' cache'.
Proof.
  intros P G TY. cbn [happens]. unfold mb_notify. rewrite (g_cache _ _ _ _ _ G), (g_all _ _ _ _ _ G), (g_reg _ _ _ _ _ G).
  destruct (negb (is_all v) && match names v with [] => true | _ => false end) eqn:Q.
  - exists m, cache. split; [reflexivity|]. assert (forall t, coversb v t = false) as NC.
    { intros t. rewrite <- covers_keep. destruct (is_all v); [discriminate|]. destruct (names v); [reflexivity|discriminate]. }
    destruct G as [G1 G2 G3 G4 G5 G6 G7]. constructor; try assumption; intros t; [intros df S; destruct (G5 t df S) as [_ [X _]]; rewrite NC in X; discriminate|rewrite NC; apply G6|rewrite NC; apply G7].
  - destruct data as [|d0 data0] eqn:ED.
    + exists m, cache. split; [reflexivity|]. destruct G as [G1 G2 G3 G4 G5 G6 G7]. constructor; try assumption; intros t; [intros df S; destruct (G5 t df S) as [A [C B]]|intros S; rewrite (G6 t S); now destruct (coversb v t)|intros S; apply G7; destruct (coversb v t); [cbn in S; now rewrite app_nil_r in S|exact S]].
      split; [assumption|]. split; [assumption|]. rewrite C. cbn. now rewrite app_nil_r.
    + rewrite <- ED in *. set (keep := fun t => if is_all v then true else smem t (names v)).
      assert (forall t, of_title t data <> [] -> Forall (typed_datum schema t) (of_title t data)) as TD.
      { intros t _. apply Forall_forall. intros d D. unfold of_title in D. apply filter_In in D as [D E]. apply String.eqb_eq in E. subst t. destruct (TY d D) as [T1 T2]. split; [assumption|congruence]. }
      destruct (store_ok schema (fun t => proj1 (P t)) (group keep data []) cache) as [cache' [E R]].
      * apply group_keys. constructor.
      * intros t g. rewrite group_find. cbn [sfind]. destruct (keep t); [|discriminate]. unfold opt_app. destruct (of_title t data) eqn:O; [discriminate|]. intros [= <-]. cbn [app].
        split; [discriminate|]. rewrite <- O. apply TD. rewrite O. discriminate.
      * intros t df S. now apply (g_some _ _ _ _ _ G) in S.
      * rewrite E. exists (with_cache m cache'), cache'. split; [reflexivity|]. destruct G as [G1 G2 G3 G4 G5 G6 G7].
        assert (forall t, sfind t cache' = stored schema t (sfind t cache) (if coversb v t then opt_app None (of_title t data) else None)) as R'.
        { intros t. rewrite R, group_find. cbn [sfind]. unfold keep. now rewrite covers_keep. }
        constructor; try assumption; try reflexivity.
        -- intros t df. rewrite R'. destruct (coversb v t) eqn:C.
           ++ unfold opt_app. rewrite rows_for_title. destruct (of_title t data) as [|x l] eqn:O; cbn [stored].
              ** intros S. destruct (G5 t df S) as [A [_ B]]. cbn. rewrite app_nil_r. auto.
              ** intros [= <-]. cbn [app fr_rows]. split; [|split; [reflexivity|]].
                 --- split; [reflexivity|]. unfold regular. cbn [fr_rows fr_fields]. apply Forall_app. split.
                     +++ destruct (sfind t cache) as [df|] eqn:S; [|constructor]. destruct (G5 t df S) as [[A1 A2] _]. unfold regular in A2. now rewrite A1 in A2.
                     +++ change (Forall (fun r => List.length r = List.length (schema t)) (map md_vals (x :: l))). apply Forall_map. rewrite <- O. eapply Forall_impl; [|exact (TD t ltac:(rewrite O; discriminate))]. now intros d [_ ?].
                 --- f_equal. destruct (sfind t cache) as [df|] eqn:S; [now apply (G5 t df)|symmetry; now apply G6].
           ++ cbn [stored]. intros S. destruct (G5 t df S) as [A [B _]]. congruence.
        -- intros t. rewrite R'. destruct (coversb v t) eqn:C.
           ++ unfold opt_app. rewrite rows_for_title. destruct (of_title t data) as [|x l] eqn:O; cbn [stored]; [|discriminate]. intros S. cbn. rewrite app_nil_r. now apply G6.
           ++ cbn [stored]. apply G6.
        -- intros t. rewrite R'. destruct (coversb v t) eqn:C; [|cbn [stored]; apply G7]. rewrite rows_for_title. intros X. apply app_eq_nil in X as [X1 X2].
           destruct (of_title t data); [|discriminate]. cbn. now apply G7.
Qed.

Lemma sdel_all {A} ks : forall (c : list (string * A)) s, sfind s (fold_left (fun c k => sdel k c) ks c) = if smem s ks then None else sfind s c.
Proof.
  induction ks as [|k ks IH]; intros c s; cbn [fold_left]; [reflexivity|]. rewrite IH, sfind_sdel. unfold smem. cbn [existsb]. destruct (String.eqb s k); cbn; [|reflexivity]. now destruct (existsb (String.eqb s) ks).
Qed.
Lemma step_registry schema cmp v rows m cache w : good schema v rows m cache -> (v = RAll -> match w with RSet _ => False | _ => True end) ->
  exists m' cache', happens cmp m (Registry w) = Ok m' /\ good schema w (fun t => if coversb w t then rows t else []) m' cache'.
Proof.
  intros [G1 G2 G3 G4 G5 G6 G7] NS. cbn [happens]. unfold mb_set_registry. rewrite G3. destruct w as [| |l].
  - do 2 eexists. split; [reflexivity|]. constructor; cbn; try reflexivity; [exact G4| |exact G6|exact G7]. intros t df S. destruct (G5 t df S) as [A [_ B]]. auto.
  - do 2 eexists. split; [reflexivity|]. constructor; cbn; try reflexivity; [exact G4|discriminate].
  - rewrite G2. do 2 eexists. split; [reflexivity|].
    assert (forall t df, sfind t cache = Some df -> smem t (names v) = true) as NM.
    { intros t df S. destruct (G5 t df S) as [_ [C _]]. destruct v; [now specialize (NS eq_refl)|discriminate|exact C]. }
    assert (forall t, smem t (filter (fun k => smem k (names v) && negb (smem k l)) (map fst cache)) = match sfind t cache with Some _ => negb (smem t l) | None => smem t (filter (fun k => smem k (names v) && negb (smem k l)) (map fst cache)) end) as D.
    { intros t. destruct (sfind t cache) as [df|] eqn:S; [|reflexivity]. destruct (smem t l) eqn:L; cbn.
      - destruct (smem t (filter _ _)) eqn:X; [|reflexivity]. apply smem_In, filter_In in X as [_ X]. rewrite L, andb_false_r in X. discriminate.
      - apply smem_In, filter_In. split; [now apply sfind_In in S|]. now rewrite L, (NM t df S). }
    constructor; try reflexivity; [exact G4| | |].
    + intros t df. cbn. rewrite sdel_all. destruct (smem t (filter _ _)) eqn:X; [discriminate|]. intros S. rewrite D, S in X. apply negb_false_iff in X.
      destruct (G5 t df S) as [A [_ B]]. fold (smem t l). rewrite X. auto.
    + intros t. cbn. fold (smem t l). rewrite sdel_all. destruct (smem t l) eqn:L; [|reflexivity]. destruct (smem t (filter _ _)) eqn:X; [|apply G6].
      apply smem_In, filter_In in X as [_ X]. rewrite L, andb_false_r in X. discriminate.
    + intros t. cbn. fold (smem t l). rewrite sdel_all. destruct (smem t (filter _ _)) eqn:X; [reflexivity|]. destruct (smem t l) eqn:L; [apply G7|]. intros _.
      destruct (sfind t cache) as [df|] eqn:S; [|reflexivity]. rewrite D, S, L in X. discriminate.
Qed.
Lemma step_asked schema cmp v rows m cache t conds : plain schema -> good schema v rows m cache ->
  exists m', happens cmp m (Asked t conds) = Ok m' /\ good schema v rows m' cache.
Proof.
  intros P [G1 G2 G3 G4 G5 G6 G7]. cbn [happens]. eexists. split; [reflexivity|]. unfold mb_query. rewrite G3. destruct (sfind t cache) as [df|] eqn:S; [|now constructor].
  destruct conds as [cs|]; [|now constructor]. destruct (apply_conds cmp m df cs) as [r m'] eqn:A.
  destruct (G5 t df S) as [[F1 F2] _]. destruct (apply_codes cmp m df cs r m' G4) as [A1 [A2 [A3 A4]]]; [rewrite F1; apply P|assumption|].
  destruct r; cbn [snd]; (constructor; congruence || auto).
Qed.
Lemma new_good schema v0 : exists m, mb_new v0 = Ok m /\ good schema v0 (fun _ => []) m [].
Proof.
  unfold mb_new, mb_set_registry. cbn. destruct v0; eexists; (split; [reflexivity|]); (constructor; cbn; try reflexivity; [intros k c X; discriminate|discriminate]).
Qed.

(** ** Histories *)
Lemma in_force_fst t : forall h v0 r0, fst (fold_left (contents_step t) h (v0, r0)) = in_force v0 h.
Proof. unfold in_force. induction h as [|e h IH]; intros v0 r0; [reflexivity|]. cbn. destruct e; apply IH. Qed.
Lemma contents_snoc v0 h e t : contents v0 (h ++ [e]) t =
  snd (contents_step t (in_force v0 h, contents v0 h t) e).
Proof.
  unfold contents. rewrite fold_left_app. cbn. f_equal. rewrite (surjective_pairing (fold_left (contents_step t) h (v0, []))) at 1. now rewrite in_force_fst.
Qed.
Lemma in_force_snoc v0 h e : in_force v0 (h ++ [e]) = match e with Registry w => w | _ => in_force v0 h end.
Proof. unfold in_force. rewrite fold_left_app. reflexivity. Qed.
Lemma no_shortcut_snoc : forall h v0 e, no_shortcut v0 (h ++ [e]) ->
  no_shortcut v0 h /\ match e with Registry w => in_force v0 h = RAll -> match w with RSet _ => False | _ => True end | _ => True end.
Proof.
  induction h as [|x h IH]; intros v0 e H; cbn in H.
  - split; [exact I|]. destruct e; try exact I. apply H.
  - destruct x; cbn in *; [apply IH in H; assumption| |apply IH in H; assumption]. destruct H as [H1 H2]. apply IH in H2 as [H2 H3]. auto.
Qed.
Lemma typed_snoc schema h e : typed schema (h ++ [e]) -> typed schema h /\ match e with Recorded data => forall d, In d data -> md_fields d = schema (md_title d) /\ List.length (md_vals d) = List.length (md_fields d) | _ => True end.
Proof.
  intros H. split; [intros data d I; apply H; apply in_or_app; auto|]. destruct e; try exact I. intros d D. apply (H data d); [apply in_or_app; right; now left|assumption].
Qed.
Lemma good_ext schema v r1 r2 m c : (forall t, r1 t = r2 t) -> good schema v r1 m c -> good schema v r2 m c.
Proof. intros E [G1 G2 G3 G4 G5 G6 G7]. constructor; try assumption; [intros t df S; rewrite <- E; now apply G5|intros t; rewrite <- E; now apply G6|intros t; rewrite <- E; now apply G7]. Qed.

Lemma step_any schema cmp v0 h m cache e : plain schema -> typed schema (h ++ [e]) -> no_shortcut v0 (h ++ [e]) ->
  good schema (in_force v0 h) (contents v0 h) m cache ->
  exists m' cache', happens cmp m e = Ok m' /\ good schema (in_force v0 (h ++ [e])) (contents v0 (h ++ [e])) m' cache'.
Proof.
  intros P T N G. apply typed_snoc in T as [_ T]. apply no_shortcut_snoc in N as [_ N]. rewrite in_force_snoc. destruct e as [data|w|t conds].
  - destruct (step_record schema cmp _ _ m cache data P G T) as [m' [cache' [E G']]]. exists m', cache'. split; [exact E|]. eapply good_ext; [|exact G']. intros t. now rewrite contents_snoc.
  - destruct (step_registry schema cmp _ _ m cache w G N) as [m' [cache' [E G']]]. exists m', cache'. split; [exact E|]. eapply good_ext; [|exact G']. intros t. now rewrite contents_snoc.
  - destruct (step_asked schema cmp _ _ m cache t conds P G) as [m' [E G']]. exists m', cache. split; [exact E|]. eapply good_ext; [|exact G']. intros x. now rewrite contents_snoc.
Qed.
Lemma run_good schema cmp v0 h m : plain schema -> reaches cmp v0 h m -> typed schema h -> no_shortcut v0 h ->
  exists cache, good schema (in_force v0 h) (contents v0 h) m cache.
Proof.
  intros P. induction 1 as [m N|h m e m' R IH HE]; intros T NS.
  - destruct (new_good schema v0) as [m' [E G]]. rewrite N in E. injection E as <-. exists []. exact G.
  - destruct (IH (proj1 (typed_snoc _ _ _ T)) (proj1 (no_shortcut_snoc _ _ _ NS))) as [cache G].
    destruct (step_any schema cmp v0 h m cache e P T NS G) as [m2 [cache' [E G']]]. rewrite HE in E. injection E as <-. eauto.
Qed.
Lemma run_total schema cmp v0 : plain schema -> forall h, typed schema h -> no_shortcut v0 h -> exists m, reaches cmp v0 h m.
Proof.
  intros P. induction h as [|e h IH] using rev_ind; intros T NS.
  - destruct (new_good schema v0) as [m [E _]]. exists m. now constructor.
  - destruct (IH (proj1 (typed_snoc _ _ _ T)) (proj1 (no_shortcut_snoc _ _ _ NS))) as [m R].
    destruct (run_good schema cmp v0 h m P R (proj1 (typed_snoc _ _ _ T)) (proj1 (no_shortcut_snoc _ _ _ NS))) as [cache G].
    destruct (step_any schema cmp v0 h m cache e P T NS G) as [m2 [cache' [E _]]]. exists m2. econstructor; eassumption.
Qed.

Lemma coversb_spec v t : coversb v t = true <-> covers v t.
Proof. destruct v; cbn; [tauto|split; [discriminate|tauto]|apply smem_In]. Qed.

Lemma m_answers : forall cmp schema v0 h m t conds, plain schema -> typed schema h -> no_shortcut v0 h -> reaches cmp v0 h m ->
  contents v0 h t <> [] -> (forall cs, conds = Some cs -> sensible (schema t) cs) ->
  exists out m', mb_query cmp None m t conds = (Ok (Some (mkFrame (schema t) out)), m') /\
    keeps (meets cmp (schema t) (match conds with Some cs => cs | None => [] end)) (contents v0 h t) out.
Proof.
  intros cmp schema v0 h m t conds P T NS R NE S. destruct (run_good schema cmp v0 h m P R T NS) as [cache [G1 G2 G3 G4 G5 G6 G7]].
  unfold mb_query. rewrite G3. destruct (sfind t cache) as [df|] eqn:F; [|now apply G6 in F]. destruct (G5 t df F) as [[A1 A2] [_ B]].
  destruct conds as [cs|].
  - specialize (S cs eq_refl). rewrite <- A1 in S. destruct (apply_good cmp m df cs G4 A2) as [m' E]; [rewrite A1; apply P|assumption|].
    rewrite E. rewrite <- A1, <- B. do 2 eexists. split; [reflexivity|]. apply keeps_filter. intros r. apply row_ok_spec.
  - exists (fr_rows df), m. split; [rewrite <- A1; now destruct df|]. rewrite B. apply keeps_all. intros r c [].
Qed.
Lemma m_absent : forall cmp schema v0 h m t conds, plain schema -> typed schema h -> no_shortcut v0 h -> reaches cmp v0 h m ->
  contents v0 h t = [] -> ~ In t (mb_tables m) /\ mb_query cmp None m t conds = (Ok None, m).
Proof.
  intros cmp schema v0 h m t conds P T NS R E. destruct (run_good schema cmp v0 h m P R T NS) as [cache [G1 G2 G3 G4 G5 G6 G7]].
  unfold mb_query, mb_tables. rewrite G3. pose proof (G7 t E) as F. rewrite F. split; [|reflexivity].
  intros X. clear -F X. induction cache as [|[k w] c IH]; [destruct X|]. cbn in *. destruct (String.eqb_spec t k); [discriminate|]. destruct X as [<-|X]; [congruence|auto].
Qed.
Lemma m_tables : forall cmp schema v0 h m t, plain schema -> typed schema h -> no_shortcut v0 h -> reaches cmp v0 h m ->
  (In t (mb_tables m) <-> contents v0 h t <> []) /\ (In t (mb_tables m) -> covers (in_force v0 h) t).
Proof.
  intros cmp schema v0 h m t P T NS R. pose proof (m_absent cmp schema v0 h m t None P T NS R) as A. destruct (run_good schema cmp v0 h m P R T NS) as [cache [G1 G2 G3 G4 G5 G6 G7]].
  assert (In t (mb_tables m) -> exists df, sfind t cache = Some df) as X.
  { unfold mb_tables. rewrite G3. clear. induction cache as [|[k w] c IH]; [intros []|]. cbn. destruct (String.eqb_spec t k) as [->|N]; [eauto|]. intros [<-|H]; [congruence|auto]. }
  split; [split|].
  - intros I E. now apply (proj1 (A E)).
  - intros NE. unfold mb_tables. rewrite G3. destruct (sfind t cache) as [df|] eqn:S; [now apply sfind_In in S|]. now apply G6 in S.
  - intros I. destruct (X I) as [df S]. apply coversb_spec. now apply (G5 t df S).
Qed.

(** ** With a fallback *)
Lemma m_fallback : forall cmp schema v0 h m t conds fb, plain schema -> typed schema h -> no_shortcut v0 h -> reaches cmp v0 h m ->
  contents v0 h t = [] ->
  (~ covers (in_force v0 h) t -> mb_query cmp (Some fb) m t conds =
     (match fb t conds with Ok f => Ok (Some f) | Throw _ => Ok None | UB => UB end, m)) /\
  (covers (in_force v0 h) t -> forall f, fb t None = Ok f -> Forall (fun r => List.length r = List.length (fr_fields f)) (fr_rows f) ->
     Forall plain_name (fr_fields f) -> (forall cs, conds = Some cs -> sensible (fr_fields f) cs) ->
     exists out m', mb_query cmp (Some fb) m t conds = (Ok (Some (mkFrame (fr_fields f) out)), m') /\
       keeps (meets cmp (fr_fields f) (match conds with Some cs => cs | None => [] end)) (fr_rows f) out /\
       mb_query cmp None m' t None = (Ok (Some f), m')).
Proof.
  intros cmp schema v0 h m t conds fb P T NS R E. destruct (run_good schema cmp v0 h m P R T NS) as [cache [G1 G2 G3 G4 G5 G6 G7]].
  pose proof (G7 t E) as F. unfold mb_query. rewrite G3, F, G1, G2, covers_keep. split.
  - intros N. destruct (coversb (in_force v0 h) t) eqn:C; [apply coversb_spec in C; contradiction|]. now destruct (fb t conds).
  - intros C f FB RG PN S. apply coversb_spec in C. rewrite C, FB. destruct conds as [cs|].
    + destruct (apply_good cmp (with_cache m (sset t f cache)) f cs) as [m' AE]; try assumption; [now apply S|].
      destruct (apply_codes cmp (with_cache m (sset t f cache)) f cs _ _ G4 PN AE) as [_ [CA _]]. rewrite AE. do 2 eexists. split; [reflexivity|]. split.
      * apply keeps_filter. intros r. apply row_ok_spec.
      * rewrite CA. cbn. now rewrite sfind_sset, String.eqb_refl.
    + exists (fr_rows f), (with_cache m (sset t f cache)). split; [now destruct f|]. split; [apply keeps_all; intros r c []|]. cbn. now rewrite sfind_sset, String.eqb_refl.
Qed.

(** Running a history. *)
Fixpoint run_events (cmp : py_holds) (m : memback) (h : list event) : result memback :=
  match h with [] => Ok m | e :: h => match happens cmp m e with Ok m' => run_events cmp m' h | Throw e => Throw e | UB => UB end end.
Lemma run_reaches cmp v0 : forall h past m m', reaches cmp v0 past m -> run_events cmp m h = Ok m' -> reaches cmp v0 (past ++ h) m'.
Proof.
  induction h as [|e h IH]; intros past m m' R E; cbn in E; [injection E as <-; now rewrite app_nil_r|]. destruct (happens cmp m e) as [m1| |] eqn:H; try discriminate.
  replace (past ++ e :: h) with ((past ++ [e]) ++ h) by now rewrite <- app_assoc. eapply IH; [|exact E]. econstructor; eassumption.
Qed.
Lemma run_from_new cmp v0 h m0 m : mb_new v0 = Ok m0 -> run_events cmp m0 h = Ok m -> reaches cmp v0 h m.
Proof. intros N R. apply (run_reaches cmp v0 h [] m0 m); [now constructor|assumption]. Qed.
