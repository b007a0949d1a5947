(** A file that is complete is loaded: prototypes, regions, institutions and facilities. *)
From Coq Require Import String Ascii List ZArith Bool Arith Lia Permutation.
From Verif Require Import Base SpecModel SimModel LoaderModel LoaderSpec LoaderProofs LoaderProofs2 LoaderProofs3 LoaderProofs4 LoaderProofs5 LoaderProofs6 LoaderProofs7.
From Verif Require PpModel.
Import PpModel(xml(..), Name, QPath, find_path, get_string, sub_tree, find, nmatches).
Import ListNotations.
Local Open Scope string_scope.

Lemma lift_step {A B} (r : result A) (k : A -> M B) s a : r = Ok a -> bind (lift r) k s = k a s.
Proof. intros ->. reflexivity. Qed.
Lemma F2_in_l {A B} (R : A -> B -> Prop) l l' x : Forall2 R l l' -> In x l -> exists y, In y l' /\ R x y.
Proof. induction 1; intros Hi; destruct Hi; subst; [eexists; simpl; eauto|]. destruct (IHForall2 H1) as (z & Hz & Rz). exists z. simpl. auto. Qed.
Lemma collect_ok {A B} (f : A -> M B) (P : sim -> Prop) : forall l s, P s ->
  (forall x s, In x l -> P s -> exists b s', f x s = (Normal b, s') /\ P s') ->
  exists r s', collect f l s = (Normal r, s') /\ P s'.
Proof.
  induction l as [|x l IH]; intros s Ps H; simpl.
  - eexists. eexists. split; [reflexivity|exact Ps].
  - destruct (H x s (or_introl eq_refl) Ps) as (b & s1 & E & P1). rewrite (bind_step _ _ _ _ _ E).
    destruct (IH s1 P1 (fun y t Hy => H y t (or_intror Hy))) as (r & s2 & E2 & P2). rewrite (bind_step _ _ _ _ _ E2).
    eexists. eexists. split; [reflexivity|exact P2].
Qed.
Lemma each_ok {A} (f : A -> M unit) (P : sim -> Prop) : forall l s, P s ->
  (forall x s, In x l -> P s -> exists b s', f x s = (Normal b, s') /\ P s') ->
  exists s', each f l s = (Normal tt, s') /\ P s'.
Proof.
  induction l as [|x l IH]; intros s Ps H; simpl.
  - eexists. split; [reflexivity|exact Ps].
  - destruct (H x s (or_introl eq_refl) Ps) as (b & s1 & E & P1). rewrite (bind_step _ _ _ _ _ E).
    apply IH; [exact P1|]. intros y t Hy. apply H. right. exact Hy.
Qed.
Lemma collect_split {A B} (f : A -> M B) l2 : forall l1 s r s', collect f (l1 ++ l2) s = (Normal r, s') ->
  exists r1 r2 s1, collect f l1 s = (Normal r1, s1) /\ collect f l2 s1 = (Normal r2, s').
Proof.
  induction l1 as [|x l1 IH]; intros s r s' H; simpl in H |- *; [eexists; eexists; eexists; split; [reflexivity|exact H]|].
  nb H. nb H. destruct (IH _ _ _ E0) as (r1 & r2 & s1' & E1 & E2). nv H.
  rewrite (bind_step _ _ _ _ _ E). rewrite (bind_step _ _ _ _ _ E1). eexists. eexists. eexists. split; [reflexivity|exact E2].
Qed.

(** ** Prototypes *)
Section Protos.
Variable make : spec -> result (kind * bool).
Variable read : spec -> xml -> result unit.
Variable archs : list archetype.
Hypothesis Hgood : good_archetypes archs.

Lemma proto_ok qe p s : says_proto qe p -> good_proto make read archs qe p -> sound (core_of s) ->
  sfind (pr_name p) (c_p (core_of s)) = None ->
  exists r s', load_proto make read (map as_spec archs) qe s = (Normal r, s') /\ sound (core_of s') /\
    forall n, (exists k, sfind n (c_p (core_of s')) = Some k) <-> n = pr_name p \/ exists k, sfind n (c_p (core_of s)) = Some k.
Proof.
  intros Hp (a & cls & Ha & Al & Mk & Rd) Sd Fr.
  destruct (says_proto_reads _ _ Hp) as (R1 & R2 & R3).
  assert (X : exists r s', load_proto make read (map as_spec archs) qe s = (Normal r, s')).
  { destruct Hp as (_ & (pre & body & post & Cf & Np) & _).
    assert (Cg : sub_tree qe (path ["config"]) 0 = Ok (XElem "config" (pre ++ XElem (pr_class p) body :: post)%list)).
    { unfold sub_tree. rewrite find_ok, find1, Cf. reflexivity. }
    assert (Sp : spec_for (map as_spec archs) (pr_class p) = as_spec a).
    { rewrite <- Al. apply spec_for_alias; [apply Hgood|exact Ha]. }
    unfold load_proto. rewrite (lift_step _ _ _ _ R1), (lift_step _ _ _ _ Cg), (lift_step _ _ _ _ (R2 _ Cg)).
    rewrite Sp. cbv zeta. rewrite (lift_step _ _ _ _ Mk).
    unfold bind at 1. unfold construct at 1.
    match goal with |- context [emit (ENew ?a) ?y] => set (s1 := emit (ENew a) y) in * end.
    rewrite (lift_step _ _ _ _ R1), (lift_step _ _ _ _ R3), (lift_step _ _ _ _ Rd).
    assert (C1 : core_of s1 = mkC (c_h (core_of s) ++ [mkA (c_n (core_of s)) (fst cls) (snd cls) "" (spec_str (as_spec a)) (-1)
                  (-1) None (-1) [] true]) (c_p (core_of s)) (c_n (core_of s) + 1) (c_t (core_of s)) (c_e (core_of s))).
    { unfold s1. rewrite core_emit_quiet by reflexivity. unfold core_of. simpl. rewrite map_app. reflexivity. }
    assert (S1 : sound (core_of s1)) by (rewrite C1; apply sound_app; [exact Sd|reflexivity]).
    assert (Ln : List.length (heap (w s)) = List.length (c_h (core_of s))) by (simpl; rewrite map_length; reflexivity).
    assert (L1 : (List.length (heap (w s)) < List.length (c_h (core_of s1)))%nat)
      by (rewrite C1, Ln; cbn [c_h]; rewrite app_length; simpl; lia).
    destruct (modify_agent_ok (List.length (heap (w s))) (set_proto_life (pr_name p) (life_of p)) s1 S1 L1) as (s2 & E2).
    rewrite (bind_step _ _ _ _ _ E2).
    destruct (nth_error (c_h (core_of s1)) (List.length (heap (w s)))) as [y|] eqn:Ey; [|apply nth_error_None in Ey; lia].
    destruct (modify_agent_core' _ _ _ _ _ _ E2 Ey) as [C2 _]; [reflexivity|].
    assert (S2 : sound (core_of s2)).
    { rewrite C2. apply sound_upd; [exact S1|apply upd_length|]. apply alive_upd; [apply S1|]. simpl. eapply (proj1 S1); eauto. }
    assert (L2 : List.length (c_h (core_of s2)) = List.length (c_h (core_of s1))) by (rewrite C2; apply upd_length).
    unfold bind at 1. unfold add_prototype. rewrite bind_gets.
    change (protos (w s2)) with (c_p (core_of s2)). rewrite C2. cbn [with_h c_p]. rewrite C1. cbn [c_p]. rewrite Fr. cbn [negb andb].
    destruct (deref_sound s2 (List.length (heap (w s))) S2) as (z & Ez); [lia|]. rewrite (bind_step _ _ _ _ _ Ez).
    eexists. eexists. reflexivity. }
  destruct X as (r & s' & E). exists r, s'. split; [exact E|].
  destruct (load_proto_core _ _ _ _ _ _ _ E _ _ _ R1 R2 R3) as (cl & _ & _ & _ & C). rewrite C. cbn [c_p c_h]. split.
  - destruct (sound_app (core_of s) (mkA (c_n (core_of s)) (fst cl) (snd cl) (pr_name p)
        (spec_str (spec_for (map as_spec archs) (pr_class p))) (life_of p) (-1) None (-1) [] true)
        (c_n (core_of s) + 1) (c_t (core_of s)) (c_e (core_of s)) Sd eq_refl) as [A B]. split; [exact A|].
    cbn [c_p c_h] in *. intros n k. simpl sfind. destruct (String.eqb _ _).
    + intro H. injection H as <-. rewrite app_length. simpl. lia.
    + apply B.
  - intro n. simpl sfind. destruct (String.eqb_spec n (pr_name p)) as [Eq|Nq]; [split; eauto|].
    split; [right; exact H|]. intros [H|H]; [congruence|exact H].
Qed.

Lemma protos_ok : forall qes ps s, Forall2 says_proto qes ps -> Forall2 (good_proto make read archs) qes ps ->
  NoDup (map pr_name ps) -> (forall p, In p ps -> sfind (pr_name p) (c_p (core_of s)) = None) -> sound (core_of s) ->
  exists r s', collect (load_proto make read (map as_spec archs)) qes s = (Normal r, s') /\ sound (core_of s') /\
    forall n, (exists k, sfind n (c_p (core_of s')) = Some k) <-> In n (map pr_name ps) \/ exists k, sfind n (c_p (core_of s)) = Some k.
Proof.
  induction qes as [|qe qes IH]; intros ps s F G N Fr Sd; inversion F as [|? p ? ps' Hp F']; subst; inversion G as [|? ? ? ? Gp G']; subst.
  - simpl. eexists. eexists. split; [reflexivity|]. split; [exact Sd|]. intro n. tauto.
  - cbn [map] in N. apply NoDup_cons_iff in N. destruct N as [Np N].
    destruct (proto_ok qe p s Hp Gp Sd (Fr p (or_introl eq_refl))) as (b & s1 & E & S1 & D1).
    simpl collect. rewrite (bind_step _ _ _ _ _ E).
    assert (Fr1 : forall q, In q ps' -> sfind (pr_name q) (c_p (core_of s1)) = None).
    { intros q Hq. destruct (sfind (pr_name q) (c_p (core_of s1))) as [k|] eqn:X; [|reflexivity].
      destruct (proj1 (D1 (pr_name q)) (ex_intro _ k X)) as [Eq|(j & Ej)].
      - destruct Np. rewrite <- Eq. apply in_map, Hq.
      - rewrite (Fr q (or_intror Hq)) in Ej. discriminate. }
    destruct (IH ps' s1 F' G' N Fr1 S1) as (r & s2 & E2 & S2 & D2). rewrite (bind_step _ _ _ _ _ E2).
    eexists. eexists. split; [reflexivity|]. split; [exact S2|].
    intro n. rewrite (D2 n), (D1 n). simpl. split; [intros [?|[?|?]]; auto|intros [[?|?]|?]; auto].
Qed.
End Protos.

(** ** Agents *)
Section Agents.
Variable beh : hook -> sim -> prog.
Variable cond : nat -> sim -> bool.
Variable fuel : nat.
Hypothesis Hquiet : quiet_code beh.
Hypothesis Henter : forall a, ends_normally beh cond fuel (HEnter a).
Hypothesis Hnote : forall p a, ends_normally beh cond fuel (HBuildNotify p a).
Hypothesis Hfuel : (2 <= fuel)%nat.
Variable names : list string.

(** the context is sound, knows [names] and has at least [n] agents *)
Definition ready (n : nat) (s : sim) : Prop :=
  sound (core_of s) /\ (forall m, In m names -> exists k, sfind m (c_p (core_of s)) = Some k) /\ (n <= List.length (c_h (core_of s)))%nat.
Lemma ready_le n m s : (n <= m)%nat -> ready m s -> ready n s.
Proof. intros L (A & B & C). repeat split; try assumption; try apply A. lia. Qed.
Lemma build_ready name par n s : ready n s -> In name names -> match par with Some q => (q < n)%nat | None => True end ->
  exists a s', build_agent beh cond fuel name par s = (Normal a, s') /\ (n <= a)%nat /\ ready (S a) s'.
Proof.
  intros (Sd & Kn & L) Hn Hp.
  destruct (build_ok beh cond fuel Hquiet Henter Hnote Hfuel name par s Sd (Kn _ Hn)) as (s' & E & S' & P' & L').
  { destruct par; [lia|exact I]. }
  exists (List.length (c_h (core_of s))), s'. split; [exact E|]. split; [exact L|].
  split; [exact S'|]. split; [rewrite P'; exact Kn|lia].
Qed.
Lemma entry_ok qe e i n s : says_entry qe e -> In (en_proto e) names -> (i < n)%nat -> ready n s ->
  exists b s', load_entry beh cond fuel i qe s = (Normal b, s') /\ ready n s'.
Proof.
  intros (Hp & t & Ht & Nt) Hn Li R. unfold load_entry.
  rewrite (lift_step _ _ _ _ (get_says _ _ _ Hp)), (lift_step _ _ _ _ (get_says _ _ _ Ht)), (lift_step _ _ _ _ (atoi_number _ _ Nt)).
  destruct (each_ok (fun _ : nat => m <- build_agent beh cond fuel (en_proto e) (Some i) ;; ret tt) (ready n)
     (seq 0 (Z.to_nat (Z.of_nat (en_number e)))) s R) as (s' & E & R').
  - intros _ s1 _ R1. destruct (build_ready (en_proto e) (Some i) n s1 R1 Hn Li) as (a & s2 & E & La & R2).
    rewrite (bind_step _ _ _ _ _ E). eexists. eexists. split; [reflexivity|]. eapply ready_le; [|exact R2]. lia.
  - eauto.
Qed.
Lemma inst_ok qe i reg n s : says_inst qe i -> In (pr_name (in_self i)) names ->
  (forall e, In e (in_list i) -> In (en_proto e) names) -> (reg < n)%nat -> ready n s ->
  exists b s', load_inst beh cond fuel reg qe s = (Normal b, s') /\ ready n s'.
Proof.
  intros (Hp & F) Hn He Lr R. unfold load_inst.
  destruct (says_proto_reads _ _ Hp) as (R1 & _). rewrite (lift_step _ _ _ _ R1).
  destruct (build_ready _ (Some reg) n s R Hn Lr) as (a & s1 & E & La & R2). rewrite (bind_step _ _ _ _ _ E).
  destruct (collect_ok (load_entry beh cond fuel a) (ready (S a)) (find_path (map Name ["initialfacilitylist"; "entry"]) qe) s1 R2) as (r & s2 & E2 & R3).
  { intros x t Hx Rt. rewrite find2 in Hx. destruct (F2_in_l _ _ _ _ F Hx) as (e & Ie & Se).
    apply entry_ok with (e := e); auto. }
  assert (E3 : over qe (path ["initialfacilitylist"; "entry"]) (load_entry beh cond fuel a) s1 = (Normal r, s2)) by (rewrite over_collect; exact E2).
  rewrite (bind_step _ _ _ _ _ E3). eexists. eexists. split; [reflexivity|]. eapply ready_le; [|exact R3]. lia.
Qed.
Lemma region_ok qe r n s : says_region qe r -> In (pr_name (re_self r)) names ->
  (forall i, In i (re_insts r) -> In (pr_name (in_self i)) names /\ forall e, In e (in_list i) -> In (en_proto e) names) -> ready n s ->
  exists b s', load_region beh cond fuel qe s = (Normal b, s') /\ ready n s'.
Proof.
  intros (Hp & F) Hn Hi R. unfold load_region.
  destruct (says_proto_reads _ _ Hp) as (R1 & _). rewrite (lift_step _ _ _ _ R1).
  destruct (build_ready _ None n s R Hn I) as (a & s1 & E & La & R2). rewrite (bind_step _ _ _ _ _ E).
  destruct (collect_ok (load_inst beh cond fuel a) (ready (S a)) (find_path (map Name ["institution"]) qe) s1 R2) as (rr & s2 & E2 & R3).
  { intros x t Hx Rt. rewrite find1 in Hx. destruct (F2_in_l _ _ _ _ F Hx) as (i & Ii & Si).
    destruct (Hi i Ii). apply inst_ok with (i := i); auto. }
  assert (E3 : over qe (path ["institution"]) (load_inst beh cond fuel a) s1 = (Normal rr, s2)) by (rewrite over_collect; exact E2).
  rewrite (bind_step _ _ _ _ _ E3). eexists. eexists. split; [reflexivity|]. eapply ready_le; [|exact R3]. lia.
Qed.
End Agents.

Lemma fresh_sound s : fresh s -> sound (core_of s) /\ forall n, sfind n (c_p (core_of s)) = None.
Proof.
  intros (H & _ & P). unfold sound. simpl. rewrite H, P. simpl. split; [|reflexivity].
  split; [|discriminate]. intros k y. destruct k; discriminate.
Qed.

Lemma file_complete beh cond make read fuel x i s0 :
  quiet_code beh -> (forall a, ends_normally beh cond fuel (HEnter a)) ->
  (forall p a, ends_normally beh cond fuel (HBuildNotify p a)) -> (2 <= fuel)%nat ->
  says_input x i -> complete make read x i -> fresh s0 ->
  exists r s, load_file beh cond make read fuel x s0 = (Normal r, s).
Proof.
  intros Hq He Hb Hf (Ar & Fa & Re) (Ga & Nn & Gp & Dep) Fr.
  destruct (fresh_sound _ Fr) as [S0 P0].
  unfold load_file. rewrite (lift_step _ _ _ _ (parse_specs_all _ _ Ar (proj2 (proj2 Ga)) (proj1 Ga))).
  assert (FP : Forall2 says_proto (prototype_elements x) (prototypes i)).
  { apply Forall2_app; [exact Fa|]. apply Forall2_app; [apply insts_protos, Re|apply regions_protos, Re]. }
  destruct (protos_ok make read _ Ga _ _ s0 FP Gp Nn (fun p _ => P0 _) S0) as (r & s1 & E & S1 & D1).
  unfold prototype_elements in E. destruct (collect_split _ _ _ _ _ _ E) as (ra & rb & t1 & E1 & E').
  destruct (collect_split _ _ _ _ _ _ E') as (rc & rd & t2 & E2 & E3).
  unfold load_agents.
  rewrite <- find1 in E1, E3. rewrite <- (find2 "region" "institution") in E2. rewrite <- over_collect in E1, E2, E3.
  rewrite (bind_step _ _ _ _ _ E1), (bind_step _ _ _ _ _ E2), (bind_step _ _ _ _ _ E3).
  assert (R0 : ready (map pr_name (prototypes i)) 0 s1).
  { split; [exact S1|]. split; [|lia]. intros m Hm. apply D1. left. exact Hm. }
  destruct (collect_ok (load_region beh cond fuel) (ready (map pr_name (prototypes i)) 0) (find_path (map Name ["region"]) x) s1 R0)
    as (rr & s2 & E4 & R3).
  { intros q t Hx Rt. rewrite find1 in Hx. destruct (F2_in_l _ _ _ _ Re Hx) as (g & Ig & Sg).
    apply region_ok with (r := g); auto.
    - unfold prototypes. rewrite !map_app, !in_app_iff. right. right. rewrite map_map. apply (in_map (fun r => pr_name (re_self r))), Ig.
    - intros j Ij. split; [|intros e Ie; eapply Dep; eauto].
      unfold prototypes. rewrite !map_app, !in_app_iff. right. left. apply in_map. apply in_flat_map. exists g. split; [exact Ig|].
      apply in_map, Ij. }
  rewrite <- over_collect in E4. rewrite (bind_step _ _ _ _ _ E4). eexists. eexists. reflexivity.
Qed.
